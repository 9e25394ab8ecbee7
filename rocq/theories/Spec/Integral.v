(** The integral of a thickness grid, and the weight it stands for. *)
From Coq Require Import Reals ZArith List.
From Flocq Require Import Core BinarySingleNaN.
From Verif.Base Require Import Result Arith RArith FArith.
From Verif.Model Require Import Config Nucleon Event.
From Verif.Spec Require Import Grid Accuracy.
From Verif.Proof Require Import RBasics.
Import ListNotations.
Local Open Scope R_scope.

(** Sum of the cells of an n by n table, times the area of one cell. *)
Definition integral (step : R) (n : Z) (value : Z -> Z -> R) : R :=
  step ^ 2 * RBasics.Rsum (fun iy => RBasics.Rsum (fun ix => value iy ix) (zupto n)) (zupto n).

(** The weight of a nucleon: the mean of its constituents' fluctuations (m of them). *)
Definition nucleon_weight (m : R) (n : nucleon RA) : R :=
  RBasics.Rsum (fun q : constituent RA => q_fluct q / m) (n_cons n).

(** The weight of a nucleus: the sum over its participants. *)
Definition nucleus_weight (m : R) (ns : list (nucleon RA)) : R :=
  RBasics.Rsum (nucleon_weight m) (filter n_part ns).

(** The square circumscribed about the disc of radius r around q lies in the
    square [-half, half] x [-half, half]. *)
Definition fits (half r : R) (q : constituent RA) : Prop :=
  Rabs (q_x q) + r <= half /\ Rabs (q_y q) + r <= half.

(** Every constituent of every participant has a non-negative fluctuation, and its
    Gaussian, cut at five widths, lies on the grid. *)
Definition contained (half v : R) (ns : list (nucleon RA)) : Prop :=
  forall n q, In n ns -> n_part n = true -> In q (n_cons n) -> 0 <= q_fluct q /\ fits half (5 * v) q.

(** Relative error of the grid integral, for s = step / constituent width. *)
Definition grid_error (s : R) : R := 1 / 1000 + s ^ 2 / 500 + s ^ 4 / 14.

(** The binary64 nucleons and cells of the program, as real numbers. *)
Definition real_nucleon {L : Libm} (n : nucleon (FA L)) : nucleon RA :=
  @Nucleon RA (B2R (n_x n : f64)) (B2R (n_y n : f64)) (B2R (n_z n : f64)) (n_part n) (n_cexist n) (map real_constituent (n_cons n)).
Definition real_cell {L : Libm} (g : grid (FA L)) (iy ix : Z) : R := B2R (cell g iy ix : f64).
