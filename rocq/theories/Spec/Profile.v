(** The documented nucleon profile (README, "nucleon substructure"): a sum of
    normalised two-dimensional Gaussians, truncated at five widths. *)
From Coq Require Import Reals.
From Verif.Base Require Import Result Arith RArith.
From Verif.Model Require Import Nucleon.
From Verif.Proof Require Import RBasics.
Local Open Scope R_scope.

(** Normalised isotropic two-dimensional Gaussian of variance s2 per axis. *)
Definition gauss2 (s2 dx dy : R) : R := exp (- (dx ^ 2 + dy ^ 2) / (2 * s2)) / (2 * PI * s2).

(** Transverse distance of the point (x, y) from a constituent. *)
Definition dist (x y : R) (q : constituent RA) : R := sqrt ((x - q_x q) ^ 2 + (y - q_y q) ^ 2).

(** Profile of a nucleon with constituents [qs] of width v, each carrying 1/m of
    the nucleon times its fluctuation. *)
Definition profile (v m : R) (qs : list (constituent RA)) (x y : R) : R :=
  RBasics.Rsum (fun q : constituent RA =>
    if Rlt_dec (dist x y q) (5 * v) then q_fluct q / m * gauss2 (v ^ 2) (x - q_x q) (y - q_y q) else 0) qs.

(** The disc of radius r around a constituent lies in the box. *)
Definition disc_in_box (r : R) (q : constituent RA) (b0 b1 b2 b3 : R) : Prop :=
  forall x y, dist x y q <= r -> b0 <= x <= b1 /\ b2 <= y <= b3.
