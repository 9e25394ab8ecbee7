(** A larger grid with the same cells. *)
From Coq Require Import Reals ZArith List.
From Flocq Require Import Core.
From Verif.Base Require Import Arith RArith.
From Verif.Model Require Import Config Nucleon Event.
From Verif.Spec Require Import Collision Replay Grid Entropy.
Local Open Scope R_scope.

(** The same configuration with --grid-max enlarged by k grid steps. *)
Definition enlarged (cfg : config RA) (k : Z) : config RA :=
  with_profile cfg (reduced_thickness cfg) (normalization cfg) (grid_max cfg + IZR k * grid_step cfg) (grid_step cfg).

(** Number of cells in a row. *)
Definition row_cells (cfg : config RA) : Z := Zceil (2 * grid_max cfg / grid_step cfg).

(** [small] is the middle N x N part of [large] (k more cells on each side). *)
Definition middle_of (N k : Z) (small large : grid RA) : Prop :=
  forall iy ix, (0 <= iy < N)%Z -> (0 <= ix < N)%Z -> cell large (iy + k) (ix + k) = cell small iy ix.

(** No constituent of a participant is closer than five widths to the edge of
    the square [-grid_max, grid_max]^2. *)
Definition fits (cfg : config RA) (d : delivery RA) : Prop :=
  forall (n : nucleon RA) (q : constituent RA),
  In n (d_A d) \/ In n (d_B d) -> n_part n = true -> In q (n_cons n) ->
  Rabs (q_x q) + 5 * constit_width cfg <= grid_max cfg /\ Rabs (q_y q) + 5 * constit_width cfg <= grid_max cfg.
