(** The same participants somewhere else on the grid. *)
From Coq Require Import Reals ZArith List Permutation.
From Verif.Base Require Import Arith RArith.
From Verif.Model Require Import Config Nucleon.
Import ListNotations.
Local Open Scope R_scope.

(** A nucleon and its constituents displaced by (a, b). *)
Definition displaced (a b : R) (n : nucleon RA) : nucleon RA :=
  @Nucleon RA (n_x n + a) (n_y n + b) (n_z n) (n_part n) (n_cexist n)
    (map (fun q : constituent RA => @Constituent RA (q_x q + a) (q_y q + b) (q_fluct q)) (n_cons n)).

(** [l2] has the participants of [l], displaced by (a, b), in any order and among
    any spectators. *)
Definition displaced_participants (a b : R) (l l2 : list (nucleon RA)) : Prop :=
  Permutation (filter n_part l2) (map (displaced a b) (filter n_part l)).

(** No constituent of a participant is closer than five widths to the edge of
    the square [-grid_max, grid_max]^2. *)
Definition within_grid (cfg : config RA) (l : list (nucleon RA)) : Prop :=
  forall (n : nucleon RA) (q : constituent RA), In n l -> n_part n = true -> In q (n_cons n) ->
  Rabs (q_x q) + 5 * constit_width cfg <= grid_max cfg /\ Rabs (q_y q) + 5 * constit_width cfg <= grid_max cfg.

(** Index of a row or column of an N x N grid. *)
Definition valid_index (N i : Z) : Prop := (0 <= i < N)%Z.
