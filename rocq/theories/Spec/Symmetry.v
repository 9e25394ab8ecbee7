(** The eight symmetries of the square: optional exchange of x and y, then
    optional sign changes of x and of y (rotations by multiples of 90 degrees,
    mirrors, transpositions). *)
From Coq Require Import Reals ZArith List.
From Verif.Base Require Import Result Arith RArith.
From Verif.Model Require Import Nucleon.
Local Open Scope R_scope.

Record d4 : Type := D4 { d_tr : bool; d_sx : bool; d_sy : bool }.

(** On points of the plane. *)
Definition act_pt (g : d4) (p : R * R) : R * R :=
  let (x, y) := if d_tr g then (snd p, fst p) else p in
  (if d_sx g then - x else x, if d_sy g then - y else y).

(** On the cells (iy, ix) of an N x N grid. *)
Definition act_cell (g : d4) (N : Z) (c : Z * Z) : Z * Z :=
  let (ix, iy) := if d_tr g then (fst c, snd c) else (snd c, fst c) in
  ((if d_sy g then N - 1 - iy else iy)%Z, (if d_sx g then N - 1 - ix else ix)%Z).

(** On nucleons with their constituents. *)
Definition act_constituent (g : d4) (q : constituent RA) : constituent RA :=
  let p := act_pt g (q_x q, q_y q) in @Constituent RA (fst p) (snd p) (q_fluct q).
Definition act_nucleon (g : d4) (n : nucleon RA) : nucleon RA :=
  let p := act_pt g (n_x n, n_y n) in
  @Nucleon RA (fst p) (snd p) (n_z n) (n_part n) (n_cexist n) (map (act_constituent g) (n_cons n)).
