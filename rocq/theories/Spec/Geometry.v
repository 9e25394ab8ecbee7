(** Points, distances and rotations in three dimensions; nuclei in use. *)
From Coq Require Import Reals.
From Verif.Base Require Import Result Arith RArith Rng.
From Verif.Model Require Import Config Nucleon Files Nucleus Collider.
Local Open Scope R_scope.

Definition vec : Type := (R * R * R)%type.
Definition vx (p : vec) : R := fst (fst p).
Definition vy (p : vec) : R := snd (fst p).
Definition vz (p : vec) : R := snd p.
Definition vdot (p q : vec) : R := vx p * vx q + vy p * vy q + vz p * vz q.
Definition vsub (p q : vec) : vec := (vx p - vx q, vy p - vy q, vz p - vz q).
Definition vnorm (p : vec) : R := sqrt (vdot p p).
Definition vdist (p q : vec) : R := vnorm (vsub p q).
Definition vcross (p q : vec) : vec :=
  (vy p * vz q - vz p * vy q, vz p * vx q - vx p * vz q, vx p * vy q - vy p * vx q).

(** Position of a nucleon; position relative to a centre at (c, 0, 0). *)
Definition pos (n : nucleon RA) : vec := (n_x n, n_y n, n_z n).
Definition from_centre (c : R) (n : nucleon RA) : vec := (n_x n - c, n_y n, n_z n).

(** A 3x3 matrix given by its rows, applied to a vector. *)
Definition mat : Type := (vec * vec * vec)%type.
Definition mapply (m : mat) (p : vec) : vec :=
  let '(r1, r2, r3) := m in (vdot r1 p, vdot r2 p, vdot r3 p).
(** Orthonormal rows and determinant 1. *)
Definition proper_rotation (m : mat) : Prop :=
  let '(r1, r2, r3) := m in
  vdot r1 r1 = 1 /\ vdot r2 r2 = 1 /\ vdot r3 r3 = 1 /\
  vdot r1 r2 = 0 /\ vdot r1 r3 = 0 /\ vdot r2 r3 = 0 /\
  vdot r1 (vcross r2 r3) = 1.

(** Nuclei in use: made by Nucleus::create, then sampled any number of times,
    with the nucleons changed in any way (by collisions) in between. *)
Inductive in_use {A : Arith} (bd : build) (f : fs A) : nucleus A -> Prop :=
| in_use_created : forall species dmin nu,
    nucleus_create bd f species dmin = Ret nu -> in_use bd f nu
| in_use_sampled : forall (R : Rng A) fuel offset e e' nu nu',
    in_use bd f nu -> sample_nucleons R fuel nu offset e = (Ret nu', e') -> in_use bd f nu'
| in_use_collided : forall nu ns,
    in_use bd f nu -> length ns = length (nu_nucleons nu) -> in_use bd f (with_nucleons nu ns).

(** Nucleon [n2] is nucleon [n1] moved by [d] along x, otherwise identical. *)
Definition shifted (d : R) (n1 n2 : nucleon RA) : Prop :=
  n2 = @Nucleon RA (n_x n1 + d) (n_y n1) (n_z n1) (n_part n1) (n_cexist n1) (n_cons n1).

(** The point with polar coordinates (r, cos theta = c, phi). *)
Definition sph (r c ph : R) : vec := (r * sqrt (1 - c * c) * cos ph, r * sqrt (1 - c * c) * sin ph, r * c).

(** Nucleon [n] sits at [p] relative to a centre at (offset, 0, 0). *)
Definition sits (offset : R) (n : nucleon RA) (p : vec) : Prop :=
  n_x n = vx p + offset /\ n_y n = vy p /\ n_z n = vz p.

(** Sum of a list of counts. *)
Definition total (l : list nat) : nat := fold_right Nat.add 0%nat l.

(** Position number [i] of a flat array of coordinates. *)
Definition file_row (data : list R) (i : nat) : option vec :=
  match nth_error data (3 * i), nth_error data (3 * i + 1), nth_error data (3 * i + 2) with
  | Some x, Some y, Some z => Some (x, y, z)
  | _, _, _ => None
  end.

(** The Hulthen acceptance weight at radius r for an envelope value u. *)
Definition hulthen_weight (a b r u : R) : R := (exp (- a * r) - exp (- b * r)) ^ 2 / u.

(** The deformed Woods-Saxon density (without normalisation) at radius r and
    body-frame polar angle cosine c. *)
Definition Y20 (c : R) : R := / 4 * sqrt (5 / PI) * (3 * c ^ 2 - 1).
Definition Y40 (c : R) : R := 3 / 16 / sqrt PI * (35 * c ^ 4 - 30 * c ^ 2 + 3).
Definition deformed_density (Rw a beta2 beta4 r c : R) : R :=
  / (1 + exp ((r - Rw * (1 + beta2 * Y20 c + beta4 * Y40 c)) / a)).
