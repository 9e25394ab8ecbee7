(** The law of the nucleon positions.  [U h] is the mean of [h] over one variate. *)
From Coq Require Import Reals.
From Verif.Base Require Import Result Arith RArith.
From Verif.Spec Require Import Geometry Radii Law.
Local Open Scope R_scope.

(** The mean over a variate in [0,1), as generate_canonical returns it. *)
Definition canonical_mean (D : shapes RA) (U : (R -> R) -> R) (h : R -> R) : R := U (fun u => h (sh_canonical D u)).

Section Positions.
Context (U : (R -> R) -> R).

(** The mean of [g] over the points at distance [r] from the centre: the cosine of
    the polar angle uniform in [-1,1], the azimuth in [0, 2 pi]. *)
Definition over_sphere (g : vec -> R) (r : R) : R :=
  U (fun u => U (fun v => g (sph r (2 * u - 1) (2 * PI * v)))).

(** Probability that a variate does not exceed p: p, if it is uniform. *)
Definition accept (p : R) : R := U (fun v => if Rlt_dec p v then 0 else 1).

(** The deuteron: radius from an exponential law, kept with probability given by the
    Hulthen weight. *)
Definition over_deuteron (a b : R) (g : vec -> R) : R :=
  U (fun u => accept (hulthen_weight a b (- ln u / (2 * a)) u) * over_sphere g (- ln u / (2 * a))).

(** A deformed nucleus in its own frame: a point uniform in a ball of radius [rmax],
    [cr] being the cube root, kept with probability given by the density. *)
Definition over_body (cr : R -> R) (Rw a beta2 beta4 rmax : R) (g : vec -> R) : R :=
  U (fun u => U (fun v =>
    let r := rmax * cr u in let c := 2 * v - 1 in
    accept (deformed_density Rw a beta2 beta4 r c) * U (fun w => g (sph r c (2 * PI * w))))).

(** Rotations: about the x axis by an angle whose cosine is [c], about the z axis by
    [ph].  A random axis; a random rotation. *)
Definition tilt (c : R) (p : vec) : vec :=
  (vx p, c * vy p - sqrt (1 - c * c) * vz p, sqrt (1 - c * c) * vy p + c * vz p).
Definition spin (ph : R) (p : vec) : vec :=
  (cos ph * vx p - sin ph * vy p, sin ph * vx p + cos ph * vy p, vz p).
Definition over_axes (f : (vec -> vec) -> R) : R :=
  U (fun u => U (fun v => f (fun p => spin (2 * PI * v) (tilt (2 * u - 1) p)))).
Definition over_rotations (f : (vec -> vec) -> R) : R :=
  U (fun t => U (fun u => U (fun v => f (fun p => spin (2 * PI * v) (tilt (2 * u - 1) (spin (2 * PI * t) p)))))).
End Positions.

(** Configuration number [k] of a file of positions, [n] nucleons each. *)
Definition configuration (data : list R) (n k : nat) (rows : list vec) : Prop :=
  length rows = n /\ forall i p, nth_error rows i = Some p -> file_row data (k * n + i) = Some p.

(** The law of equidistant variates 0, 1/n, ..., (n-1)/n, each with probability 1/n.
    std::generate_canonical<double, 53> is meant to have it with n = 2^53. *)
Definition equidistant (n : nat) (h : R -> R) : R :=
  / INR n * fold_right (fun k acc => h (INR k / INR n) + acc) 0 (seq 0 n).
