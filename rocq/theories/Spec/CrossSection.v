(** The nucleon-nucleon cross section of the model with structureless Gaussian
    nucleons, and the exponential integral. *)
From Coq Require Import Reals.
From Coquelicot Require Import Coquelicot.
Local Open Scope R_scope.

(** Ei on the negative axis: Ei(-y) = - integral from y to infinity of exp(-t)/t. *)
Definition is_Ei (Ei : R -> R) : Prop :=
  forall y, 0 < y -> is_RInt_gen (fun t => - (exp (- t) / t)) (at_point y) (Rbar_locally p_infty) (Ei (- y)).

(** The overlap of two Gaussian nucleons of width [w] at transverse distance [b]. *)
Definition overlap_at (w b : R) : R := exp (- b ^ 2 / (4 * w ^ 2)) / (4 * PI * w ^ 2).

(** The probability that they collide, for the parameter [sp]. *)
Definition collision_probability (sp w b : R) : R := 1 - exp (- (sp * overlap_at w b)).

(** Its integral over the disc of radius [bmax]: the cross section. *)
Definition disc_cross_section (bmax sp w : R) : R :=
  RInt (fun b => 2 * PI * b * collision_probability sp w b) 0 bmax.
