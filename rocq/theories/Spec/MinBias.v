(** Minimum-bias averages and cross sections. *)
From Coq Require Import Reals.
From Coquelicot Require Import Coquelicot.
From Verif.Base Require Import Result Arith RArith Rng.
From Verif.Model Require Import Config Nucleon Nucleus Collider.
From Verif.Spec Require Import Law CrossSection.
Local Open Scope R_scope.

(** [U] averages over a variate uniform in [0,1]: it averages, and the average of a
    Riemann integrable function is its integral. *)
Record unit_average (U : (R -> R) -> R) : Prop := UnitAverage {
  ua_const : forall c, U (fun _ => c) = c;
  ua_ext : forall f g : R -> R, (forall x, f x = g x) -> U f = U g;
  ua_integral : forall (g : R -> R) (l : R), is_RInt g 0 1 l -> U g = l
}.

(** The average of [m] over the ring between the radii [lo] and [hi], every point of
    the transverse plane counting alike; the integral itself. *)
Definition ring_integral (lo hi : R) (m : R -> R) : R := RInt (fun b => 2 * PI * b * m b) lo hi.
Definition ring_average (lo hi : R) (m : R -> R) : R := ring_integral lo hi m / (PI * (hi ^ 2 - lo ^ 2)).

(** The chance that two structureless nucleons of width [w] collide at distance [b]:
    none beyond six widths. *)
Definition strike (sp w b : R) : R := if Rle_dec b (6 * w) then collision_probability sp w b else 0.

(** The same collider at the fixed impact parameter [b] (b-min = b-max = b). *)
Definition at_impact {A : Arith} (co : collider A) (b : num A) : collider A :=
  Collider (co_nc co) (co_nevents co) (co_calc_ncoll co) b b (co_asym co) (co_writers co).

(** What is seen of an attempt, and of a search, through [f]: its impact parameter
    and whether anything collided. *)
Definition by_impact {A : Arith} {X : Type} (f : num A -> bool -> R) (r : result (num A * Z * X * X * bool)) : R :=
  match r with Ret (b, _, _, _, c) => f b c | _ => 0 end.
Definition by_event {A : Arith} {X : Type} (f : num A -> R) (r : result (num A * Z * X * X)) : R :=
  match r with Ret (b, _, _, _) => f b | _ => 0 end.
