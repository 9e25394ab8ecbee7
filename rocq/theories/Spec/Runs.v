(** Statements about every event of every finished run. *)
From Verif.Base Require Import Result Arith Rng.
From Verif.Model Require Import Config Nucleon Nucleus Event Files CrossSection Output Collider.
From Verif.Spec Require Import History Collision.

(** In every run in arithmetic [A] (any generator, root finder, build,
    environment, configuration and initial world) that constructs a collider and
    finishes, the outputs received deliveries numbered 0, 1, ..., N-1, each event
    was computed by the event object [ev0] made by the constructor from the
    nucleons of its delivery, and [P] holds of each. *)
Definition every_event_in (A : Arith)
  (P : forall (R : Rng A) (bd : build) (sfuel : nat) (cfg : config A) (co : collider A)
              (nA nB : nucleus A) (ev0 : event A), delivery A -> Prop) : Prop :=
  forall (R : Rng A) (sv : Solver A) (bd : build) (cfuel fuel sfuel : nat) (e : env)
         (cfg : config A) (s s' : sys R),
    collide R sv bd cfuel fuel sfuel e cfg s = (Ret tt, s') ->
    exists co nA nB ev0 nst gst s1 ds,
      collider_new R sv bd cfuel e cfg s = (Ret (co, nA, nB, ev0, nst, gst), s1) /\
      length ds = Z.to_nat (number_events cfg) /\
      (forall i d, nth_error ds i = Some d -> d_num d = Z.of_nat i) /\
      delivered R (co_writers co) ds s1 s' /\
      (forall d, In d ds ->
         event_compute (debug bd) ev0 (d_A d) (d_B d) (co_nc co) = Ret (d_event d)) /\
      (forall d, In d ds -> P R bd sfuel cfg co nA nB ev0 d).

(** The same in every arithmetic. *)
Definition every_event
  (P : forall (A : Arith) (R : Rng A) (bd : build) (sfuel : nat) (cfg : config A) (co : collider A)
              (nA nB : nucleus A) (ev0 : event A), delivery A -> Prop) : Prop :=
  forall A : Arith, every_event_in A (P A).
