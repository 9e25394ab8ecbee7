(** Runs that differ only in how entropy is deposited. *)
From Coq Require Import Reals.
From Verif.Base Require Import Result Arith RArith Rng.
From Verif.Model Require Import Config Nucleon Nucleus Event Files CrossSection Output Collider.
From Verif.Spec Require Import History Collision Total.

(** The configuration with other --reduced-thickness, --normalization, --grid-max
    and --grid-step. *)
Definition with_profile {A} (cfg : config A) (p norm gmax gstep : num A) : config A :=
  {| projectile := projectile cfg; number_events := number_events cfg; quiet := quiet cfg; output := output cfg;
     no_header := no_header cfg; ncoll := ncoll cfg; reduced_thickness := p; fluctuation := fluctuation cfg;
     nucleon_width := nucleon_width cfg; constit_width := constit_width cfg; constit_number := constit_number cfg;
     nucleon_min_dist := nucleon_min_dist cfg; cross_section := cross_section cfg; normalization := norm;
     b_min := b_min cfg; b_max := b_max cfg; random_seed := random_seed cfg;
     grid_max := gmax; grid_step := gstep |}.

(** The same --grid-max and --grid-step. *)
Definition with_entropy {A} (cfg : config A) (p norm : num A) : config A :=
  with_profile cfg p norm (grid_max cfg) (grid_step cfg).

(** Two delivered events with the same number, impact parameter, number of binary
    collisions, nucleons (positions, participants, constituents) and npart. *)
Definition same_collision {A} (d d2 : delivery A) : Prop :=
  d_num d2 = d_num d /\ d_b d2 = d_b d /\ d_ncoll d2 = d_ncoll d /\ d_A d2 = d_A d /\ d_B d2 = d_B d /\
  ev_npart (d_event d2) = ev_npart (d_event d).

Local Open Scope R_scope.

(** The published grid and the multiplicity of the second event are [c] times
    those of the first. *)
Definition scaled_by (c : R) (d d2 : delivery RA) : Prop :=
  row_major (ev_TR (d_event d2)) = map (Rmult c) (row_major (ev_TR (d_event d))) /\
  ev_mult (d_event d2) = c * ev_mult (d_event d).

(** No cell of the published grid is positive and below 3.2 10^-11. *)
Definition off_the_cut (d : delivery RA) : Prop :=
  forall t : R, In t (row_major (ev_TR (d_event d))) -> t = 0 \/ 32 / 1000000000000 <= t.

(** The second event has at least as much entropy, in every cell and in total. *)
Definition more_entropy (d d2 : delivery RA) : Prop :=
  Forall2 Rle (row_major (ev_TR (d_event d))) (row_major (ev_TR (d_event d2))) /\
  ev_mult (d_event d) <= ev_mult (d_event d2).
