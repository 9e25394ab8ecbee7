(** Events as a function of the random state at their start. *)
From Verif.Base Require Import Result Arith Rng.
From Verif.Model Require Import Config Nucleon Nucleus Event Files CrossSection Output Collider.
From Verif.Spec Require Import History Collision.

(** Two nucleons that differ at most in the contents of a constituent list which
    does not count (not sampled since the last placement, not a participant). *)
Definition like {A} (a b : nucleon A) : Prop :=
  n_x a = n_x b /\ n_y a = n_y b /\ n_z a = n_z b /\ n_part a = n_part b /\ n_cexist a = n_cexist b /\
  (n_cexist a || n_part a = true -> n_cons a = n_cons b).

(** The part of the running program's state that random draws depend on. *)
Definition random_part {A} {R : Rng A} (s : run R) : rstate R :=
  MkRstate (s_eng (ru_sys s)) (ru_norm s) (ru_gamma s).

(** Event number [n] is what the freshly constructed [nA], [nB], [ev0] give from
    the random state [rs]; it leaves the random state [rs']. *)
Definition event_from {A} (R : Rng A) (bd : build) (fuel sfuel : nat) (co : collider A) (nA nB : nucleus A)
    (ev0 : event A) (n : Z) (rs : rstate R) (d : delivery A) (rs' : rstate R) : Prop :=
  d_num d = n /\ exists nA' nB',
    sample_collision R fuel sfuel co nA nB rs = (Ret (d_b d, d_ncoll d, nA', nB'), rs') /\
    d_A d = nu_nucleons nA' /\ d_B d = nu_nucleons nB' /\
    event_compute (debug bd) ev0 (d_A d) (d_B d) (co_nc co) = Ret (d_event d).

(** Consecutive events, each starting from the random state its predecessor left. *)
Inductive events_from {A} (R : Rng A) (bd : build) (fuel sfuel : nat) (co : collider A) (nA nB : nucleus A)
    (ev0 : event A) : list Z -> rstate R -> list (delivery A) -> rstate R -> Prop :=
| events_nil : forall rs, events_from R bd fuel sfuel co nA nB ev0 [] rs [] rs
| events_cons : forall n ns rs d rs1 ds rs',
    event_from R bd fuel sfuel co nA nB ev0 n rs d rs1 ->
    events_from R bd fuel sfuel co nA nB ev0 ns rs1 ds rs' ->
    events_from R bd fuel sfuel co nA nB ev0 (n :: ns) rs (d :: ds) rs'.

(** The configuration [cfg] with other output options. *)
Definition with_output {A} (cfg : config A) (events : Z) (q : bool) (o : option string) (nohead : bool) : config A :=
  {| projectile := projectile cfg; number_events := events; quiet := q; output := o; no_header := nohead;
     ncoll := ncoll cfg; reduced_thickness := reduced_thickness cfg; fluctuation := fluctuation cfg;
     nucleon_width := nucleon_width cfg; constit_width := constit_width cfg; constit_number := constit_number cfg;
     nucleon_min_dist := nucleon_min_dist cfg; cross_section := cross_section cfg; normalization := normalization cfg;
     b_min := b_min cfg; b_max := b_max cfg; random_seed := random_seed cfg;
     grid_max := grid_max cfg; grid_step := grid_step cfg |}.

(** The run of [cfg] from [s] to [s'] delivered exactly [ds] to its outputs. *)
Definition run_delivered {A} (R : Rng A) (sv : Solver A) (bd : build) (cfuel fuel sfuel : nat) (e : env)
    (cfg : config A) (s s' : sys R) (ds : list (delivery A)) : Prop :=
  exists co nA nB ev0 nst gst s1 rs',
    collider_new R sv bd cfuel e cfg s = (Ret (co, nA, nB, ev0, nst, gst), s1) /\
    delivered R (co_writers co) ds s1 s' /\
    (* each event is a function of the random state at its start *)
    events_from R bd fuel sfuel co nA nB ev0 (zupto (number_events cfg)) (MkRstate (s_eng s1) nst gst) ds rs' /\
    rs_eng rs' = s_eng s'.
