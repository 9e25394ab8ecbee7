(** C09: reproducibility of seeded runs, for every arithmetic. *)
From Verif.Base Require Import Result Arith FArith Rng.
From Verif.Model Require Import Config Nucleon Text Files CrossSection Output Collider Main.
From Verif.Spec Require Import Contract Demo Decimal Cache Options Repro.
From Verif.Proof Require Import Basics TextP CacheP CacheRun CacheWrite ReproP OptionsP.
From Verif.Properties Require Import Events Cache CacheInst Options.
Local Open Scope string_scope.

(** The cross-section parameter does not depend on random numbers: the cache has
    an entry for the configuration, or there is at most one constituent (then it
    is computed from a closed form). *)
Definition parameter_settled {A} (sv : Solver A) (cfuel : nat) (e : env) (f : fs A) (cfg : config A) : Prop :=
  (exists es en, cache_holds e f es /\ (length es < cfuel)%nat /\ first_for cfg es en) \/
  (solver_pure sv /\ (constit_number cfg <= 1)%Z).

Lemma settled_alike {A} {R : Rng A} sv cfuel e (cfg : config A) (s s' : sys R) :
  parameter_settled sv cfuel e (s_fs s) cfg -> same_world s s' ->
  alike (partonic_cross_section R sv cfuel e cfg s) (partonic_cross_section R sv cfuel e cfg s').
Proof.
  intros [(es & en & H1 & H2 & H3)|[H1 H2]] Hs.
  - rewrite (run_hit R sv cfuel e cfg s es en H1 H2 H3).
    destruct Hs as (F & O & E). rewrite (run_hit R sv cfuel e cfg s' es en); [|rewrite F; exact H1|exact H2|exact H3].
    split; [reflexivity|]. repeat split; assumption.
  - apply ob_partonic; assumption.
Qed.

(** The collider: same configuration and positive seed, same files before;
    nothing assumed about the two engines.  The outcome, the files, stdout and
    stderr are the same; when events ran, so is the engine afterwards. *)
Theorem C09_collide : forall (A : Arith) (R : Rng A) sv bd cfuel fuel sfuel e (cfg : config A) (s s' : sys R),
  same_world s s' -> (0 < random_seed cfg)%Z -> parameter_settled sv cfuel e (s_fs s) cfg ->
  alike (collide R sv bd cfuel fuel sfuel e cfg s) (collide R sv bd cfuel fuel sfuel e cfg s') /\
  (fst (collide R sv bd cfuel fuel sfuel e cfg s) = Ret tt ->
   snd (collide R sv bd cfuel fuel sfuel e cfg s') = snd (collide R sv bd cfuel fuel sfuel e cfg s)).
Proof.
  intros A R sv bd cfuel fuel sfuel e cfg s s' Hs Hseed Hp.
  destruct (collide_good sv bd cfuel fuel sfuel e cfg s s' (settled_alike sv cfuel e cfg s s' Hp Hs) Hs Hseed) as [G1 G2].
  split; [exact G1|]. intros H. exact (G2 tt H).
Qed.

Lemma merge_cons {A} {R : Rng A} tx p paths v (s : sys R) : merge_config R tx v (p :: paths) s =
  match fs_lookup (s_fs s) p with
  | None => (Throw (PoError ("configuration file '" ++ p ++ "' not found")), s)
  | Some n => match parse_config tx (file_text n) with
      | Ret g => merge_config R tx (store g v) paths s
      | Throw x => (Throw x, s) | UB x => (UB x, s) | OutOfFuel => (OutOfFuel, s) end
  end.
Proof.
  unfold merge_config at 1. cbn [mfold]. unfold bind at 1. unfold bind at 1. unfold get at 1.
  destruct (fs_lookup (s_fs s) p); [|reflexivity]. unfold bind at 1. unfold lift at 1.
  destruct (parse_config tx (file_text n)); reflexivity.
Qed.
Lemma merge_same {A} {R : Rng A} tx paths v (s s' : sys R) : s_fs s' = s_fs s ->
  fst (merge_config R tx v paths s') = fst (merge_config R tx v paths s).
Proof.
  intros F. revert v. induction paths as [|p paths IH]; intros v; [reflexivity|].
  rewrite !merge_cons, F. destruct (fs_lookup (s_fs s) p); [|reflexivity].
  destruct (parse_config tx (file_text n)); try reflexivity. apply IH.
Qed.
(** Merging failed before anything happened. *)
Lemma body_merge_fail {A} {R : Rng A} sv bd tx cfuel fuel sfuel e g (s s' : sys R) x :
  same_world s s' -> info g = false -> (forall v, x <> Ret v) ->
  merge_config R tx (vmap [g]) (g_config_file g) s = (x, s) ->
  alike (main_body R sv bd tx cfuel fuel sfuel e (Ret g) s) (main_body R sv bd tx cfuel fuel sfuel e (Ret g) s').
Proof.
  intros Hs Hi Hx M. pose proof Hs as (F & _).
  assert (M' : merge_config R tx (vmap [g]) (g_config_file g) s' = (x, s')).
  { destruct (merge_cases R tx (g_config_file g) (vmap [g]) s') as (r & E & _).
    pose proof (merge_same tx (g_config_file g) (vmap [g]) s s' F) as G. rewrite E, M in G. cbn [fst] in G. congruence. }
  unfold info in Hi. apply orb_false_iff in Hi. destruct Hi as [Hi H3]. apply orb_false_iff in Hi. destruct Hi as [H1 H2].
  assert (B : forall t, merge_config R tx (vmap [g]) (g_config_file g) t = (x, t) ->
    main_body R sv bd tx cfuel fuel sfuel e (Ret g) t = (match x with Throw y => Throw y | UB y => UB y | _ => OutOfFuel end, t)).
  { intros t Mt. unfold main_body. erewrite bind_run by reflexivity. cbv zeta. rewrite H1, H2, H3.
    change (store g varmap_empty) with (vmap [g]). unfold bind at 1. rewrite Mt.
    destruct x as [v|y|y|]; try reflexivity. exfalso. apply (Hx v). reflexivity. }
  rewrite (B s M), (B s' M'). split; [reflexivity|exact Hs].
Qed.

(** The whole program. *)
Theorem C09_reproducible : forall (A : Arith) (R : Rng A) sv bd tx cfuel fuel sfuel e cmd (s s' : sys R),
  same_world s s' ->
  (forall cfg, runs_with tx (s_fs s) cmd cfg ->
     (0 < random_seed cfg)%Z /\ parameter_settled sv cfuel e (s_fs s) cfg) ->
  alike (main R sv bd tx cfuel fuel sfuel e cmd s) (main R sv bd tx cfuel fuel sfuel e cmd s').
Proof.
  intros A R sv bd tx cfuel fuel sfuel e cmd s s' Hs Hc.
  assert (B : alike (main_body R sv bd tx cfuel fuel sfuel e cmd s) (main_body R sv bd tx cfuel fuel sfuel e cmd s')).
  { destruct cmd as [g|x|x|]; try (split; [reflexivity|exact Hs]).
    destruct (info g) eqn:Hi.
    { rewrite !(body_info sv bd tx cfuel fuel sfuel e g _ Hi). destruct Hs as (F & O & E).
      split; [reflexivity|]. repeat split; simpl; congruence. }
    pose proof Hs as (F & _).
    destruct (merge_cases R tx (g_config_file g) (vmap [g]) s) as (r & M & Hr).
    destruct r as [v'|x|x|].
    - destruct (Hr v' eq_refl) as [gs Hg].
      assert (Hg' : config_files tx (s_fs s') (g_config_file g) gs) by (rewrite F; exact Hg).
      rewrite (body_run sv bd tx cfuel fuel sfuel e g gs s Hi Hg).
      rewrite (body_run sv bd tx cfuel fuel sfuel e g gs s' Hi Hg').
      destruct (Hc (effective (g :: gs))) as [C1 C2]; [exists g, gs; auto|].
      destruct (validate _); try (split; [reflexivity|exact Hs]).
      destruct (Nat.eqb _ 2); try (split; [reflexivity|exact Hs]).
      apply C09_collide; assumption.
    - apply body_merge_fail with (x := Throw x); auto; discriminate.
    - apply body_merge_fail with (x := UB x); auto; discriminate.
    - apply body_merge_fail with (x := OutOfFuel); auto; discriminate. }
  destruct B as [B1 B2]. unfold main.
  destruct (main_body R sv bd tx cfuel fuel sfuel e cmd s) as [r t], (main_body R sv bd tx cfuel fuel sfuel e cmd s') as [r' t'].
  cbn [fst snd] in B1, B2. subst r'. destruct B2 as (F & O & E).
  destruct r as [?|x|?|]; try (split; [reflexivity|repeat split; assumption]).
  destruct x; (split; [reflexivity|]); repeat split; simpl; congruence.
Qed.

(** ** Instances *)
Lemma demo_pure : solver_pure demo_solver.
Proof. intros S f lo hi bits n. eexists. intros s. reflexivity. Qed.

(** Two runs of the demonstration configuration from different engine states. *)
Example C09_instance : exists s' : sys demo_rng,
  alike (collide demo_rng demo_solver demo_build 10 10 10 demo_env demo_config demo_sys)
        (collide demo_rng demo_solver demo_build 10 10 10 demo_env demo_config (@Sys DA demo_rng 7%nat (s_fs demo_sys) "" "")) /\
  collide demo_rng demo_solver demo_build 10 10 10 demo_env demo_config (@Sys DA demo_rng 7%nat (s_fs demo_sys) "" "") = (Ret tt, s').
Proof.
  destruct (C09_collide DA demo_rng demo_solver demo_build 10 10 10 demo_env demo_config demo_sys
              (@Sys DA demo_rng 7%nat (s_fs demo_sys) "" "")) as [H _].
  - repeat split.
  - reflexivity.
  - right. split; [apply demo_pure|]. cbn [constit_number demo_config]. lia.
  - destruct demo_finishes as [s1 D]. unfold demo_run in D. pose proof H as [E _]. rewrite D in E.
    destruct (collide demo_rng demo_solver demo_build 10 10 10 demo_env demo_config (@Sys DA demo_rng 7%nat (s_fs demo_sys) "" ""))
      as [r s'] eqn:C. cbn [fst] in E. subst r. exists s'. split; [exact H|reflexivity].
Qed.

(** ** The cold cache *)

(** Proton-proton collisions in the binary64 arithmetic of [Demo.v]. *)
Definition pp_config : config DA := {|
  projectile := ["p"; "p"]; number_events := 1; quiet := false; output := None;
  no_header := false; ncoll := false;
  reduced_thickness := nlit DA 0 0; fluctuation := nlit DA 1 0;
  nucleon_width := nlit DA 5 (-1); constit_width := nlit DA 5 (-1); constit_number := 1;
  nucleon_min_dist := nlit DA 0 0; cross_section := nlit DA 64 (-1);
  normalization := nlit DA 1 0; b_min := nlit DA 0 0; b_max := nlit DA 1 0;
  random_seed := 8; grid_max := nlit DA 1 0; grid_step := nlit DA 5 (-1)
|}.
(** The miss probability at b = 0 for the computed parameter. *)
Definition edge : f64 :=
  one_minus_prob (A:=DA) (nucleon_common_of pp_config demo_param)
    [Constituent (nlit DA 0 0) (nlit DA 0 0) (nlit DA 1 0)] [Constituent (nlit DA 0 0) (nlit DA 0 0) (nlit DA 1 0)].
(** Canonical draws after seeding with 8: impact parameter 0 tested against
    [edge]; if that misses, impact parameter 1/2 tested against 0.99. *)
Definition edge_draw (k : nat) : f64 :=
  if Nat.eqb k 8 then f64_lit 0 0 else if Nat.eqb k 15 then edge
  else if Nat.eqb k 16 then f64_lit 25 (-2) else f64_lit 99 (-2).
Definition edge_rng : Rng DA := toy DA edge_draw.
Definition edge_sys (f : fs DA) : sys edge_rng := @Sys DA edge_rng 0%nat f "" "".
Definition edge_run (f : fs DA) : result unit * sys edge_rng :=
  collide edge_rng demo_solver demo_build 10 10 10 demo_env pp_config (edge_sys f).

(** Two seeded runs of the same configuration, the first with a cold cache, the
    second right after it: the events differ. *)
Theorem C09_cold_differs : (0 < random_seed pp_config)%Z /\ solver_pure demo_solver /\
  exists s1 s2,
    edge_run [("/data", Dir)] = (Ret tt, s1) /\ edge_run (s_fs s1) = (Ret tt, s2) /\ s_out s2 <> s_out s1.
Proof.
  split; [reflexivity|]. split; [apply demo_pure|].
  assert (H : (let (r1, s1) := edge_run [("/data", Dir)] in
               let (r2, s2) := edge_run (s_fs s1) in
               match r1, r2 with Ret _, Ret _ => negb (String.eqb (s_out s2) (s_out s1)) | _, _ => false end) = true)
    by (vm_cast_no_check (eq_refl true)).
  destruct (edge_run [("/data", Dir)]) as [r1 s1].
  destruct (edge_run (s_fs s1)) as [r2 s2] eqn:E2.
  destruct r1 as [[]| | |]; [|discriminate H..]. destruct r2 as [[]| | |]; [|discriminate H..].
  exists s1, s2. split; [reflexivity|]. split; [exact E2|].
  apply negb_true_iff in H. apply String.eqb_neq in H. exact H.
Qed.
