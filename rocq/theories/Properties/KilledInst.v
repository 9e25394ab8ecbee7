(** A concrete run meeting the hypotheses of C55. *)
From Coq Require Import Ascii.
From Verif.Base Require Import Result Arith FArith Rng.
From Verif.Model Require Import Config Nucleon Nucleus Event Text Files CrossSection Output Collider Killed.
From Verif.Spec Require Import Cache FileTree History Collision Runs Demo Killed.
From Verif.Proof Require Import Basics FsP FsTree Ctor Writers OutputP KilledP.
From Verif.Properties Require Import Events Overwrite OutputRuns OutputInst Killed.
Local Open Scope string_scope.

(** A quiet run of at least one event can be killed when it has opened the file of
    event 0 and nothing has been flushed to it. *)
Lemma killed_first {A : Arith} (R : Rng A) sv bd cfuel fuel sfuel e cfg (s s' : sys R) path :
  collide R sv bd cfuel fuel sfuel e cfg s = (Ret tt, s') -> tree (s_fs s) -> (1 <= number_events cfg)%Z ->
  quiet cfg = true -> output cfg = Some path -> filename_is_hdf5 path = false ->
  fs_get (s_fs s) (norm path) = None -> ~ is_cache e (norm path) ->
  exists sk width, output_width (A:=A) (number_events cfg) = Ret width /\ killed_run R sv bd cfuel fuel sfuel e cfg s sk /\ fs_get (s_fs sk) (event_file path width 0) = Some (File "").
Proof.
  intros H T HN Eq Eo Eh St NIC.
  destruct (finished_steps R sv bd cfuel fuel sfuel e cfg s s' H T)
    as (co & nA & nB & ev & nst & gst & s1 & st' & ru & spp & sp & so & width & Hn & Hr & _ & Ep & _ & Ef & _ & En & Ew & Ews & _ & Op).
  assert (NF : forall c, fs_get (s_fs sp) (norm path) <> Some (File c)).
  { apply (partonic_no_new_file R sv cfuel e cfg _ NIC _ _ _ Ep). intros c X. congruence. }
  assert (D : path <> "" /\ fs_get (s_fs s1) (norm path) = Some Dir /\ forall k, below path k -> fs_get (s_fs s1) k = None).
  { rewrite Ef. destruct Op as [E1 _|p E1 E2|p E1 E2 NE E3 E4 E5|p E1 E2 NE N0 E3 _]; [congruence|congruence| |].
    - assert (p = path) by congruence. subst p. auto.
    - assert (p = path) by congruence. subst p. destruct (NF "" E3). }
  destruct D as (NE & D & B).
  pose proof (zupto_length (number_events cfg)) as L. rewrite <- En in L.
  pose proof (zupto_nth (co_nevents co) 0 ltac:(lia)) as L0.
  destruct (zupto (co_nevents co)) as [|n l] eqn:EZ; [cbn in L0; discriminate L0|]. cbn [nth_error] in L0.
  assert (n = 0%Z) by (injection L0 as ->; reflexivity). subst n. clear L0 L.
  cbn [mfold] in Hr. apply bind_Ret_inv in Hr. destruct Hr as (st1 & r1 & E1 & _).
  unfold one_event in E1. apply bind_Ret_inv in E1.
  destruct E1 as ([[[b nc] nA'] nB'] & s2 & E1 & H1). apply bind_Ret_inv in H1. destruct H1 as (ev' & s3 & E2 & H1).
  unfold lift in E2. assert (s3 = s2) by congruence. subst s3. assert (E2' : event_compute (debug bd) ev (nu_nucleons nA') (nu_nucleons nB') (co_nc co) = Ret ev') by congruence.
  apply bind_Ret_inv in H1. destruct H1 as ([] & s3 & E3 & _). unfold in_sys in E3.
  destruct (run_output R (co_writers co) 0 b nc ev' (ru_sys s2)) as [r3 sy] eqn:ER. injection E3 as -> _.
  assert (W : co_writers co = [WText path width (negb (no_header cfg))]).
  { rewrite Ews. unfold writers_of. rewrite Eq, Eo, Eh. reflexivity. }
  rewrite W in ER. unfold run_output in ER. cbn [mfold] in ER. apply bind_Ret_inv in ER. destruct ER as ([] & sz & ER & _).
  cbn [run_writer] in ER. apply in_fs_frame in ER. destruct ER as (_ & _ & _ & E4). unfold write_text_file, bind, lift in E4.
  destruct (event_text 0 b nc ev' (negb (no_header cfg))) as [t| | |] eqn:Et; try discriminate E4.
  apply in_rstate_frame in E1 as F. destruct F as [F _]. cbn [ru_sys] in F.
  destruct (write_file (event_file path width 0) "" (s_fs (ru_sys s2))) as [rw f'] eqn:WF.
  assert (rw = Ret tt) by (unfold write_file in WF; destruct (fs_lookup _ _) as [[]|]; try destruct (parent_ok _ _); congruence). subst rw.
  exists (with_fs R (ru_sys s2) f'), width. split; [exact Ew|]. split.
  - eapply kr_events; [exact Hn|]. rewrite EZ. eapply ke_writing; [exact E1|exact E2'|]. rewrite W. apply ko_inside.
    apply (kw_text R 0 b nc ev' path width (negb (no_header cfg)) (ru_sys s2) "" t f'); [exact Et|exact WF].
  - cbn [with_fs s_fs]. destruct (file_key width path NE 0 ltac:(lia)) as (_ & FB & _ & _).
    assert (D2 : fs_get (s_fs (ru_sys s2)) (norm path) = Some Dir) by (rewrite F; exact D).
    assert (N2 : fs_get (s_fs (ru_sys s2)) (event_file path width 0) <> Some Dir) by (rewrite F, B by exact FB; discriminate).
    assert (X := write_event width path NE _ _ _ _ _ (Z.le_refl 0) D2 N2 WF). rewrite X. apply fs_get_put_eq.
Qed.

Lemma demo_cache_entry path key : (below path "/data/trento" \/ below path "/data/trento/cross_section.cache" -> False) ->
  norm path <> "/data/trento" -> norm path <> "/data/trento/cross_section.cache" ->
  cache_entry demo_env key -> ~ below path key /\ key <> norm path.
Proof.
  intros B N1 N2 (dh & E & K). cbn in E. injection E as <-. 
  assert (K1 : norm (cache_dir "/data") = "/data/trento") by reflexivity. assert (K2 : norm (cache_file "/data") = "/data/trento/cross_section.cache") by reflexivity.
  rewrite K1, K2 in K. destruct K as [K|K]; subst key; split.
  - intros X. apply B. left. exact X.
  - intros X. apply N1. symmetry. exact X.
  - intros X. apply B. right. exact X.
  - intros X. apply N2. symmetry. exact X.
Qed.

(** The run of C43_run_instance, killed with the file of event 0 open: something is
    left in the output directory, and a second run with the same output directory fails. *)
Example C55_instance : exists sk s' k,
  out_run "out" world = (Ret tt, s') /\
  killed_run demo_rng demo_solver demo_build 10 10 10 demo_env (out_config "out") (out_sys world) sk /\
  left_behind "out" 1 2 k (s_fs sk) (s_fs s') /\
  fs_get (s_fs sk) "out/0.dat" = Some (File "") /\
  forall r s2', out_run "out" (s_fs sk) = (r, s2') -> fails r.
Proof.
  destruct (out_finishes "out" ltac:(vm_cast_no_check (eq_refl true))) as [s' H]. pose proof H as H0. unfold out_run in H.
  assert (NC : forall key, cache_entry demo_env key -> ~ below "out" key /\ key <> norm "out").
  { intros key. apply demo_cache_entry; [intros [X|X]; discriminate X|discriminate|discriminate]. }
  destruct (killed_first demo_rng demo_solver demo_build 10 10 10 demo_env (out_config "out") (out_sys world) s' "out" H world_tree
    ltac:(cbn; lia) eq_refl eq_refl eq_refl eq_refl (not_cache "out" eq_refl)) as (sk & w & Ew0 & K & F).
  destruct (C55_text _ demo_rng demo_solver demo_build 10 10 10 demo_env (out_config "out") (out_sys world) s' sk "out" H world_tree
    ltac:(cbn; lia) eq_refl eq_refl (or_introl eq_refl) NC K) as (width & k & Ew & LB & _ & _).
  assert (w = width) by congruence. subst w. clear Ew0.
  assert (W : match output_width (A:=DA) 2 with Ret w => Z.eqb w 1 | _ => false end = true) by (vm_cast_no_check (eq_refl true)).
  change (output_width (A:=DA) 2 = Ret width) in Ew. rewrite Ew in W. apply Z.eqb_eq in W. subst width.
  change (event_file "out" 1 0) with "out/0.dat" in F.
  exists sk, s', k. split; [exact H0|]. split; [exact K|]. split; [exact LB|]. split; [exact F|].
  intros r s2' H2. unfold out_run in H2.
  destruct (C55_rerun _ demo_rng demo_solver demo_build 10 10 10 demo_env (out_config "out") (out_sys world) s' sk "out" H world_tree
    ltac:(cbn; lia) eq_refl eq_refl (or_introl eq_refl) NC K demo_rng (out_sys (s_fs sk)) (out_config "out") eq_refl eq_refl) as [Q _].
  refine (proj1 (Q _ _ _ _ _ _ _ _ H2)). exists "out/0.dat". split; [reflexivity|]. rewrite F. discriminate.
Qed.
