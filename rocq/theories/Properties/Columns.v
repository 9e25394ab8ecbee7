(** C71: the standard output of an everyday run of the named projectiles is a
    table: one line per event, the same number of columns on every line, every
    column readable by itself. *)
From Coq Require Import ZArith Reals Lra Lia Bool List String Ascii.
From Flocq Require Import Core BinarySingleNaN.
From Verif.Base Require Import Result Arith FArith RArith Rng.
From Verif.Model Require Import Config Nucleon Nucleus Event Text Files CrossSection Output Collider Main CommandLine.
From Verif.Spec Require Import Decimal Table History Collision Runs Replay Finite Distributions Safe Species Options CommandLine ConfigFile Evolved Columns.
From Verif.Proof Require Import Basics TextP TableP Ieee Pairs Sampling Ctor Collision EveryEvent Writers ColumnsP.
From Verif.Properties Require Import Events ImpactIeee Stdout Replay Distributions FiniteIeee FiniteRun ConfigFile.
Import ListNotations.
Local Open Scope R_scope.

Lemma created_named {A : Arith} bd (f : fs A) (cfg : config A) i nu : named cfg -> create_nucleus bd f cfg i = Ret nu ->
  exists p, lookup p species <> None /\ nucleus_create bd f p (nucleon_min_dist cfg) = Ret nu.
Proof.
  intros N H. unfold create_nucleus in H. destruct (nth_error (projectile cfg) i) as [p|] eqn:E; [|discriminate].
  exists p. split; [apply N; eapply nth_error_In, E|exact H].
Qed.

(** Any arithmetic: the counters of an event of the named projectiles. *)
Lemma genuine_counts {A : Arith} (R : Rng A) bd sfuel cfg co nA nB ev0 nst gst (s s1 : sys R) d :
  constructed R bd cfg co nA nB ev0 nst gst s s1 -> named cfg ->
  genuine R bd sfuel co ev0 (nu_kind nA) (nu_kind nB) (length (nu_nucleons nA)) (length (nu_nucleons nB)) d ->
  (length (d_A d) <= 238)%nat /\ (length (d_B d) <= 238)%nat /\ (2 <= ev_npart (d_event d) <= 476)%Z /\
  (if ncoll cfg then (1 <= d_ncoll d <= 56644)%Z else d_ncoll d = 0%Z).
Proof.
  intros Hc N G.
  destruct (created_named bd _ cfg 0 nA N (ct_A _ _ _ _ _ _ _ _ _ _ _ Hc)) as (pa & La & Ea). pose proof (named_size _ _ _ _ _ La Ea) as SA.
  destruct (created_named bd _ cfg 1 nB N (ct_B _ _ _ _ _ _ _ _ _ _ _ Hc)) as (pb & Lb & Eb). pose proof (named_size _ _ _ _ _ Lb Eb) as SB.
  pose proof (genuine_history _ _ _ _ _ _ _ _ _ _ G) as (As & Bs & s0 & hs & s2 & LA & LB & FA & FB & HH & Ht & Hn).
  destruct G as (sa & _ & _ & _ & _ & He). apply event_compute_npart in He. unfold npart_of in He.
  rewrite <- LA, <- LB in *.
  destruct (pass_hit R _ _ _ _ _ _ _ _ FA FB HH Ht) as (i & j & a & b & _ & Ha & Hb & Pa & Pb).
  pose proof (history_length _ _ _ _ _ _ _ _ _ _ HH) as (_ & L1 & L2).
  apply nth_error_In in Ha. apply nth_error_In in Hb.
  pose proof (npart_pos _ _ Ha Pa). pose proof (npart_pos _ _ Hb Pb).
  pose proof (npart_le_length (d_A d)). pose proof (npart_le_length (d_B d)).
  pose proof (pass_npart_A R _ _ _ _ _ _ _ _ FA HH). pose proof (pass_count R _ _ _ _ _ _ _ _ HH).
  split; [lia|]. split; [lia|]. unfold npart_of in *. split; [lia|].
  rewrite (ct_ncoll _ _ _ _ _ _ _ _ _ _ _ Hc) in Hn. destruct (ncoll cfg); [|exact Hn]. rewrite Hn. nia.
Qed.

(** The counters never come near the range of an int. *)
Theorem C71_counters : forall A : Arith,
  every_event_in A (fun R bd sfuel cfg co nA nB ev0 d =>
    named cfg -> (2 <= ev_npart (d_event d) <= 476)%Z /\ (if ncoll cfg then (1 <= d_ncoll d <= 56644)%Z else d_ncoll d = 0%Z) /\
    (0 <= d_num d < number_events cfg)%Z).
Proof.
  intros A. assert (E : every_event_in A (fun R bd sfuel cfg co nA nB ev0 d =>
    named cfg -> (2 <= ev_npart (d_event d) <= 476)%Z /\ (if ncoll cfg then (1 <= d_ncoll d <= 56644)%Z else d_ncoll d = 0%Z))).
  { apply every_event_in_intro. intros R sv bd cfuel sfuel e cfg s co nA nB ev0 nst gst s1 d _ Hc WA WB G N.
    destruct (genuine_counts R bd sfuel cfg co nA nB ev0 nst gst s s1 d Hc N G) as (_ & _ & H). exact H. }
  intros R sv bd cfuel fuel sfuel e cfg s s' H. destruct (E R sv bd cfuel fuel sfuel e cfg s s' H) as (co & nA & nB & ev0 & nst & gst & s1 & ds & Hn & Hl & Hi & Hd & Hc & HP).
  exists co, nA, nB, ev0, nst, gst, s1, ds. split; [exact Hn|]. split; [exact Hl|]. split; [exact Hi|]. split; [exact Hd|]. split; [exact Hc|].
  intros d Hin N. destruct (HP d Hin N) as [H1 H2]. split; [exact H1|]. split; [exact H2|].
  apply In_nth_error in Hin. destruct Hin as [i Hin]. rewrite (Hi i d Hin).
  assert (i < length ds)%nat by (apply nth_error_Some; congruence). lia.
Qed.

(** Standard output of a finished run. *)
Theorem C71_table :
  forall (L : Libm) (rg : Rng (FA L)) sv bd cfuel fuel sfuel e (cfg : config (FA L)) (s s' : sys rg),
  usual_libm L -> usual_draws rg cfg -> everyday cfg -> named cfg -> printable cfg -> quiet cfg = false ->
  collide rg sv bd cfuel fuel sfuel e cfg s = (Ret tt, s') ->
  exists ds text, run_delivered rg sv bd cfuel fuel sfuel e cfg s s' ds /\
    s_out s' = (s_out s ++ text)%string /\
    length ds = Z.to_nat (number_events cfg) /\
    (forall i d, nth_error ds i = Some d -> d_num d = Z.of_nat i) /\
    Forall2 (record_line (A:=FA L) valF) ds (lines text) /\
    (forall l, In l (lines text) -> length (fields l) = columns (ncoll cfg)).
Proof.
  intros L rg sv bd cfuel fuel sfuel e cfg s s' UL [UD UG] Ed N Pr Q H. pose proof UL as (AE & AP & _).
  destruct (C61_run L rg sv bd cfuel fuel sfuel e cfg s s' AE AP (ed_ordinary _ Ed) UG H) as (ds & D & F).
  destruct (D) as (co & nA & nB & ev0 & nst & gst & s1 & rs' & C & Dl & EF & _).
  pose proof (collider_new_inv _ _ _ _ _ _ _ _ _ _ _ _ _ _ C) as Hc.
  assert (WA : nucleus_wf nA) by (eapply create_nucleus_wf, ct_A; eauto).
  assert (WB : nucleus_wf nB) by (eapply create_nucleus_wf, ct_B; eauto).
  pose proof (events_genuine rg bd fuel sfuel co nA nB ev0 _ _ _ _ WA WB EF) as G.
  destruct (ct_writers _ _ _ _ _ _ _ _ _ _ _ Hc) as (width & Hw & Ews).
  rewrite Ews in Dl. apply delivered_effects in Dl. destruct Dl as (O & _ & _). rewrite Q in O.
  rewrite (ct_out _ _ _ _ _ _ _ _ _ _ _ Hc) in O.
  assert (Nums : map d_num ds = zupto (number_events cfg)).
  { clear - EF. induction EF as [|n ns rs x rs1 xs rs2 Hx _ IH]; [reflexivity|]. cbn [map]. rewrite IH. destruct Hx as [-> _]. reflexivity. }
  assert (Len : length ds = Z.to_nat (number_events cfg)) by (rewrite <- (map_length d_num ds), Nums; apply zupto_length).
  destruct (created_named bd _ cfg 0 nA N (ct_A _ _ _ _ _ _ _ _ _ _ _ Hc)) as (pa & La & Ea). pose proof (named_radius UL _ _ _ _ _ La Ea) as RA.
  destruct (created_named bd _ cfg 1 nB N (ct_B _ _ _ _ _ _ _ _ _ _ _ Hc)) as (pb & Lb & Eb). pose proof (named_radius UL _ _ _ _ _ Lb Eb) as RB.
  destruct (ct_nc _ _ _ _ _ _ _ _ _ _ _ Hc) as (sp & Enc).
  destruct (named_bmax cfg nA nB sp Ed Pr RA RB) as (Mn & Mx & Bx).
  assert (Each : forall d, In d ds -> finite_record d /\ in_width_ieee d /\ (0 < d_ncoll d <-> ncoll cfg = true)%Z /\ length (ev_ecc (d_event d)) = 4%nat).
  { intros d Hd. destruct (genuine_counts rg bd sfuel cfg co nA nB ev0 nst gst s s1 d Hc N (G d Hd)) as (KA & KB & Np & Nc).
    destruct (F d Hd ltac:(lia) ltac:(lia)) as (_ & (Fm & Pm & _) & e2 & e3 & e4 & e5 & Ee & E2 & E3 & E4 & E5).
    destruct (G d Hd) as (sa & Hs & _). destruct (sd_canonical _ _ _ _ _ _ _ _ _ _ Hs) as (e0 & Ec).
    pose proof (UD e0) as (Fu & U01). rewrite Ec in Fu, U01. cbn [fst] in Fu, U01.
    assert (Eb' : d_b d = sample_b (A:=FA L) (b_min cfg) (determine_bmax cfg nA nB (nucleon_common_of cfg sp)) (sa_u sa)).
    { rewrite (sd_b _ _ _ _ _ _ _ _ _ _ Hs), (ct_bmin _ _ _ _ _ _ _ _ _ _ _ Hc), (ct_bmax _ _ _ _ _ _ _ _ _ _ _ Hc), Enc. reflexivity. }
    destruct (sample_b_ieee L _ _ _ Mn Mx (proj1 Bx) Fu U01) as (Fb & _ & Bb & _). rewrite <- Eb' in Fb, Bb.
    destruct (moderate_bounds _ Mn) as [_ [Zn _]].
    assert (T10 : 0 < powerRZ 10 (-10) < 1).
    { cbn [powerRZ Pos.to_nat]. change (Pos.to_nat 10) with 10%nat. cbn [pow]. lra. }
    split; [|split; [|split]].
    - split; [exact Fb|]. split; [exact Fm|]. rewrite Ee. destruct E2 as [A2 _], E3 as [A3 _], E4 as [A4 _], E5 as [A5 _]. repeat constructor; assumption.
    - unfold in_width_ieee, valF. split; [split; [lra|]|].
      + destruct Bx as [_ Bx]. apply Rle_trans with 999; [lra|]. lra.
      + split; [lia|]. split; [destruct (ncoll cfg); lia|]. split; [exact Pm|]. rewrite Ee.
        assert (K : forall x, fraction_like x -> Rabs (B2R x) <= 10 - powerRZ 10 (-10)) by (intros x [_ Hx]; rewrite Rabs_pos_eq by lra; lra).
        apply Forall_cons; [apply K; assumption|]. apply Forall_cons; [apply K; assumption|]. apply Forall_cons; [apply K; assumption|]. apply Forall_cons; [apply K; assumption|]. apply Forall_nil.
    - destruct (ncoll cfg); split; intros X; [reflexivity|lia|lia|discriminate X].
    - rewrite Ee. reflexivity. }
  exists ds, (sconcat (map (line_of width) ds)). split; [exact D|]. split; [exact O|]. split; [exact Len|]. split; [|].
  { intros i d Hi. pose proof (map_nth_error d_num i ds Hi) as Hi'. rewrite Nums in Hi'.
    assert (i < Z.to_nat (number_events cfg))%nat by (rewrite <- Len; apply nth_error_Some; congruence).
    rewrite zupto_nth in Hi' by assumption. congruence. }
  assert (FL : Forall2 (record_line (A:=FA L) valF) ds (lines (sconcat (map (line_of width) ds)))).
  { apply lines_concat. apply Forall_forall. intros d Hd. destruct (Each d Hd) as (E1 & E2 & _). apply C42_line_ieee; assumption. }
  split; [exact FL|]. intros l Hl.
  assert (Ex : exists d, In d ds /\ record_line (A:=FA L) valF d l).
  { revert Hl. generalize (lines (sconcat (map (line_of width) ds))), FL. clear. intros ls FL. induction FL as [|d k ds ks H _ IH]; intros Hl; [destruct Hl|].
    destruct Hl as [<-|Hl]; [exists d; split; [left; reflexivity|exact H]|]. destruct (IH Hl) as (d' & I & R). exists d'. split; [right; exact I|exact R]. }
  destruct Ex as (d & Hd & tn & tb & tp & tc & tm & te & Ef & _ & _ & _ & _ & _ & Fe). destruct (Each d Hd) as (_ & _ & Nc & L4).
  assert (Fl : length (ev_ecc (d_event d)) = length te) by (clear - Fe; induction Fe; cbn [length]; congruence). rewrite Ef. rewrite !app_length. cbn [length]. rewrite <- Fl, L4. unfold columns.
  destruct (Z.ltb_spec 0 (d_ncoll d)) as [P|P], (ncoll cfg); try reflexivity.
  - exfalso. assert (false = true) by (apply Nc; exact P). discriminate.
  - exfalso. assert (0 < d_ncoll d)%Z by (apply Nc; reflexivity). lia.
Qed.

(** From the command line and the configuration files: exit status 0 means that
    the table is there, complete. *)
Theorem C71_command :
  forall (L : Libm) (rg : Rng (FA L)) sv bd tx cfuel fuel sfuel e args its named_items (g : given (FA L)) gs total (s s' : sys rg),
  written its args -> settled word_names its named_items -> means named_items g -> info g = false ->
  files_say (s_fs s) named_items (g_config_file g) gs total -> accepted (effective (g :: gs)) ->
  let cfg := effective (g :: gs) in
  usual_libm L -> usual_draws rg cfg -> everyday cfg -> named cfg -> printable cfg -> quiet cfg = false ->
  trento rg sv bd tx cfuel fuel sfuel e args s = (Ret 0%Z, s') ->
  exists ds text, run_delivered rg sv bd cfuel fuel sfuel e cfg s s' ds /\
    s_out s' = (s_out s ++ text)%string /\
    length ds = Z.to_nat (number_events cfg) /\
    (forall i d, nth_error ds i = Some d -> d_num d = Z.of_nat i) /\
    Forall2 (record_line (A:=FA L) valF) ds (lines text) /\
    (forall l, In l (lines text) -> length (fields l) = columns (ncoll cfg)).
Proof.
  intros L rg sv bd tx cfuel fuel sfuel e args its named_items g gs total s s' W S M Hi Hf Ha cfg UL UD Ed N Pr Q H.
  pose proof (C70_runs (FA L) rg sv bd tx cfuel fuel sfuel e args its named_items g gs total s W S M Hi Hf Ha) as X. rewrite H in X.
  apply (C71_table L rg sv bd cfuel fuel sfuel e cfg s s' UL UD Ed N Pr Q).
  fold cfg in X. remember (collide rg sv bd cfuel fuel sfuel e cfg s) as r eqn:Er. remember (Ret 0%Z, s') as o eqn:Eo. destruct X; try discriminate Eo. injection Eo as <-. reflexivity.
Qed.
