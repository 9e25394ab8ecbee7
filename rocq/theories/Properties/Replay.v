(** C51: events do not depend on what happened before them. *)
From Verif.Base Require Import Result Arith Rng.
From Verif.Model Require Import FastExp Config Nucleon Nucleus Event Files CrossSection Output Collider.
From Verif.Spec Require Import History Collision Replay Demo.
From Verif.Proof Require Import Basics Pairs Sampling Ctor Collision GridP EventP FreshP.
From Verif.Properties Require Import Events.

(** A run is its events in sequence, each the result of the freshly constructed
    nuclei and event object from the random state its predecessor left. *)
Theorem C51_replay : forall (A : Arith) (R : Rng A) (sv : Solver A) (bd : build) cfuel fuel sfuel e cfg (s s' : sys R),
  collide R sv bd cfuel fuel sfuel e cfg s = (Ret tt, s') ->
  exists ds, run_delivered R sv bd cfuel fuel sfuel e cfg s s' ds.
Proof.
  intros A R sv bd cfuel fuel sfuel e cfg s s' H. apply collide_inv in H.
  destruct H as (co & nA & nB & ev & nst & gst & s1 & r & s2 & Hn & Hr & ->).
  pose proof (collider_new_inv _ _ _ _ _ _ _ _ _ _ _ _ _ _ Hn) as Hc.
  assert (WA : nucleus_wf nA) by (eapply create_nucleus_wf, ct_A; eauto).
  assert (WB : nucleus_wf nB) by (eapply create_nucleus_wf, ct_B; eauto).
  assert (RV : ready ev) by (eapply event_new_ready, ct_event; eauto).
  destruct (run_events_replay R bd fuel sfuel co nA nB ev _ _ _ WA WB RV Hr) as (ds & D & F).
  rewrite (ct_nevents _ _ _ _ _ _ _ _ _ _ _ Hc) in F.
  exists ds, co, nA, nB, ev, nst, gst, s1, (random_part s2).
  split; [exact Hn|]. split; [exact D|]. split; [exact F|]. reflexivity.
Qed.

(** Two events with the same random state at their start are the same event. *)
Theorem C51_same_state : forall (A : Arith) (R : Rng A) bd fuel sfuel co nA nB ev0 n n' (rs : rstate R) d d' rs1 rs1',
  event_from R bd fuel sfuel co nA nB ev0 n rs d rs1 ->
  event_from R bd fuel sfuel co nA nB ev0 n' rs d' rs1' ->
  d' = Delivery n' (d_b d) (d_ncoll d) (d_event d) (d_A d) (d_B d) /\ rs1' = rs1.
Proof.
  intros A R bd fuel sfuel co nA nB ev0 n n' rs d d' rs1 rs1' (_ & nA1 & nB1 & S & EA & EB & V) (N & nA2 & nB2 & S' & EA' & EB' & V').
  rewrite S in S'. inversion S'; subst. rewrite EA', EB', <- EA, <- EB in V'. rewrite V in V'. inversion V'.
  destruct d, d'; cbn in *. subst. auto.
Qed.

Lemma zupto_prefix n m : (n <= m)%Z -> exists l, zupto m = zupto n ++ l.
Proof.
  intros H. unfold zupto, zrange. eexists.
  replace (Z.to_nat (m - 1 - 0 + 1)) with (Z.to_nat (n - 1 - 0 + 1) + (Z.to_nat m - Z.to_nat n))%nat by lia.
  rewrite seq_app, map_app. reflexivity.
Qed.

Lemma events_prefix {A} (R : Rng A) bd fuel sfuel co co' nA nB ev0 l l2 : 
  (forall rs, sample_collision R fuel sfuel co nA nB rs = sample_collision R fuel sfuel co' nA nB rs) -> co_nc co = co_nc co' ->
  forall (rs : rstate R) ds rs1 ds' rs1',
  events_from R bd fuel sfuel co nA nB ev0 l rs ds rs1 ->
  events_from R bd fuel sfuel co' nA nB ev0 (l ++ l2) rs ds' rs1' -> firstn (length ds) ds' = ds.
Proof.
  intros HS HN. induction l as [|n l IH]; intros rs ds rs1 ds' rs1' H H'.
  - inversion H; subst. reflexivity.
  - inversion H as [|? ? ? d ra dt ? E F]; subst. cbn [app] in H'. inversion H' as [|? ? ? d' ra' dt' ? E' F']; subst.
    destruct E' as (N & nA' & nB' & S & EA & EB & V). rewrite <- HS in S. rewrite <- HN in V.
    destruct (C51_same_state A R bd fuel sfuel co nA nB ev0 n n rs d d' ra ra' E) as [-> ->].
    { exact (conj N (ex_intro _ nA' (ex_intro _ nB' (conj S (conj EA (conj EB V)))))). }
    cbn [length firstn]. rewrite (IH _ _ _ _ _ F F'). f_equal. destruct E as [E0 _]. destruct d; cbn in *. subst. reflexivity.
Qed.

Lemma pair_row_co {A} (R : Rng A) co co' : co_nc co = co_nc co' -> co_calc_ncoll co = co_calc_ncoll co' ->
  forall bs a k c s, pair_row R co a bs k c s = pair_row R co' a bs k c s.
Proof.
  intros E1 E2. induction bs as [|b bs IH]; intros a k c s; [reflexivity|]. cbn [pair_row]. rewrite E1, E2.
  unfold bind at 1 3. destruct (participate R (co_nc co') a b s) as [[[[h a'] b']| | |] s1]; try reflexivity.
  unfold bind. rewrite IH. reflexivity.
Qed.
Lemma pair_loop_co {A} (R : Rng A) co co' : co_nc co = co_nc co' -> co_calc_ncoll co = co_calc_ncoll co' ->
  forall As bs k c s, pair_loop R co As bs k c s = pair_loop R co' As bs k c s.
Proof.
  intros E1 E2. induction As as [|a As IH]; intros bs k c s; [reflexivity|]. cbn [pair_loop].
  unfold bind at 1 3. rewrite (pair_row_co R co co' E1 E2).
  destruct (pair_row R co' a bs k c s) as [[[[[a' bs'] k'] c']| | |] s1]; try reflexivity.
  unfold bind. rewrite IH. reflexivity.
Qed.
Lemma collision_loop_co {A} (R : Rng A) co co' fuel sfuel :
  co_nc co = co_nc co' -> co_calc_ncoll co = co_calc_ncoll co' -> co_bmin co = co_bmin co' -> co_bmax co = co_bmax co' -> co_asym co = co_asym co' ->
  forall nA nB k s, collision_loop R fuel sfuel co nA nB k s = collision_loop R fuel sfuel co' nA nB k s.
Proof.
  intros E1 E2 E3 E4 E5. induction fuel as [|fuel IH]; intros nA nB k s; [reflexivity|]. cbn [collision_loop]. rewrite E3, E4, E5.
  unfold bind at 1 5. destruct (on_eng (draw_canonical R) s) as [[u| | |] s1]; try reflexivity.
  unfold bind at 1 4. destruct (on_eng (sample_nucleons R sfuel nA _) s1) as [[nA1| | |] s2]; try reflexivity.
  unfold bind at 1 3. destruct (on_eng (sample_nucleons R sfuel nB _) s2) as [[nB1| | |] s3]; try reflexivity.
  unfold bind. rewrite (pair_loop_co R co co' E1 E2).
  destruct (pair_loop R co' _ _ _ _ s3) as [[[[[As Bs] k'] c]| | |] s4]; try reflexivity. destruct c; [reflexivity|apply IH].
Qed.

(** Asking for more events, or for other outputs, does not change the events: from
    the same state of the machine, the shorter run's events are the first events
    of the longer run. *)
Theorem C51_output_options : forall (A : Arith) (R : Rng A) (sv : Solver A) (bd : build) cfuel fuel sfuel e cfg (s s' s2' : sys R) n2 q2 o2 h2,
  (number_events cfg <= n2)%Z ->
  collide R sv bd cfuel fuel sfuel e cfg s = (Ret tt, s') ->
  collide R sv bd cfuel fuel sfuel e (with_output cfg n2 q2 o2 h2) s = (Ret tt, s2') ->
  exists ds ds2, run_delivered R sv bd cfuel fuel sfuel e cfg s s' ds /\
    run_delivered R sv bd cfuel fuel sfuel e (with_output cfg n2 q2 o2 h2) s s2' ds2 /\
    length ds = Z.to_nat (number_events cfg) /\ length ds2 = Z.to_nat n2 /\
    firstn (length ds) ds2 = ds.
Proof.
  intros A R sv bd cfuel fuel sfuel e cfg s s' s2' n2 q2 o2 h2 Hn H H2.
  destruct (C51_replay _ _ _ _ _ _ _ _ _ _ _ H) as (ds & D). destruct (C51_replay _ _ _ _ _ _ _ _ _ _ _ H2) as (ds2 & D2).
  exists ds, ds2. split; [exact D|]. split; [exact D2|].
  destruct D as (co & nA & nB & ev0 & nst & gst & s1 & rs & C & _ & F & _).
  destruct D2 as (co2 & nA2 & nB2 & ev2 & nst2 & gst2 & s12 & rs2 & C2 & _ & F2 & _).
  assert (L : forall co nA nB ev0 l (r : rstate R) ds r', events_from R bd fuel sfuel co nA nB ev0 l r ds r' -> length ds = length l).
  { clear. intros co nA nB ev0 l r ds r' H. induction H; cbn; congruence. }
  split; [rewrite (L _ _ _ _ _ _ _ _ F), zupto_length; reflexivity|].
  split; [rewrite (L _ _ _ _ _ _ _ _ F2), zupto_length; reflexivity|].
  destruct (zupto_prefix _ _ Hn) as (l2 & El). cbn [with_output number_events] in F2. rewrite El in F2.
  (* the two constructors make the same collider, up to the outputs *)
  assert (G : nA2 = nA /\ nB2 = nB /\ ev2 = ev0 /\ nst2 = nst /\ gst2 = gst /\ s_eng s12 = s_eng s1 /\ co_nc co2 = co_nc co /\
     co_calc_ncoll co2 = co_calc_ncoll co /\ co_bmin co2 = co_bmin co /\ co_bmax co2 = co_bmax co /\ co_asym co2 = co_asym co).
  { unfold collider_new in C, C2. mstep C. unfold get in E. apply pair_Ret_inj in E. destruct E as [<- <-].
    mstep C2. unfold get in E. apply pair_Ret_inj in E. destruct E as [<- <-].
    mstep C. mstep E. mstep C2. mstep E0. change (create_nucleus bd (s_fs s) (with_output cfg n2 q2 o2 h2) 0) with (create_nucleus bd (s_fs s) cfg 0) in E0.
    rewrite E in E0. inversion E0; subst x0; clear E0.
    mstep C. mstep E0. mstep C2. mstep E1. change (create_nucleus bd (s_fs s) (with_output cfg n2 q2 o2 h2) 1) with (create_nucleus bd (s_fs s) cfg 1) in E1.
    rewrite E0 in E1. inversion E1; subst x1; clear E1.
    mstep C. mstep C2. change (partonic_cross_section R sv cfuel e (with_output cfg n2 q2 o2 h2) s) with (partonic_cross_section R sv cfuel e cfg s) in E2.
    rewrite E1 in E2. inversion E2; subst; clear E2.
    mstep C. mstep E2. mstep C2. mstep E3. change (event_new (with_output cfg n2 q2 o2 h2)) with (event_new cfg) in E3.
    rewrite E2 in E3. inversion E3; subst; clear E3.
    mstep C. mstep C2. apply output_new_inv in E3. destruct E3 as (w1 & _ & _ & G1 & _).
    apply output_new_inv in E4. destruct E4 as (w2 & _ & _ & G2 & _).
    mstep C. mstep C2. change (random_seed (with_output cfg n2 q2 o2 h2)) with (random_seed cfg) in E4.
    mstep C. mstep C2. cbn [co_nc co_calc_ncoll co_bmin co_bmax co_asym].
    assert (Eng : s_eng s12 = s_eng s1).
    { destruct (0 <? random_seed cfg)%Z.
      - inversion E3; inversion E4; subst. reflexivity.
      - unfold ret in E3, E4. inversion E3; inversion E4; subst. congruence. }
    repeat split; auto. }
  destruct G as (-> & -> & -> & -> & -> & Ge & G1 & G2 & G3 & G4 & G5). rewrite Ge in F2.
  eapply (events_prefix R bd fuel sfuel co co2 nA nB ev0); [| |exact F|exact F2]; [|congruence].
  intros rs0. unfold sample_collision. apply collision_loop_co; congruence.
Qed.

(** The demonstration run, and the same run with a text directory as output,
    silent, and one event more. *)
Definition demo_more : config DA := with_output demo_config 3 true (Some "/data/out"%string) false.
Definition demo_more_run : result unit * sys demo_rng :=
  collide demo_rng demo_solver demo_build 10 10 10 demo_env demo_more demo_sys.
Lemma demo_more_finishes : exists s', demo_more_run = (Ret tt, s').
Proof.
  assert (H : finished (fst demo_more_run) = true) by (vm_cast_no_check (eq_refl true)).
  destruct demo_more_run as [[[]| | |] s']; simpl in H; try discriminate. eauto.
Qed.

Lemma C51_applied : forall (A : Arith) (R : Rng A) (sv : Solver A) (bd : build) cfuel fuel sfuel e cfg cfg2 (s s' s2' : sys R) run run2 n n2 q2 o2 h2,
  run = collide R sv bd cfuel fuel sfuel e cfg s -> run2 = collide R sv bd cfuel fuel sfuel e cfg2 s ->
  cfg2 = with_output cfg n2 q2 o2 h2 -> number_events cfg = n -> (n <= n2)%Z ->
  run = (Ret tt, s') -> run2 = (Ret tt, s2') ->
  exists ds ds2, run_delivered R sv bd cfuel fuel sfuel e cfg s s' ds /\
    run_delivered R sv bd cfuel fuel sfuel e cfg2 s s2' ds2 /\
    length ds = Z.to_nat n /\ length ds2 = Z.to_nat n2 /\ firstn (length ds) ds2 = ds.
Proof. intros. subst. eapply C51_output_options; eauto. Qed.

Example C51_instance : exists s' s2' ds ds2,
  demo_run = (Ret tt, s') /\ demo_more_run = (Ret tt, s2') /\
  run_delivered demo_rng demo_solver demo_build 10 10 10 demo_env demo_config demo_sys s' ds /\
  run_delivered demo_rng demo_solver demo_build 10 10 10 demo_env demo_more demo_sys s2' ds2 /\
  length ds = 2%nat /\ length ds2 = 3%nat /\ firstn (length ds) ds2 = ds.
Proof.
  destruct demo_finishes as [s' H]. destruct demo_more_finishes as [s2' H2].
  assert (E1 : demo_run = collide demo_rng demo_solver demo_build 10 10 10 demo_env demo_config demo_sys) by (unfold demo_run; reflexivity).
  assert (E2 : demo_more_run = collide demo_rng demo_solver demo_build 10 10 10 demo_env demo_more demo_sys) by (unfold demo_more_run; reflexivity).
  assert (E3 : demo_more = with_output demo_config 3 true (Some "/data/out"%string) false) by (unfold demo_more; reflexivity).
  assert (E4 : number_events demo_config = 2%Z) by reflexivity.
  assert (E5 : (2 <= 3)%Z) by lia.
  pose proof (C51_applied DA demo_rng demo_solver demo_build 10 10 10 demo_env demo_config demo_more demo_sys s' s2' demo_run demo_more_run 2 3 true (Some "/data/out"%string) false
     E1 E2 E3 E4 E5 H H2) as (ds & ds2 & D1 & D2 & L & L2 & P).
  exists s', s2', ds, ds2. split; [exact H|]. split; [exact H2|]. split; [exact D1|]. split; [exact D2|]. split; [exact L|]. split; [exact L2|exact P].
Qed.
