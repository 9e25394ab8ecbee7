(** sample_collision and the event loop. *)
From Verif.Base Require Import Result Arith Rng.
From Verif.Model Require Import FastExp Config Nucleon Nucleus Event Files CrossSection Output Collider.
From Verif.Spec Require Import History Collision.
From Verif.Proof Require Import Basics Pairs Sampling GridP EventP.

Section Collision.
Context {A : Arith} (R : Rng A) (bd : build).

Lemma count_true_none hs : existsb (fun h : bool => h) hs = false -> count_true hs = 0%Z.
Proof.
  unfold count_true. induction hs as [|h hs IH]; simpl; auto.
  destruct h; simpl; [discriminate|auto].
Qed.

Lemma existsb_true_in hs : existsb (fun h : bool => h) hs = true <-> In true hs.
Proof.
  rewrite existsb_exists. split; [intros (x & H & ->); auto|intros; exists true; auto].
Qed.

Lemma collision_loop_sampled fuel sfuel co nA nB n s b n' nA' nB' s' :
  nucleus_wf nA -> nucleus_wf nB ->
  collision_loop R fuel sfuel co nA nB n s = (Ret (b, n', nA', nB'), s') ->
  exists sa : sample A R,
    sampled sfuel co (nu_kind nA) (nu_kind nB)
            (length (nu_nucleons nA)) (length (nu_nucleons nB)) b
            (nu_nucleons nA') (nu_nucleons nB') sa /\
    nucleus_wf (sa_A0 sa) /\ nucleus_wf (sa_B0 sa) /\
    n' = (n + (if co_calc_ncoll co then count_true (sa_hits sa) else 0))%Z /\
    nu_kind nA' = nu_kind nA /\ nu_kind nB' = nu_kind nB /\
    nu_offset nA' = nmul A (co_asym co) b /\
    nu_offset nB' = nmul A (nsub A (co_asym co) (nlit A 1 0)) b /\
    sa_end sa = s'.
Proof.
  revert nA nB n s. induction fuel as [|fuel IH]; intros nA nB n s WA WB H; [discriminate|].
  cbn [collision_loop] in H.
  mstep H. rename x into u, E into Eu, s0 into s1.
  mstep H. rename x into nA1, E into EA, s0 into s2.
  mstep H. rename x into nB1, E into EB, s0 into s3.
  mstep H. rename E into EP, s0 into s4. destruct x as [[[As Bs] n1] c].
  apply on_eng_Ret_inv in Eu. destruct Eu as (e1 & Eu & ->).
  apply on_eng_Ret_inv in EA. destruct EA as (e2 & EA & ->).
  apply on_eng_Ret_inv in EB. destruct EB as (e3 & EB & ->).
  simpl rs_eng in *. simpl rs_norm in *. simpl rs_gamma in *.
  pose proof (sample_nucleons_reset _ _ _ _ _ _ _ WA EA) as (KA & OA & LA & FA).
  pose proof (sample_nucleons_reset _ _ _ _ _ _ _ WB EB) as (KB & OB & LB & FB).
  apply pair_loop_history in EP. destruct EP as (hs & Hh & Hn & Hc).
  pose proof (history_length _ _ _ _ _ _ _ _ _ _ Hh) as (_ & LA' & LB').
  rewrite orb_false_r in Hc.
  destruct c.
  - mstep H. simpl.
    unfold draw_canonical in Eu. apply act_inv in Eu. destruct Eu as (u' & Eu & Eu').
    inversion Eu'; subst u'; clear Eu'.
    exists (Sample u e1 nA nB nA1 e2 nB1 (MkRstate e3 (rs_norm s) (rs_gamma s)) hs s').
    split; [|simpl; rewrite ?KA, ?KB; repeat split; auto].
    constructor; simpl; auto; try (symmetry; assumption).
    + eauto.
    + apply existsb_true_in. auto.
  - symmetry in Hc. apply count_true_none in Hc. rewrite Hc in Hn.
    assert (n1 = n) by (destruct (co_calc_ncoll co); lia). subst n1.
    assert (WA' : nucleus_wf (with_nucleons nA1 As)).
    { revert WA. unfold nucleus_wf, with_nucleons. simpl. rewrite KA.
      destruct (nu_kind nA); rewrite ?LA', ?LA; auto. }
    assert (WB' : nucleus_wf (with_nucleons nB1 Bs)).
    { revert WB. unfold nucleus_wf, with_nucleons. simpl. rewrite KB.
      destruct (nu_kind nB); rewrite ?LB', ?LB; auto. }
    destruct (IH _ _ _ _ WA' WB' H) as (sa & Hs & W1 & W2 & Hn' & K1 & K2 & O1 & O2 & He).
    simpl in *. rewrite KA in *. rewrite KB in *.
    rewrite LA', LB', LA, LB in Hs. exists sa. rewrite H0 in Hn'.
    exact (conj Hs (conj W1 (conj W2 (conj Hn' (conj K1 (conj K2 (conj O1 (conj O2 He)))))))).
Qed.

(** ** The event loop *)

Lemma nuclear_thickness_count dbg nc dxy xymax ns l k g k' :
  @compute_nuclear_thickness A dbg nc dxy xymax ns l k = Ret (g, k') ->
  k' = (k + npart_of l)%Z.
Proof.
  unfold compute_nuclear_thickness. generalize (@zeros A ns) as g0.
  revert k. induction l as [|n l IH]; simpl; intros k g0 H.
  - inversion H; subst. unfold npart_of; simpl. lia.
  - unfold npart_of. simpl. destruct (n_part n).
    + mstep H. mstep E. mstep E. apply IH in H. subst. unfold npart_of. simpl length. lia.
    + simpl in H. apply IH in H. subst. unfold npart_of. lia.
Qed.

Lemma event_compute_npart dbg ev As Bs nc ev' :
  @event_compute A dbg ev As Bs nc = Ret ev' -> ev_npart ev' = (npart_of As + npart_of Bs)%Z.
Proof.
  unfold event_compute. intros H. mstep H. destruct x as [TA k].
  mstep H. destruct x as [TB k']. mstep H. destruct x as [[[TR m] ix] iy].
  mstep H. destruct x as [[[e2 e3] e4] e5]. mstep H. simpl.
  apply nuclear_thickness_count in E. apply nuclear_thickness_count in E0. lia.
Qed.

(** Everything known about one delivery; [ev0] is the event object as constructed. *)
Definition genuine (sfuel : nat) (co : collider A) (ev0 : event A) (kA kB : nkind A) (lA lB : nat)
    (d : delivery A) : Prop :=
  exists (sa : sample A R),
    sampled sfuel co kA kB lA lB (d_b d) (d_A d) (d_B d) sa /\
    nucleus_wf (sa_A0 sa) /\ nucleus_wf (sa_B0 sa) /\
    d_ncoll d = (if co_calc_ncoll co then count_true (sa_hits sa) else 0)%Z /\
    event_compute (debug bd) ev0 (d_A d) (d_B d) (co_nc co) = Ret (d_event d).

Lemma one_event_inv fuel sfuel co nA nB ev n s nA' nB' ev' s' :
  nucleus_wf nA -> nucleus_wf nB ->
  one_event R bd fuel sfuel co (nA, nB, ev) n s = (Ret (nA', nB', ev'), s') ->
  exists d s1, d_num d = n /\ d_event d = ev' /\
    d_A d = nu_nucleons nA' /\ d_B d = nu_nucleons nB' /\
    nu_kind nA' = nu_kind nA /\ nu_kind nB' = nu_kind nB /\
    length (nu_nucleons nA') = length (nu_nucleons nA) /\
    length (nu_nucleons nB') = length (nu_nucleons nB) /\
    (exists (sa : sample A R),
      sampled sfuel co (nu_kind nA) (nu_kind nB)
         (length (nu_nucleons nA)) (length (nu_nucleons nB)) (d_b d) (d_A d) (d_B d) sa /\
      nucleus_wf (sa_A0 sa) /\ nucleus_wf (sa_B0 sa) /\
      d_ncoll d = (if co_calc_ncoll co then count_true (sa_hits sa) else 0)%Z /\
      event_compute (debug bd) ev (d_A d) (d_B d) (co_nc co) = Ret (d_event d)) /\
    s_fs s1 = s_fs (ru_sys s) /\ s_out s1 = s_out (ru_sys s) /\ s_err s1 = s_err (ru_sys s) /\
    run_output R (co_writers co) (d_num d) (d_b d) (d_ncoll d) (d_event d) s1 = (Ret tt, ru_sys s').
Proof.
  intros WA WB H. unfold one_event in H.
  mstep H. destruct x as [[[b nc] nA1] nB1]. rename E into EC.
  mstep H. mstep E. rename x into ev1, E into EV.
  mstep H. destruct x. rename E into EO. mstep H.
  unfold in_rstate in EC.
  destruct (sample_collision R fuel sfuel co nA nB _) as [r rs] eqn:ES.
  inversion EC; subst r s0; clear EC.
  unfold in_sys in EO. simpl ru_sys in EO.
  destruct (run_output R (co_writers co) n b nc ev' _) as [r sy] eqn:EO1.
  inversion EO; subst r s'; clear EO. simpl ru_sys.
  unfold sample_collision in ES.
  destruct (collision_loop_sampled _ _ _ _ _ _ _ _ _ _ _ _ WA WB ES)
    as (sa & Hs & W1 & W2 & Hn & K1 & K2 & _).
  pose proof (sd_history _ _ _ _ _ _ _ _ _ _ Hs) as Hh.
  pose proof (history_length _ _ _ _ _ _ _ _ _ _ Hh) as (_ & LA' & LB').
  pose proof (sample_nucleons_reset _ _ _ _ _ _ _ W1 (sd_A _ _ _ _ _ _ _ _ _ _ Hs)) as (_ & _ & LA & _).
  pose proof (sample_nucleons_reset _ _ _ _ _ _ _ W2 (sd_B _ _ _ _ _ _ _ _ _ _ Hs)) as (_ & _ & LB & _).
  rewrite (sd_lenA _ _ _ _ _ _ _ _ _ _ Hs) in LA. rewrite (sd_lenB _ _ _ _ _ _ _ _ _ _ Hs) in LB.
  exists (Delivery n b nc ev' (nu_nucleons nA') (nu_nucleons nB')). eexists.
  repeat (split; [reflexivity || assumption || congruence|]).
  split; [exists sa; split; [exact Hs|]; repeat split; auto|].
  split; [|split; [|split; [|exact EO1]]]; reflexivity.
Qed.

Lemma run_events_delivered fuel sfuel co nA nB ev s r s' :
  nucleus_wf nA -> nucleus_wf nB -> ready ev ->
  run_events R bd fuel sfuel co nA nB ev s = (Ret r, s') ->
  exists ds,
    map d_num ds = zupto (co_nevents co) /\
    delivered R (co_writers co) ds (ru_sys s) (ru_sys s') /\
    Forall (genuine sfuel co ev (nu_kind nA) (nu_kind nB)
              (length (nu_nucleons nA)) (length (nu_nucleons nB))) ds.
Proof.
  unfold run_events. intros WA WB HR. generalize (zupto (co_nevents co)) as l. intros l.
  assert (G : forall ev0 nA nB ev s, nucleus_wf nA -> nucleus_wf nB -> ready ev0 -> ready ev -> same_params ev0 ev ->
    mfold (one_event R bd fuel sfuel co) l (nA, nB, ev) s = (Ret r, s') ->
    exists ds, map d_num ds = l /\ delivered R (co_writers co) ds (ru_sys s) (ru_sys s') /\
      Forall (genuine sfuel co ev0 (nu_kind nA) (nu_kind nB)
              (length (nu_nucleons nA)) (length (nu_nucleons nB))) ds).
  2:{ intros H. apply (G ev) in H; auto using same_params_refl. }
  clear nA nB ev s WA WB HR.
  induction l as [|n l IH]; intros ev0 nA nB ev s WA WB R0 R1 SP H.
  - cbn [mfold] in H. mstep H. exists []. split; [reflexivity|]. split; constructor; auto.
  - cbn [mfold] in H. mstep H. destruct x as [[nA1 nB1] ev1].
    destruct (one_event_inv _ _ _ _ _ _ _ _ _ _ _ _ WA WB E)
      as (d & s1 & Hn & He & HA & HB & K1 & K2 & L1 & L2 & Hg & Hf & Ho & Hr & Hout).
    assert (WA' : nucleus_wf nA1).
    { revert WA. unfold nucleus_wf. rewrite K1. destruct (nu_kind nA); rewrite ?L1; auto. }
    assert (WB' : nucleus_wf nB1).
    { revert WB. unfold nucleus_wf. rewrite K2. destruct (nu_kind nB); rewrite ?L2; auto. }
    destruct Hg as (sa & Hg1 & Hg2 & Hg3 & Hg4 & Hg5).
    destruct (event_compute_ready _ _ _ _ _ _ R1 Hg5) as [R2 SP2]. rewrite He in R2, SP2.
    destruct (IH ev0 _ _ _ _ WA' WB' R0 R2 (same_params_trans _ _ _ SP SP2) H) as (ds & Hm & Hd & HF).
    rewrite K1, K2, L1, L2 in HF.
    exists (d :: ds). split; [simpl; congruence|]. split.
    + econstructor; eauto.
    + constructor; auto. exists sa.
      rewrite (event_compute_same _ ev0 ev) by assumption. auto 6.
Qed.

End Collision.
