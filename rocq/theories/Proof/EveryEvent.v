(** From [genuine] deliveries to [every_event] statements. *)
From Verif.Base Require Import Result Arith Rng.
From Verif.Model Require Import FastExp Config Nucleon Nucleus Event Text Files CrossSection Output Collider.
From Verif.Spec Require Import History Collision Runs.
From Verif.Proof Require Import Basics Pairs Sampling Ctor Collision GridP EventP.

Lemma every_event_in_intro (A : Arith)
  (P : forall (R : Rng A) (bd : build) (sfuel : nat) (cfg : config A) (co : collider A)
              (nA nB : nucleus A) (ev0 : event A), delivery A -> Prop) :
  (forall R sv bd cfuel sfuel e cfg s co nA nB ev0 nst gst s1 d,
     collider_new (A:=A) R sv bd cfuel e cfg s = (Ret (co, nA, nB, ev0, nst, gst), s1) ->
     constructed R bd cfg co nA nB ev0 nst gst s s1 ->
     nucleus_wf nA -> nucleus_wf nB ->
     genuine R bd sfuel co ev0 (nu_kind nA) (nu_kind nB)
       (length (nu_nucleons nA)) (length (nu_nucleons nB)) d ->
     P R bd sfuel cfg co nA nB ev0 d) ->
  every_event_in A P.
Proof.
  intros HP R sv bd cfuel fuel sfuel e cfg s s' H.
  apply collide_inv in H.
  destruct H as (co & nA & nB & ev & nst & gst & s1 & r & s2 & Hn & Hr & ->).
  pose proof (collider_new_inv _ _ _ _ _ _ _ _ _ _ _ _ _ _ Hn) as Hc.
  assert (WA : nucleus_wf nA) by (eapply create_nucleus_wf, ct_A; eauto).
  assert (WB : nucleus_wf nB) by (eapply create_nucleus_wf, ct_B; eauto).
  assert (RV : ready ev) by (eapply event_new_ready, ct_event; eauto).
  destruct (run_events_delivered _ _ _ _ _ _ _ _ _ _ _ WA WB RV Hr) as (ds & Hm & Hd & Hg).
  exists co, nA, nB, ev, nst, gst, s1, ds. simpl in Hd.
  rewrite (ct_nevents _ _ _ _ _ _ _ _ _ _ _ Hc) in Hm.
  rewrite Forall_forall in Hg.
  split; [exact Hn|]. split; [|split; [|split; [exact Hd|split]]].
  - rewrite <- (map_length d_num ds), Hm. apply zupto_length.
  - intros i d Hi. pose proof (map_nth_error d_num i ds Hi) as Hi'. rewrite Hm in Hi'.
    assert (i < Z.to_nat (number_events cfg))%nat.
    { rewrite <- zupto_length. apply nth_error_Some. congruence. }
    rewrite zupto_nth in Hi' by assumption. congruence.
  - intros d Hin. destruct (Hg d Hin) as (sa & _ & _ & _ & _ & He). exact He.
  - intros d Hin. eapply HP; eauto.
Qed.

Lemma every_event_intro
  (P : forall (A : Arith) (R : Rng A) (bd : build) (sfuel : nat) (cfg : config A) (co : collider A)
              (nA nB : nucleus A) (ev0 : event A), delivery A -> Prop) :
  (forall A R sv bd cfuel sfuel e cfg s co nA nB ev0 nst gst s1 d,
     collider_new (A:=A) R sv bd cfuel e cfg s = (Ret (co, nA, nB, ev0, nst, gst), s1) ->
     constructed R bd cfg co nA nB ev0 nst gst s s1 ->
     nucleus_wf nA -> nucleus_wf nB ->
     genuine R bd sfuel co ev0 (nu_kind nA) (nu_kind nB)
       (length (nu_nucleons nA)) (length (nu_nucleons nB)) d ->
     P A R bd sfuel cfg co nA nB ev0 d) ->
  every_event P.
Proof. intros HP A. apply every_event_in_intro. intros. eapply HP; eauto. Qed.

(** What a genuine delivery's nucleons went through. *)
Lemma genuine_history {A} (R : Rng A) bd sfuel co ev0 kA kB lA lB d :
  genuine R bd sfuel co ev0 kA kB lA lB d ->
  exists As Bs s hs s',
    length As = lA /\ length Bs = lB /\
    Forall is_reset As /\ Forall is_reset Bs /\
    history R (co_nc co) (all_pairs lA lB) As Bs s hs (d_A d) (d_B d) s' /\
    In true hs /\ d_ncoll d = (if co_calc_ncoll co then count_true hs else 0)%Z.
Proof.
  intros (sa & Hs & W1 & W2 & Hn & _).
  pose proof (sample_nucleons_reset _ _ _ _ _ _ _ W1 (sd_A _ _ _ _ _ _ _ _ _ _ Hs)) as (_ & _ & LA & FA).
  pose proof (sample_nucleons_reset _ _ _ _ _ _ _ W2 (sd_B _ _ _ _ _ _ _ _ _ _ Hs)) as (_ & _ & LB & FB).
  rewrite (sd_lenA _ _ _ _ _ _ _ _ _ _ Hs) in LA. rewrite (sd_lenB _ _ _ _ _ _ _ _ _ _ Hs) in LB.
  pose proof (sd_history _ _ _ _ _ _ _ _ _ _ Hs) as Hh. rewrite LA, LB in Hh.
  exists (nu_nucleons (sa_A1 sa)), (nu_nucleons (sa_B1 sa)), (sa_start sa), (sa_hits sa), (sa_end sa).
  repeat split; auto. apply (sd_hit _ _ _ _ _ _ _ _ _ _ Hs).
Qed.

(** Consequences of a pass over all pairs of fresh nuclei with at least one hit. *)
Section Pass.
Context {A : Arith} (R : Rng A).
Variables (nc : nucleon_common A) (As Bs As' Bs' : list (nucleon A)) (s s' : rstate R) (hs : list bool).
Hypothesis FA : Forall (@is_reset A) As.
Hypothesis FB : Forall (@is_reset A) Bs.
Hypothesis HH : history R nc (all_pairs (length As) (length Bs)) As Bs s hs As' Bs' s'.

Lemma pass_part_A i a : nth_error As' i = Some a ->
  (n_part a = true <-> exists j, hit (all_pairs (length As) (length Bs)) hs (i, j)).
Proof.
  intros Ha. pose proof (history_length _ _ _ _ _ _ _ _ _ _ HH) as (_ & LA & _).
  destruct (nth_some As i) as (a0 & Ha0).
  { rewrite <- LA. apply nth_error_Some. congruence. }
  destruct (history_part_A _ _ _ _ _ _ _ _ _ _ _ _ HH Ha0) as (a1 & Ha1 & H).
  assert (a1 = a) by congruence. subst a1. rewrite H.
  rewrite Forall_forall in FA. destruct (FA a0 (nth_error_In _ _ Ha0)) as [F _]. rewrite F.
  intuition discriminate.
Qed.

Lemma pass_part_B j b : nth_error Bs' j = Some b ->
  (n_part b = true <-> exists i, hit (all_pairs (length As) (length Bs)) hs (i, j)).
Proof.
  intros Hb. pose proof (history_length _ _ _ _ _ _ _ _ _ _ HH) as (_ & _ & LB).
  destruct (nth_some Bs j) as (b0 & Hb0).
  { rewrite <- LB. apply nth_error_Some. congruence. }
  destruct (history_part_B _ _ _ _ _ _ _ _ _ _ _ _ HH Hb0) as (b1 & Hb1 & H).
  assert (b1 = b) by congruence. subst b1. rewrite H.
  rewrite Forall_forall in FB. destruct (FB b0 (nth_error_In _ _ Hb0)) as [F _]. rewrite F.
  intuition discriminate.
Qed.

Lemma pass_partnered : partnered nc As' Bs'.
Proof.
  eapply history_partnered; [exact HH|].
  rewrite Forall_forall in FA, FB.
  split; intros x Hx Px; [destruct (FA x Hx)|destruct (FB x Hx)]; congruence.
Qed.

Lemma pass_hit : In true hs ->
  exists i j a b, hit (all_pairs (length As) (length Bs)) hs (i, j) /\
    nth_error As' i = Some a /\ nth_error Bs' j = Some b /\ n_part a = true /\ n_part b = true.
Proof.
  intros Ht. pose proof (history_length _ _ _ _ _ _ _ _ _ _ HH) as (LH & LA & LB).
  apply In_nth_error in Ht. destruct Ht as (k & Hk).
  assert (Hk2 : (k < length (all_pairs (length As) (length Bs)))%nat).
  { rewrite <- LH. apply nth_error_Some. congruence. }
  destruct (nth_some (all_pairs (length As) (length Bs)) k Hk2) as ([i j] & Hp).
  assert (Hh : hit (all_pairs (length As) (length Bs)) hs (i, j)).
  { unfold hit. clear -Hk Hp. revert hs k Hk Hp.
    induction (all_pairs (length As) (length Bs)) as [|p l IH]; intros [|h hs] [|k] Hk Hp; simpl in *; try discriminate.
    - inversion Hk; inversion Hp; auto.
    - right. eapply IH; eauto. }
  assert (Hin : In (i, j) (all_pairs (length As) (length Bs))) by (eapply nth_error_In; eauto).
  apply in_all_pairs in Hin. destruct Hin as [Hi Hj].
  destruct (nth_some As' i) as (a & Ha); [congruence|].
  destruct (nth_some Bs' j) as (b & Hb); [congruence|].
  exists i, j, a, b. repeat split; auto.
  - apply (pass_part_A i a Ha). eauto.
  - apply (pass_part_B j b Hb). eauto.
Qed.

Lemma pass_count : (count_true hs <= Z.of_nat (length As) * Z.of_nat (length Bs))%Z.
Proof.
  pose proof (history_length _ _ _ _ _ _ _ _ _ _ HH) as (LH & _ & _).
  rewrite all_pairs_length in LH. unfold count_true.
  assert (length (filter (fun h : bool => h) hs) <= length hs)%nat.
  { clear. induction hs as [|h l IH]; simpl; auto. destruct h; simpl; lia. }
  nia.
Qed.

Lemma pass_npart_A : (npart_of As' <= count_true hs)%Z.
Proof.
  pose proof (history_length _ _ _ _ _ _ _ _ _ _ HH) as (LH & _ & _).
  rewrite <- (hits_length _ _ LH). rewrite <- (map_length fst).
  apply npart_le_image. intros i n Hi Hp.
  apply (pass_part_A i n Hi) in Hp. destruct Hp as (j & Hj). apply in_hits in Hj.
  apply in_map_iff. exists (i, j). auto.
Qed.

Lemma pass_npart_B : (npart_of Bs' <= count_true hs)%Z.
Proof.
  pose proof (history_length _ _ _ _ _ _ _ _ _ _ HH) as (LH & _ & _).
  rewrite <- (hits_length _ _ LH). rewrite <- (map_length snd).
  apply npart_le_image. intros i n Hi Hp.
  apply (pass_part_B i n Hi) in Hp. destruct Hp as (j & Hj). apply in_hits in Hj.
  apply in_map_iff. exists (j, i). auto.
Qed.

Lemma pass_came_from : Forall2 (came_from R nc) As As' /\ Forall2 (came_from R nc) Bs Bs'.
Proof.
  assert (G : forall l : list (nucleon A), Forall (@is_reset A) l ->
            Forall (fun n => n_cexist n = false) l /\ Forall2 (came_from R nc) l l).
  { induction 1 as [|x l [_ Hx] H [I1 I2]]; split; constructor; auto. apply came_from_refl. auto. }
  destruct (G _ FA) as [A1 A2]. destruct (G _ FB) as [B1 B2].
  eapply history_came_from; eauto.
Qed.

Lemma pass_cons_ok : Forall (cons_ok nc) As' /\ Forall (cons_ok nc) Bs'.
Proof.
  assert (G : forall l : list (nucleon A), Forall (@is_reset A) l -> Forall (cons_ok nc) l).
  { induction 1 as [|x l [H1 H2] H IH]; constructor; auto.
    split; intros; congruence. }
  eapply history_cons_ok; eauto.
Qed.
End Pass.
