(** participate(), the pair loops and their histories. *)
From Verif.Base Require Import Result Arith Rng.
From Verif.Model Require Import FastExp Config Nucleon Nucleus Event Files CrossSection Output Collider.
From Verif.Spec Require Import History.
From Verif.Proof Require Import Basics.

Section Pairs.
Context {A : Arith} (R : Rng A).
Implicit Types (nc : nucleon_common A) (a b : nucleon A) (s : rstate R).

(** ** Sampling constituents *)

Lemma sample_local_length k xc yc s qs xs ys s' :
  sample_local R k xc yc s = (Ret (qs, xs, ys), s') -> length qs = k.
Proof.
  revert xc yc s qs xs ys s'. induction k as [|k IH]; simpl; intros xc yc s qs xs ys s' H.
  - mstep H. reflexivity.
  - mstep H. mstep H. mstep H. mstep H. destruct x2 as [[qs' xc'] yc']. mstep H.
    simpl. f_equal. eapply IH; eauto.
Qed.

(** Sampling always returns. *)
Lemma sample_local_returns k xc yc s : exists r s', sample_local R k xc yc s = (Ret r, s').
Proof.
  revert xc yc s. induction k as [|k IH]; simpl; intros xc yc s; [unfold ret; eauto|].
  unfold draw_normal, draw_gamma, bind at 1.
  destruct (ndraw R (rs_norm s) (rs_eng s)) as [[x n1] e1]. unfold bind at 1. simpl.
  destruct (ndraw R n1 e1) as [[y n2] e2]. unfold bind at 1. simpl.
  destruct (gdraw R (rs_gamma s) e2) as [[f g] e3]. unfold bind. simpl.
  destruct (IH (nadd A xc x) (nadd A yc y) (MkRstate e3 n2 g)) as ([[qs xs] ys] & s' & ->).
  unfold ret. eauto.
Qed.

Lemma sample_cons_spec nc n s n' s' :
  sample_constituent_positions R nc n s = (Ret n', s') ->
  same_pos n n' /\ n_part n' = n_part n /\ n_cexist n' = true /\
  (n_cexist n = true -> n' = n /\ s' = s) /\
  (n_cexist n = false -> (nc_number nc <= cons_max_size)%Z /\
                         length (n_cons n') = Z.to_nat (nc_number nc)).
Proof.
  unfold sample_constituent_positions, same_pos. intros H.
  destruct (n_cexist n) eqn:E.
  - mstep H. repeat split; auto. intros; discriminate.
    intros; discriminate.
  - destruct (cons_max_size <? nc_number nc)%Z eqn:E2; [discriminate|].
    mstep H. destruct x as [[qs xs] ys]. mstep H. simpl.
    repeat split; try congruence. { apply Z.ltb_ge in E2; lia. }
    rewrite map_length. eapply sample_local_length; eauto.
Qed.

Lemma sample_cons_returns nc n s :
  (nc_number nc <= cons_max_size)%Z ->
  exists n' s', sample_constituent_positions R nc n s = (Ret n', s').
Proof.
  intros Hm. unfold sample_constituent_positions.
  destruct (n_cexist n); [unfold ret; eauto|].
  destruct (Z.ltb_spec cons_max_size (nc_number nc)); [lia|].
  destruct (sample_local_returns (Z.to_nat (nc_number nc)) (nlit A 0 0) (nlit A 0 0) s)
    as ([[qs xs] ys] & s' & E).
  erewrite bind_run by exact E. unfold ret. eauto.
Qed.

(** ** participate *)

Inductive participate_case nc a b s : bool -> nucleon A -> nucleon A -> rstate R -> Prop :=
| PCalready : n_part a = true -> n_part b = true -> nc_calc_ncoll nc = false ->
    participate_case nc a b s true a b s
| PCfar : n_part a && n_part b && negb (nc_calc_ncoll nc) = false ->
    ~ in_range nc a b -> participate_case nc a b s false a b s
| PCnear : forall a1 b1 s1 s2 u e,
    n_part a && n_part b && negb (nc_calc_ncoll nc) = false ->
    in_range nc a b ->
    sample_constituent_positions R nc a s = (Ret a1, s1) ->
    sample_constituent_positions R nc b s1 = (Ret b1, s2) ->
    canonical R (rs_eng s2) = (u, e) ->
    let h := nltb A (one_minus_prob nc (n_cons a1) (n_cons b1)) u in
    participate_case nc a b s h
      (if h then set_participant a1 else a1) (if h then set_participant b1 else b1)
      (MkRstate e (rs_norm s2) (rs_gamma s2)).

Lemma participate_inv nc a b s h a' b' s' :
  participate R nc a b s = (Ret (h, a', b'), s') -> participate_case nc a b s h a' b' s'.
Proof.
  unfold participate. intros H.
  destruct (n_part a && n_part b && negb (nc_calc_ncoll nc)) eqn:E.
  - mstep H. apply andb_prop in E. destruct E as [E E3]. apply andb_prop in E. destruct E as [E1 E2].
    apply negb_true_iff in E3. apply PCalready; auto.
  - match type of H with (if ?c then _ else _) _ = _ => destruct c eqn:E2 end.
    + mstep H. apply PCfar; auto. unfold in_range. rewrite E2. discriminate.
    + mstep H. mstep H. mstep H.
      apply on_eng_Ret_inv in E3. destruct E3 as (e' & E3 & ->).
      unfold draw_canonical in E3. apply act_inv in E3. destruct E3 as (u & E3 & Eu).
      inversion Eu; subst u; clear Eu.
      pose proof (PCnear nc a b s x x0 s0 s1 x1 e' E E2 E0 E1 E3) as P. cbv zeta in P.
      destruct (nltb A (one_minus_prob nc (n_cons x) (n_cons x0)) x1); mstep H; exact P.
Qed.

Lemma participate_returns nc a b s :
  (nc_number nc <= cons_max_size)%Z ->
  exists h a' b' s', participate R nc a b s = (Ret (h, a', b'), s').
Proof.
  intros Hm. unfold participate.
  destruct (n_part a && n_part b && negb (nc_calc_ncoll nc)); [unfold ret; repeat eexists|].
  match goal with |- context [if ?c then _ else _] => destruct c end;
    [unfold ret; repeat eexists|].
  destruct (sample_cons_returns nc a s Hm) as (a1 & s1 & E1).
  destruct (sample_cons_returns nc b s1 Hm) as (b1 & s2 & E2).
  erewrite bind_run by exact E1. erewrite bind_run by exact E2.
  unfold on_eng, draw_canonical, act, bind.
  destruct (canonical R (rs_eng s2)) as [u e].
  destruct (nltb A (one_minus_prob nc (n_cons a1) (n_cons b1)) u); unfold ret; repeat eexists.
Qed.

Lemma set_participant_same (n : nucleon A) : same_pos n (set_participant n).
Proof. unfold set_participant, same_pos. destruct (n_part n); simpl; auto. Qed.
Lemma set_participant_part (n : nucleon A) : n_part (set_participant n) = true.
Proof. unfold set_participant. destruct (n_part n) eqn:E; simpl; auto. Qed.
Lemma set_participant_cexist (n : nucleon A) : n_cexist (set_participant n) = n_cexist n.
Proof. unfold set_participant. destruct (n_part n) eqn:E; simpl; auto. Qed.
Lemma set_participant_cons (n : nucleon A) : n_cons (set_participant n) = n_cons n.
Proof. unfold set_participant. destruct (n_part n) eqn:E; simpl; auto. Qed.

Lemma same_pos_refl (n : nucleon A) : same_pos n n. Proof. unfold same_pos; auto. Qed.
Lemma same_pos_trans a b c : same_pos a b -> same_pos b c -> same_pos a c.
Proof. unfold same_pos; intuition congruence. Qed.
Lemma same_pos_sym a b : same_pos a b -> same_pos b a.
Proof. unfold same_pos; intuition congruence. Qed.

Lemma in_range_pos nc a b a' b' :
  same_pos a a' -> same_pos b b' -> in_range nc a b -> in_range nc a' b'.
Proof.
  unfold same_pos, in_range. intros (-> & -> & _) (-> & -> & _). auto.
Qed.

(** Effects of one call: positions never change, flags are never cleared, on a
    hit both are participants, on a miss no flag changes. *)
Lemma participate_effects nc a b s h a' b' s' :
  participate R nc a b s = (Ret (h, a', b'), s') ->
  same_pos a a' /\ same_pos b b' /\
  n_part a' = n_part a || h /\ n_part b' = n_part b || h /\
  (h = true -> (n_part a = true /\ n_part b = true /\ nc_calc_ncoll nc = false) \/ in_range nc a b).
Proof.
  intros H. apply participate_inv in H. destruct H as [Ha Hb Hn|Hn Hr|a1 b1 s1 s2 u e Hn Hr H1 H2 Hu h].
  - rewrite Ha, Hb. repeat split; auto.
  - rewrite !orb_false_r. repeat split; auto. discriminate.
  - apply sample_cons_spec in H1. apply sample_cons_spec in H2.
    destruct H1 as (P1 & Q1 & _). destruct H2 as (P2 & Q2 & _).
    destruct h.
    + rewrite !set_participant_part, !orb_true_r.
      repeat split; auto; try (eapply same_pos_trans; [eauto|apply set_participant_same]);
        try apply P1; try apply P2;
        try apply (same_pos_trans _ _ _ P1 (set_participant_same a1));
        try apply (same_pos_trans _ _ _ P2 (set_participant_same b1)).
    + rewrite !orb_false_r. repeat split; auto; try apply P1; try apply P2; discriminate.
Qed.

(** Constituent bookkeeping of one call. *)
Definition cons_ok nc (n : nucleon A) : Prop :=
  (n_part n = true -> n_cexist n = true) /\
  (n_cexist n = true -> length (n_cons n) = Z.to_nat (nc_number nc)).

Lemma sample_cons_ok nc n s n' s' :
  cons_ok nc n -> sample_constituent_positions R nc n s = (Ret n', s') ->
  cons_ok nc n' /\ n_cexist n' = true.
Proof.
  intros [H1 H2] H. apply sample_cons_spec in H. destruct H as (P & Q & C & D & E).
  split; auto. split; auto. intros _. destruct (n_cexist n) eqn:En.
  - destruct (D eq_refl) as [-> _]. auto.
  - apply E. reflexivity.
Qed.

Lemma set_participant_ok nc (n : nucleon A) : n_cexist n = true -> cons_ok nc n -> cons_ok nc (set_participant n).
Proof.
  intros C [H1 H2]. split; rewrite set_participant_cexist; auto. rewrite set_participant_cons. auto.
Qed.

Lemma participate_cons_ok nc a b s h a' b' s' :
  cons_ok nc a -> cons_ok nc b -> participate R nc a b s = (Ret (h, a', b'), s') ->
  cons_ok nc a' /\ cons_ok nc b'.
Proof.
  intros Ca Cb H. apply participate_inv in H. destruct H as [|Hn Hr|a1 b1 s1 s2 u e Hn Hr H1 H2 Hu h]; auto.
  destruct (sample_cons_ok _ _ _ _ _ Ca H1) as [? ?].
  destruct (sample_cons_ok _ _ _ _ _ Cb H2) as [? ?].
  destruct h; split; auto using set_participant_ok.
Qed.

(** ** Array updates *)

Lemma upd_length {X} (l : list X) i x : length (upd l i x) = length l.
Proof. revert i. induction l as [|y l IH]; intros [|i]; simpl; auto. Qed.

Lemma upd_nth_same {X} (l : list X) i x y : nth_error l i = Some y -> nth_error (upd l i x) i = Some x.
Proof. revert i. induction l as [|z l IH]; intros [|i]; simpl; intros; try discriminate; auto. Qed.

Lemma upd_nth_other {X} (l : list X) i j x : i <> j -> nth_error (upd l i x) j = nth_error l j.
Proof. revert i j. induction l as [|z l IH]; intros [|i] [|j] H; simpl; auto; lia. Qed.

Lemma upd_app {X} (l1 l2 : list X) x y : upd (l1 ++ y :: l2) (length l1) x = l1 ++ x :: l2.
Proof. induction l1; simpl; congruence. Qed.

Lemma nth_app_mid {X} (l1 l2 : list X) y : nth_error (l1 ++ y :: l2) (length l1) = Some y.
Proof. induction l1; simpl; auto. Qed.

(** ** Histories *)

Lemma history_app nc ps1 ps2 As Bs s hs1 As1 Bs1 s1 hs2 As2 Bs2 s2 :
  history R nc ps1 As Bs s hs1 As1 Bs1 s1 ->
  history R nc ps2 As1 Bs1 s1 hs2 As2 Bs2 s2 ->
  history R nc (ps1 ++ ps2) As Bs s (hs1 ++ hs2) As2 Bs2 s2.
Proof.
  induction 1; intros; simpl; auto. econstructor; eauto.
Qed.

Lemma history_length nc ps As Bs s hs As' Bs' s' :
  history R nc ps As Bs s hs As' Bs' s' ->
  length hs = length ps /\ length As' = length As /\ length Bs' = length Bs.
Proof.
  induction 1; auto. destruct IHhistory as (? & ? & ?). rewrite !upd_length in *. simpl. lia.
Qed.

Lemma count_true_app l1 l2 : count_true (l1 ++ l2) = (count_true l1 + count_true l2)%Z.
Proof. unfold count_true. rewrite filter_app, app_length. lia. Qed.

Lemma count_true_cons h l : count_true (h :: l) = ((if h then 1 else 0) + count_true l)%Z.
Proof. unfold count_true. simpl. destruct h; simpl length; lia. Qed.

Lemma pair_row_history co a bs n c s a' bs' n' c' s' pre post bpre :
  pair_row R co a bs n c s = (Ret (a', bs', n', c'), s') ->
  exists hs,
    history R (co_nc co) (map (fun j => (length pre, j)) (seq (length bpre) (length bs)))
      (pre ++ a :: post) (bpre ++ bs) s hs (pre ++ a' :: post) (bpre ++ bs') s' /\
    n' = (n + (if co_calc_ncoll co then count_true hs else 0))%Z /\
    c' = existsb (fun h => h) hs || c.
Proof.
  revert a n c s a' bs' n' c' s' bpre.
  induction bs as [|b bs IH]; intros a n c s a' bs' n' c' s' bpre H; simpl in H.
  - mstep H. exists []. split; [|split].
    + simpl. constructor.
    + unfold count_true; simpl. destruct (co_calc_ncoll co); lia.
    + reflexivity.
  - mstep H. destruct x as [[h a1] b1]. mstep H. destruct x as [[[a2 bs2] n2] c2]. mstep H.
    apply (IH _ _ _ _ _ _ _ _ _ (bpre ++ [b1])) in E0.
    destruct E0 as (hs & Hh & Hn & Hc).
    exists (h :: hs). split; [|split].
    + rewrite app_length in Hh. simpl length in Hh. rewrite Nat.add_1_r in Hh.
      rewrite <- !app_assoc in Hh. simpl app in Hh.
      simpl. econstructor; [apply nth_app_mid|apply nth_app_mid|exact E|].
      rewrite !upd_app. exact Hh.
    + subst n'. rewrite count_true_cons. clear. destruct h; destruct (co_calc_ncoll co); simpl andb; cbv iota; lia.
    + subst c'. simpl. destruct h, c; simpl; rewrite ?orb_true_r, ?orb_false_r; auto.
Qed.

Lemma pair_row_len co a bs n c s a' bs' n' c' s' :
  pair_row R co a bs n c s = (Ret (a', bs', n', c'), s') -> length bs' = length bs.
Proof.
  revert a n c s a' bs' n' c' s'. induction bs as [|b bs IH]; intros; simpl in H.
  - mstep H. reflexivity.
  - mstep H. destruct x as [[h a1] b1]. mstep H. destruct x as [[[a2 bs2] n2] c2]. mstep H.
    simpl. f_equal. eapply IH; eauto.
Qed.

Lemma pair_loop_history_gen co As Bs n c s As' Bs' n' c' s' pre :
  pair_loop R co As Bs n c s = (Ret (As', Bs', n', c'), s') ->
  exists hs,
    history R (co_nc co)
      (flat_map (fun i => map (fun j => (i, j)) (seq 0 (length Bs))) (seq (length pre) (length As)))
      (pre ++ As) Bs s hs (pre ++ As') Bs' s' /\
    n' = (n + (if co_calc_ncoll co then count_true hs else 0))%Z /\
    c' = existsb (fun h => h) hs || c.
Proof.
  revert Bs n c s As' Bs' n' c' s' pre.
  induction As as [|a As IH]; intros Bs n c s As' Bs' n' c' s' pre H; simpl in H.
  - mstep H. exists []. split; [|split].
    + simpl. constructor.
    + unfold count_true; simpl. destruct (co_calc_ncoll co); lia.
    + reflexivity.
  - mstep H. destruct x as [[[a1 bs1] n1] c1]. mstep H. destruct x as [[[As2 bs2] n2] c2]. mstep H.
    pose proof (pair_row_len _ _ _ _ _ _ _ _ _ _ _ E) as Hl.
    apply (pair_row_history _ _ _ _ _ _ _ _ _ _ _ pre As []) in E.
    destruct E as (hs1 & Hh1 & Hn1 & Hc1).
    apply (IH _ _ _ _ _ _ _ _ _ (pre ++ [a1])) in E0.
    destruct E0 as (hs2 & Hh2 & Hn2 & Hc2).
    rewrite app_length in Hh2. simpl length in Hh2. rewrite Nat.add_1_r in Hh2.
    rewrite <- !app_assoc in Hh2. simpl app in Hh2. rewrite Hl in Hh2.
    exists (hs1 ++ hs2). split; [|split].
    + simpl. eapply history_app; [exact Hh1|exact Hh2].
    + subst n1 n'. rewrite count_true_app. destruct (co_calc_ncoll co); lia.
    + subst c1 c'. rewrite existsb_app. rewrite (orb_comm (existsb _ hs1) (existsb _ hs2)).
      rewrite orb_assoc. reflexivity.
Qed.

Lemma pair_loop_history co As Bs n c s As' Bs' n' c' s' :
  pair_loop R co As Bs n c s = (Ret (As', Bs', n', c'), s') ->
  exists hs,
    history R (co_nc co) (all_pairs (length As) (length Bs)) As Bs s hs As' Bs' s' /\
    n' = (n + (if co_calc_ncoll co then count_true hs else 0))%Z /\
    c' = existsb (fun h => h) hs || c.
Proof. apply (pair_loop_history_gen co As Bs n c s As' Bs' n' c' s' []). Qed.

(** ** Consequences of a history *)

(** Positions never change. *)
Lemma history_pos nc ps As Bs s hs As' Bs' s' :
  history R nc ps As Bs s hs As' Bs' s' -> Forall2 same_pos As As' /\ Forall2 same_pos Bs Bs'.
Proof.
  assert (Hr : forall l : list (nucleon A), Forall2 same_pos l l).
  { induction l; constructor; auto using same_pos_refl. }
  assert (Hu : forall (l : list (nucleon A)) i x y, nth_error l i = Some x -> same_pos x y ->
               Forall2 same_pos l (upd l i y)).
  { induction l as [|z l IH]; intros [|i] x y; simpl; intros E P; try discriminate.
    - inversion E; subst. constructor; auto.
    - constructor; eauto using same_pos_refl. }
  assert (Ht : forall l1 l2 l3 : list (nucleon A),
             Forall2 same_pos l1 l2 -> Forall2 same_pos l2 l3 -> Forall2 same_pos l1 l3).
  { intros l1 l2 l3 H. revert l3. induction H; intros l3 H3; inversion H3; subst; constructor; eauto using same_pos_trans. }
  induction 1 as [|i j ps As Bs s a b h a' b' s1 hs As' Bs' s' Ea Eb P H IH]; auto.
  apply participate_effects in P. destruct P as (Pa & Pb & _). destruct IH as [I1 I2].
  split; eapply Ht; eauto.
Qed.

Lemma history_part_A nc ps As Bs s hs As' Bs' s' i a :
  history R nc ps As Bs s hs As' Bs' s' -> nth_error As i = Some a ->
  exists a', nth_error As' i = Some a' /\
    (n_part a' = true <-> n_part a = true \/ exists j, hit ps hs (i, j)).
Proof.
  intros H. revert a. induction H as [|i0 j ps As Bs s a0 b h a' b' s1 hs As' Bs' s' Ea Eb P H IH]; intros a Hi.
  - exists a. split; auto. unfold hit; simpl. intuition. destruct H0 as (? & []).
  - apply participate_effects in P. destruct P as (_ & _ & Pa & _).
    destruct (Nat.eq_dec i0 i) as [ -> |Hne].
    + rewrite Ea in Hi. inversion Hi; subst a0; clear Hi.
      destruct (IH a') as (a2 & H2 & H3). { eapply upd_nth_same; eauto. }
      exists a2. split; auto. rewrite H3, Pa, orb_true_iff. unfold hit. simpl.
      split.
      * intros [[?| -> ]|(j' & Hj)]; eauto 6.
      * intros [?|(j' & [Hj|Hj])]; auto; [inversion Hj; subst; auto|eauto].
    + destruct (IH a) as (a2 & H2 & H3). { rewrite upd_nth_other; auto. }
      exists a2. split; auto. rewrite H3. unfold hit; simpl. split.
      * intros [?|(j' & Hj)]; eauto.
      * intros [?|(j' & [Hj|Hj])]; auto; [inversion Hj; subst; congruence|eauto].
Qed.

Lemma history_part_B nc ps As Bs s hs As' Bs' s' j b :
  history R nc ps As Bs s hs As' Bs' s' -> nth_error Bs j = Some b ->
  exists b', nth_error Bs' j = Some b' /\
    (n_part b' = true <-> n_part b = true \/ exists i, hit ps hs (i, j)).
Proof.
  intros H. revert b. induction H as [|i j0 ps As Bs s a b0 h a' b' s1 hs As' Bs' s' Ea Eb P H IH]; intros b Hj.
  - exists b. split; auto. unfold hit; simpl. intuition. destruct H0 as (? & []).
  - apply participate_effects in P. destruct P as (_ & _ & _ & Pb & _).
    destruct (Nat.eq_dec j0 j) as [ -> |Hne].
    + rewrite Eb in Hj. inversion Hj; subst b0; clear Hj.
      destruct (IH b') as (b2 & H2 & H3). { eapply upd_nth_same; eauto. }
      exists b2. split; auto. rewrite H3, Pb, orb_true_iff. unfold hit. simpl.
      split.
      * intros [[?| -> ]|(i' & Hi)]; eauto 6.
      * intros [?|(i' & [Hi|Hi])]; auto; [inversion Hi; subst; auto|eauto].
    + destruct (IH b) as (b2 & H2 & H3). { rewrite upd_nth_other; auto. }
      exists b2. split; auto. rewrite H3. unfold hit; simpl. split.
      * intros [?|(i' & Hi)]; eauto.
      * intros [?|(i' & [Hi|Hi])]; auto; [inversion Hi; subst; congruence|eauto].
Qed.

(** Every participant has a participating partner in range. *)
Definition partnered nc (As Bs : list (nucleon A)) : Prop :=
  (forall a, In a As -> n_part a = true -> exists b, In b Bs /\ n_part b = true /\ in_range nc a b) /\
  (forall b, In b Bs -> n_part b = true -> exists a, In a As /\ n_part a = true /\ in_range nc a b).

Lemma in_upd {X} (l : list X) i x y : In y (upd l i x) -> y = x \/ exists k, k <> i /\ nth_error l k = Some y.
Proof.
  intros H. apply In_nth_error in H. destruct H as [k Hk].
  destruct (Nat.eq_dec k i) as [ -> |Hne].
  - left. destruct (nth_error l i) as [z|] eqn:E.
    + rewrite (upd_nth_same l i x z E) in Hk. congruence.
    + apply nth_error_None in E. assert (nth_error (upd l i x) i = None) as H0.
      { apply nth_error_None. rewrite upd_length. exact E. }
      congruence.
  - right. exists k. rewrite upd_nth_other in Hk; auto.
Qed.

(** If [x] is updated to [x'] with the same position and a flag that only grows,
    members of the old list have counterparts in the new one. *)
Lemma upd_counterpart (l : list (nucleon A)) i x x' z :
  nth_error l i = Some x -> same_pos x x' -> (n_part x = true -> n_part x' = true) ->
  In z l -> exists z', In z' (upd l i x') /\ same_pos z z' /\ (n_part z = true -> n_part z' = true).
Proof.
  intros E P Q Hz. apply In_nth_error in Hz. destruct Hz as [k Hk].
  destruct (Nat.eq_dec i k) as [ -> |Hne].
  - rewrite E in Hk. inversion Hk; subst. exists x'. split; auto.
    eapply nth_error_In. eapply upd_nth_same; eauto.
  - exists z. split; [|split; auto using same_pos_refl].
    eapply nth_error_In. rewrite upd_nth_other; eauto.
Qed.

Lemma partnered_step nc As Bs i j a b s h a' b' s1 :
  nth_error As i = Some a -> nth_error Bs j = Some b ->
  participate R nc a b s = (Ret (h, a', b'), s1) ->
  partnered nc As Bs -> partnered nc (upd As i a') (upd Bs j b').
Proof.
  intros Ea Eb P [HA HB].
  pose proof (participate_effects _ _ _ _ _ _ _ _ P) as (Pa & Pb & Fa & Fb & Hr).
  assert (Qa : n_part a = true -> n_part a' = true) by (rewrite Fa; intros ->; auto).
  assert (Qb : n_part b = true -> n_part b' = true) by (rewrite Fb; intros ->; auto).
  assert (InA : In a' (upd As i a')) by (eapply nth_error_In, upd_nth_same; eauto).
  assert (InB : In b' (upd Bs j b')) by (eapply nth_error_In, upd_nth_same; eauto).
  split.
  - intros x Hx Px. apply in_upd in Hx.
    assert (D : (exists x0, In x0 As /\ same_pos x0 x /\ n_part x0 = true) \/
                (x = a' /\ h = true /\ in_range nc a b)).
    { destruct Hx as [ -> |(k & _ & Hk)].
      - rewrite Fa in Px. apply orb_true_iff in Px. destruct Px as [Px|Px].
        + left. exists a. split; [eapply nth_error_In; eauto|]. auto.
        + destruct (Hr Px) as [(? & _)|?]; [left|right; auto].
          exists a. split; [eapply nth_error_In; eauto|]; auto.
      - left. exists x. split; [eapply nth_error_In; eauto|]. auto using same_pos_refl. }
    destruct D as [(x0 & I0 & S0 & P0)|(-> & Hh & Hin)].
    + destruct (HA x0 I0 P0) as (y & Iy & Py & Ry).
      destruct (upd_counterpart Bs j b b' y Eb Pb Qb Iy) as (y' & Iy' & Sy & Qy).
      exists y'. repeat split; auto. eapply in_range_pos; eauto.
    + exists b'. rewrite Fb, Hh, orb_true_r. repeat split; auto. eapply in_range_pos; eauto.
  - intros x Hx Px. apply in_upd in Hx.
    assert (D : (exists x0, In x0 Bs /\ same_pos x0 x /\ n_part x0 = true) \/
                (x = b' /\ h = true /\ in_range nc a b)).
    { destruct Hx as [ -> |(k & _ & Hk)].
      - rewrite Fb in Px. apply orb_true_iff in Px. destruct Px as [Px|Px].
        + left. exists b. split; [eapply nth_error_In; eauto|]. auto.
        + destruct (Hr Px) as [(_ & ? & _)|?]; [left|right; auto].
          exists b. split; [eapply nth_error_In; eauto|]; auto.
      - left. exists x. split; [eapply nth_error_In; eauto|]. auto using same_pos_refl. }
    destruct D as [(x0 & I0 & S0 & P0)|(-> & Hh & Hin)].
    + destruct (HB x0 I0 P0) as (y & Iy & Py & Ry).
      destruct (upd_counterpart As i a a' y Ea Pa Qa Iy) as (y' & Iy' & Sy & Qy).
      exists y'. repeat split; auto. eapply in_range_pos; eauto.
    + exists a'. rewrite Fa, Hh, orb_true_r. repeat split; auto. eapply in_range_pos; eauto.
Qed.

Lemma history_partnered nc ps As Bs s hs As' Bs' s' :
  history R nc ps As Bs s hs As' Bs' s' -> partnered nc As Bs -> partnered nc As' Bs'.
Proof.
  induction 1; auto. intros P. apply IHhistory. eapply partnered_step; eauto.
Qed.

(** Constituents of participants exist. *)
Lemma Forall_upd {X} (P : X -> Prop) l i x : Forall P l -> P x -> Forall P (upd l i x).
Proof. intros H Hx. revert i. induction H; intros [|i]; simpl; constructor; auto. Qed.

Lemma history_cons_ok nc ps As Bs s hs As' Bs' s' :
  history R nc ps As Bs s hs As' Bs' s' ->
  Forall (cons_ok nc) As -> Forall (cons_ok nc) Bs ->
  Forall (cons_ok nc) As' /\ Forall (cons_ok nc) Bs'.
Proof.
  induction 1 as [|i j ps As Bs s a b h a' b' s1 hs As' Bs' s' Ea Eb P H IH]; auto.
  intros HA HB.
  assert (cons_ok nc a) by (rewrite Forall_forall in HA; apply HA; eapply nth_error_In; eauto).
  assert (cons_ok nc b) by (rewrite Forall_forall in HB; apply HB; eapply nth_error_In; eauto).
  destruct (participate_cons_ok _ _ _ _ _ _ _ _ H0 H1 P).
  apply IH; apply Forall_upd; auto.
Qed.

(** ** Counting *)

Lemma nodup_app {X} (l1 l2 : list X) :
  NoDup l1 -> NoDup l2 -> (forall x, In x l1 -> In x l2 -> False) -> NoDup (l1 ++ l2).
Proof.
  intros H1 H2 H. induction H1 as [|x l1 Hx H1 IH]; simpl; auto.
  constructor.
  - rewrite in_app_iff. intros [I|I]; [auto|]. apply (H x); simpl; auto.
  - apply IH. intros y Hy. apply H. simpl; auto.
Qed.

Lemma all_pairs_nodup (a b : nat) : NoDup (all_pairs a b).
Proof.
  unfold all_pairs. pose proof (seq_NoDup b 0) as Hb. revert Hb.
  generalize (seq 0 b) as row. intros row Hb. generalize 0%nat as k.
  induction a as [|a IH]; intros k; simpl; [constructor|].
  apply nodup_app; auto.
  - apply FinFun.Injective_map_NoDup; [intros x y; congruence|exact Hb].
  - intros [x1 x2] H1 H2. apply in_map_iff in H1. destruct H1 as (y & Hy & _).
    inversion Hy; subst. apply in_flat_map in H2. destruct H2 as (i & Hi & H).
    apply in_map_iff in H. destruct H as (z & Hz & _). inversion Hz; subst.
    apply in_seq in Hi. lia.
Qed.

Lemma all_pairs_length (a b : nat) : length (all_pairs a b) = (a * b)%nat.
Proof.
  transitivity (a * length (seq 0 b))%nat; [|rewrite seq_length; reflexivity].
  unfold all_pairs. generalize (seq 0 b) as row. intros row. generalize 0%nat as k. induction a as [|a IH]; intros k; simpl; auto.
  rewrite app_length, map_length, IH. reflexivity.
Qed.

Lemma in_all_pairs (a b i j : nat) : In (i, j) (all_pairs a b) <-> (i < a /\ j < b)%nat.
Proof.
  unfold all_pairs. rewrite in_flat_map. split.
  - intros (x & Hx & H). apply in_map_iff in H. destruct H as (y & Hy & Hs). inversion Hy; subst.
    apply in_seq in Hx. apply in_seq in Hs. lia.
  - intros [Hi Hj]. exists i. split; [apply in_seq; lia|]. apply in_map_iff. exists j. split; auto. apply in_seq; lia.
Qed.

(** The hits as a list of pairs. *)
Definition hits (ps : list (nat * nat)) (hs : list bool) : list (nat * nat) :=
  map fst (filter snd (combine ps hs)).

Lemma in_hits ps hs p : In p (hits ps hs) <-> hit ps hs p.
Proof.
  unfold hits, hit. rewrite in_map_iff. split.
  - intros ([q h] & <- & H). apply filter_In in H. destruct H as [H1 H2]. simpl in *. subst. exact H1.
  - intros H. exists (p, true). split; auto. apply filter_In. auto.
Qed.

Lemma hits_length ps hs : length hs = length ps -> Z.of_nat (length (hits ps hs)) = count_true hs.
Proof.
  unfold hits, count_true. rewrite map_length. intros H. f_equal.
  revert hs H. induction ps as [|p ps IH]; intros [|h hs] H; simpl in *; try discriminate; auto.
  destruct h; simpl; rewrite IH; auto.
Qed.

Lemma hits_nodup ps hs : NoDup ps -> NoDup (hits ps hs).
Proof.
  intros H. revert hs. induction H as [|p ps Hp H IH]; intros [|h hs]; simpl; try constructor.
  unfold hits. simpl. destruct h; simpl; [|apply IH].
  constructor; [|apply IH]. intros Hin. apply Hp.
  change (In p (hits ps hs)) in Hin. apply in_hits in Hin. unfold hit in Hin.
  eapply in_combine_l; eauto.
Qed.

(** indices of participants *)
Lemma npart_le_image (ns : list (nucleon A)) (l : list nat) :
  (forall i n, nth_error ns i = Some n -> n_part n = true -> In i l) ->
  (npart_of ns <= Z.of_nat (length l))%Z.
Proof.
  intros H. unfold npart_of. apply Nat2Z.inj_le.
  set (idx := filter (fun i => match nth_error ns i with Some n => n_part n | None => false end)
                     (seq 0 (length ns))).
  assert (L : length (filter n_part ns) = length idx).
  { unfold idx. clear.
    assert (G : forall pre, length (filter n_part ns) =
      length (filter (fun i => match nth_error (pre ++ ns) i with Some n => n_part n | None => false end)
        (seq (length pre) (length ns)))).
    { induction ns as [|n ns IH]; intros pre; simpl; auto.
      rewrite nth_app_mid. specialize (IH (pre ++ [n])).
      rewrite app_length in IH. simpl length in IH. rewrite Nat.add_1_r, <- app_assoc in IH. simpl app in IH.
      destruct (n_part n); simpl; rewrite IH; auto. }
    rewrite (G []). simpl. reflexivity. }
  rewrite L. apply NoDup_incl_length.
  - unfold idx. apply NoDup_filter, seq_NoDup.
  - intros i Hi. unfold idx in Hi. apply filter_In in Hi. destruct Hi as [_ Hi].
    destruct (nth_error ns i) as [n|] eqn:E; [|discriminate]. eauto.
Qed.

Lemma npart_le_length (ns : list (nucleon A)) : (0 <= npart_of ns <= Z.of_nat (length ns))%Z.
Proof.
  unfold npart_of. split; [lia|]. apply Nat2Z.inj_le. induction ns as [|n ns IH]; simpl; auto.
  destruct (n_part n); simpl; lia.
Qed.

Lemma npart_pos (ns : list (nucleon A)) n : In n ns -> n_part n = true -> (1 <= npart_of ns)%Z.
Proof.
  intros H Hp. unfold npart_of. assert (In n (filter n_part ns)) by (apply filter_In; auto).
  destruct (filter n_part ns); simpl in *; [contradiction|lia].
Qed.


(** With the binary-collision count on, a hit pair is really in range. *)
Lemma history_hit_in_range nc ps As Bs s hs As' Bs' s' i j :
  history R nc ps As Bs s hs As' Bs' s' -> nc_calc_ncoll nc = true ->
  hit ps hs (i, j) ->
  exists a b, nth_error As i = Some a /\ nth_error Bs j = Some b /\ in_range nc a b.
Proof.
  intros H Hc. induction H as [|i0 j0 ps As Bs s a b h a' b' s1 hs As' Bs' s' Ea Eb P H IH]; unfold hit; simpl.
  - intros [].
  - apply participate_effects in P. destruct P as (Pa & Pb & _ & _ & Hr).
    intros [E|E].
    + inversion E; subst. exists a, b. repeat split; auto.
      destruct (Hr eq_refl) as [(_ & _ & Hf)|?]; [congruence|auto].
    + destruct (IH E) as (x & y & Hx & Hy & Hxy).
      assert (Gx : exists x0, nth_error As i = Some x0 /\ same_pos x x0).
      { destruct (Nat.eq_dec i0 i) as [->|Hn].
        - rewrite (upd_nth_same _ _ _ _ Ea) in Hx. inversion Hx; subst. exists a. split; auto using same_pos_sym.
        - rewrite upd_nth_other in Hx by auto. exists x. split; auto using same_pos_refl. }
      assert (Gy : exists y0, nth_error Bs j = Some y0 /\ same_pos y y0).
      { destruct (Nat.eq_dec j0 j) as [->|Hn].
        - rewrite (upd_nth_same _ _ _ _ Eb) in Hy. inversion Hy; subst. exists b. split; auto using same_pos_sym.
        - rewrite upd_nth_other in Hy by auto. exists y. split; auto using same_pos_refl. }
      destruct Gx as (x0 & Gx & Sx). destruct Gy as (y0 & Gy & Sy).
      exists x0, y0. repeat split; auto. eapply in_range_pos; eauto.
Qed.

(** ** Where the constituents come from *)

(** [came_from nc n0 n]: [n] is [n0] after zero or more participate() calls:
    either its constituents were never sampled, or they are the result of exactly
    one sampling at the position of [n0]. *)
Definition came_from nc (n0 n : nucleon A) : Prop :=
  same_pos n0 n /\
  ((n_cexist n = false /\ n_part n = n_part n0 /\ n_cons n = n_cons n0) \/
   (n_cexist n = true /\ exists s s1 n1,
      sample_constituent_positions R nc n0 s = (Ret n1, s1) /\ n_cons n = n_cons n1)).

Lemma sample_came_from nc n0 n s n' s' :
  n_cexist n0 = false -> came_from nc n0 n ->
  sample_constituent_positions R nc n s = (Ret n', s') ->
  came_from nc n0 n' /\ n_cexist n' = true.
Proof.
  intros Hf [P H] E.
  pose proof (sample_cons_spec _ _ _ _ _ E) as (P1 & Q1 & C & D & _).
  split; auto. split; [eapply same_pos_trans; eauto|]. right. split; auto.
  destruct H as [(H1 & H2 & H3)|(H1 & s0 & s1 & n1 & H2 & H3)].
  - exists s, s'. assert (En : n = n0).
    { destruct n, n0. unfold same_pos in P. simpl in *. destruct P as (? & ? & ?). congruence. }
    subst n. exists n'. auto.
  - destruct (D H1) as [-> ->]. eauto 6.
Qed.

Lemma came_from_set nc n0 n :
  came_from nc n0 n -> n_cexist n = true -> came_from nc n0 (set_participant n).
Proof.
  intros [P H] C. split.
  - eapply same_pos_trans; [exact P|apply set_participant_same].
  - rewrite set_participant_cexist, set_participant_cons. right. split; auto.
    destruct H as [(H1 & _)|(_ & H)]; [congruence|exact H].
Qed.

Lemma participate_came_from nc a0 b0 a b s h a' b' s' :
  n_cexist a0 = false -> n_cexist b0 = false ->
  came_from nc a0 a -> came_from nc b0 b ->
  participate R nc a b s = (Ret (h, a', b'), s') ->
  came_from nc a0 a' /\ came_from nc b0 b'.
Proof.
  intros Fa Fb Ca Cb H. apply participate_inv in H. destruct H as [|Hn Hr|a1 b1 s1 s2 u e Hn Hr H1 H2 Hu h]; auto.
  destruct (sample_came_from _ _ _ _ _ _ Fa Ca H1) as [Ca1 Xa].
  destruct (sample_came_from _ _ _ _ _ _ Fb Cb H2) as [Cb1 Xb].
  destruct h; split; auto using came_from_set.
Qed.

Lemma Forall2_upd {X Y} (P : X -> Y -> Prop) l l' i y :
  Forall2 P l l' -> (forall x, nth_error l i = Some x -> P x y) -> Forall2 P l (upd l' i y).
Proof.
  intros H. revert i. induction H as [|x0 y0 l l' H0 H IH]; intros i Hy; [destruct i; constructor|].
  destruct i; simpl; constructor; auto.
Qed.

Lemma Forall2_nth {X Y} (P : X -> Y -> Prop) l l' i x y :
  Forall2 P l l' -> nth_error l i = Some x -> nth_error l' i = Some y -> P x y.
Proof.
  intros H. revert i. induction H as [|x0 y0 l l' H0 H IH]; intros [|i]; simpl; intros; try discriminate.
  - congruence.
  - eauto.
Qed.

Lemma Forall2_nth_l {X Y} (P : X -> Y -> Prop) l l' i y :
  Forall2 P l l' -> nth_error l' i = Some y -> exists x, nth_error l i = Some x /\ P x y.
Proof.
  intros H. revert i. induction H as [|x0 y0 l l' H0 H IH]; intros [|i]; simpl; intros; try discriminate.
  - inversion H1; subst. eauto.
  - eauto.
Qed.

Lemma history_came_from nc ps As0 Bs0 As Bs s hs As' Bs' s' :
  Forall (fun n => n_cexist n = false) As0 -> Forall (fun n => n_cexist n = false) Bs0 ->
  history R nc ps As Bs s hs As' Bs' s' ->
  Forall2 (came_from nc) As0 As -> Forall2 (came_from nc) Bs0 Bs ->
  Forall2 (came_from nc) As0 As' /\ Forall2 (came_from nc) Bs0 Bs'.
Proof.
  intros FA FB. induction 1 as [|i j ps As Bs s a b h a' b' s1 hs As' Bs' s' Ea Eb P H IH]; auto.
  intros HA HB.
  destruct (Forall2_nth_l _ _ _ _ _ HA Ea) as (a0 & Ia & Ca).
  destruct (Forall2_nth_l _ _ _ _ _ HB Eb) as (b0 & Ib & Cb).
  rewrite Forall_forall in FA, FB.
  pose proof (participate_came_from _ _ _ _ _ _ _ _ _ _
    (FA _ (nth_error_In _ _ Ia)) (FB _ (nth_error_In _ _ Ib)) Ca Cb P) as [Ga Gb].
  apply IH; apply Forall2_upd; auto.
  - intros x Hx. rewrite Ia in Hx. inversion Hx; subst; auto.
  - intros x Hx. rewrite Ib in Hx. inversion Hx; subst; auto.
Qed.

Lemma came_from_refl nc n : n_cexist n = false -> came_from nc n n.
Proof. intros H. split; [apply same_pos_refl|auto]. Qed.

(** Once sampled, constituents never change. *)
Definition kept (n n' : nucleon A) : Prop :=
  n_cexist n = true -> n_cexist n' = true /\ n_cons n' = n_cons n.

Lemma sample_kept nc n s n' s' :
  sample_constituent_positions R nc n s = (Ret n', s') -> kept n n'.
Proof. intros H C. apply sample_cons_spec in H. destruct H as (_ & _ & _ & D & _). destruct (D C) as [-> _]. auto. Qed.

Lemma participate_kept nc a b s h a' b' s' :
  participate R nc a b s = (Ret (h, a', b'), s') -> kept a a' /\ kept b b'.
Proof.
  intros H. apply participate_inv in H. destruct H as [|Hn Hr|a1 b1 s1 s2 u e Hn Hr H1 H2 Hu h];
    [split; intros C; auto|split; intros C; auto|].
  apply sample_kept in H1. apply sample_kept in H2.
  destruct h; split; unfold kept in *; rewrite ?set_participant_cexist, ?set_participant_cons; auto.
Qed.

Lemma history_kept nc ps As Bs s hs As' Bs' s' :
  history R nc ps As Bs s hs As' Bs' s' -> Forall2 kept As As' /\ Forall2 kept Bs Bs'.
Proof.
  assert (Hr : forall l : list (nucleon A), Forall2 kept l l).
  { induction l; constructor; auto. intros C; auto. }
  assert (Ht : forall l1 l2 l3 : list (nucleon A),
             Forall2 kept l1 l2 -> Forall2 kept l2 l3 -> Forall2 kept l1 l3).
  { intros l1 l2 l3 H. revert l3. induction H; intros l3 H3; inversion H3; subst; constructor; auto.
    intros C. destruct (H C) as [C1 E1]. destruct (H4 C1) as [C2 E2]. split; congruence. }
  induction 1 as [|i j ps As Bs s a b h a' b' s1 hs As' Bs' s' Ea Eb P H IH]; auto.
  apply participate_kept in P. destruct P as [Pa Pb]. destruct IH as [I1 I2].
  split; (eapply Ht; [|eassumption]); apply Forall2_upd; auto; intros x Hx;
    [rewrite Ea in Hx|rewrite Eb in Hx]; inversion Hx; subst; assumption.
Qed.

(** A history can be cut anywhere. *)
Lemma history_app_inv nc ps1 ps2 As Bs s hs As2 Bs2 s2 :
  history R nc (ps1 ++ ps2) As Bs s hs As2 Bs2 s2 ->
  exists hs1 hs2 As1 Bs1 s1, hs = hs1 ++ hs2 /\
    history R nc ps1 As Bs s hs1 As1 Bs1 s1 /\ history R nc ps2 As1 Bs1 s1 hs2 As2 Bs2 s2.
Proof.
  revert As Bs s hs. induction ps1 as [|[i j] ps1 IH]; intros As Bs s hs H; simpl in H.
  - exists [], hs, As, Bs, s. repeat split; auto. constructor.
  - inversion H as [|? ? ? ? ? ? a b h a' b' s1 hs' ? ? ? Ea Eb P Hh]; subst. destruct (IH _ _ _ _ Hh) as (hs1 & hs2 & A1 & B1 & s3 & -> & Ha & Hb).
    exists (h :: hs1), hs2, A1, B1, s3. repeat split; auto. econstructor; eauto.
Qed.

End Pairs.
