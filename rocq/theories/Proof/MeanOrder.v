(** The generalized mean does not decrease with its exponent. *)
From Coq Require Import Reals Lra.
From Verif.Base Require Import Arith RArith.
From Verif.Spec Require Import Mean.
From Verif.Proof Require Import MeanP.
Local Open Scope R_scope.

Lemma exp_ge_line w : 1 + w <= exp w.
Proof. destruct (Req_dec w 0) as [->|N]; [rewrite exp_0; lra|]. left. apply exp_ineq1. exact N. Qed.

Lemma exp_chord s w : 0 <= s <= 1 -> exp (s * w) <= 1 - s + s * exp w.
Proof.
  intros Hs.
  assert (E1 : exp (s * w) * (1 + (w - s * w)) <= exp w).
  { replace (exp w) with (exp (s * w) * exp (w - s * w)) by (rewrite <- exp_plus; f_equal; ring).
    apply Rmult_le_compat_l; [left; apply exp_pos|apply exp_ge_line]. }
  assert (E2 : exp (s * w) * (1 + (0 - s * w)) <= 1).
  { replace 1 with (exp (s * w) * exp (0 - s * w)) at 2 by (rewrite <- exp_plus, <- exp_0; f_equal; ring).
    apply Rmult_le_compat_l; [left; apply exp_pos|apply exp_ge_line]. }
  assert (E1' : s * (exp (s * w) * (1 + (w - s * w))) <= s * exp w) by (apply Rmult_le_compat_l; lra).
  assert (E2' : (1 - s) * (exp (s * w) * (1 + (0 - s * w))) <= (1 - s) * 1) by (apply Rmult_le_compat_l; lra).
  set (e := exp (s * w)) in *. nra.
Qed.

Definition pm (p a b : R) : R := Rpower ((Rpower a p + Rpower b p) / 2) (1 / p).

Lemma pm_pos p q a b : 0 < p <= q -> pm p a b <= pm q a b.
Proof.
  intros [Hp Hq]. unfold pm.
  set (M := (Rpower a q + Rpower b q) / 2).
  assert (HM : 0 < M) by (pose proof (Rpower_pos a q); pose proof (Rpower_pos b q); unfold M; lra).
  set (s := p / q).
  assert (Hs : 0 <= s <= 1).
  { unfold s. split; [left; apply Rdiv_lt_0_compat; lra|]. apply Rmult_le_reg_r with q; [lra|]. unfold Rdiv. rewrite Rmult_assoc, Rinv_l by lra. lra. }
  assert (One : forall x, Rpower x p <= Rpower M s * (1 - s + s * (Rpower x q / M))).
  { intros x. unfold Rpower.
    replace (exp (q * ln x) / M) with (exp (q * ln x - ln M)).
    2:{ unfold Rminus. rewrite exp_plus, exp_Ropp, exp_ln by exact HM. reflexivity. }
    replace (exp (p * ln x)) with (exp (s * ln M) * exp (s * (q * ln x - ln M))).
    2:{ rewrite <- exp_plus. f_equal. unfold s. field. lra. }
    apply Rmult_le_compat_l; [left; apply exp_pos|apply exp_chord; exact Hs]. }
  assert (Sum : (Rpower a p + Rpower b p) / 2 <= Rpower M s).
  { pose proof (One a) as Oa. pose proof (One b) as Ob.
    assert (E : Rpower M s * (1 - s + s * (Rpower a q / M)) + Rpower M s * (1 - s + s * (Rpower b q / M)) = 2 * Rpower M s).
    { transitivity (Rpower M s * (2 - 2 * s + s * ((Rpower a q + Rpower b q) / M))); [field; lra|].
      replace ((Rpower a q + Rpower b q) / M) with 2; [ring|].
      replace (Rpower a q + Rpower b q) with (2 * M) by (unfold M; field). field. lra. }
    lra. }
  assert (Hl : 0 < (Rpower a p + Rpower b p) / 2) by (pose proof (Rpower_pos a p); pose proof (Rpower_pos b p); lra).
  eapply Rle_trans.
  - apply Rle_Rpower_l; [left; apply Rdiv_lt_0_compat; lra|]. split; [exact Hl|exact Sum].
  - rewrite Rpower_mult. right. f_equal. unfold s. field. lra.
Qed.

Lemma sqrt_Rpower a b : 0 < a -> 0 < b -> sqrt (a * b) = exp ((ln a + ln b) / 2).
Proof.
  intros Ha Hb. apply sqrt_lem_1; [apply Rmult_le_pos; lra|left; apply exp_pos|].
  rewrite <- exp_plus. replace ((ln a + ln b) / 2 + (ln a + ln b) / 2) with (ln a + ln b) by lra.
  rewrite exp_plus, !exp_ln by assumption. reflexivity.
Qed.

Lemma pm_geometric p a b : 0 < a -> 0 < b -> 0 < p -> sqrt (a * b) <= pm p a b.
Proof.
  intros Ha Hb Hp. rewrite sqrt_Rpower by assumption. unfold pm.
  assert (E : exp (p * ((ln a + ln b) / 2)) <= (Rpower a p + Rpower b p) / 2).
  { unfold Rpower. set (u := p * ln a). set (v := p * ln b). replace (p * ((ln a + ln b) / 2)) with ((u + v) / 2) by (unfold u, v; field).
    pose proof (exp_ge_line (u - (u + v) / 2)) as U. pose proof (exp_ge_line (v - (u + v) / 2)) as V.
    replace (exp u) with (exp ((u + v) / 2) * exp (u - (u + v) / 2)) by (rewrite <- exp_plus; f_equal; ring).
    replace (exp v) with (exp ((u + v) / 2) * exp (v - (u + v) / 2)) by (rewrite <- exp_plus; f_equal; ring).
    pose proof (exp_pos ((u + v) / 2)). set (m := exp ((u + v) / 2)) in *. nra. }
  replace (exp ((ln a + ln b) / 2)) with (Rpower (exp (p * ((ln a + ln b) / 2))) (1 / p)).
  2:{ unfold Rpower. rewrite ln_exp. f_equal. field. lra. }
  apply Rle_Rpower_l; [left; apply Rdiv_lt_0_compat; lra|]. split; [apply exp_pos|exact E].
Qed.

Lemma pm_flip p a b : p <> 0 -> 0 < a -> 0 < b -> pm (- p) a b = / pm p (/ a) (/ b).
Proof.
  intros Hp Ha Hb. unfold pm, Rpower. rewrite !ln_Rinv by assumption. rewrite <- exp_Ropp. f_equal.
  replace (- p * ln a) with (p * - ln a) by ring. replace (- p * ln b) with (p * - ln b) by ring. field. exact Hp.
Qed.

Lemma sqrt_inv2 a b : 0 < a -> 0 < b -> sqrt (/ a * / b) = / sqrt (a * b).
Proof.
  intros Ha Hb. rewrite !sqrt_Rpower by (try apply Rinv_0_lt_compat; assumption). rewrite !ln_Rinv by assumption.
  rewrite <- exp_Ropp. f_equal. lra.
Qed.

Lemma pm_neg p q a b : 0 < a -> 0 < b -> p <= q < 0 -> pm p a b <= pm q a b.
Proof.
  intros Ha Hb [Hpq Hq]. replace p with (- - p) by ring. replace q with (- - q) by ring.
  rewrite !(pm_flip (- _)) by lra. apply Rinv_le_contravar; [apply exp_pos|]. apply pm_pos. lra.
Qed.

Lemma pm_geometric_neg p a b : 0 < a -> 0 < b -> p < 0 -> pm p a b <= sqrt (a * b).
Proof.
  intros Ha Hb Hp. replace p with (- - p) by ring. rewrite pm_flip by lra.
  replace (sqrt (a * b)) with (/ sqrt (/ a * / b)).
  2:{ rewrite sqrt_inv2 by assumption. apply Rinv_inv. }
  apply Rinv_le_contravar.
  - apply sqrt_lt_R0. apply Rmult_lt_0_compat; apply Rinv_0_lt_compat; assumption.
  - apply pm_geometric; [apply Rinv_0_lt_compat; assumption..|lra].
Qed.

(** One argument zero, p > 0. *)
Lemma half_pow b p : 0 < b -> 0 < p -> pow0 (pow0 b p / 2) (1 / p) = exp (ln b - ln 2 / p).
Proof.
  intros Hb Hp. unfold pow0. destruct (Req_EM_T b 0); [lra|]. pose proof (Rpower_pos b p).
  destruct (Req_EM_T (Rpower b p / 2) 0) as [E|_]; [lra|]. unfold Rpower at 1. f_equal.
  unfold Rdiv at 2. rewrite ln_mult by (try apply Rpower_pos; lra). rewrite ln_Rinv by lra. unfold Rpower. rewrite ln_exp. field. lra.
Qed.

Lemma pos_mean_pm p a b : 0 < a -> 0 < b -> pow0 ((pow0 a p + pow0 b p) / 2) (1 / p) = pm p a b.
Proof.
  intros Ha Hb. unfold pow0, pm. destruct (Req_EM_T a 0); [lra|]. destruct (Req_EM_T b 0); [lra|].
  pose proof (Rpower_pos a p). pose proof (Rpower_pos b p). destruct (Req_EM_T ((Rpower a p + Rpower b p) / 2) 0); [lra|reflexivity].
Qed.

Lemma pow0_0 p : pow0 0 p = 0.
Proof. unfold pow0. destruct (Req_EM_T 0 0); [reflexivity|lra]. Qed.

Lemma pos_mean_order p q a b : 0 < p <= q -> 0 <= a -> 0 <= b ->
  pow0 ((pow0 a p + pow0 b p) / 2) (1 / p) <= pow0 ((pow0 a q + pow0 b q) / 2) (1 / q).
Proof.
  intros Hpq Ha Hb.
  assert (Z : forall b, 0 <= b -> pow0 (pow0 b p / 2) (1 / p) <= pow0 (pow0 b q / 2) (1 / q)).
  { clear b Hb. intros b [Hb|<-].
    - rewrite !half_pow by lra. assert (L : 0 < ln 2) by (rewrite <- ln_1; apply ln_increasing; lra).
      assert (ln 2 / q <= ln 2 / p). { unfold Rdiv. apply Rmult_le_compat_l; [lra|]. apply Rinv_le_contravar; lra. }
      destruct (Req_dec (ln 2 / q) (ln 2 / p)) as [->|N]; [lra|]. left. apply exp_increasing. lra.
    - rewrite !pow0_0. replace (0 / 2) with 0 by lra. rewrite !pow0_0. lra. }
  destruct Ha as [Ha|<-]; [destruct Hb as [Hb|<-]|].
  - rewrite !pos_mean_pm by assumption. apply pm_pos. exact Hpq.
  - rewrite !pow0_0, !Rplus_0_r. apply Z. lra.
  - rewrite !pow0_0, !Rplus_0_l. apply Z. lra.
Qed.

Theorem M_p_order p q a b : p <= q -> 0 <= a -> 0 <= b -> M_p p a b <= M_p q a b.
Proof.
  intros Hpq Ha Hb. pose proof eps12_pos as E0. pose proof (M_p_nonneg q a b) as NN.
  revert NN. unfold M_p.
  destruct (Rlt_dec (Rabs p) eps12) as [Lp|Lp], (Rlt_dec (Rabs q) eps12) as [Lq|Lq]; intros NN; [lra|..].
  - (* geometric, then positive *)
    assert (Q : 0 < q). { destruct (Rlt_dec 0 q) as [|N]; [assumption|]. exfalso. apply Lq.
      unfold Rabs in *. destruct (Rcase_abs p), (Rcase_abs q); lra. }
    destruct (Rlt_dec 0 q); [|lra].
    destruct Ha as [Ha|<-]; [destruct Hb as [Hb|<-]|].
    + rewrite pos_mean_pm by assumption. apply pm_geometric; assumption.
    + rewrite Rmult_0_r, sqrt_0. apply pow0_nonneg.
    + rewrite Rmult_0_l, sqrt_0. apply pow0_nonneg.
  - (* negative, then geometric *)
    destruct (Rlt_dec 0 p) as [P|P].
    { exfalso. apply Lp. rewrite Rabs_right in Lq |- * by lra. lra. }
    destruct (Rlt_dec a eps12); [apply sqrt_pos|]. destruct (Rlt_dec b eps12); [apply sqrt_pos|].
    assert (p < 0) by (destruct (Req_dec p 0) as [->|]; [rewrite Rabs_R0 in Lp; lra|lra]).
    apply pm_geometric_neg; lra.
  - destruct (Rlt_dec 0 p) as [P|P], (Rlt_dec 0 q) as [Q|Q]; [apply pos_mean_order; lra|lra|..].
    + destruct (Rlt_dec a eps12); [exact NN|]. destruct (Rlt_dec b eps12); [exact NN|].
      assert (p < 0) by (destruct (Req_dec p 0) as [->|]; [rewrite Rabs_R0 in Lp; lra|lra]).
      rewrite pos_mean_pm by lra. eapply Rle_trans; [apply pm_geometric_neg|apply pm_geometric]; lra.
    + destruct (Rlt_dec a eps12); [exact NN|]. destruct (Rlt_dec b eps12); [exact NN|].
      assert (q < 0) by (destruct (Req_dec q 0) as [->|]; [rewrite Rabs_R0 in Lq; lra|lra]).
      apply pm_neg; lra.
Qed.
