(** Analysis behind FastExp. *)
From Coq Require Import Reals Lra.
Local Open Scope R_scope.

Lemma incr_from_0 (f f' : R -> R) (x : R) : 0 <= x ->
  (forall c, 0 <= c <= x -> derivable_pt_lim f c (f' c)) ->
  (forall c, 0 <= c <= x -> 0 <= f' c) -> f 0 <= f x.
Proof.
  intros Hx Hd Hp. destruct Hx as [Hx| <-]; [|lra].
  destruct (MVT_cor2 f f' 0 x Hx Hd) as (c & E & Hc).
  specialize (Hp c ltac:(lra)). assert (0 <= f' c * (x - 0)) by (apply Rmult_le_pos; lra). lra.
Qed.

Lemma exp_neg_le h : 0 <= h -> exp (- h) <= 1.
Proof. intros. rewrite <- exp_0. destruct H as [H| <-]; [left; apply exp_increasing; lra|right; f_equal; lra]. Qed.

Lemma exp_neg_ge h : 1 - h <= exp (- h).
Proof. pose proof (exp_ineq1_le (- h)). lra. Qed.

(** e^-h <= 1 - h + h^2/2 for h >= 0. *)
Lemma exp_neg_quad h : 0 <= h -> exp (- h) <= 1 - h + h * h / 2.
Proof.
  intros H.
  pose proof (incr_from_0 (fun h => 1 - h + h * h / 2 - exp (- h)) (fun h => h - 1 + exp (- h)) h H) as P.
  cbn beta in P. rewrite Ropp_0, exp_0 in P.
  assert (1 - 0 + 0 * 0 / 2 - 1 <= 1 - h + h * h / 2 - exp (- h)); [|lra].
  apply P.
  - intros c _.
    replace (c - 1 + exp (- c)) with ((0 - 1 + (1 * c + c * 1) / 2) - (exp (- c) * -1)) by lra.
    apply derivable_pt_lim_minus.
    + apply derivable_pt_lim_plus.
      * apply derivable_pt_lim_minus; [apply derivable_pt_lim_const|apply derivable_pt_lim_id].
      * unfold Rdiv. apply (derivable_pt_lim_scal_right (fun h => h * h) c (1 * c + c * 1) (/2)).
        apply (derivable_pt_lim_mult id id); apply derivable_pt_lim_id.
    + apply (derivable_pt_lim_comp Ropp exp); [|apply derivable_pt_lim_exp].
      apply (derivable_pt_lim_ext (fun x => - x)); [reflexivity|].
      replace (-1) with (- (1)) by lra. apply derivable_pt_lim_opp. apply derivable_pt_lim_id.
  - intros c Hc. pose proof (exp_neg_ge c). lra.
Qed.

(** (1+d) e^-d >= 1 - d^2/2 for d >= 0. *)
Lemma exp_pos_quad d : 0 <= d -> 1 - d * d / 2 <= (1 + d) * exp (- d).
Proof.
  intros H.
  pose proof (incr_from_0 (fun d => (1 + d) * exp (- d) - 1 + d * d / 2) (fun d => d - d * exp (- d)) d H) as P.
  cbn beta in P. rewrite Ropp_0, exp_0 in P.
  assert ((1 + 0) * 1 - 1 + 0 * 0 / 2 <= (1 + d) * exp (- d) - 1 + d * d / 2); [|lra].
  apply P.
  - intros c _.
    replace (c - c * exp (- c)) with (((0 + 1) * exp (- c) + (1 + c) * (exp (- c) * -1)) - 0 + (1 * c + c * 1) / 2) by lra.
    apply derivable_pt_lim_plus.
    + apply derivable_pt_lim_minus; [|apply derivable_pt_lim_const].
      apply (derivable_pt_lim_mult (fun d => 1 + d) (fun d => exp (- d))).
      * apply derivable_pt_lim_plus; [apply derivable_pt_lim_const|apply derivable_pt_lim_id].
      * apply (derivable_pt_lim_comp Ropp exp); [|apply derivable_pt_lim_exp].
        apply (derivable_pt_lim_ext (fun x => - x)); [reflexivity|].
        replace (-1) with (- (1)) by lra. apply derivable_pt_lim_opp. apply derivable_pt_lim_id.
    + unfold Rdiv. apply (derivable_pt_lim_scal_right (fun h => h * h) c (1 * c + c * 1) (/2)).
      apply (derivable_pt_lim_mult id id); apply derivable_pt_lim_id.
  - intros c Hc. pose proof (exp_neg_le c ltac:(lra)).
    replace (c - c * exp (- c)) with (c * (1 - exp (- c))) by ring. apply Rmult_le_pos; lra.
Qed.

(** First-order expansion about the nearest table point. *)
Lemma linear_exp_bounds d D : Rabs d <= D ->
  exp d * (1 - D * D / 2 * exp D) <= 1 + d <= exp d.
Proof.
  intros H. assert (0 <= D) by (pose proof (Rabs_pos d); lra).
  split; [|pose proof (exp_ineq1_le d); lra].
  pose proof (exp_pos d). pose proof (exp_pos D).
  assert (E1 : 1 <= exp D) by (pose proof (exp_ineq1_le D); lra).
  destruct (Rle_dec 0 d) as [Hd|Hd].
  - rewrite Rabs_right in H by lra. pose proof (exp_pos_quad d Hd) as Q.
    apply Rmult_le_compat_l with (r := exp d) in Q; [|lra].
    replace (exp d * ((1 + d) * exp (- d))) with ((1 + d) * (exp d * exp (- d))) in Q by ring.
    rewrite <- exp_plus, Rplus_opp_r, exp_0 in Q.
    assert (d * d / 2 <= D * D / 2 * exp D).
    { assert (d * d <= D * D) by (apply Rmult_le_compat; lra).
      assert (0 <= D * D) by (apply Rmult_le_pos; lra).
      assert (D * D * 1 <= D * D * exp D) by (apply Rmult_le_compat_l; lra). lra. }
    assert (exp d * (1 - D * D / 2 * exp D) <= exp d * (1 - d * d / 2)) by (apply Rmult_le_compat_l; lra).
    lra.
  - rewrite Rabs_left in H by lra. set (h := - d) in *. assert (0 <= h) by (unfold h; lra).
    replace d with (- h) in * by (unfold h; lra).
    pose proof (exp_neg_quad h ltac:(lra)) as Q.
    assert (exp (- h) * exp D >= 1) by (rewrite <- exp_plus; pose proof (exp_ineq1_le (- h + D)); lra).
    assert (0 <= D * D / 2) by (assert (0 <= D * D) by (apply Rmult_le_pos; lra); lra).
    assert (D * D / 2 * 1 <= D * D / 2 * (exp (- h) * exp D)) by (apply Rmult_le_compat_l; lra).
    assert (h * h <= D * D) by (apply Rmult_le_compat; lra).
    replace (exp (- h) * (1 - D * D / 2 * exp D)) with (exp (- h) - D * D / 2 * (exp (- h) * exp D)) by ring. lra.
Qed.

(** A concrete bound: e^(1/100) < 1.011. *)
Lemma exp_small x : 0 <= x < 1 -> exp x <= / (1 - x).
Proof.
  intros H. pose proof (exp_neg_ge x). pose proof (exp_pos x).
  assert (E : exp x * exp (- x) = 1) by (rewrite <- exp_plus, Rplus_opp_r, exp_0; reflexivity).
  apply Rmult_le_reg_r with (1 - x); [lra|]. rewrite Rinv_l by lra. rewrite <- E. apply Rmult_le_compat_l; lra.
Qed.
