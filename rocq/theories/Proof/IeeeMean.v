(** Bounds on the generalized mean in binary64. *)
From Coq Require Import ZArith Reals Lra Lia Bool List Psatz String.
From Flocq Require Import Core BinarySingleNaN Relative Mult_error.
From Verif.Base Require Import Result Arith FArith.
From Verif.Model Require Import Config Nucleon Event.
From Verif.Spec Require Import Grid Finite.
From Verif.Proof Require Import Basics RBasics Ieee IeeeInt IeeeSum IeeeEcc IeeeThick.
From Verif.Properties Require Import ImpactIeee ThicknessIeee.
Import ListNotations.
Local Open Scope R_scope.

Lemma ln2_range : / 2 <= ln 2 <= 1.
Proof.
  split.
  - pose proof (exp_ineq1_le (- ln 2)) as I. rewrite exp_Ropp, exp_ln in I by lra. lra.
  - pose proof (exp_ineq1_le (ln 2)) as I. rewrite exp_ln in I by lra. lra.
Qed.

Lemma bpow_ln e : bpow radix2 e = exp (IZR e * ln 2).
Proof. rewrite bpow_exp. reflexivity. Qed.

Lemma exp_mono x y : x <= y -> exp x <= exp y.
Proof. intros [H| ->]; [left; apply exp_increasing; exact H|lra]. Qed.

Lemma ln_mono x y : 0 < x -> x <= y -> ln x <= ln y.
Proof. intros H [Q| ->]; [left; apply ln_increasing; lra|lra]. Qed.

Lemma ln_bpow e : ln (bpow radix2 e) = IZR e * ln 2.
Proof. rewrite bpow_ln, ln_exp. reflexivity. Qed.

Lemma ln_le_sub x : 0 < x -> ln x <= x - 1.
Proof. intros H. pose proof (exp_ineq1_le (ln x)) as I. rewrite exp_ln in I by lra. lra. Qed.

Lemma ln_ge_sub x : 0 < x -> 1 - / x <= ln x.
Proof.
  intros H. pose proof (exp_ineq1_le (- ln x)) as I. rewrite exp_Ropp, exp_ln in I by lra. lra.
Qed.

Notation Lam := (129 * ln 2).
Notation c38 := (/ 274877906944).

(** The outer pow of the mean: whichever sign, the exponent is +-1/q (1 + e). *)
Lemma outer_pow s y q w e : 0 < s -> bpow radix2 (-40) <= q <= 4 -> Rabs e <= u53 ->
  w <= q * Lam + 2 * c38 -> y * ln s = (1 / q) * (1 + e) * w -> Rpower s y <= bpow radix2 147.
Proof.
  intros Hs Hq He Hw Hy. unfold Rpower. rewrite Hy, bpow_ln. apply exp_mono.
  pose proof ln2_range as [L1 L2]. change (bpow radix2 (-40)) with (/ 1099511627776) in Hq.
  pose proof u53_small as [_ U]. apply Rabs_le_inv in He.
  assert (I : 0 < 1 / q <= 1099511627776).
  { unfold Rdiv. rewrite Rmult_1_l. split; [apply Rinv_0_lt_compat; lra|].
    rewrite <- (Rinv_inv 1099511627776). apply Rinv_le; lra. }
  apply Rle_trans with ((1 + e) * (1 / q * (q * Lam + 2 * c38))).
  - replace ((1 / q) * (1 + e) * w) with ((1 + e) * (1 / q * w)) by ring. apply Rmult_le_compat_l; [lra|]. apply Rmult_le_compat_l; lra.
  - replace (1 / q * (q * Lam + 2 * c38)) with (Lam + 2 * c38 * (1 / q)) by (field; lra).
    assert (T : 2 * c38 * (1 / q) <= 8) by lra. assert (T0 : 0 <= 2 * c38 * (1 / q)) by lra.
    set (z := 2 * c38 * (1 / q)) in *. nra.
Qed.

Section Mean.
Variable L : Libm.
Hypothesis HP : accurate_pow L.

Lemma big516 q : 0 <= q <= 4 -> exp (q * Lam) <= bpow radix2 516.
Proof. intros H. rewrite bpow_ln. apply exp_mono. pose proof ln2_range as [L1 L2]. nra. Qed.

Lemma half_lit : is_finite (f64_lit 5 (-1)) = true /\ B2R (f64_lit 5 (-1)) = / 2.
Proof. exact half_v. Qed.

Lemma one_lit : is_finite (f64_lit 1 0) = true /\ B2R (f64_lit 1 0) = 1.
Proof. split; [reflexivity|]. rewrite (B2R_SF _ (SpecFloat.S754_finite false 4503599627370496 (-52))) by (vm_compute; reflexivity). cbn [SF2R cond_Zopp]. unfold F2R. cbn [Fnum Fexp]. change (bpow radix2 (-52)) with (/ 4503599627370496). lra. Qed.

(** .5 * (ra + rb) *)
Lemma half_sum (ra rb : f64) lo hi :
  is_finite ra = true -> is_finite rb = true -> 0 <= lo -> lo <= B2R ra <= hi -> lo <= B2R rb <= hi -> hi <= bpow radix2 600 ->
  let s := f64_mul (f64_lit 5 (-1)) (f64_add ra rb) in
  is_finite s = true /\ lo * (1 - 3 * u53) - bpow radix2 (-1075) <= B2R s <= hi * (1 + 3 * u53) + bpow radix2 (-1075) /\ 0 <= B2R s.
Proof.
  intros Fa Fb H0 Ha Hb Hh s. destruct half_v as [Fh Vh].
  assert (T : hi + hi <= bpow radix2 601) by (change 601%Z with (1 + 600)%Z; rewrite bpow_plus; change (bpow radix2 1) with 2; lra).
  assert (T2 : bpow radix2 601 <= bpow radix2 1000) by (apply bpow_le; lia).
  destruct (add_ok ra rb Fa Fb) as (Ea & Fs & _); [rewrite Rabs_pos_eq; lra|].
  destruct (rnd_plus_rel (B2R ra) (B2R rb) (rep_B2R ra) (rep_B2R rb)) as (e & He & Re). rewrite Re in Ea.
  pose proof u53_small as [U0 U1]. apply Rabs_le_inv in He.
  set (t := f64_add ra rb) in *. set (x := B2R ra + B2R rb) in *.
  assert (X : 2 * lo <= x <= 2 * hi) by (unfold x; lra).
  assert (TT : 0 <= B2R t <= 2 * bpow radix2 601) by (rewrite Ea; split; [apply Rmult_le_pos; lra|nra]).
  assert (T3 : bpow radix2 601 * 2 <= bpow radix2 1000) by (apply Rle_trans with (bpow radix2 602); [change 602%Z with (601 + 1)%Z; rewrite bpow_plus; change (bpow radix2 1) with 2; lra|apply bpow_le; lia]).
  destruct (mul_ok (f64_lit 5 (-1)) t Fh Fs) as (Em & Fm & _); [rewrite Vh, Rabs_pos_eq; lra|].
  rewrite Vh in Em. fold s in Em, Fm. destruct (rnd_err (/ 2 * B2R t)) as (e2 & h & He2 & Hh2 & R2).
  split; [exact Fm|]. split; [|rewrite Em; apply rnd_nonneg; lra]. rewrite Em, R2, Ea. apply Rabs_le_inv in He2, Hh2.
  assert (W : 1 - 3 * u53 <= (1 + e) * (1 + e2) <= 1 + 3 * u53) by (set (u := u53) in *; nra).
  replace (/ 2 * (x * (1 + e)) * (1 + e2)) with (x / 2 * ((1 + e) * (1 + e2))) by field.
  set (w := (1 + e) * (1 + e2)) in *. set (u := u53) in *. split.
  - assert (lo * (1 - 3 * u) <= x / 2 * w) by (apply Rmult_le_compat; lra). lra.
  - assert (x / 2 * w <= hi * (1 + 3 * u)) by (apply Rmult_le_compat; lra). lra.
Qed.

Lemma recip_ok (p : f64) : is_finite p = true -> bpow radix2 (-40) <= Rabs (B2R p) <= 4 ->
  exists e, Rabs e <= u53 /\ is_finite (f64_div (f64_lit 1 0) p) = true /\ B2R (f64_div (f64_lit 1 0) p) = 1 / B2R p * (1 + e).
Proof.
  intros Fp Hp. destruct one_lit as [F1 V1]. change (bpow radix2 (-40)) with (/ 1099511627776) in Hp.
  assert (N0 : B2R p <> 0) by (intros Z; rewrite Z, Rabs_R0 in Hp; lra).
  assert (A : / 4 <= Rabs (1 / B2R p) <= 1099511627776).
  { unfold Rdiv. rewrite Rmult_1_l, Rabs_inv. split; [apply Rinv_le; lra|]. rewrite <- (Rinv_inv 1099511627776). apply Rinv_le; lra. }
  destruct (div_ok (f64_lit 1 0) p F1) as (E & F & _); [exact N0| |].
  - rewrite V1. eapply Rle_trans; [apply A|]. change 1099511627776 with (bpow radix2 40). apply bpow_le. lia.
  - rewrite V1 in E. destruct (rnd_rel (1 / B2R p)) as (e & He & Re).
    + apply Rle_trans with (/ 4); [|lra]. change (/ 4) with (bpow radix2 (-2)). apply bpow_le. lia.
    + exists e. rewrite E, Re. auto.
Qed.

Lemma close_of r v : Rabs (r - v) <= bpow radix2 (-40) * v + bpow radix2 (-1000) -> bpow radix2 (-600) <= v ->
  v * (1 - 2 * bpow radix2 (-40)) <= r <= v * (1 + 2 * bpow radix2 (-40)).
Proof.
  intros H Hv. apply Rabs_le_inv in H.
  assert (bpow radix2 (-1000) <= bpow radix2 (-40) * v).
  { apply Rle_trans with (bpow radix2 (-40) * bpow radix2 (-600)); [rewrite <- bpow_plus; apply bpow_le; lia|apply Rmult_le_compat_l; [apply bpow_ge_0|exact Hv]]. }
  lra.
Qed.

Lemma final_pow (s y : f64) : is_finite s = true -> is_finite y = true -> 0 < B2R s -> Rpower (B2R s) (B2R y) <= bpow radix2 147 ->
  upto (m_pow L s y) (bpow radix2 148).
Proof.
  intros Fs Fy Hs HB. destruct (HP s y Fs Fy) as [Q _].
  destruct Q as (F & P & E); [exact Hs|eapply Rle_trans; [exact HB|apply bpow_le; lia]|].
  split; [exact F|]. split; [exact P|]. apply Rabs_le_inv in E.
  change 148%Z with (1 + 147)%Z. rewrite bpow_plus. change (bpow radix2 1) with 2.
  change (bpow radix2 (-40)) with (/ 1099511627776) in E.
  assert (bpow radix2 (-1000) <= 1) by (change 1 with (bpow radix2 0); apply bpow_le; lia).
  assert (4 <= bpow radix2 147) by (change 4 with (bpow radix2 2); apply bpow_le; lia).
  lra.
Qed.

Lemma positive_upto (p a b : f64) : is_finite p = true -> bpow radix2 (-40) <= B2R p <= 4 ->
  upto a (bpow radix2 129) -> upto b (bpow radix2 129) ->
  upto (positive_pmean (A:=FA L) p a b) (bpow radix2 148).
Proof.
  intros Fp Hp Ha Hb. pose proof ln2_range as [L1 L2].
  assert (p0 : 0 < B2R p) by (pose proof (bpow_gt_0 radix2 (-40)); lra).
  set (M := exp (B2R p * Lam)).
  assert (M1 : 1 <= M) by (unfold M; rewrite <- exp_0; apply exp_mono; nra).
  assert (M2 : M <= bpow radix2 516) by (apply big516; lra).
  assert (inner : forall c, upto c (bpow radix2 129) -> is_finite (m_pow L c p) = true /\ 0 <= B2R (m_pow L c p) <= M * (1 + 2 * bpow radix2 (-40))).
  { intros c [Fc Bc]. destruct (HP c p Fc Fp) as [Q1 Q2]. change (bpow radix2 (-40)) with (/ 1099511627776) in *.
    destruct (Req_dec (B2R c) 0) as [Z|NZ].
    - destruct (Q2 Z p0) as [F V]. rewrite V. split; [exact F|lra].
    - assert (R : Rpower (B2R c) (B2R p) <= M).
      { unfold Rpower, M. apply exp_mono. apply Rmult_le_compat_l; [lra|]. change 129 with (IZR 129). rewrite <- ln_bpow. apply ln_mono; lra. }
      destruct Q1 as (F & P & E); [lra|eapply Rle_trans; [exact R|]; eapply Rle_trans; [exact M2|apply bpow_le; lia]|].
      split; [exact F|]. apply Rabs_le_inv in E.
      assert (bpow radix2 (-1000) <= / 1099511627776) by (change (/ 1099511627776) with (bpow radix2 (-40)); apply bpow_le; lia).
      lra. }
  destruct (inner a Ha) as [Fra Bra]. destruct (inner b Hb) as [Frb Brb].
  change (bpow radix2 (-40)) with (/ 1099511627776) in Bra, Brb.
  unfold positive_pmean. change (npow (FA L)) with (m_pow L). change (nadd (FA L)) with f64_add. change (nmul (FA L)) with f64_mul. change (ndiv (FA L)) with f64_div. change (nlit (FA L)) with f64_lit.
  destruct (half_sum _ _ 0 (M * (1 + 2 * / 1099511627776)) Fra Frb ltac:(lra) Bra Brb) as (Fs & Bs & Ps).
  { apply Rle_trans with (2 * bpow radix2 516); [lra|]. change 2 with (bpow radix2 1). rewrite <- bpow_plus. apply bpow_le. lia. }
  set (s := f64_mul _ _) in *.
  destruct (recip_ok p Fp) as (e & He & Fy & Ey). { rewrite Rabs_pos_eq; lra. }
  set (y := f64_div _ _) in *. 
  destruct (Req_dec (B2R s) 0) as [Z|NZ].
  - destruct (HP s y Fs Fy) as [_ Q]. destruct Q as [F V]; [exact Z| |].
    + rewrite Ey. pose proof u53_small as [_ U]. apply Rabs_le_inv in He. apply Rmult_lt_0_compat; [|lra]. unfold Rdiv. rewrite Rmult_1_l. apply Rinv_0_lt_compat. exact p0.
    + split; [exact F|]. rewrite V. pose proof (bpow_ge_0 radix2 148). lra.
  - apply final_pow; auto; [lra|].
    apply outer_pow with (q := B2R p) (w := ln (B2R s)) (e := e); auto; [lra| |rewrite Ey; ring].
    apply Rle_trans with (ln (M * (1 + 2 * c38))).
    + apply ln_mono; [lra|]. eapply Rle_trans; [apply Bs|]. pose proof u53_small as [U0 U1].
      assert (bpow radix2 (-1075) <= / 1099511627776) by (change (/ 1099511627776) with (bpow radix2 (-40)); apply bpow_le; lia).
      set (u := u53) in *. nra.
    + rewrite ln_mult by lra. unfold M at 1. rewrite ln_exp. pose proof (ln_le_sub (1 + 2 * c38) ltac:(lra)). lra.
Qed.

Lemma negative_upto (p a b : f64) : is_finite p = true -> - 4 <= B2R p <= - bpow radix2 (-40) ->
  upto a (bpow radix2 129) -> upto b (bpow radix2 129) ->
  upto (negative_pmean (A:=FA L) p a b) (bpow radix2 148).
Proof.
  intros Fp Hp Ha Hb. pose proof ln2_range as [L1 L2]. destruct tiny_v as [Ft Bt].
  unfold negative_pmean. change (@Event.tiny (FA L)) with (f64_lit 1 (-12)).
  change (nltb (FA L)) with f64_ltb. change (nlit (FA L) 0 0) with f64_zero.
  destruct (f64_ltb a (f64_lit 1 (-12)) || f64_ltb b (f64_lit 1 (-12)))%bool eqn:G.
  { split; [reflexivity|]. change (B2R f64_zero) with 0. pose proof (bpow_ge_0 radix2 148). lra. }
  apply orb_false_iff in G. destruct G as [Ga Gb]. rewrite ltb_ok in Ga, Gb by (auto; apply Ha || apply Hb).
  destruct (Rlt_bool_spec (B2R a) (B2R (f64_lit 1 (-12)))) as [|Ga']; [discriminate|]. destruct (Rlt_bool_spec (B2R b) (B2R (f64_lit 1 (-12)))) as [|Gb']; [discriminate|].
  pose proof (bpow_gt_0 radix2 (-40)) as t0.
  set (q := - B2R p). assert (Hq : bpow radix2 (-40) <= q <= 4) by (unfold q; lra).
  set (m := exp (- (q * Lam))).
  assert (m1 : m <= 1) by (unfold m; rewrite <- exp_0; apply exp_mono; nra).
  assert (m2 : bpow radix2 (-516) <= m).
  { unfold m. rewrite bpow_ln. apply exp_mono. nra. }
  assert (m0 : 0 < m) by apply exp_pos.
  assert (inner : forall c, upto c (bpow radix2 129) -> B2R (f64_lit 1 (-12)) <= B2R c ->
     is_finite (m_pow L c p) = true /\ m * (1 - 2 * bpow radix2 (-40)) <= B2R (m_pow L c p) <= bpow radix2 161).
  { intros c [Fc Bc] Gc. destruct (HP c p Fc Fp) as [Q1 _].
    assert (c0 : bpow radix2 (-40) <= B2R c) by lra.
    assert (l1 : ln (B2R c) <= Lam) by (change 129 with (IZR 129); rewrite <- ln_bpow; apply ln_mono; lra).
    assert (l2 : - 40 * ln 2 <= ln (B2R c)) by (change (-40) with (IZR (-40)); rewrite <- ln_bpow; apply ln_mono; lra).
    assert (R : m <= Rpower (B2R c) (B2R p) <= bpow radix2 160).
    { unfold Rpower, m. rewrite bpow_ln. replace (B2R p) with (- q) by (unfold q; ring). split; apply exp_mono; nra. }
    destruct Q1 as (F & P & E); [lra|eapply Rle_trans; [apply R|apply bpow_le; lia]|].
    split; [exact F|]. apply close_of in E; [|apply Rle_trans with (bpow radix2 (-516)); [apply bpow_le; lia|lra]].
    change (bpow radix2 (-40)) with (/ 1099511627776) in *. change 161%Z with (1 + 160)%Z. rewrite bpow_plus. change (bpow radix2 1) with 2.
    assert (0 < bpow radix2 160) by apply bpow_gt_0. split; [|lra].
    eapply Rle_trans; [|apply E]. apply Rmult_le_compat_r; lra. }
  destruct (inner a Ha Ga') as [Fra Bra]. destruct (inner b Hb Gb') as [Frb Brb].
  unfold positive_pmean. change (npow (FA L)) with (m_pow L). change (nadd (FA L)) with f64_add. change (nmul (FA L)) with f64_mul. change (ndiv (FA L)) with f64_div. change (nlit (FA L)) with f64_lit.
  assert (m3 : 0 <= m * (1 - 2 * bpow radix2 (-40))) by (change (bpow radix2 (-40)) with (/ 1099511627776); nra).
  destruct (half_sum _ _ _ _ Fra Frb m3 Bra Brb) as (Fs & Bs & Ps); [apply bpow_le; lia|].
  set (s := f64_mul _ _) in *.
  destruct (recip_ok p Fp) as (e & He & Fy & Ey). { rewrite Rabs_left by lra. fold q. lra. }
  set (y := f64_div _ _) in *. pose proof u53_small as [U0 U1].
  assert (S0 : m * (1 - c38) <= B2R s).
  { eapply Rle_trans; [|apply Bs]. change (bpow radix2 (-40)) with (/ 1099511627776).
    assert (bpow radix2 (-1075) <= / 1000000000000 * m).
    { apply Rle_trans with (bpow radix2 (-40) * bpow radix2 (-516)); [rewrite <- bpow_plus; apply bpow_le; lia|].
      change (bpow radix2 (-40)) with (/ 1099511627776). apply Rmult_le_compat; [lra|apply bpow_ge_0|lra|lra]. }
    set (u := u53) in *. nra. }
  assert (Sp : 0 < B2R s) by (apply Rlt_le_trans with (2 := S0); nra).
  apply final_pow; auto.
  apply outer_pow with (q := q) (w := - ln (B2R s)) (e := e); auto.
  - assert (LL : ln (m * (1 - c38)) <= ln (B2R s)) by (apply ln_mono; [nra|exact S0]).
    rewrite ln_mult in LL by lra. unfold m in LL. rewrite ln_exp in LL.
    pose proof (ln_ge_sub (1 - c38) ltac:(lra)) as LG. lra.
  - rewrite Ey. unfold q. field. unfold q in Hq. lra.
Qed.

Lemma gen_mean_upto (p a b : f64) : is_finite p = true -> Rabs (B2R p) <= 4 ->
  upto a (bpow radix2 129) -> upto b (bpow radix2 129) ->
  upto (gen_mean (A:=FA L) (choose_mean (A:=FA L) p) a b) (bpow radix2 148).
Proof.
  intros Fp Hp Ha Hb. destruct tiny_v as [Ft Bt]. unfold choose_mean.
  change (@Event.tiny (FA L)) with (f64_lit 1 (-12)). change (nltb (FA L)) with f64_ltb. change (nabs (FA L) p) with (Babs p). change (nlit (FA L) 0 0) with f64_zero.
  assert (Fa : is_finite (Babs p) = true) by (rewrite is_finite_Babs; exact Fp).
  rewrite ltb_ok, B2R_Babs by auto.
  destruct (Rlt_bool_spec (Rabs (B2R p)) (B2R (f64_lit 1 (-12)))) as [T|T].
  - cbn [gen_mean]. unfold geometric_mean. change (nsqrt (FA L)) with f64_sqrt. change (nmul (FA L)) with f64_mul.
    eapply upto_le; [apply (upto_sqrt _ 129); [|lia]|apply bpow_le; lia]. apply upto_mul; auto. lia.
  - rewrite ltb_ok by auto. change (B2R f64_zero) with 0.
    destruct (Rlt_bool_spec 0 (B2R p)) as [S0|S0]; cbn [gen_mean].
    + rewrite Rabs_pos_eq in T, Hp by lra. apply positive_upto; auto. lra.
    + rewrite Rabs_left1 in T, Hp by lra. apply negative_upto; auto. lra.
Qed.

End Mean.
