(** Accuracy of the generalized mean in binary64. *)
From Coq Require Import ZArith Reals Lra Lia Bool List Psatz String.
From Flocq Require Import Core BinarySingleNaN Relative Mult_error.
From Verif.Base Require Import Result Arith FArith.
From Verif.Model Require Import Config Nucleon Event.
From Verif.Spec Require Import Grid Finite Mean MeanRounded.
From Verif.Proof Require Import Basics RBasics Ieee IeeeInt IeeeSum IeeeEcc IeeeThick IeeeMean.
From Verif.Properties Require Import ImpactIeee ThicknessIeee.
Import ListNotations.
Local Open Scope R_scope.

Lemma exp_close d D : Rabs d <= D -> D <= / 2 -> Rabs (exp d - 1) <= 2 * D.
Proof.
  intros H HD. pose proof (Rabs_pos d). apply Rabs_le_inv in H. pose proof (exp_ineq1_le d) as I.
  pose proof (exp_ineq1_le (- d)) as J. rewrite exp_Ropp in J. pose proof (exp_pos d) as P.
  assert (K : exp d * (1 - d) <= 1).
  { apply Rmult_le_reg_l with (/ exp d); [apply Rinv_0_lt_compat; exact P|]. rewrite <- Rmult_assoc, Rinv_l by lra. lra. }
  apply Rabs_le. split; [lra|].
  assert (exp d * (1 - D) <= 1) by (eapply Rle_trans; [|exact K]; apply Rmult_le_compat_l; lra).
  assert (exp d <= 2).
  { apply Rmult_le_reg_r with (/ 2); [lra|]. apply Rle_trans with (exp d * (1 - D)); [apply Rmult_le_compat_l; lra|lra]. }
  nra.
Qed.

Lemma ln_close s s' k : 0 < s -> Rabs (s' - s) <= k * s -> 0 <= k <= / 2 -> 0 < s' /\ Rabs (ln s' - ln s) <= 2 * k.
Proof.
  intros Hs H Hk. apply Rabs_le_inv in H. assert (Hs' : 0 < s') by nra. split; [exact Hs'|].
  assert (Q : s' / s <= 1 + k /\ 1 - k <= s' / s).
  { split; (apply Rmult_le_reg_r with s; [exact Hs|]; unfold Rdiv; rewrite Rmult_assoc, Rinv_l, Rmult_1_r by lra; lra). }
  replace (ln s' - ln s) with (ln (s' / s)) by (unfold Rdiv; rewrite ln_mult, ln_Rinv by (try apply Rinv_0_lt_compat; lra); ring). set (z := s' / s) in *. assert (z0 : 0 < z) by lra.
  pose proof (ln_le_sub z z0) as U. pose proof (ln_ge_sub z z0) as W. apply Rabs_le. split; [|lra].
  assert (/ z <= 1 + 2 * k); [|lra]. apply Rmult_le_reg_r with z; [exact z0|]. rewrite Rinv_l by lra. nra.
Qed.

Lemma outer_close s s' y p e : 0 < s -> Rabs (s' - s) <= bpow radix2 (-39) * s -> Rabs (ln s) <= 1000 ->
  bpow radix2 (-30) <= Rabs p <= 4 -> Rabs e <= u53 -> y = 1 / p * (1 + e) ->
  Rabs (Rpower s' y - Rpower s (1 / p)) <= bpow radix2 (-36) / Rabs p * Rpower s (1 / p).
Proof.
  intros Hs Hd Hl Hp He Hy. change (bpow radix2 (-39)) with (/ 549755813888) in Hd.
  change (bpow radix2 (-30)) with (/ 1073741824) in Hp. change (bpow radix2 (-36)) with (/ 68719476736).
  assert (He' : Rabs e <= / 9007199254740992) by exact He. clear He.
  destruct (ln_close s s' _ Hs Hd ltac:(lra)) as [Hs' HL].
  assert (p0 : p <> 0) by (intros Z; rewrite Z, Rabs_R0 in Hp; lra). assert (p1 : 0 < Rabs p) by lra.
  unfold Rpower. set (dl := ln s' - ln s) in *.
  replace (y * ln s') with ((1 / p) * (e * ln s + (1 + e) * dl) + 1 / p * ln s) by (rewrite Hy; unfold dl; field; exact p0).
  rewrite exp_plus. set (M := exp (1 / p * ln s)). assert (M0 : 0 < M) by apply exp_pos.
  set (d := 1 / p * (e * ln s + (1 + e) * dl)).
  replace (exp d * M - M) with ((exp d - 1) * M) by ring. rewrite Rabs_mult, (Rabs_pos_eq M) by lra.
  apply Rmult_le_compat_r; [lra|].
  assert (D : Rabs d <= / Rabs p * / 137438953472).
  { unfold d. rewrite Rabs_mult. unfold Rdiv. rewrite Rmult_1_l, Rabs_inv. apply Rmult_le_compat_l; [apply Rlt_le, Rinv_0_lt_compat; exact p1|].
    eapply Rle_trans; [apply Rabs_triang|]. rewrite !Rabs_mult.
    assert (E1 : Rabs (1 + e) <= 2) by (apply Rabs_le; apply Rabs_le_inv in He'; lra).
    assert (E1' : Rabs (1 + e) <= 1 + / 1000) by (apply Rabs_le; apply Rabs_le_inv in He'; lra).
    pose proof (Rabs_pos e). pose proof (Rabs_pos (ln s)). pose proof (Rabs_pos dl). pose proof (Rabs_pos (1 + e)).
    apply Rle_trans with (/ 9007199254740992 * 1000 + (1 + / 1000) * (2 * / 549755813888)); [|lra].
    apply Rplus_le_compat; apply Rmult_le_compat; lra. }
  assert (I : 0 < / Rabs p <= 1073741824).
  { split; [apply Rinv_0_lt_compat; exact p1|]. rewrite <- (Rinv_inv 1073741824). apply Rinv_le; lra. }
  replace (/ 68719476736 / Rabs p) with (2 * (/ Rabs p * / 137438953472)) by (field; lra).
  apply exp_close; [exact D|]. lra.
Qed.

Section Mean.
Variable L : Libm.
Hypothesis HP : accurate_pow L.

(** The sum of the two inner powers. *)
Lemma half_close (ra rb : f64) A B :
  is_finite ra = true -> is_finite rb = true -> 0 <= A -> 0 <= B -> 0 <= B2R ra -> 0 <= B2R rb ->
  Rabs (B2R ra - A) <= bpow radix2 (-40) * A + bpow radix2 (-1000) ->
  Rabs (B2R rb - B) <= bpow radix2 (-40) * B + bpow radix2 (-1000) ->
  A <= bpow radix2 517 -> B <= bpow radix2 517 ->
  let s := f64_mul (f64_lit 5 (-1)) (f64_add ra rb) in
  is_finite s = true /\ 0 <= B2R s /\
  Rabs (B2R s - (A + B) / 2) <= / 1099511627776 * (1 + / 100) * ((A + B) / 2) + bpow radix2 (-998).
Proof.
  intros Fa Fb HA HB Pa Pb Ea Eb LA LB s. destruct half_v as [Fh Vh].
  change (bpow radix2 (-40)) with (/ 1099511627776) in Ea, Eb.
  assert (T0 : 0 < bpow radix2 (-1000)) by apply bpow_gt_0.
  assert (T1 : bpow radix2 (-1000) <= 1) by (change 1 with (bpow radix2 0); apply bpow_le; lia).
  assert (T2 : 1 <= bpow radix2 517) by (change 1 with (bpow radix2 0); apply bpow_le; lia).
  assert (T3 : bpow radix2 517 * 16 <= bpow radix2 1000) by (apply Rle_trans with (bpow radix2 521); [change 521%Z with (517 + 4)%Z; rewrite bpow_plus; change (bpow radix2 4) with 16; lra|apply bpow_le; lia]).
  pose proof Ea as Ea'. pose proof Eb as Eb'. apply Rabs_le_inv in Ea', Eb'.
  destruct (add_ok ra rb Fa Fb) as (Es & Fs & _); [rewrite Rabs_pos_eq; lra|].
  destruct (rnd_plus_rel (B2R ra) (B2R rb) (rep_B2R ra) (rep_B2R rb)) as (e & He & Re). rewrite Re in Es.
  pose proof u53_small as [U0 U1]. apply Rabs_le_inv in He. set (u := u53) in *.
  set (t := f64_add ra rb) in *. set (x := B2R ra + B2R rb) in *.
  assert (X : 0 <= x <= 5 * bpow radix2 517) by (unfold x; lra).
  assert (TT : 0 <= B2R t <= 10 * bpow radix2 517).
  { rewrite Es. split; [apply Rmult_le_pos; lra|]. apply Rle_trans with (5 * bpow radix2 517 * 2); [apply Rmult_le_compat; lra|lra]. }
  destruct (mul_ok (f64_lit 5 (-1)) t Fh Fs) as (Em & Fm & _); [rewrite Vh, Rabs_pos_eq; lra|].
  rewrite Vh in Em. fold s in Em, Fm. destruct (rnd_err (/ 2 * B2R t)) as (e2 & h & He2 & Hh2 & R2).
  split; [exact Fm|]. split; [rewrite Em; apply rnd_nonneg; lra|].
  rewrite Em, R2, Es. apply Rabs_le_inv in He2. fold u in He2.
  set (w := (1 + e) * (1 + e2) - 1). assert (W : Rabs w <= 3 * u) by (apply Rabs_le; unfold w; nra).
  set (S := (A + B) / 2). set (d := x / 2 - S).
  assert (Dd : Rabs d <= / 1099511627776 * S + bpow radix2 (-1000)) by (apply Rabs_le; unfold d, S, x; lra).
  replace (/ 2 * (x * (1 + e)) * (1 + e2) + h - S) with (d + (w * (S + d) + h)) by (unfold d, w; field).
  assert (HS : 0 <= S) by (unfold S; lra).
  assert (B1 : bpow radix2 (-998) = 4 * bpow radix2 (-1000)) by (change (-998)%Z with (2 + -1000)%Z; rewrite bpow_plus; reflexivity).
  assert (B2 : bpow radix2 (-1075) <= bpow radix2 (-1000)) by (apply bpow_le; lia). rewrite B1.
  assert (Wd : Rabs (w * (S + d)) <= 3 * u * (2 * S + bpow radix2 (-1000))).
  { rewrite Rabs_mult. apply Rmult_le_compat; try apply Rabs_pos; [exact W|]. eapply Rle_trans; [apply Rabs_triang|].
    rewrite (Rabs_pos_eq S) by exact HS. lra. }
  eapply Rle_trans; [apply Rabs_triang|]. pose proof (Rabs_triang (w * (S + d)) h) as TR.
  assert (F1 : 3 * u * (2 * S) <= / 10000000000000000 * 60 * S) by (replace (3 * u * (2 * S)) with ((6 * u) * S) by ring; apply Rmult_le_compat_r; lra).
  assert (F2 : 3 * u * bpow radix2 (-1000) <= 1 * bpow radix2 (-1000)) by (apply Rmult_le_compat_r; lra).
  set (b := bpow radix2 (-1000)) in *. set (b5 := bpow radix2 (-1075)) in *. lra.
Qed.

Lemma pow_inner (c p : f64) : is_finite c = true -> is_finite p = true -> 0 < B2R p \/ 0 < B2R c -> 0 <= B2R c ->
  (0 < B2R c -> Rpower (B2R c) (B2R p) <= bpow radix2 990) ->
  let v := if Req_EM_T (B2R c) 0 then 0 else Rpower (B2R c) (B2R p) in
  is_finite (m_pow L c p) = true /\ 0 <= B2R (m_pow L c p) /\ 0 <= v /\
  Rabs (B2R (m_pow L c p) - v) <= bpow radix2 (-40) * v + bpow radix2 (-1000).
Proof.
  intros Fc Fp S0 Hc HB v. destruct (HP c p Fc Fp) as [Q1 Q2]. unfold v. destruct (Req_EM_T (B2R c) 0) as [Z|NZ].
  - destruct (Q2 Z) as [F V]; [lra|]. rewrite V. split; [exact F|]. split; [lra|]. split; [lra|].
    rewrite Rminus_0_r, Rabs_R0. pose proof (bpow_ge_0 radix2 (-1000)). lra.
  - destruct Q1 as (F & P & E); [lra|apply HB; lra|]. split; [exact F|]. split; [exact P|]. split; [apply Rlt_le, exp_pos|exact E].
Qed.

Lemma outer_ok (s p : f64) (s0 : R) : is_finite s = true -> is_finite p = true ->
  bpow radix2 (-30) <= Rabs (B2R p) <= 4 -> 0 < s0 -> Rabs (B2R s - s0) <= bpow radix2 (-39) * s0 -> Rabs (ln s0) <= 1000 ->
  Rpower s0 (1 / B2R p) <= bpow radix2 200 ->
  close_to (bpow radix2 (-35) / Rabs (B2R p)) (bpow radix2 (-1000)) (m_pow L s (f64_div (f64_lit 1 0) p)) (Rpower s0 (1 / B2R p)).
Proof.
  intros Fs Fp Hp Hs Hd Hl HM.
  destruct (recip_ok p Fp) as (e & He & Fy & Ey). { split; [|apply Hp]. eapply Rle_trans; [|apply Hp]. apply bpow_le. lia. }
  set (y := f64_div _ _) in *. pose proof (outer_close _ _ _ _ _ Hs Hd Hl Hp He Ey) as OC.
  destruct (ln_close s0 (B2R s) _ Hs Hd) as [Sp _]. { change (bpow radix2 (-39)) with (/ 549755813888). lra. }
  set (R := Rpower (B2R s) (B2R y)) in *. set (M := Rpower s0 (1 / B2R p)) in *. assert (M0 : 0 < M) by apply exp_pos.
  set (q := Rabs (B2R p)) in *.
  change (bpow radix2 (-30)) with (/ 1073741824) in Hp. change (bpow radix2 (-36)) with (/ 68719476736) in OC.
  change (bpow radix2 (-35)) with (/ 34359738368).
  assert (I : / 4 <= / q <= 1073741824).
  { split; [apply Rinv_le; lra|]. rewrite <- (Rinv_inv 1073741824). apply Rinv_le; lra. }
  assert (C : / 68719476736 / q <= / 64) by (unfold Rdiv; lra).
  assert (OC' : Rabs (R - M) <= / 64 * M) by (eapply Rle_trans; [exact OC|]; apply Rmult_le_compat_r; lra).
  destruct (HP s y Fs Fy) as [Q _]. destruct Q as (F & P & E); [exact Sp| |].
  { fold R. apply Rabs_le_inv in OC'. apply Rle_trans with (2 * bpow radix2 200); [lra|]. change 2 with (bpow radix2 1). rewrite <- bpow_plus. apply bpow_le. lia. }
  fold R in E. split; [exact F|]. split; [exact P|]. change (bpow radix2 (-40)) with (/ 1099511627776) in E.
  replace (B2R (m_pow L s y) - M) with ((B2R (m_pow L s y) - R) + (R - M)) by ring.
  eapply Rle_trans; [apply Rabs_triang|]. apply Rabs_le_inv in OC'.
  assert (/ 1099511627776 * R <= / 68719476736 * / q * M).
  { apply Rle_trans with (/ 1099511627776 * 2 * M); [lra|]. apply Rmult_le_compat_r; [lra|].
    apply Rle_trans with (/ 68719476736 * / 4); [lra|]. apply Rmult_le_compat_l; lra. }
  replace (/ 34359738368 / q * M) with (/ 68719476736 * / q * M + / 68719476736 / q * M) by (unfold Rdiv; lra). lra.
Qed.

Lemma ln_range s : bpow radix2 (-1000) <= s <= bpow radix2 1000 -> Rabs (ln s) <= 1000.
Proof.
  intros H. pose proof (bpow_gt_0 radix2 (-1000)) as P. pose proof ln2_range as [L1 L2].
  assert (Q : ln (bpow radix2 (-1000)) <= ln s <= ln (bpow radix2 1000)) by (split; apply ln_mono; lra).
  rewrite !ln_bpow in Q. apply Rabs_le. lra.
Qed.

(** All three steps, when the mean of the powers is not too small. *)
Lemma pmean_close (p a b : f64) A B :
  is_finite p = true -> bpow radix2 (-30) <= Rabs (B2R p) <= 4 -> 
  is_finite (m_pow L a p) = true -> is_finite (m_pow L b p) = true ->
  0 <= A -> 0 <= B -> 0 <= B2R (m_pow L a p) -> 0 <= B2R (m_pow L b p) ->
  Rabs (B2R (m_pow L a p) - A) <= bpow radix2 (-40) * A + bpow radix2 (-1000) ->
  Rabs (B2R (m_pow L b p) - B) <= bpow radix2 (-40) * B + bpow radix2 (-1000) ->
  A <= bpow radix2 517 -> B <= bpow radix2 517 -> bpow radix2 (-940) <= (A + B) / 2 ->
  Rpower ((A + B) / 2) (1 / B2R p) <= bpow radix2 200 ->
  close_to (bpow radix2 (-35) / Rabs (B2R p)) (bpow radix2 (-1000)) (positive_pmean (A:=FA L) p a b) (Rpower ((A + B) / 2) (1 / B2R p)).
Proof.
  intros Fp Hp Fa Fb HA HB Pa Pb Ea Eb LA LB HS HM.
  destruct (half_close _ _ A B Fa Fb HA HB Pa Pb Ea Eb LA LB) as (Fs & Ps & Es).
  unfold positive_pmean. change (npow (FA L)) with (m_pow L). change (nadd (FA L)) with f64_add. change (nmul (FA L)) with f64_mul. change (ndiv (FA L)) with f64_div. change (nlit (FA L)) with f64_lit.
  pose proof (bpow_gt_0 radix2 (-940)) as P0. apply outer_ok; auto; [lra| |].
  - eapply Rle_trans; [exact Es|]. set (S := (A + B) / 2) in *. change (bpow radix2 (-39)) with (/ 549755813888).
    assert (bpow radix2 (-998) <= / 144115188075855872 * S).
    { apply Rle_trans with (bpow radix2 (-57) * bpow radix2 (-940)); [rewrite <- bpow_plus; apply bpow_le; lia|].
      change (bpow radix2 (-57)) with (/ 144115188075855872). apply Rmult_le_compat_l; lra. }
    lra.
  - apply ln_range. split.
    + eapply Rle_trans; [|exact HS]. apply bpow_le. lia.
    + apply Rle_trans with (bpow radix2 517); [lra|apply bpow_le; lia].
Qed.

Lemma close_weaken e e' d d' (x : f64) v : close_to e d x v -> 0 <= v -> e <= e' -> d <= d' -> close_to e' d' x v.
Proof. intros (F & P & E) Hv H1 H2. split; [exact F|]. split; [exact P|]. assert (e * v <= e' * v) by (apply Rmult_le_compat_r; lra). lra. Qed.

Lemma Rpower_le_max A B q K : 0 < q -> 0 <= A <= K -> 0 <= B <= K -> 0 < A + B -> Rpower ((A + B) / 2) q <= Rpower K q.
Proof. intros Hq HA HB HS. apply Rle_Rpower_l; [lra|]. lra. Qed.

Lemma Rpower_bpow e q : Rpower (bpow radix2 e) q = exp (q * (IZR e * ln 2)).
Proof. unfold Rpower. rewrite ln_bpow. reflexivity. Qed.

Lemma positive_close (p a b : f64) : is_finite p = true -> bpow radix2 (-30) <= B2R p <= 4 ->
  upto a (bpow radix2 129) -> upto b (bpow radix2 129) ->
  close_to (bpow radix2 (-35) / B2R p) (bpow radix2 (-200)) (positive_pmean (A:=FA L) p a b)
    (pow0 ((pow0 (B2R a) (B2R p) + pow0 (B2R b) (B2R p)) / 2) (1 / B2R p)).
Proof.
  intros Fp Hp [Fa Ba] [Fb Bb]. pose proof ln2_range as [L1 L2]. pose proof (bpow_gt_0 radix2 (-30)) as p1.
  assert (p0 : 0 < B2R p) by lra. assert (Pa : Rabs (B2R p) = B2R p) by (apply Rabs_pos_eq; lra).
  assert (M2 : forall c, 0 < c <= bpow radix2 129 -> Rpower c (B2R p) <= Rpower (bpow radix2 129) (B2R p)).
  { intros c Hc. apply Rle_Rpower_l; lra. }
  assert (M3 : Rpower (bpow radix2 129) (B2R p) <= bpow radix2 516).
  { rewrite Rpower_bpow, bpow_ln. apply exp_mono. change (IZR 129) with 129. nra. }
  assert (B516 : bpow radix2 516 <= bpow radix2 990) by (apply bpow_le; lia).
  destruct (pow_inner a p Fa Fp (or_introl p0) (proj1 Ba)) as (F1 & P1 & V1 & E1).
  { intros Q. pose proof (M2 (B2R a) ltac:(lra)). lra. }
  destruct (pow_inner b p Fb Fp (or_introl p0) (proj1 Bb)) as (F2 & P2 & V2 & E2).
  { intros Q. pose proof (M2 (B2R b) ltac:(lra)). lra. }
  unfold pow0 at 2 3. cbv zeta in V1, E1, V2, E2.
  assert (UA : (if Req_EM_T (B2R a) 0 then 0 else Rpower (B2R a) (B2R p)) <= Rpower (bpow radix2 129) (B2R p)).
  { destruct (Req_EM_T (B2R a) 0); [apply Rlt_le, exp_pos|apply M2; lra]. }
  assert (UB : (if Req_EM_T (B2R b) 0 then 0 else Rpower (B2R b) (B2R p)) <= Rpower (bpow radix2 129) (B2R p)).
  { destruct (Req_EM_T (B2R b) 0); [apply Rlt_le, exp_pos|apply M2; lra]. }
  set (A := if Req_EM_T (B2R a) 0 then 0 else _) in *. set (B := if Req_EM_T (B2R b) 0 then 0 else _) in *.
  set (K := Rpower (bpow radix2 129) (B2R p)) in *.
  assert (B517 : bpow radix2 516 <= bpow radix2 517) by (apply bpow_le; lia).
  assert (IQ : / 4 <= 1 / B2R p).
  { unfold Rdiv. rewrite Rmult_1_l. apply Rinv_le; lra. }
  assert (G0 : 0 < 1 / B2R p) by lra.
  destruct (Rle_lt_dec (bpow radix2 (-940)) ((A + B) / 2)) as [Big|Small].
  - pose proof (bpow_gt_0 radix2 (-940)) as P0.
    unfold pow0. destruct (Req_EM_T ((A + B) / 2) 0) as [Z|_]; [lra|].
    apply close_weaken with (1 := pmean_close p a b A B Fp ltac:(rewrite Pa; lra) F1 F2 V1 V2 P1 P2 E1 E2 ltac:(lra) ltac:(lra) Big ltac:(idtac;
      apply Rle_trans with (Rpower K (1 / B2R p)); [apply Rpower_le_max; lra|unfold K; rewrite Rpower_mult; replace (B2R p * (1 / B2R p)) with 1 by (field; lra); rewrite Rpower_1 by apply bpow_gt_0; apply bpow_le; lia])).
    + apply Rlt_le, exp_pos.
    + rewrite Pa. lra.
    + apply bpow_le. lia.
  - (* underflow *)
    destruct (half_close _ _ A B F1 F2 V1 V2 P1 P2 E1 E2 ltac:(lra) ltac:(lra)) as (Fs & Ps & Es).
    unfold positive_pmean. change (npow (FA L)) with (m_pow L). change (nadd (FA L)) with f64_add. change (nmul (FA L)) with f64_mul. change (ndiv (FA L)) with f64_div. change (nlit (FA L)) with f64_lit.
    set (s := f64_mul _ _) in *. set (S := (A + B) / 2) in *. assert (S0 : 0 <= S) by (unfold S; lra).
    assert (Sb : B2R s <= bpow radix2 (-939)).
    { apply Rabs_le_inv in Es. change (-939)%Z with (1 + -940)%Z. rewrite bpow_plus. change (bpow radix2 1) with 2.
      assert (bpow radix2 (-998) <= / 2 * bpow radix2 (-940)) by (change (/ 2) with (bpow radix2 (-1)); rewrite <- bpow_plus; apply bpow_le; lia). lra. }
    destruct (recip_ok p Fp) as (e & He & Fy & Ey). { rewrite Pa. split; [|lra]. eapply Rle_trans; [|apply Hp]. apply bpow_le. lia. }
    set (y := f64_div _ _) in *.
    assert (y4 : 23 / 100 <= B2R y).
    { rewrite Ey. apply Rabs_le_inv in He. pose proof u53_small as [_ U]. assert (/ 4 * (1 - / 1000) <= 1 / B2R p * (1 + e)) by (apply Rmult_le_compat; lra). lra. }
    assert (Low : forall z q, 0 < z <= bpow radix2 (-939) -> 23 / 100 <= q -> Rpower z q <= bpow radix2 (-210)).
    { intros z q Hz Hq. apply Rle_trans with (exp (q * (-939 * ln 2))).
      - unfold Rpower. apply exp_mono. apply Rmult_le_compat_l; [lra|]. change (-939) with (IZR (-939)). rewrite <- ln_bpow. apply ln_mono; lra.
      - rewrite bpow_ln. apply exp_mono. change (IZR (-210)) with (-210). nra. }
    assert (Mb : 0 <= pow0 S (1 / B2R p) <= bpow radix2 (-210)).
    { unfold pow0. destruct (Req_EM_T S 0); [pose proof (bpow_ge_0 radix2 (-210)); lra|]. split; [apply Rlt_le, exp_pos|]. apply Low; [|lra].
      split; [lra|]. apply Rle_trans with (bpow radix2 (-940)); [lra|apply bpow_le; lia]. }
    assert (Rb : is_finite (m_pow L s y) = true /\ 0 <= B2R (m_pow L s y) <= bpow radix2 (-208)).
    { destruct (HP s y Fs Fy) as [Q1 Q2]. destruct (Req_EM_T (B2R s) 0) as [Z|NZ].
      - destruct (Q2 Z) as [F V]; [lra|]. rewrite V. pose proof (bpow_ge_0 radix2 (-208)). split; [exact F|lra].
      - pose proof (Low (B2R s) (B2R y) ltac:(lra) y4) as LL.
        destruct Q1 as (F & P & E); [lra|eapply Rle_trans; [exact LL|apply bpow_le; lia]|]. split; [exact F|]. split; [exact P|].
        apply Rabs_le_inv in E. change (bpow radix2 (-40)) with (/ 1099511627776) in E.
        change (-208)%Z with (2 + -210)%Z. rewrite bpow_plus. change (bpow radix2 2) with 4.
        assert (bpow radix2 (-1000) <= bpow radix2 (-210)) by (apply bpow_le; lia). pose proof (bpow_gt_0 radix2 (-210)). lra. }
    destruct Rb as [Fr Br]. split; [exact Fr|]. split; [apply Br|].
    assert (C : 0 <= bpow radix2 (-35) / B2R p * pow0 S (1 / B2R p)).
    { apply Rmult_le_pos; [|apply Mb]. unfold Rdiv. apply Rmult_le_pos; [apply bpow_ge_0|]. apply Rlt_le, Rinv_0_lt_compat. exact p0. }
    apply Rle_trans with (bpow radix2 (-200)); [|lra].
    assert (bpow radix2 (-210) + bpow radix2 (-208) <= bpow radix2 (-200)).
    { change (-208)%Z with (2 + -210)%Z. change (-200)%Z with (10 + -210)%Z. rewrite !bpow_plus. change (bpow radix2 2) with 4. change (bpow radix2 10) with 1024. pose proof (bpow_gt_0 radix2 (-210)). lra. }
    apply Rabs_le. lra.
Qed.

Lemma negative_close (p a b : f64) : is_finite p = true -> - 4 <= B2R p <= - bpow radix2 (-30) ->
  upto a (bpow radix2 129) -> upto b (bpow radix2 129) -> threshold <= B2R a -> threshold <= B2R b ->
  close_to (bpow radix2 (-35) / Rabs (B2R p)) (bpow radix2 (-1000)) (positive_pmean (A:=FA L) p a b)
    (Rpower ((Rpower (B2R a) (B2R p) + Rpower (B2R b) (B2R p)) / 2) (1 / B2R p)).
Proof.
  intros Fp Hp [Fa Ba] [Fb Bb] Ta Tb. pose proof ln2_range as [L1 L2]. pose proof (bpow_gt_0 radix2 (-30)) as p1.
  assert (Pa : Rabs (B2R p) = - B2R p) by (apply Rabs_left; lra). destruct tiny_v as [_ Bt].
  fold threshold in Bt. pose proof (bpow_gt_0 radix2 (-40)) as t0.
  assert (R : forall c, threshold <= c <= bpow radix2 129 -> bpow radix2 (-516) <= Rpower c (B2R p) <= bpow radix2 160).
  { intros c Hc.
    assert (l1 : ln c <= Lam) by (change 129 with (IZR 129); rewrite <- ln_bpow; apply ln_mono; lra).
    assert (l2 : - 40 * ln 2 <= ln c) by (change (-40) with (IZR (-40)); rewrite <- ln_bpow; apply ln_mono; lra).
    unfold Rpower. rewrite !bpow_ln. change (IZR (-516)) with (-516). change (IZR 160) with 160. split; apply exp_mono; nra. }
  pose proof (R (B2R a) ltac:(lra)) as RA. pose proof (R (B2R b) ltac:(lra)) as RB.
  assert (B160 : bpow radix2 160 <= bpow radix2 517 /\ bpow radix2 160 <= bpow radix2 990) by (split; apply bpow_le; lia).
  destruct (pow_inner a p Fa Fp ltac:(right; lra) (proj1 Ba)) as (F1 & P1 & V1 & E1); [lra|].
  destruct (pow_inner b p Fb Fp ltac:(right; lra) (proj1 Bb)) as (F2 & P2 & V2 & E2); [lra|].
  cbv zeta in *. destruct (Req_EM_T (B2R a) 0) as [Z|_]; [lra|]. destruct (Req_EM_T (B2R b) 0) as [Z|_]; [lra|].
  apply pmean_close; auto; [lra|lra|lra| |].
  - apply Rle_trans with (bpow radix2 (-516)); [apply bpow_le; lia|lra].
  - set (S := (Rpower (B2R a) (B2R p) + Rpower (B2R b) (B2R p)) / 2).
    assert (K : Rpower (bpow radix2 129) (B2R p) <= S).
    { assert (Q : forall c, 0 < c <= bpow radix2 129 -> Rpower (bpow radix2 129) (B2R p) <= Rpower c (B2R p)).
      { intros c Hc. unfold Rpower. apply exp_mono. pose proof (ln_mono c (bpow radix2 129) ltac:(lra) ltac:(lra)). nra. }
      pose proof (Q (B2R a) ltac:(lra)). pose proof (Q (B2R b) ltac:(lra)). unfold S. lra. }
    apply Rle_trans with (bpow radix2 129); [|apply bpow_le; lia].
    assert (S0 : 0 < S) by (apply Rlt_le_trans with (2 := K); apply exp_pos).
    assert (LS : B2R p * ln (bpow radix2 129) <= ln S).
    { rewrite <- (ln_exp (B2R p * _)). apply ln_mono; [apply exp_pos|exact K]. }
    rewrite <- (exp_ln (bpow radix2 129)) at 1 by apply bpow_gt_0. unfold Rpower. apply exp_mono.
    apply Rmult_le_reg_r with (- B2R p); [lra|]. replace (1 / B2R p * ln S * - B2R p) with (- ln S) by (field; lra). lra.
Qed.

Lemma sqrt0_ok (m : f64) : is_finite m = true -> 0 <= B2R m ->
  B2R (f64_sqrt m) = rnd (sqrt (B2R m)) /\ is_finite (f64_sqrt m) = true.
Proof.
  intros Fm Hm. destruct (Req_dec (B2R m) 0) as [Z|NZ].
  - rewrite Z, sqrt_0. destruct m as [s| | |s q x B]; try discriminate Fm.
    + split; [|reflexivity]. change (B2R (f64_sqrt (B754_zero s))) with 0. symmetry. apply rnd_id. rewrite <- (eq_refl : B2R f64_zero = 0). apply rep_B2R.
    + exfalso. revert Z. cbn [B2R]. destruct s; cbn [cond_Zopp]; intros Z; apply eq_0_F2R in Z; discriminate.
  - destruct (pos_sign m ltac:(lra)) as [S _]. destruct (sqrt_ok m Fm S) as (E & F & _). auto.
Qed.

Lemma sqrt_diff s t : 0 <= s -> 0 <= t -> Rabs (sqrt s - sqrt t) * Rabs (sqrt s - sqrt t) <= Rabs (s - t) /\ Rabs (sqrt s - sqrt t) * sqrt t <= Rabs (s - t).
Proof.
  intros Hs Ht. pose proof (sqrt_pos s) as Ps. pose proof (sqrt_pos t) as Pt.
  assert (E : Rabs (s - t) = Rabs (sqrt s - sqrt t) * (sqrt s + sqrt t)).
  { rewrite <- (Rabs_pos_eq (sqrt s + sqrt t)) by lra. rewrite <- Rabs_mult. f_equal.
    replace ((sqrt s - sqrt t) * (sqrt s + sqrt t)) with (sqrt s * sqrt s - sqrt t * sqrt t) by ring. rewrite !sqrt_sqrt by assumption. reflexivity. }
  rewrite E. pose proof (Rabs_pos (sqrt s - sqrt t)). split; apply Rmult_le_compat_l; try assumption; [|lra].
  apply Rabs_le. lra.
Qed.

Lemma geometric_close (a b : f64) : upto a (bpow radix2 129) -> upto b (bpow radix2 129) ->
  close_to (bpow radix2 (-50)) (bpow radix2 (-490)) (geometric_mean (A:=FA L) a b) (sqrt (B2R a * B2R b)).
Proof.
  intros [Fa Ba] [Fb Bb]. unfold geometric_mean. change (nsqrt (FA L)) with f64_sqrt. change (nmul (FA L)) with f64_mul.
  assert (AB : 0 <= B2R a * B2R b <= bpow radix2 258).
  { split; [apply Rmult_le_pos; lra|]. change 258%Z with (129 + 129)%Z. rewrite bpow_plus. apply Rmult_le_compat; lra. }
  destruct (mul_ok a b Fa Fb) as (Em & Fm & _). { rewrite Rabs_pos_eq by lra. eapply Rle_trans; [apply AB|]. apply bpow_le. lia. }
  set (m := f64_mul a b) in *. set (x := B2R a * B2R b) in *.
  assert (m0 : 0 <= B2R m) by (rewrite Em; apply rnd_nonneg; lra).
  destruct (sqrt0_ok m Fm m0) as (Es & Fs). split; [exact Fs|]. split; [rewrite Es; apply rnd_nonneg, sqrt_pos|].
  rewrite Es. destruct (rnd_err (sqrt (B2R m))) as (e & h & He & Hh & R1). rewrite R1.
  pose proof u53_small as [U0 U1].
  assert (Q : Rabs (sqrt (B2R m) - sqrt x) <= 2 * u53 * sqrt x + bpow radix2 (-498)).
  { destruct (rnd_err x) as (e' & h' & He' & Hh' & R2). rewrite <- Em in R2.
    assert (D : Rabs (B2R m - x) <= u53 * x + bpow radix2 (-1075)).
    { rewrite R2. replace (x * (1 + e') + h' - x) with (e' * x + h') by ring. eapply Rle_trans; [apply Rabs_triang|].
      rewrite Rabs_mult, (Rabs_pos_eq x) by lra. apply Rplus_le_compat; [|exact Hh']. apply Rmult_le_compat_r; lra. }
    destruct (sqrt_diff (B2R m) x m0 ltac:(lra)) as [D1 D2]. pose proof (sqrt_pos x) as Px.
    set (d := Rabs (sqrt (B2R m) - sqrt x)) in *. pose proof (Rabs_pos (sqrt (B2R m) - sqrt x)) as d0. fold d in d0.
    pose proof (bpow_gt_0 radix2 (-498)) as B0.
    destruct (Rle_lt_dec (bpow radix2 (-1000)) x) as [Big|Small].
    - assert (K : bpow radix2 (-1075) <= u53 * x).
      { apply Rle_trans with (u53 * bpow radix2 (-1000)); [rewrite <- bpow_plus; apply bpow_le; lia|apply Rmult_le_compat_l; lra]. }
      assert (x0 : 0 < sqrt x) by (apply sqrt_lt_R0; pose proof (bpow_gt_0 radix2 (-1000)); lra).
      assert (d <= 2 * u53 * sqrt x); [|lra].
      apply Rmult_le_reg_r with (sqrt x); [exact x0|]. replace (2 * u53 * sqrt x * sqrt x) with (2 * u53 * x) by (rewrite (Rmult_assoc (2 * u53) (sqrt x)), sqrt_sqrt by lra; reflexivity).
      lra.
    - assert (K : d * d <= bpow radix2 (-498) * bpow radix2 (-498)).
      { eapply Rle_trans; [exact D1|]. eapply Rle_trans; [exact D|]. rewrite <- bpow_plus.
        change (-498 + -498)%Z with (4 + -1000)%Z. rewrite bpow_plus. change (bpow radix2 4) with 16.
        assert (u53 * x <= 1 * x) by (apply Rmult_le_compat_r; lra). assert (bpow radix2 (-1075) <= bpow radix2 (-1000)) by (apply bpow_le; lia). lra. }
      assert (d <= bpow radix2 (-498)) by nra.
      assert (0 <= 2 * u53 * sqrt x) by (apply Rmult_le_pos; lra). lra. }
  pose proof (sqrt_pos x) as Px. pose proof (sqrt_pos (B2R m)) as Pm. set (sm := sqrt (B2R m)) in *. set (sx := sqrt x) in *.
  replace (sm * (1 + e) + h - sx) with ((sm - sx) + (e * sm + h)) by ring.
  eapply Rle_trans; [apply Rabs_triang|]. pose proof (Rabs_triang (e * sm) h) as TR. rewrite Rabs_mult, (Rabs_pos_eq sm) in TR by exact Pm.
  pose proof Q as Q'. apply Rabs_le_inv in Q'.
  assert (B1 : bpow radix2 (-490) = 256 * bpow radix2 (-498)) by (change (-490)%Z with (8 + -498)%Z; rewrite bpow_plus; reflexivity).
  assert (B2 : bpow radix2 (-1075) <= bpow radix2 (-498)) by (apply bpow_le; lia).
  assert (B3 : bpow radix2 (-50) = 8 * u53) by (change (-50)%Z with (3 + -53)%Z; rewrite bpow_plus; reflexivity).
  rewrite B1, B3. set (u := u53) in *. set (b9 := bpow radix2 (-498)) in *. assert (b0 : 0 < b9) by apply bpow_gt_0.
  assert (U : 2 * u * sx <= 1 * sx) by (apply Rmult_le_compat_r; lra).
  assert (V : Rabs e * sm <= u * (2 * sx + b9)) by (apply Rmult_le_compat; try apply Rabs_pos; [exact Pm|exact He|lra]).
  assert (W : u * b9 <= 1 * b9) by (apply Rmult_le_compat_r; lra).
  assert (0 <= u * sx) by (apply Rmult_le_pos; lra). lra.
Qed.

(** The three cases. *)
Lemma mean_close (p a b : f64) : is_finite p = true -> usable_exponent (B2R p) ->
  upto a (bpow radix2 129) -> upto b (bpow radix2 129) ->
  close_to (mean_error (B2R p) / 2) (bpow radix2 (-200)) (gen_mean (A:=FA L) (choose_mean (A:=FA L) p) a b)
    (mean_at threshold (B2R p) (B2R a) (B2R b)).
Proof.
  intros Fp Hp Ha Hb. destruct tiny_v as [Ft Bt]. unfold choose_mean, mean_at, mean_error.
  change (@Event.tiny (FA L)) with (f64_lit 1 (-12)). change (nltb (FA L)) with f64_ltb. change (nabs (FA L) p) with (Babs p). change (nlit (FA L) 0 0) with f64_zero.
  assert (Fa : is_finite (Babs p) = true) by (rewrite is_finite_Babs; exact Fp).
  rewrite ltb_ok, B2R_Babs by auto. fold threshold. unfold usable_exponent in Hp. fold threshold in Bt.
  pose proof (bpow_gt_0 radix2 (-30)) as P30.
  destruct (Rlt_bool_spec (Rabs (B2R p)) threshold) as [T|T].
  - destruct (Rlt_dec (Rabs (B2R p)) threshold) as [_|N]; [|contradiction]. cbn [gen_mean].
    apply close_weaken with (1 := geometric_close a b Ha Hb); [apply sqrt_pos| |apply bpow_le; lia].
    change (bpow radix2 (-48)) with (/ 281474976710656). change (bpow radix2 (-50)) with (/ 1125899906842624). lra.
  - destruct (Rlt_dec (Rabs (B2R p)) threshold) as [N|_]; [lra|]. destruct Hp as [Hp|Hp]; [lra|].
    assert (EE : bpow radix2 (-34) / Rabs (B2R p) / 2 = bpow radix2 (-35) / Rabs (B2R p)).
    { change (-34)%Z with (1 + -35)%Z. rewrite bpow_plus. change (bpow radix2 1) with 2. field. lra. }
    rewrite EE. rewrite ltb_ok by auto. change (B2R f64_zero) with 0.
    destruct (Rlt_bool_spec 0 (B2R p)) as [S0|S0]; cbn [gen_mean].
    + destruct (Rlt_dec 0 (B2R p)) as [_|N]; [|contradiction].
      rewrite Rabs_pos_eq in * by lra. apply positive_close; auto.
    + destruct (Rlt_dec 0 (B2R p)) as [N|_]; [lra|]. pose proof Hp as Hp'. rewrite Rabs_left1 in Hp' by lra.
      unfold negative_pmean. change (@Event.tiny (FA L)) with (f64_lit 1 (-12)). change (nltb (FA L)) with f64_ltb.
      rewrite (ltb_ok a), (ltb_ok b) by (auto; apply Ha || apply Hb). fold threshold.
      assert (Z0 : forall q, close_to q (bpow radix2 (-200)) f64_zero 0).
      { intros q. split; [reflexivity|]. change (B2R f64_zero) with 0. split; [lra|]. rewrite Rminus_0_r, Rabs_R0. pose proof (bpow_ge_0 radix2 (-200)). lra. }
      destruct (Rlt_bool_spec (B2R a) threshold) as [Ta|Ta]; destruct (Rlt_dec (B2R a) threshold) as [Ta'|Ta']; try lra; cbn [orb].
      * apply Z0.
      * destruct (Rlt_bool_spec (B2R b) threshold) as [Tb|Tb]; destruct (Rlt_dec (B2R b) threshold) as [Tb'|Tb']; try lra; [apply Z0|].
        apply close_weaken with (1 := negative_close p a b Fp ltac:(lra) Ha Hb Ta Tb); [apply Rlt_le, exp_pos|lra|apply bpow_le; lia].
Qed.
End Mean.
