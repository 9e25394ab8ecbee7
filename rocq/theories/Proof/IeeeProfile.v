(** Rounding errors in thickness(). *)
From Coq Require Import ZArith Reals Machin Lra Lia Bool List Psatz String.
From Flocq Require Import Core BinarySingleNaN Relative Mult_error.
From Verif.Base Require Import Result Arith FArith RArith.
From Verif.Model Require Import FastExp Config Nucleon Nucleus Event.
From Verif.Spec Require Import Grid Profile Finite Accuracy.
From Verif.Proof Require Import Basics RBasics GridP EventP ExpP FastExpP Ieee IeeeInt IeeeSum IeeeExp IeeeThick.
From Verif.Properties Require Import ImpactIeee ThicknessIeee.
Import ListNotations.
Local Open Scope R_scope.

Lemma sub_rel (x y : f64) : is_finite x = true -> is_finite y = true -> Rabs (B2R x - B2R y) <= bpow radix2 1000 ->
  exists e, Rabs e <= u53 /\ is_finite (f64_sub x y) = true /\ B2R (f64_sub x y) = (B2R x - B2R y) * (1 + e).
Proof.
  intros Fx Fy H. destruct (sub_ok x y Fx Fy H) as (E & F & _).
  destruct (rnd_plus_rel (B2R x) (- B2R y) (rep_B2R x) ltac:(apply generic_format_opp, rep_B2R)) as (e & He & R).
  exists e. split; [exact He|]. split; [exact F|]. rewrite E. exact R.
Qed.

Lemma diff_bound (x y : f64) : near x -> near y -> Rabs (B2R x - B2R y) <= bpow radix2 221.
Proof.
  intros [_ Hx] [_ Hy]. change 221%Z with (1 + 220)%Z. rewrite bpow_plus. change (bpow radix2 1) with 2.
  apply Rabs_le_inv in Hx, Hy. apply Rabs_le. lra.
Qed.

(** (x - y)^2 *)
Lemma square_ok (x y : f64) : near x -> near y ->
  exists w h, Rabs w <= 4 * u53 /\ Rabs h <= bpow radix2 (-1075) /\
    let d := f64_sub x y in let s := f64_mul d d in
    is_finite s = true /\ B2R s = (B2R x - B2R y) * (B2R x - B2R y) * (1 + w) + h /\ 0 <= B2R s <= bpow radix2 445.
Proof.
  intros Nx Ny. pose proof (diff_bound x y Nx Ny) as B. destruct Nx as [Fx _], Ny as [Fy _].
  destruct (sub_rel x y Fx Fy) as (e & He & F & E). { eapply Rle_trans; [exact B|apply bpow_le; lia]. }
  set (d := f64_sub x y) in *. pose proof u53_small as [U0 U1]. set (D := B2R x - B2R y) in *.
  assert (Bd : Rabs (B2R d) <= bpow radix2 222).
  { rewrite E, Rabs_mult. change 222%Z with (221 + 1)%Z. rewrite bpow_plus. change (bpow radix2 1) with 2.
    apply Rmult_le_compat; try apply Rabs_pos; auto. apply Rabs_le_inv in He. apply Rabs_le. lra. }
  assert (B2 : 0 <= B2R d * B2R d <= bpow radix2 444).
  { split; [nra|]. change 444%Z with (222 + 222)%Z. rewrite bpow_plus. rewrite <- (Rabs_pos_eq (B2R d * B2R d)) by nra. rewrite Rabs_mult.
    apply Rmult_le_compat; auto; apply Rabs_pos. }
  destruct (mul_ok d d F F) as (Em & Fm & _). { rewrite Rabs_pos_eq by lra. eapply Rle_trans; [apply B2|apply bpow_le; lia]. }
  destruct (rnd_err (B2R d * B2R d)) as (e2 & h & He2 & Hh & R).
  exists ((1 + e) * (1 + e) * (1 + e2) - 1), h. apply Rabs_le_inv in He, He2.
  split; [apply Rabs_le; set (u := u53) in *; nra|]. split; [exact Hh|]. cbv zeta. split; [exact Fm|]. split.
  - rewrite Em, R, E. ring.
  - rewrite Em. split; [apply rnd_nonneg; lra|]. rewrite <- (rnd_id (bpow radix2 445)) by (apply rep_bpow; lia). apply rnd_le.
    eapply Rle_trans; [apply B2|apply bpow_le; lia].
Qed.

Lemma dist_ok (x y qx qy : f64) : near x -> near y -> near qx -> near qy ->
  let a := f64_sub x qx in let b := f64_sub y qy in let d := f64_add (f64_mul a a) (f64_mul b b) in
  let D := (B2R x - B2R qx) * (B2R x - B2R qx) + (B2R y - B2R qy) * (B2R y - B2R qy) in
  is_finite d = true /\ 0 <= B2R d /\ Rabs (B2R d - D) <= 6 * u53 * D + bpow radix2 (-1073).
Proof.
  intros Nx Ny Nqx Nqy a b d D.
  destruct (square_ok x qx Nx Nqx) as (w1 & h1 & Hw1 & Hh1 & F1 & E1 & B1). destruct (square_ok y qy Ny Nqy) as (w2 & h2 & Hw2 & Hh2 & F2 & E2 & B2).
  fold a in F1, E1, B1. fold b in F2, E2, B2.
  assert (T : bpow radix2 445 + bpow radix2 445 <= bpow radix2 1000).
  { apply Rle_trans with (bpow radix2 446); [change 446%Z with (445 + 1)%Z; rewrite bpow_plus; change (bpow radix2 1) with 2; lra|apply bpow_le; lia]. }
  destruct (add_ok _ _ F1 F2) as (E & F & _). { rewrite Rabs_pos_eq by lra. lra. }
  destruct (rnd_plus_rel _ _ (rep_B2R (f64_mul a a)) (rep_B2R (f64_mul b b))) as (e & He & R).
  fold d in E, F. split; [exact F|]. split; [rewrite E; apply rnd_nonneg; lra|].
  rewrite E, R, E1, E2. unfold D.
  set (p := (B2R x - B2R qx) * (B2R x - B2R qx)). set (q := (B2R y - B2R qy) * (B2R y - B2R qy)).
  assert (HP0 : 0 <= p) by apply Rle_0_sqr. assert (HQ0 : 0 <= q) by apply Rle_0_sqr.
  pose proof u53_small as [U0 U1]. apply Rabs_le_inv in Hw1, Hw2, He, Hh1, Hh2. set (u := u53) in *.
  assert (H4 : bpow radix2 (-1073) = 4 * bpow radix2 (-1075)) by (change (-1073)%Z with (2 + -1075)%Z; rewrite bpow_plus; reflexivity).
  rewrite H4. set (h := bpow radix2 (-1075)) in *.
  assert (W1 : - (6 * u) <= (1 + w1) * (1 + e) - 1 <= 6 * u) by nra.
  assert (W2 : - (6 * u) <= (1 + w2) * (1 + e) - 1 <= 6 * u) by nra.
  assert (K1 : Rabs (p * ((1 + w1) * (1 + e) - 1)) <= p * (6 * u)) by (rewrite Rabs_mult, (Rabs_pos_eq p) by lra; apply Rmult_le_compat_l; [lra|apply Rabs_le; lra]).
  assert (K2 : Rabs (q * ((1 + w2) * (1 + e) - 1)) <= q * (6 * u)) by (rewrite Rabs_mult, (Rabs_pos_eq q) by lra; apply Rmult_le_compat_l; [lra|apply Rabs_le; lra]).
  assert (K3 : Rabs ((h1 + h2) * (1 + e)) <= 4 * h).
  { rewrite Rabs_mult. apply Rle_trans with (2 * h * 2); [|lra]. apply Rmult_le_compat; try apply Rabs_pos; apply Rabs_le; lra. }
  replace ((p * (1 + w1) + h1 + (q * (1 + w2) + h2)) * (1 + e) - (p + q))
    with (p * ((1 + w1) * (1 + e) - 1) + q * ((1 + w2) * (1 + e) - 1) + (h1 + h2) * (1 + e)) by ring.
  eapply Rle_trans; [apply Rabs_triang|]. apply Rle_trans with (p * (6 * u) + q * (6 * u) + 4 * h); [|lra].
  apply Rplus_le_compat; [|exact K3]. eapply Rle_trans; [apply Rabs_triang|]. lra.
Qed.

Section Width.
Variable v : f64.
Hypothesis Fv : is_finite v = true.
Hypothesis Bv : bpow radix2 (-20) <= B2R v <= bpow radix2 200.
Let V := B2R v.
Let w5 : f64 := f64_mul (f64_lit 5 0) v.
Let rsq : f64 := f64_mul w5 w5.
Let vsq : f64 := f64_mul v v.

Lemma V_range : 0 < V /\ bpow radix2 (-40) <= V * V <= bpow radix2 400.
Proof.
  pose proof (bpow_gt_0 radix2 (-20)). unfold V. split; [lra|].
  change (-40)%Z with (-20 + -20)%Z. change 400%Z with (200 + 200)%Z. rewrite !bpow_plus. split; apply Rmult_le_compat; lra.
Qed.

Lemma vsq_v : exists e, Rabs e <= u53 /\ is_finite vsq = true /\ B2R vsq = V * V * (1 + e).
Proof.
  destruct V_range as [V0 V2]. pose proof (bpow_gt_0 radix2 (-40)).
  destruct (mul_ok v v Fv Fv) as (E & F & _). { fold V. rewrite Rabs_pos_eq by lra. eapply Rle_trans; [apply V2|apply bpow_le; lia]. }
  destruct (rnd_rel (V * V)) as (e & He & R). { rewrite Rabs_pos_eq by lra. eapply Rle_trans; [|apply V2]. apply bpow_le. lia. }
  exists e. split; [exact He|]. split; [exact F|]. unfold vsq. rewrite E. exact R.
Qed.

Lemma w5_v : exists e, Rabs e <= u53 /\ is_finite w5 = true /\ B2R w5 = 5 * V * (1 + e).
Proof.
  destruct V_range as [V0 V2]. destruct five_v as [F5 V5].
  assert (B : bpow radix2 (-20) <= 5 * V <= bpow radix2 203).
  { unfold V. pose proof (bpow_gt_0 radix2 (-20)). split; [lra|]. change 203%Z with (3 + 200)%Z. rewrite bpow_plus. change (bpow radix2 3) with 8. lra. }
  pose proof (bpow_gt_0 radix2 (-20)).
  destruct (mul_ok (f64_lit 5 0) v F5 Fv) as (E & F & _). { rewrite V5. fold V. rewrite Rabs_pos_eq by lra. eapply Rle_trans; [apply B|apply bpow_le; lia]. }
  rewrite V5 in E. fold V in E.
  destruct (rnd_rel (5 * V)) as (e & He & R). { rewrite Rabs_pos_eq by lra. eapply Rle_trans; [|apply B]. apply bpow_le. lia. }
  exists e. split; [exact He|]. split; [exact F|]. unfold w5. rewrite E. exact R.
Qed.

Lemma rsq_v : exists e, Rabs e <= 4 * u53 /\ is_finite rsq = true /\ B2R rsq = 25 * (V * V) * (1 + e).
Proof.
  destruct V_range as [V0 V2]. destruct w5_v as (e1 & He1 & F1 & E1). pose proof u53_small as [U0 U1]. pose proof (bpow_gt_0 radix2 (-40)).
  apply Rabs_le_inv in He1.
  assert (W : B2R w5 * B2R w5 = V * V * (25 * ((1 + e1) * (1 + e1)))) by (rewrite E1; ring).
  assert (WW : 1 <= 25 * ((1 + e1) * (1 + e1)) <= 32) by nra.
  assert (B : bpow radix2 (-40) <= B2R w5 * B2R w5 <= bpow radix2 405).
  { rewrite W. split.
    - rewrite <- (Rmult_1_r (bpow radix2 (-40))). apply Rmult_le_compat; lra.
    - change 405%Z with (400 + 5)%Z. rewrite bpow_plus. change (bpow radix2 5) with 32. apply Rmult_le_compat; lra. }
  destruct (mul_ok w5 w5 F1 F1) as (E & F & _). { rewrite Rabs_pos_eq by lra. eapply Rle_trans; [apply B|apply bpow_le; lia]. }
  destruct (rnd_rel (B2R w5 * B2R w5)) as (e & He & R). { rewrite Rabs_pos_eq by lra. eapply Rle_trans; [|apply B]. apply bpow_le. lia. }
  exists ((1 + e1) * (1 + e1) * (1 + e) - 1). apply Rabs_le_inv in He. split; [apply Rabs_le; set (u := u53) in *; nra|].
  split; [exact F|]. unfold rsq. rewrite E, R, W. ring.
Qed.

(** Accepted distances lie below the outer cut, rejected ones above the inner cut. *)
Lemma tiny_h : bpow radix2 (-1073) <= u53 * (V * V).
Proof.
  apply Rle_trans with (u53 * bpow radix2 (-40)); [rewrite <- bpow_plus; apply bpow_le; lia|].
  apply Rmult_le_compat_l; [apply bpow_ge_0|apply V_range].
Qed.

Lemma cut_pos : 0 < inner_cut V < outer_cut V /\
  inner_cut V * inner_cut V <= 25 * (V * V) * (1 - 40 * u53) /\ 25 * (V * V) * (1 + 40 * u53) <= outer_cut V * outer_cut V.
Proof.
  destruct V_range as [V0 V2]. unfold inner_cut, outer_cut.
  assert (E : bpow radix2 (-48) = 32 * u53) by (change (-48)%Z with (5 + -53)%Z; rewrite bpow_plus; reflexivity). rewrite E.
  pose proof u53_small as [U0 U1]. set (u := u53) in *. split; [split; nra|]. split.
  - replace (5 * V * (1 - 32 * u) * (5 * V * (1 - 32 * u))) with (25 * (V * V) * ((1 - 32 * u) * (1 - 32 * u))) by ring.
    apply Rmult_le_compat_l; nra.
  - replace (5 * V * (1 + 32 * u) * (5 * V * (1 + 32 * u))) with (25 * (V * V) * ((1 + 32 * u) * (1 + 32 * u))) by ring.
    apply Rmult_le_compat_l; nra.
Qed.

Lemma accepted (d : f64) D : is_finite d = true -> 0 <= D -> Rabs (B2R d - D) <= 6 * u53 * D + bpow radix2 (-1073) ->
  f64_ltb d rsq = true -> D < outer_cut V * outer_cut V /\ D <= 26 * (V * V).
Proof.
  intros Fd D0 H L. destruct rsq_v as (e & He & Fr & Er). rewrite ltb_ok in L by auto.
  destruct (Rlt_bool_spec (B2R d) (B2R rsq)) as [L'|]; [|discriminate]. rewrite Er in L'.
  destruct cut_pos as (_ & _ & C). pose proof tiny_h as T. destruct V_range as [V0 _]. pose proof u53_small as [U0 U1].
  apply Rabs_le_inv in H, He. assert (V20 : 0 < V * V) by nra. set (Q := V * V) in *. set (u := u53) in *.
  assert (S1 : 25 * Q * (1 + e) <= 25 * Q * (1 + 4 * u)) by (apply Rmult_le_compat_l; lra).
  assert (UQ : 0 < u * Q) by (apply Rmult_lt_0_compat; lra).
  assert (K : D * (1 - 6 * u) < 25 * Q * (1 + 5 * u)) by lra.
  assert (K2 : D < 25 * Q * (1 + 40 * u)) by (
    apply Rmult_lt_reg_r with (1 - 6 * u); [lra|]; eapply Rlt_le_trans; [exact K|];
    rewrite (Rmult_assoc (25 * Q)); apply Rmult_le_compat_l; [lra|nra]).
  split; [lra|]. apply Rle_trans with (25 * Q * (1 + 40 * u)); [lra|]. nra.
Qed.

Lemma rejected (d : f64) D : is_finite d = true -> 0 <= D -> Rabs (B2R d - D) <= 6 * u53 * D + bpow radix2 (-1073) ->
  f64_ltb d rsq = false -> inner_cut V * inner_cut V <= D.
Proof.
  intros Fd D0 H L. destruct rsq_v as (e & He & Fr & Er). rewrite ltb_ok in L by auto.
  destruct (Rlt_bool_spec (B2R d) (B2R rsq)) as [|L']; [discriminate|]. rewrite Er in L'.
  destruct cut_pos as (_ & C & _). pose proof tiny_h as T. destruct V_range as [V0 _]. pose proof u53_small as [U0 U1].
  apply Rabs_le_inv in H, He. assert (V20 : 0 < V * V) by nra. set (Q := V * V) in *. set (u := u53) in *.
  assert (S1 : 25 * Q * (1 - 4 * u) <= 25 * Q * (1 + e)) by (apply Rmult_le_compat_l; lra).
  assert (UQ : 0 < u * Q) by (apply Rmult_lt_0_compat; lra).
  assert (K : 25 * Q * (1 - 5 * u) <= D * (1 + 6 * u)) by lra.
  apply Rle_trans with (25 * Q * (1 - 40 * u)); [exact C|].
  apply Rmult_le_reg_r with (1 + 6 * u); [lra|]. eapply Rle_trans; [|exact K].
  rewrite (Rmult_assoc (25 * Q)). apply Rmult_le_compat_l; [lra|nra].
Qed.

Lemma arg_near (d : f64) D : is_finite d = true -> 0 <= B2R d -> 0 <= D -> Rabs (B2R d - D) <= 6 * u53 * D + bpow radix2 (-1073) ->
  D <= 26 * (V * V) ->
  let x := f64_div (f64_mul (Bopp (f64_lit 5 (-1))) d) vsq in
  is_finite x = true /\ Rabs (B2R x + D / (2 * (V * V))) <= / 1000000000000.
Proof.
  intros Fd d0 D0 H HD x. destruct half_v as [Fh Vh]. destruct vsq_v as (e3 & He3 & F3 & E3).
  destruct V_range as [V0 V2]. pose proof u53_small as [U0 U1]. pose proof tiny_h as T.
  assert (V20 : 0 < V * V) by nra. set (Q := V * V) in *.
  assert (Fo : is_finite (Bopp (f64_lit 5 (-1)) : f64) = true) by (vm_compute; reflexivity).
  assert (Vo : B2R (Bopp (f64_lit 5 (-1)) : f64) = - / 2) by (rewrite B2R_Bopp, Vh; reflexivity).
  assert (Bd : B2R d <= 27 * Q). { apply Rabs_le_inv in H. set (u := u53) in *. nra. }
  assert (Bd2 : 27 * Q <= bpow radix2 405) by (change 405%Z with (5 + 400)%Z; rewrite bpow_plus; change (bpow radix2 5) with 32; lra).
  assert (T1000 : bpow radix2 405 <= bpow radix2 1000) by (apply bpow_le; lia).
  destruct (mul_ok _ d Fo Fd) as (E4 & F4 & _). { rewrite Vo, Rabs_mult, Rabs_Ropp, (Rabs_pos_eq (/ 2)), (Rabs_pos_eq (B2R d)) by lra. lra. }
  rewrite Vo in E4. set (n := f64_mul (Bopp (f64_lit 5 (-1))) d) in *.
  destruct (rnd_err (- / 2 * B2R d)) as (e4 & h4 & He4 & Hh4 & R4). rewrite R4 in E4.
  apply Rabs_le_inv in He3, He4. set (u := u53) in *.
  assert (Vp : 0 < B2R vsq) by (rewrite E3; nra).
  set (r := B2R d / (2 * Q)). assert (R0 : 0 <= r <= 14).
  { unfold r. split; [apply Rmult_le_pos; [lra|apply Rlt_le, Rinv_0_lt_compat; lra]|].
    apply Rmult_le_reg_r with (2 * Q); [lra|]. unfold Rdiv. rewrite Rmult_assoc, Rinv_l, Rmult_1_r by lra. lra. }
  set (k := h4 / Q). assert (K : Rabs k <= u).
  { unfold k, Rdiv. rewrite Rabs_mult, Rabs_inv, (Rabs_pos_eq Q) by lra.
    apply Rmult_le_reg_r with Q; [lra|]. rewrite Rmult_assoc, Rinv_l, Rmult_1_r by lra.
    eapply Rle_trans; [exact Hh4|]. eapply Rle_trans; [|exact T]. apply bpow_le. lia. }
  assert (NV : B2R n / B2R vsq = (- r * (1 + e4) + k) / (1 + e3)).
  { rewrite E4, E3. unfold r, k. field. split; lra. }
  assert (I3 : exists w, / (1 + e3) = 1 + w /\ Rabs w <= 2 * u).
  { exists (/ (1 + e3) - 1). split; [ring|]. replace (/ (1 + e3) - 1) with (- e3 * / (1 + e3)) by (field; lra).
    rewrite Rabs_mult, Rabs_Ropp. assert (I : / (1 + e3) <= 2) by (rewrite <- (Rinv_inv 2); apply Rinv_le; lra).
    assert (I0 : 0 < / (1 + e3)) by (apply Rinv_0_lt_compat; lra).
    rewrite (Rabs_pos_eq (/ (1 + e3))) by lra. replace (2 * u) with (u * 2) by ring. apply Rmult_le_compat; try lra; [apply Rabs_pos|apply Rabs_le; lra]. }
  destruct I3 as (w & Ew & Hw). unfold Rdiv in NV at 2. rewrite Ew in NV.
  assert (B : Rabs (B2R n / B2R vsq + r) <= 100 * u).
  { rewrite NV. apply Rabs_le_inv in K, Hw. apply Rabs_le.
    replace ((- r * (1 + e4) + k) * (1 + w) + r) with (- r * (e4 + w + e4 * w) + k * (1 + w)) by ring.
    assert (Z1 : - (4 * u) <= e4 + w + e4 * w <= 4 * u) by nra. assert (Z2 : - (2 * u) <= k * (1 + w) <= 2 * u) by nra.
    set (z := e4 + w + e4 * w) in *. nra. }
  destruct (div_ok n vsq F4) as (E5 & F5 & _); [lra| |].
  { apply Rabs_le_inv in B. apply big_1000. apply Rabs_le. lra. }
  split; [exact F5|]. fold x in E5 |- *.
  destruct (rnd_err (B2R n / B2R vsq)) as (e5 & h5 & He5 & Hh5 & R5). rewrite E5, R5.
  assert (Hh5' : Rabs h5 <= u) by (eapply Rle_trans; [exact Hh5|apply bpow_le; lia]).
  change u53 with u in He5. apply Rabs_le_inv in He5, Hh5', B. set (y := B2R n / B2R vsq) in *.
  assert (DR : Rabs (r - D / (2 * Q)) <= 100 * u).
  { replace (r - D / (2 * Q)) with ((B2R d - D) / (2 * Q)) by (unfold r; field; lra).
    unfold Rdiv. rewrite Rabs_mult, Rabs_inv, (Rabs_pos_eq (2 * Q)) by lra.
    apply Rmult_le_reg_r with (2 * Q); [lra|]. rewrite Rmult_assoc, Rinv_l, Rmult_1_r by lra.
    eapply Rle_trans; [exact H|]. fold u. fold u in T. nra. }
  apply Rabs_le_inv in DR. apply Rabs_le.
  assert (Y : -15 <= y <= 1) by lra.
  assert (-(15 * u) <= y * e5 <= 15 * u).
  { apply Rabs_le_inv. rewrite Rabs_mult. apply Rmult_le_compat; try apply Rabs_pos; apply Rabs_le; lra. }
  replace (y * (1 + e5) + h5 + D / (2 * Q)) with ((y + r) + y * e5 + h5 - (r - D / (2 * Q))) by ring. lra.
Qed.
End Width.

(** t approximates something between lo and hi: relative error a, absolute error h. *)
Definition btw (a h lo hi : R) (t : f64) : Prop :=
  is_finite t = true /\ 0 <= B2R t /\ (1 - a) * lo - h <= B2R t <= (1 + a) * hi + h.

(** One addition in a sum of at most 2^26 terms. *)
Lemma acc_step a h k lo hi lo1 hi1 (t0 t1 : f64) :
  0 <= a <= / 2 -> 0 <= h -> (0 <= k < 2 ^ 26)%Z -> 0 <= lo -> 0 <= hi -> 0 <= lo1 -> 0 <= hi1 ->
  btw (a + IZR (2 * k) * u53) (IZR (2 * k) * h) lo hi t0 -> btw a h lo1 hi1 t1 ->
  B2R t0 + B2R t1 <= bpow radix2 1000 ->
  btw (a + IZR (2 * (k + 1)) * u53) (IZR (2 * (k + 1)) * h) (lo + lo1) (hi + hi1) (f64_add t0 t1).
Proof.
  intros Ha Hh Hk L0 H0 L1 H1 (F0 & P0 & B0) (F1 & P1 & B1) HB.
  destruct (add_ok t0 t1 F0 F1) as (E & F & _); [rewrite Rabs_pos_eq by lra; exact HB|].
  destruct (rnd_plus_rel _ _ (rep_B2R t0) (rep_B2R t1)) as (e & He & R). rewrite R in E.
  split; [exact F|]. split; [rewrite E, <- R; apply rnd_nonneg; lra|]. rewrite E.
  apply Rabs_le_inv in He. pose proof u53_small as [U0 U1]. set (u := u53) in *.
  replace (2 * (k + 1))%Z with (2 * k + 2)%Z by lia. rewrite plus_IZR.
  assert (K : 0 <= IZR (2 * k) <= 134217728) by (split; apply IZR_le; lia).
  set (c := IZR (2 * k)) in *. assert (KU : 0 <= c * u <= / 1000000) by nra. 
  set (cu := c * u) in *. set (ch := c * h) in *.
  assert (CH : 0 <= ch) by (apply Rmult_le_pos; lra).
  replace ((c + 2) * u) with (cu + 2 * u) by (unfold cu; ring). replace ((c + 2) * h) with (ch + 2 * h) by (unfold ch; ring).
  set (x := B2R t0) in *. set (y := B2R t1) in *.
  assert (XY : (1 - u) * (x + y) <= (x + y) * (1 + e) <= (1 + u) * (x + y)) by nra.
  assert (C1 : cu * lo1 >= 0) by nra. assert (C2 : cu * hi1 >= 0) by nra.
  assert (SL : (1 - (a + cu)) * (lo + lo1) - ch - h <= x + y) by nra.
  assert (SH : x + y <= (1 + (a + cu)) * (hi + hi1) + ch + h) by nra.
  set (lo' := lo + lo1) in *. set (hi' := hi + hi1) in *. assert (L' : 0 <= lo') by (unfold lo'; lra). assert (H' : 0 <= hi') by (unfold hi'; lra).
  assert (Uch : u * ch <= / 2 * h).
  { unfold ch. rewrite <- Rmult_assoc. replace (u * c) with cu by (unfold cu; ring). nra. }
  split.
  - eapply Rle_trans; [|apply XY]. apply Rle_trans with ((1 - u) * ((1 - (a + cu)) * lo' - ch - h)); [|apply Rmult_le_compat_l; lra].
    assert (0 <= u * (1 + (a + cu)) * lo'). { apply Rmult_le_pos; [apply Rmult_le_pos; lra|lra]. }
    assert (0 <= u * ch) by (apply Rmult_le_pos; lra). assert (0 <= u * h) by (apply Rmult_le_pos; lra).
    assert (0 <= u * lo') by (apply Rmult_le_pos; lra). lra.
  - eapply Rle_trans; [apply XY|]. apply Rle_trans with ((1 + u) * ((1 + (a + cu)) * hi' + ch + h)); [apply Rmult_le_compat_l; lra|].
    assert (u * (1 + (a + cu)) * hi' <= 2 * u * hi'). { apply Rmult_le_compat_r; [lra|]. nra. }
    assert (u * h <= / 1000 * h) by (apply Rmult_le_compat_r; lra). lra.
Qed.

Lemma exp_near a b : Rabs (a - b) <= / 1000000000000 -> Rabs (exp a - exp b) <= / 500000000000 * exp b.
Proof.
  intros H. replace a with (b + (a - b)) by ring. set (d := a - b) in *. rewrite exp_plus.
  replace (exp b * exp d - exp b) with (exp b * (exp d - 1)) by ring.
  pose proof (exp_pos b). rewrite Rabs_mult, (Rabs_pos_eq (exp b)), (Rmult_comm (exp b)) by lra. apply Rmult_le_compat_r; [lra|].
  apply Rabs_le_inv in H.
  assert (E1 : 1 + d <= exp d) by apply exp_ineq1_le.
  assert (E2 : 1 - d <= exp (- d)) by (replace (1 - d) with (1 + - d) by ring; apply exp_ineq1_le).
  assert (E3 : exp d * exp (- d) = 1) by (rewrite <- exp_plus, Rplus_opp_r, exp_0; reflexivity).
  assert (E4 : exp d * (1 - d) <= 1). { apply Rle_trans with (exp d * exp (- d)); [|lra]. apply Rmult_le_compat_l; [apply Rlt_le, exp_pos|exact E2]. }
  pose proof (exp_pos d). apply Rabs_le. split; [lra|]. nra.
Qed.

Definition sq_dist (x y qx qy : f64) : R := (B2R x - B2R qx) * (B2R x - B2R qx) + (B2R y - B2R qy) * (B2R y - B2R qy).

Section Term.
Variable L : Libm.
Hypothesis HL : accurate_exp L.
Variable cfg : config (FA L).
Variable sp : f64.
Let v : f64 := constit_width cfg.
Hypothesis Fv : is_finite v = true.
Hypothesis Bv : bpow radix2 (-20) <= B2R v <= bpow radix2 200.
Hypothesis Hm : (1 <= constit_number cfg <= 2147483647)%Z.
Let nc := nucleon_common_of cfg sp.
Let V := B2R v.

Definition near_q (q : constituent (FA L)) : Prop := near (q_x q) /\ near (q_y q) /\ upto (q_fluct q) (bpow radix2 40).
Definition Gq (x y : f64) (q : constituent (FA L)) : R :=
  B2R (q_fluct q : f64) * exp (- (sq_dist x y (q_x q) (q_y q) / (2 * (V * V)))).

Lemma term_ok dbg (x y t0 t1 : f64) (q : constituent (FA L)) : near x -> near y -> near_q q ->
  thickness_step (A:=FA L) dbg nc x y t0 q = Ret t1 ->
  let D := sq_dist x y (q_x q) (q_y q) in
  (t1 = t0 /\ inner_cut V * inner_cut V <= D) \/
  (exists tau, t1 = f64_add t0 tau /\ upto tau (bpow radix2 41) /\ D < outer_cut V * outer_cut V /\
     btw (23 / 1000000) (bpow radix2 (-1075)) (Gq x y q) (Gq x y q) tau).
Proof.
  intros Nx Ny (Nqx & Nqy & Uq) E D.
  unfold thickness_step in E. set (d := nadd (FA L) _ _) in E.
  destruct (dist_ok x y (q_x q) (q_y q) Nx Ny Nqx Nqy) as (Fd & Pd & Ed).
  change (f64_add _ _) with d in Fd, Pd, Ed. fold (sq_dist x y (q_x q) (q_y q)) in Ed. fold D in Ed.
  assert (D0 : 0 <= D) by (unfold D, sq_dist; apply Rplus_le_le_0_compat; apply Rle_0_sqr).
  assert (Bv2 : bpow radix2 (-20) <= B2R v <= bpow radix2 200).
  { split; [lra|]. eapply Rle_trans; [apply Bv|apply bpow_le; lia]. }
  destruct (nltb (FA L) d _) eqn:Ld.
  - right.
    destruct (accepted v Fv Bv d D Fd D0 Ed Ld) as [Dout D26].
    destruct (arg_near v Fv Bv d D Fd Pd D0 Ed D26) as [_ Na].
    assert (Ud : unsigned d) by (apply add_unsigned; apply mul_self_unsigned).
    destruct (arg_ok v d (width_usable L cfg Fv Bv2) Ud Ld) as [Fa Ba].
    match type of E with context [fast_exp_eval ?a ?b ?c] => destruct (fast_exp_eval a b c) as [e| | |] eqn:Ee end;
      cbn [rbind] in E; [|discriminate E|discriminate E|discriminate E].
    destruct (fexp64_acc L dbg cfg sp _ e HL Fa Ba Ee) as [Fe Ae].
    pose proof (fexp_upto L HL cfg sp dbg _ e Fa Ba Ee) as Ue.
    exists (f64_mul (q_fluct q) e).
    split; [exact (f_equal (fun r : result f64 => match r with Ret w => w | _ => t0 end) (eq_sym E))|].
    assert (U1 : upto (f64_mul (q_fluct q) e) (bpow radix2 41)) by (apply (upto_mul _ _ 40 1); [exact Uq|exact Ue|lia]).
    split; [exact U1|]. split; [exact Dout|]. split; [apply U1|]. split; [apply U1|].
    set (X := f64_div (f64_mul _ d) _) in *. clearbody X.
    assert (NE : Rabs (exp (B2R X) - exp (- (D / (2 * (V * V))))) <= / 500000000000 * exp (- (D / (2 * (V * V))))).
    { apply exp_near. replace (B2R X - - (D / (2 * (V * V)))) with (B2R X + D / (2 * (V * V))) by ring. exact Na. }
    unfold Gq. fold D. set (g := exp (- (D / (2 * (V * V))))) in *. assert (G0 : 0 < g) by apply exp_pos.
    destruct Uq as [Fq Bq], Ue as [_ Be].
    destruct (mul_ok (q_fluct q) e Fq Fe) as (Em & _ & _).
    { rewrite Rabs_pos_eq by (apply Rmult_le_pos; lra). apply Rle_trans with (bpow radix2 40 * bpow radix2 1); [apply Rmult_le_compat; lra|].
      rewrite <- bpow_plus. apply bpow_le. lia. }
    rewrite Em. destruct (rnd_err (B2R (q_fluct q : f64) * B2R e)) as (w & h & Hw & Hh & R). rewrite R.
    set (f := B2R (q_fluct q : f64)) in *. apply Rabs_le_inv in NE, Ae, Hw, Hh. pose proof u53_small as [U0 U1'].
    set (ex := exp (B2R X)) in *. set (z := B2R e) in *. clearbody ex z.
    assert (Z1 : (1 - 22 / 1000000) * g <= z <= (1 + 22 / 1000000) * g) by lra.
    assert (Z2 : (1 - 23 / 1000000) * g <= z * (1 + w) <= (1 + 23 / 1000000) * g) by nra.
    assert (f0 : 0 <= f) by lra. set (k := z * (1 + w)) in *.
    replace (f * z * (1 + w)) with (f * k) by (unfold k; ring). clearbody k.
    assert (f * ((1 - 23 / 1000000) * g) <= f * k <= f * ((1 + 23 / 1000000) * g)) by (split; apply Rmult_le_compat_l; lra). lra.
  - left. split; [exact (f_equal (fun r : result f64 => match r with Ret w => w | _ => t0 end) (eq_sym E))|].
    exact (rejected v Fv Bv d D Fd D0 Ed Ld).
Qed.

(** The two sums: over the constituents inside the inner / outer cut. *)
Definition cut_term (cut : R) (x y : f64) (q : constituent (FA L)) : R :=
  if Rlt_dec (sq_dist x y (q_x q) (q_y q)) (cut * cut) then Gq x y q else 0.

Lemma Gq_nonneg x y q : near_q q -> 0 <= Gq x y q.
Proof. intros (_ & _ & [_ B]). unfold Gq. apply Rmult_le_pos; [lra|apply Rlt_le, exp_pos]. Qed.
Lemma cut_term_range c x y q : near_q q -> 0 <= cut_term c x y q <= Gq x y q.
Proof. intros N. pose proof (Gq_nonneg x y q N). unfold cut_term. destruct (Rlt_dec _ _); lra. Qed.

Lemma btw_weaken a h lo hi lo' hi' a' h' t : btw a h lo hi t -> 0 <= a <= a' -> a' <= 1 -> h <= h' -> 0 <= lo' <= lo -> 0 <= hi <= hi' -> btw a' h' lo' hi' t.
Proof.
  intros (F & P & B) Ha A1 Hh Hlo Hhi. split; [exact F|]. split; [exact P|]. split.
  - apply Rle_trans with ((1 - a) * lo - h); [|lra]. assert ((1 - a') * lo' <= (1 - a) * lo) by (apply Rmult_le_compat; lra). lra.
  - apply Rle_trans with ((1 + a) * hi + h); [lra|]. assert ((1 + a) * hi <= (1 + a') * hi') by (apply Rmult_le_compat; lra). lra.
Qed.

Lemma fold_btw dbg (x y : f64) qs : near x -> near y -> forall k t0 t lo hi,
  (forall q, In q qs -> near_q q) -> (0 <= k)%Z -> (k + Z.of_nat (length qs) <= 2 ^ 26)%Z -> 0 <= lo -> 0 <= hi ->
  upto t0 (IZR k * bpow radix2 41) ->
  btw (23 / 1000000 + IZR (2 * k) * u53) (IZR (2 * k) * bpow radix2 (-1075)) lo hi t0 ->
  rfold (thickness_step (A:=FA L) dbg nc x y) qs t0 = Ret t ->
  upto t (IZR (k + Z.of_nat (length qs)) * bpow radix2 41) /\
  btw (23 / 1000000 + IZR (2 * (k + Z.of_nat (length qs))) * u53) (IZR (2 * (k + Z.of_nat (length qs))) * bpow radix2 (-1075))
    (lo + Rsum (cut_term (inner_cut V) x y) qs) (hi + Rsum (cut_term (outer_cut V) x y) qs) t.
Proof.
  intros Nx Ny. induction qs as [|q qs IH]; intros k t0 t lo hi Hq Hk Hl L0 H0 U B H.
  - cbn [rfold] in H. cbn [length Rsum fold_right] in *. change (Z.of_nat 0) with 0%Z. rewrite !Z.add_0_r, !Rplus_0_r.
    replace t with t0 by (exact (f_equal (fun r : result f64 => match r with Ret w => w | _ => t end) H)). auto.
  - cbn [rfold] in H. cbn [length] in *. rewrite !Rsum_cons, <- !Rplus_assoc.
    replace (k + Z.of_nat (S (length qs)))%Z with ((k + 1) + Z.of_nat (length qs))%Z by lia.
    destruct (thickness_step (A:=FA L) dbg nc x y t0 q) as [t1| | |] eqn:E; cbn [rbind] in H; [|discriminate H|discriminate H|discriminate H].
    assert (Nq : near_q q) by (apply Hq; simpl; auto).
    pose proof (cut_term_range (inner_cut V) x y q Nq) as CI. pose proof (cut_term_range (outer_cut V) x y q Nq) as CO.
    pose proof u53_small as [U0 U1].
    assert (K2 : 0 <= IZR (2 * k) <= IZR (2 * (k + 1))) by (split; apply IZR_le; lia).
    assert (K3 : IZR (2 * (k + 1)) <= 134217728) by (apply IZR_le; lia).
    apply IH with (t0 := t1); [intros; apply Hq; simpl; auto|lia|lia|lra|lra| | |exact H].
    all: destruct (term_ok dbg x y t0 t1 q Nx Ny Nq E) as [[-> Din]|(tau & -> & Ut & Dout & Bt)].
    + eapply upto_le; [exact U|]. apply Rmult_le_compat_r; [apply bpow_ge_0|]. apply IZR_le. lia.
    + apply upto_add; auto; lia.
    + assert (Z : cut_term (inner_cut V) x y q = 0) by (unfold cut_term; destruct (Rlt_dec _ _); lra).
      eapply btw_weaken; [exact B| | | |lra|lra].
      * assert (0 <= IZR (2 * k) * u53) by (apply Rmult_le_pos; lra).
        assert (IZR (2 * k) * u53 <= IZR (2 * (k + 1)) * u53) by (apply Rmult_le_compat_r; lra). lra.
      * assert (IZR (2 * (k + 1)) * u53 <= 134217728 * / 1000000000000000) by (apply Rmult_le_compat; lra). lra.
      * apply Rmult_le_compat_r; [apply bpow_ge_0|]. lra.
    + apply acc_step; auto; try lra; try lia; [apply bpow_ge_0| |].
      * eapply btw_weaken; [exact Bt|lra|lra|lra|lra|].
        unfold cut_term. destruct (Rlt_dec _ _) as [_|NL]; [pose proof (Gq_nonneg x y q Nq); lra|contradiction].
      * destruct U as [_ U], Ut as [_ Ut].
        assert (K4 : IZR k * bpow radix2 41 <= bpow radix2 26 * bpow radix2 41).
        { apply Rmult_le_compat_r; [apply bpow_ge_0|]. change (bpow radix2 26) with (IZR (2 ^ 26)). apply IZR_le. lia. }
        rewrite <- bpow_plus in K4. change (26 + 41)%Z with 67%Z in K4.
        assert (bpow radix2 41 <= bpow radix2 999) by (apply bpow_le; lia). assert (bpow radix2 67 <= bpow radix2 999) by (apply bpow_le; lia).
        change 1000%Z with (1 + 999)%Z. rewrite bpow_plus. change (bpow radix2 1) with 2. lra.
Qed.
End Term.

Lemma pi_bounds : 3141592 / 1000000 <= PI <= 3141593 / 1000000.
Proof.
  destruct (PI_2_3_7_ineq 3) as [A B].
  cbv [sum_f_R0 tg_alt PI_2_3_7_tg Ratan_seq Nat.mul Nat.add] in A, B.
  assert (I : forall n, INR n = IZR (Z.of_nat n)) by (intro; apply INR_IZR_INZ). rewrite !I in A, B.
  change (INR 15) with (INR (14 + 1)) in A. rewrite ?I in A.
  cbn [pow Z.of_nat Pos.of_succ_nat Pos.succ Nat.add] in A, B. lra.
Qed.


Section Pref.
Variable L : Libm.
Hypothesis HL : accurate_exp L.
Variable cfg : config (FA L).
Variable sp : f64.
Let v : f64 := constit_width cfg.
Hypothesis Fv : is_finite v = true.
Hypothesis Bv : bpow radix2 (-20) <= B2R v <= bpow radix2 200.
Hypothesis Hm : (1 <= constit_number cfg <= 2 ^ 26)%Z.
Let nc := nucleon_common_of cfg sp.
Let V := B2R v.
Let m := IZR (constit_number cfg).

Definition exact_pref : R := / (2 * PI * (V * V) * m).

Lemma pref_pos : 0 < exact_pref.
Proof.
  destruct (V_range v Bv) as [V0 V2]. fold V in V0, V2. pose proof pi_bounds. assert (1 <= m) by (apply IZR_le; lia).
  apply Rinv_0_lt_compat. assert (0 < V * V) by (apply Rmult_lt_0_compat; lra). assert (0 < 2 * PI) by lra. apply Rmult_lt_0_compat; [apply Rmult_lt_0_compat; lra|lra].
Qed.

Lemma pref_ok : exists e, Rabs e <= 1 / 1000000 /\ is_finite (nc_prefactor nc : f64) = true /\ B2R (nc_prefactor nc : f64) = exact_pref * (1 + e).
Proof.
  unfold nc, nucleon_common_of. cbn [nc_prefactor]. fold v. unfold sqr.
  change (exists e, Rabs e <= 1 / 1000000 /\
    is_finite (f64_div (f64_div f64_one_div_two_pi (f64_mul v v)) (f64_ofZ (to_size (constit_number cfg)))) = true /\
    B2R (f64_div (f64_div f64_one_div_two_pi (f64_mul v v)) (f64_ofZ (to_size (constit_number cfg)))) = exact_pref * (1 + e)).
  assert (Ev : to_size (constit_number cfg) = constit_number cfg).
  { unfold to_size. apply Z.mod_small. unfold size_max. lia. }
  rewrite Ev. destruct (ofZ_ok (constit_number cfg)) as [Fm Em]; [lia|]. fold m in Em.
  assert (FC : is_finite f64_one_div_two_pi = true) by (vm_compute; reflexivity).
  assert (VC : B2R f64_one_div_two_pi = 5734161139222659 / 36028797018963968).
  { rewrite (B2R_SF _ (SpecFloat.S754_finite false 5734161139222659 (-55))) by (vm_compute; reflexivity).
    cbn [SF2R cond_Zopp]. unfold F2R. cbn [Fnum Fexp]. change (bpow radix2 (-55)) with (/ 36028797018963968). lra. }
  set (C := f64_one_div_two_pi) in *. clearbody C. set (c := B2R C) in *.
  destruct (vsq_v v Fv Bv) as (e0 & He0 & F0 & E0). set (vsq := f64_mul v v) in *. fold V in E0.
  destruct (V_range v Bv) as [V0 V2]. fold V in V0, V2. pose proof u53_small as [U0 U1]. apply Rabs_le_inv in He0.
  set (Q := V * V) in *. assert (Q0 : 0 < Q) by (unfold Q; nra).
  assert (M1 : 1 <= m <= 67108864) by (split; apply IZR_le; lia).
  assert (C0 : / 8 <= c <= / 4) by (rewrite VC; lra).
  assert (S0 : bpow radix2 (-41) <= B2R vsq <= bpow radix2 401).
  { rewrite E0. change (-41)%Z with (-1 + -40)%Z. change 401%Z with (1 + 400)%Z. rewrite !bpow_plus.
    change (bpow radix2 (-1)) with (/ 2). change (bpow radix2 1) with 2. pose proof (bpow_gt_0 radix2 (-40)). nra. }
  pose proof (bpow_gt_0 radix2 (-41)).
  assert (I0 : bpow radix2 (-401) <= / B2R vsq <= bpow radix2 41).
  { change (-401)%Z with (- (401))%Z. change 41%Z with (- (-41))%Z. rewrite !bpow_opp. split; apply Rinv_le; lra. }
  assert (D1 : bpow radix2 (-404) <= c / B2R vsq <= bpow radix2 41).
  { unfold Rdiv. change (-404)%Z with (-3 + -401)%Z. rewrite bpow_plus. change (bpow radix2 (-3)) with (/ 8).
    pose proof (bpow_gt_0 radix2 (-401)). split; [apply Rmult_le_compat; lra|]. nra. }
  pose proof (bpow_gt_0 radix2 (-404)).
  destruct (div_ok C vsq FC) as (E1 & F1 & _); [lra|fold c; rewrite Rabs_pos_eq by lra; eapply Rle_trans; [apply D1|apply bpow_le; lia]|].
  fold c in E1. destruct (rnd_rel (c / B2R vsq)) as (e1 & He1 & R1). { rewrite Rabs_pos_eq by lra. eapply Rle_trans; [|apply D1]. apply bpow_le. lia. }
  rewrite R1 in E1. set (P1 := f64_div C vsq) in *. apply Rabs_le_inv in He1.
  assert (D2 : bpow radix2 (-431) <= B2R P1 / m <= bpow radix2 42).
  { assert (HP : bpow radix2 (-405) <= B2R P1 <= bpow radix2 42).
    { rewrite E1. change (-405)%Z with (-1 + -404)%Z. change 42%Z with (1 + 41)%Z. rewrite !bpow_plus.
      change (bpow radix2 (-1)) with (/ 2). change (bpow radix2 1) with 2. nra. }
    assert (IM : bpow radix2 (-26) <= / m <= 1).
    { split; [change (bpow radix2 (-26)) with (/ 67108864); apply Rinv_le; lra|]. rewrite <- Rinv_1. apply Rinv_le; lra. }
    unfold Rdiv. change (-431)%Z with (-405 + -26)%Z. rewrite bpow_plus. pose proof (bpow_gt_0 radix2 (-405)). pose proof (bpow_gt_0 radix2 (-26)).
    split; [apply Rmult_le_compat; lra|]. rewrite <- (Rmult_1_r (bpow radix2 42)). apply Rmult_le_compat; lra. }
  pose proof (bpow_gt_0 radix2 (-431)).
  destruct (div_ok P1 (f64_ofZ (constit_number cfg)) F1) as (E2 & F2 & _); rewrite ?Em; [lra|rewrite Rabs_pos_eq by lra; eapply Rle_trans; [apply D2|apply bpow_le; lia]|].
  rewrite Em in E2. destruct (rnd_rel (B2R P1 / m)) as (e2 & He2 & R2). { rewrite Rabs_pos_eq by lra. eapply Rle_trans; [|apply D2]. apply bpow_le. lia. }
  apply Rabs_le_inv in He2. pose proof pi_bounds as [PL PU].
  exists (2 * PI * c * (1 + e1) * (1 + e2) * / (1 + e0) - 1).
  split; [|split; [exact F2|]].
  - assert (CP : 1 - 4 / 10000000 <= 2 * PI * c <= 1 + 4 / 10000000) by (rewrite VC; lra).
    set (cp := 2 * PI * c) in *. set (u := u53) in *. set (i := / (1 + e0)).
    assert (I : 1 - 2 * u <= i <= 1 + 2 * u).
    { assert (W : i * (1 + e0) = 1) by (apply Rinv_l; lra). assert (0 < i) by (apply Rinv_0_lt_compat; lra). nra. }
    assert (J : 1 - 3 * u <= (1 + e1) * (1 + e2) <= 1 + 3 * u) by nra.
    rewrite (Rmult_assoc cp). set (j := (1 + e1) * (1 + e2)) in *.
    assert (KK : 1 - 6 * u <= j * i <= 1 + 6 * u) by nra.
    rewrite Rmult_assoc. set (k := j * i) in *. apply Rabs_le. nra.
  - rewrite E2, R2, E1, E0. unfold exact_pref. fold Q. field. repeat split; lra.
Qed.

Lemma thick_btw dbg n (x y t : f64) : near x -> near y -> near_nucleon n ->
  thickness (A:=FA L) dbg nc n x y = Ret t ->
  btw (25 / 1000000) (bpow radix2 (-1000))
    (exact_pref * Rsum (cut_term L cfg (inner_cut V) x y) (n_cons n))
    (exact_pref * Rsum (cut_term L cfg (outer_cut V) x y) (n_cons n)) t.
Proof.
  intros Nx Ny [Hl Hq] H. unfold thickness in H.
  destruct (rfold _ _ _) as [s| | |] eqn:E in H; cbn [rbind] in H; [|discriminate H|discriminate H|discriminate H].
  destruct (fold_btw L HL cfg sp Fv Bv dbg x y (n_cons n) Nx Ny 0%Z (nlit (FA L) 0 0) s 0 0) with (8 := E) as [US BS]; auto; try lra; try lia.
  { split; [vm_compute; reflexivity|]. change (B2R (nlit (FA L) 0 0 : f64)) with 0. rewrite Rmult_0_l. lra. }
  { split; [vm_compute; reflexivity|]. change (B2R (nlit (FA L) 0 0 : f64)) with 0. change (IZR (2 * 0)) with 0. lra. }
  rewrite Z.add_0_l, !Rplus_0_l in *. set (k := Z.of_nat (length (n_cons n))) in *.
  set (lo := Rsum (cut_term L cfg (inner_cut V) x y) (n_cons n)) in *.
  set (hi := Rsum (cut_term L cfg (outer_cut V) x y) (n_cons n)) in *.
  change (cut_term L cfg (inner_cut (B2R (constit_width cfg))) x y) with (cut_term L cfg (inner_cut V) x y) in BS.
  change (cut_term L cfg (outer_cut (B2R (constit_width cfg))) x y) with (cut_term L cfg (outer_cut V) x y) in BS.
  fold lo hi in BS.
  assert (lo0 : 0 <= lo) by (apply Rsum_nonneg; intros q Iq; apply cut_term_range; apply Hq; exact Iq).
  assert (hi0 : 0 <= hi) by (apply Rsum_nonneg; intros q Iq; apply cut_term_range; apply Hq; exact Iq).
  assert (K : 0 <= IZR k <= 67108864) by (split; apply IZR_le; lia).
  assert (K2 : 0 <= IZR (2 * k) <= 134217728) by (split; apply IZR_le; lia).
  pose proof u53_small as [U0 U1].
  assert (KU : 0 <= IZR (2 * k) * u53 <= / 7000000).
  { split; [apply Rmult_le_pos; lra|]. apply Rle_trans with (134217728 * / 1000000000000000); [apply Rmult_le_compat; lra|lra]. }
  destruct (btw_weaken _ _ lo hi lo hi (235 / 10000000) (bpow radix2 (-1048)) s BS ltac:(lra) ltac:(lra)) as (Fs & s0 & Bs); [|lra|lra|].
  { change (-1048)%Z with (27 + -1075)%Z. rewrite (bpow_plus radix2 27). apply Rmult_le_compat_r; [apply bpow_ge_0|]. change (bpow radix2 27) with 134217728. lra. }
  assert (s1 : B2R s <= bpow radix2 67).
  { destruct US as [_ US]. change 67%Z with (26 + 41)%Z. rewrite bpow_plus. eapply Rle_trans; [apply US|]. apply Rmult_le_compat_r; [apply bpow_ge_0|].
    change (bpow radix2 26) with 67108864. lra. }
  destruct pref_ok as (e & He & Fp & Ep). pose proof pref_pos as P0. set (P := nc_prefactor nc : f64) in *. set (X := exact_pref) in *.
  assert (PU : upto P (bpow radix2 42)) by (apply prefactor_upto; auto; lia).
  replace t with (f64_mul P s) by (exact (f_equal (fun r : result f64 => match r with Ret w => w | _ => t end) H)).
  destruct PU as [_ PU].
  assert (PS : 0 <= B2R P * B2R s <= bpow radix2 109).
  { split; [apply Rmult_le_pos; lra|]. change 109%Z with (42 + 67)%Z. rewrite bpow_plus. apply Rmult_le_compat; lra. }
  destruct (mul_ok P s Fp Fs) as (Em & Fm & _). { rewrite Rabs_pos_eq by lra. eapply Rle_trans; [apply PS|apply bpow_le; lia]. }
  split; [exact Fm|]. split; [rewrite Em; apply rnd_nonneg; lra|]. rewrite Em.
  destruct (rnd_err (B2R P * B2R s)) as (w & h & Hw & Hh & R). rewrite R, Ep.
  apply Rabs_le_inv in He, Hw, Hh.
  assert (X42 : X <= bpow radix2 43).
  { rewrite Ep in PU. change 43%Z with (1 + 42)%Z. rewrite bpow_plus. change (bpow radix2 1) with 2. nra. }
  assert (HH : 2 * X * bpow radix2 (-1048) + bpow radix2 (-1075) <= bpow radix2 (-1000)).
  { assert (X * bpow radix2 (-1048) <= bpow radix2 (-1005)).
    { change (-1005)%Z with (43 + -1048)%Z. rewrite (bpow_plus radix2 43). apply Rmult_le_compat_r; [apply bpow_ge_0|lra]. }
    change (-1000)%Z with (5 + -1005)%Z. rewrite (bpow_plus radix2 5). change (bpow radix2 5) with 32.
    assert (bpow radix2 (-1075) <= bpow radix2 (-1005)) by (apply bpow_le; lia). pose proof (bpow_gt_0 radix2 (-1005)). lra. }
  set (b := bpow radix2 (-1048)) in *. assert (b0 : 0 < b) by apply bpow_gt_0. set (z := B2R s) in *.
  assert (W : 1 - 11 / 10000000 <= (1 + e) * (1 + w) <= 1 + 11 / 10000000) by nra.
  replace (X * (1 + e) * z * (1 + w) + h) with (X * (z * ((1 + e) * (1 + w))) + h) by ring. set (g := (1 + e) * (1 + w)) in *. clearbody g.
  assert (ZG : (1 - 25 / 1000000) * lo - 2 * b <= z * g <= (1 + 25 / 1000000) * hi + 2 * b).
  { split.
    - destruct (Rle_lt_dec ((1 - 235 / 10000000) * lo - b) 0) as [N|N]; [assert (0 <= z * g) by (apply Rmult_le_pos; lra); nra|].
      apply Rle_trans with (((1 - 235 / 10000000) * lo - b) * (1 - 11 / 10000000)); [nra|apply Rmult_le_compat; lra].
    - apply Rle_trans with (((1 + 235 / 10000000) * hi + b) * (1 + 11 / 10000000)); [apply Rmult_le_compat; lra|nra]. }
  assert (XZ : X * ((1 - 25 / 1000000) * lo - 2 * b) <= X * (z * g) <= X * ((1 + 25 / 1000000) * hi + 2 * b)) by (split; apply Rmult_le_compat_l; lra).
  lra.
Qed.
End Pref.
