(** A math library that meets the accuracy contracts of C61 exists: round the
    exact value. *)
From Coq Require Import ZArith Reals Lra Lia Bool List Psatz String.
From Flocq Require Import Core BinarySingleNaN Relative Mult_error.
From Verif.Base Require Import Result Arith FArith.
From Verif.Model Require Import Config Nucleon Event.
From Verif.Spec Require Import Demo Evolved Finite.
From Verif.Proof Require Import Ieee IeeeInt IeeeSum.
From Verif.Properties Require Import ThicknessIeee FiniteRun.
Local Open Scope R_scope.

(** The nearest double to 100 significant bits of r. *)
Definition nearest (r : R) : f64 :=
  f64_mk (ZnearestE (r * bpow radix2 (100 - mag radix2 r))) (mag radix2 r - 100).

Definition exact_libm : Libm := {|
  m_exp := fun x => nearest (exp (B2R x));
  m_log := m_log demo_libm; m_log10 := m_log10 demo_libm;
  m_pow := fun x y => if Req_EM_T (B2R x) 0 then f64_zero else nearest (Rpower (B2R x) (B2R y));
  m_cos := m_cos demo_libm; m_sin := m_sin demo_libm; m_cbrt := m_cbrt demo_libm;
  m_expint := m_expint demo_libm; m_erfinv := m_erfinv demo_libm
|}.

Lemma nearest_ok r : 0 < r -> r <= bpow radix2 999 ->
  is_finite (nearest r) = true /\ 0 <= B2R (nearest r) /\
  Rabs (B2R (nearest r) - r) <= bpow radix2 (-50) * r + bpow radix2 (-1074).
Proof.
  intros H0 H1. unfold nearest. set (k := mag radix2 r : Z). set (m := ZnearestE (r * bpow radix2 (100 - k))).
  assert (K : bpow radix2 (k - 1) <= r).
  { pose proof (bpow_mag_le radix2 r ltac:(lra)) as Q. rewrite Rabs_pos_eq in Q by lra. exact Q. }
  set (v := IZR m * bpow radix2 (k - 100)).
  assert (V : Rabs (v - r) <= bpow radix2 (-100) * r).
  { assert (Q : Rabs (r * bpow radix2 (100 - k) - IZR m) <= / 2) by apply Znearest_half.
    replace (v - r) with (- ((r * bpow radix2 (100 - k) - IZR m) * bpow radix2 (k - 100))).
    - rewrite Rabs_Ropp, Rabs_mult, (Rabs_pos_eq (bpow radix2 (k - 100))) by apply bpow_ge_0.
      apply Rle_trans with (/ 2 * bpow radix2 (k - 100)); [apply Rmult_le_compat_r; [apply bpow_ge_0|exact Q]|].
      replace (k - 100)%Z with (1 + -100 + (k - 1))%Z by lia. rewrite (bpow_plus radix2 (1 + -100)), (bpow_plus radix2 1). change (bpow radix2 1) with 2.
      replace (/ 2 * (2 * bpow radix2 (-100) * bpow radix2 (k - 1))) with (bpow radix2 (-100) * bpow radix2 (k - 1)) by field.
      apply Rmult_le_compat_l; [apply bpow_ge_0|exact K].
    - unfold v. rewrite Rmult_minus_distr_r, Rmult_assoc, <- bpow_plus. replace (100 - k + (k - 100))%Z with 0%Z by lia.
      change (bpow radix2 0) with 1. ring. }
  assert (U : bpow radix2 (-100) <= / 1000000000000000).
  { apply Rle_trans with (bpow radix2 (-53)); [apply bpow_le; lia|apply u53_small]. }
  assert (V2 : 0 <= v <= bpow radix2 1000).
  { apply Rabs_le_inv in V. change 1000%Z with (1 + 999)%Z. rewrite bpow_plus. change (bpow radix2 1) with 2. nra. }
  pose proof (binary_normalize_correct prec64 emax64 prec64_gt_0 prec64_lt_emax mode_NE m (k - 100) false) as C.
  cbv zeta in C. change (F2R (Float radix2 m (k - 100))) with v in C.
  change (round radix2 (SpecFloat.fexp prec64 emax64) (round_mode mode_NE) v) with (rnd v) in C.
  rewrite lt_emax in C by (rewrite Rabs_pos_eq; lra). destruct C as (C1 & C2 & _).
  change (binary_normalize prec64 emax64 prec64_gt_0 prec64_lt_emax mode_NE m (k - 100) false) with (f64_mk m (k - 100)) in *.
  split; [exact C2|]. rewrite C1. split; [apply rnd_nonneg; lra|].
  destruct (rnd_err v) as (e & h & He & Hh & ->). pose proof u53_small as [U0 U1].
  assert (Hh' : Rabs h <= bpow radix2 (-1074)) by (eapply Rle_trans; [exact Hh|apply bpow_le; lia]).
  replace (v * (1 + e) + h - r) with ((v - r) + v * e + h) by ring.
  eapply Rle_trans; [apply Rabs_triang|]. apply Rplus_le_compat; [|exact Hh'].
  eapply Rle_trans; [apply Rabs_triang|]. rewrite (Rabs_mult v e), (Rabs_pos_eq v) by lra.
  assert (B50 : bpow radix2 (-50) = 8 * u53) by (change (-50)%Z with (3 + -53)%Z; rewrite bpow_plus; reflexivity). rewrite B50.
  assert (B100 : bpow radix2 (-100) <= u53) by (apply bpow_le; lia).
  apply Rabs_le_inv in V. assert (v <= 2 * r) by nra.
  assert (v * Rabs e <= 2 * r * u53) by (apply Rmult_le_compat; [lra|apply Rabs_pos|lra|exact He]).
  assert (Rabs (v - r) <= u53 * r). { apply Rabs_le. nra. }
  nra.
Qed.

Lemma exact_accurate : accurate_exp exact_libm /\ accurate_pow exact_libm.
Proof.
  assert (B : bpow radix2 (-50) <= / 2 * bpow radix2 (-40)).
  { change (/ 2) with (bpow radix2 (-1)). rewrite <- bpow_plus. apply bpow_le. lia. }
  split.
  - intros x Fx Hx. cbn [m_exp exact_libm].
    assert (E0 : 0 < exp (B2R x)) by apply exp_pos.
    assert (E1 : exp (B2R x) <= 3).
    { apply Rle_trans with (exp 1); [|apply exp_le_3]. destruct (proj2 Hx) as [Q|Q]; [left; apply exp_increasing; exact Q|rewrite Q; lra]. }
    assert (E2 : / 1594323 <= exp (B2R x)).
    { apply Rle_trans with (exp (- (13))).
      - rewrite exp_Ropp. apply Rinv_le_contravar; [apply exp_pos|].
        assert (Q : exp 13 = exp 1 ^ 13).
        { assert (PW : forall n, exp (INR n) = exp 1 ^ n).
          { induction n as [|n IH]; [simpl; rewrite exp_0; reflexivity|]. rewrite S_INR, exp_plus, IH. cbn [pow]. ring. }
          rewrite <- PW. f_equal. rewrite INR_IZR_INZ. reflexivity. }
        rewrite Q. apply Rle_trans with (3 ^ 13); [apply pow_incr; split; [left; apply exp_pos|apply exp_le_3]|]. lra.
      - destruct (proj1 Hx) as [Q|Q]; [left; apply exp_increasing; lra|rewrite <- Q; right; f_equal; lra]. }
    destruct (nearest_ok (exp (B2R x)) E0) as (F & _ & A).
    { apply Rle_trans with (bpow radix2 2); [change (bpow radix2 2) with 4; lra|apply bpow_le; lia]. }
    split; [exact F|]. eapply Rle_trans; [exact A|].
    assert (T : bpow radix2 (-1074) <= / 2 * bpow radix2 (-40) * exp (B2R x)).
    { apply Rle_trans with (bpow radix2 (-1) * bpow radix2 (-40) * bpow radix2 (-21)).
      - rewrite <- !bpow_plus. apply bpow_le. lia.
      - change (bpow radix2 (-1)) with (/ 2). apply Rmult_le_compat_l; [pose proof (bpow_ge_0 radix2 (-40)); lra|].
        apply Rle_trans with (/ 1594323); [|exact E2]. change (bpow radix2 (-21)) with (/ 2097152). apply Rinv_le; lra. }
    assert (bpow radix2 (-50) * exp (B2R x) <= / 2 * bpow radix2 (-40) * exp (B2R x)) by (apply Rmult_le_compat_r; lra).
    lra.
  - intros x y Fx Fy. cbn [m_pow exact_libm]. split.
    + intros Hx HR. destruct (Req_EM_T (B2R x) 0) as [Z|_]; [lra|].
      assert (P : 0 < Rpower (B2R x) (B2R y)) by apply exp_pos.
      destruct (nearest_ok (Rpower (B2R x) (B2R y)) P) as (F & N & A).
      { eapply Rle_trans; [exact HR|apply bpow_le; lia]. }
      split; [exact F|]. split; [exact N|]. eapply Rle_trans; [exact A|].
      assert (bpow radix2 (-1074) <= bpow radix2 (-1000)) by (apply bpow_le; lia). pose proof (bpow_ge_0 radix2 (-40)).
      assert (bpow radix2 (-50) * Rpower (B2R x) (B2R y) <= bpow radix2 (-40) * Rpower (B2R x) (B2R y)) by (apply Rmult_le_compat_r; lra).
      lra.
    + intros Z _. destruct (Req_EM_T (B2R x) 0) as [_|N]; [|contradiction]. split; reflexivity.
Qed.

Theorem C61_contract_met : exists L : Libm, accurate_exp L /\ accurate_pow L /\
  forall sp : f64, exists ev ev', event_new (width_049 L) = Ret ev /\
    event_compute false ev (one_proton L) (one_proton L) (nucleon_common_of (width_049 L) sp) = Ret ev' /\
    ordinary (width_049 L) /\ light_nucleus (one_proton L) /\ regular_map (ev_TR ev').
Proof.
  destruct exact_accurate as [H1 H2]. exists exact_libm. split; [exact H1|]. split; [exact H2|]. intros sp.
  exact (C61_instance exact_libm sp H1 H2).
Qed.
