(** The fixed-point exponential of Spec/FineDemo.v is accurate. *)
From Coq Require Import ZArith Reals Lra Lia Bool List Psatz.
From Flocq Require Import Core BinarySingleNaN Relative.
From Verif.Base Require Import Arith FArith.
From Verif.Spec Require Import Finite FineDemo.
From Verif.Proof Require Import Ieee DecR.
Local Open Scope R_scope.

Local Notation b2 := (bpow radix2).

(** One squaring: relative error d becomes at most (2 + d) d + rho. *)
Lemma square_step v t w d r : 0 < t -> 0 <= d -> Rabs (v - t) <= d * t -> Rabs (w - v * v) <= r * (t * t) ->
  Rabs (w - t * t) <= ((2 + d) * d + r) * (t * t).
Proof.
  intros Ht Hd Hv Hw. replace (w - t * t) with ((w - v * v) + (v - t) * (v + t)) by ring.
  assert (S : Rabs (v + t) <= (2 + d) * t).
  { replace (v + t) with ((v - t) + 2 * t) by ring. pose proof (Rabs_triang (v - t) (2 * t)) as T.
    rewrite (Rabs_pos_eq (2 * t)) in T by lra. lra. }
  pose proof (Rabs_triang (w - v * v) ((v - t) * (v + t))) as T. rewrite Rabs_mult in T.
  assert (M : Rabs (v - t) * Rabs (v + t) <= (d * t) * ((2 + d) * t)) by (apply Rmult_le_compat; try apply Rabs_pos; assumption).
  nra.
Qed.

Lemma square130_spec q : Rabs (IZR (square130 q) * b2 (-130) - (IZR q * b2 (-130)) * (IZR q * b2 (-130))) <= b2 (-130).
Proof.
  unfold square130. rewrite Z.shiftr_div_pow2 by lia.
  set (n := (q * q)%Z). set (P := (2 ^ 130)%Z).
  assert (HP : (0 < P)%Z) by (unfold P; lia).
  pose proof (Z_div_mod_eq_full n P) as E. pose proof (Z.mod_pos_bound n P HP) as B.
  assert (EP : IZR P * b2 (-130) = 1).
  { unfold P. change (IZR (2 ^ 130)) with (b2 130). rewrite <- bpow_plus. reflexivity. }
  apply (f_equal IZR) in E. rewrite plus_IZR, mult_IZR in E. unfold n in E at 1. rewrite mult_IZR in E.
  destruct B as [B1 B2]. apply IZR_le in B1. apply IZR_lt in B2.
  pose proof (bpow_gt_0 radix2 (-130)) as H. set (h := b2 (-130)) in *.
  replace (IZR q * h * (IZR q * h)) with ((IZR q * IZR q) * h * h) by ring. rewrite E.
  set (k := IZR (n / P)) in *. set (m := IZR (n mod P)) in *.
  replace (k * h - (IZR P * k + m) * h * h) with (- (m * h) * h + k * h * (1 - IZR P * h)) by ring.
  rewrite EP. replace (- (m * h) * h + k * h * (1 - 1)) with (- ((m * h) * h)) by ring. rewrite Rabs_Ropp.
  assert (0 <= m * h) by nra. assert (m * h <= 1) by nra.
  rewrite Rabs_pos_eq by nra. nra.
Qed.

Lemma exp_minus_14 : b2 (-23) <= exp (-14).
Proof.
  replace (-14) with (- (INR 14)) by (simpl; ring). rewrite exp_Ropp.
  assert (E : exp (INR 14) <= 3 ^ 14).
  { replace (INR 14) with (INR 14 * 1) by ring. rewrite <- Rpower_pow by lra. unfold Rpower. 
    apply Rle_trans with (exp (INR 14 * ln 3)); [|right; reflexivity].
    assert (1 <= ln 3). { rewrite <- (ln_exp 1). destruct exp_le_3 as [K|K]; [left; apply ln_increasing; [apply exp_pos|exact K]|rewrite K; lra]. }
    assert (INR 14 * 1 <= INR 14 * ln 3) by (apply Rmult_le_compat_l; [apply pos_INR|assumption]).
    destruct H0 as [K|K]; [left; apply exp_increasing; exact K|rewrite K; lra]. }
  apply Rle_trans with (/ 3 ^ 14); [|apply Rinv_le; [apply exp_pos|exact E]].
  change (b2 (-23)) with (/ IZR (2 ^ 23)). apply Rinv_le; [lra|]. change (IZR (2 ^ 23)) with 8388608. lra.
Qed.

Lemma exp_le_exp x y : x <= y -> exp x <= exp y.
Proof. intros [H|H]; [left; apply exp_increasing; exact H|rewrite H; lra]. Qed.

(** 1 + y against exp y. *)
Lemma exp_linear y : -1 <= y -> Rabs (1 + y - exp y) <= (y * y) * exp y.
Proof.
  intros Hy. pose proof (exp_ineq1_le y) as L. pose proof (exp_ineq1_le (- y)) as M. rewrite exp_Ropp in M.
  pose proof (exp_pos y) as P. rewrite Rabs_left1 by lra.
  assert (H : (1 + y) * / exp y >= (1 + y) * (1 - y)).
  { apply Rle_ge. apply Rmult_le_compat_l; lra. }
  assert (Q : (1 + y) = ((1 + y) * / exp y) * exp y) by (field; lra).
  assert (1 + y >= ((1 + y) * (1 - y)) * exp y).
  { rewrite Q at 1. apply Rle_ge, Rmult_le_compat_r; [lra|apply Rge_le; exact H]. }
  replace ((1 + y) * (1 - y)) with (1 - y * y) in H0 by ring. lra.
Qed.

Section Powers.
Variable q0 : Z.
Variable z : R.
Hypothesis Hz : -14 <= z <= 1.
Let y := z * b2 (-54).
Hypothesis Hq : IZR q0 * b2 (-130) = 1 + y.

Let t (i : nat) := exp (y * 2 ^ i).
Let v (i : nat) := IZR (Nat.iter i square130 q0) * b2 (-130).

Lemma pow2_b i : 2 ^ i = b2 (Z.of_nat i).
Proof. rewrite <- IZR_Zpower by lia. rewrite pow_IZR. reflexivity. Qed.

Lemma t_low i : (i <= 54)%nat -> b2 (-23) <= t i.
Proof.
  intros Hi. eapply Rle_trans; [apply exp_minus_14|]. apply exp_le_exp.
  assert (P : 0 <= b2 (-54) * 2 ^ i <= 1).
  { rewrite pow2_b, <- bpow_plus. split; [apply bpow_ge_0|]. change 1 with (b2 0). apply bpow_le. lia. }
  unfold y. rewrite Rmult_assoc. nra.
Qed.

Lemma t_square i : t (S i) = t i * t i.
Proof. unfold t. rewrite <- exp_plus. f_equal. simpl. ring. Qed.

Let rho := b2 (-107).
Let c := b2 (-98).

Lemma big_power : (201 / 100) ^ 54 <= b2 55.
Proof.
  unfold Rdiv. rewrite Rpow_mult_distr, pow_inv. apply Rmult_le_reg_r with (100 ^ 54); [apply pow_lt; lra|].
  rewrite Rmult_assoc, Rinv_l, Rmult_1_r by (apply pow_nonzero; lra).
  rewrite <- IZR_Zpower by lia. rewrite !pow_IZR, <- mult_IZR. apply IZR_le. vm_compute. discriminate.
Qed.

Lemma power_mono i : (i <= 54)%nat -> c * (201 / 100) ^ i <= b2 (-43).
Proof.
  intros Hi. apply Rle_trans with (c * b2 55).
  - apply Rmult_le_compat_l; [apply bpow_ge_0|]. apply Rle_trans with ((201 / 100) ^ 54); [|apply big_power].
    apply Rle_pow; [lra|exact Hi].
  - unfold c. rewrite <- bpow_plus. apply bpow_le. lia.
Qed.

Lemma powers i : (i <= 54)%nat -> Rabs (v i - t i) <= (c * (201 / 100) ^ i - rho) * t i.
Proof.
  induction i as [|i IH]; intros Hi.
  - unfold v, t. cbn [Nat.iter nat_rect pow]. rewrite Hq, !Rmult_1_r.
    assert (Y : Rabs y <= b2 (-50)).
    { unfold y. rewrite Rabs_mult, (Rabs_pos_eq (b2 (-54))) by apply bpow_ge_0.
      replace (b2 (-50)) with (16 * b2 (-54)) by (change 16 with (b2 4); rewrite <- bpow_plus; reflexivity).
      apply Rmult_le_compat_r; [apply bpow_ge_0|]. apply Rabs_le. lra. }
    assert (Y1 : -1 <= y).
    { apply Rabs_le_inv in Y. assert (b2 (-50) <= b2 0) by (apply bpow_le; lia). change (b2 0) with 1 in H. lra. }
    eapply Rle_trans; [apply exp_linear; exact Y1|]. apply Rmult_le_compat_r; [left; apply exp_pos|].
    assert (y * y <= b2 (-100)).
    { replace (y * y) with (Rabs y * Rabs y) by (rewrite <- Rabs_mult; apply Rabs_pos_eq; nra).
      change (b2 (-100)) with (b2 (-50 + -50)). rewrite bpow_plus. apply Rmult_le_compat; try apply Rabs_pos; exact Y. }
    unfold c, rho. replace (b2 (-98)) with (4 * b2 (-100)) by (change 4 with (b2 2); rewrite <- bpow_plus; reflexivity).
    assert (b2 (-107) <= b2 (-100)) by (apply bpow_le; lia). pose proof (bpow_gt_0 radix2 (-100)). lra.
  - pose proof (IH ltac:(lia)) as I. pose proof (power_mono i ltac:(lia)) as Pm. pose proof (t_low i ltac:(lia)) as Tl.
    pose proof (t_low (S i) Hi) as Tl'.
    assert (Tp : 0 < t i) by apply exp_pos.
    set (d := c * (201 / 100) ^ i - rho) in *.
    assert (D0 : 0 <= d).
    { apply Rmult_le_reg_r with (t i); [exact Tp|]. rewrite Rmult_0_l. eapply Rle_trans; [apply Rabs_pos|exact I]. }
    assert (R0 : 0 < rho) by apply bpow_gt_0.
    assert (D1 : d <= 1 / 100).
    { unfold d. assert (b2 (-43) <= b2 (-7)) by (apply bpow_le; lia). change (b2 (-7)) with (/ 128) in H. lra. }
    rewrite t_square in *.
    assert (W : Rabs (v (S i) - v i * v i) <= rho * (t i * t i)).
    { eapply Rle_trans; [apply square130_spec|]. unfold rho. apply Rle_trans with (b2 (-107) * b2 (-23)).
      - rewrite <- bpow_plus. apply bpow_le. lia.
      - apply Rmult_le_compat_l; [apply bpow_ge_0|exact Tl']. }
    eapply Rle_trans; [apply (square_step _ _ _ d rho Tp D0 I W)|].
    apply Rmult_le_compat_r; [nra|]. simpl pow. 
    assert (c * (201 / 100 * (201 / 100) ^ i) = 201 / 100 * (d + rho)) by (unfold d; ring). rewrite H. nra.
Qed.

Lemma powers_end : Rabs (v 54 - exp z) <= b2 (-43) * exp z.
Proof.
  assert (E : t 54 = exp z).
  { unfold t, y. f_equal. rewrite pow2_b, Rmult_assoc, <- bpow_plus. change (b2 (-54 + Z.of_nat 54)) with 1. ring. }
  rewrite <- E. eapply Rle_trans; [apply powers; lia|]. apply Rmult_le_compat_r; [left; apply exp_pos|].
  pose proof (power_mono 54 ltac:(lia)). assert (0 < rho) by apply bpow_gt_0. lra.
Qed.
End Powers.

(** The integer part of 2^76 x. *)
Lemma fixed76_spec x : is_finite x = true -> IZR (fixed76 x) * b2 (-76) <= B2R x < IZR (fixed76 x) * b2 (-76) + b2 (-76).
Proof.
  pose proof (bpow_gt_0 radix2 (-76)) as H0.
  destruct x as [s| | |s m e Hb]; intros F; try discriminate; [cbn; lra|].
  unfold fixed76, B2R, F2R. cbn [Fnum Fexp].
  replace (cond_Zopp s (Zpos m)) with (if s then Z.neg m else Z.pos m) by (destruct s; reflexivity).
  set (n := (if s then Z.neg m else Z.pos m)).
  destruct (Z.le_gt_cases 0 (e + 76)) as [Le|Gt].
  - rewrite Z.shiftl_mul_pow2 by exact Le. rewrite mult_IZR, two_pow by exact Le. rewrite Rmult_assoc, <- bpow_plus.
    replace (e + 76 + -76)%Z with e by lia. lra.
  - rewrite Z.shiftl_div_pow2 by lia. set (k := (- (e + 76))%Z). 
    assert (Kp : (0 < 2 ^ k)%Z) by (apply Z.pow_pos_nonneg; unfold k; lia).
    pose proof (Z_div_mod_eq_full n (2 ^ k)) as E. pose proof (Z.mod_pos_bound n _ Kp) as B.
    apply (f_equal IZR) in E. rewrite plus_IZR, mult_IZR in E. destruct B as [B1 B2].
    apply IZR_le in B1. apply IZR_lt in B2. rewrite two_pow in E, B2 by (unfold k; lia).
    assert (E1 : b2 k * b2 e = b2 (-76)) by (rewrite <- bpow_plus; f_equal; unfold k; lia).
    pose proof (bpow_gt_0 radix2 e). rewrite E. set (w := IZR (n / 2 ^ k)) in *. set (r := IZR (n mod 2 ^ k)) in *.
    rewrite Rmult_plus_distr_r. replace (b2 k * w * b2 e) with (w * (b2 k * b2 e)) by ring. rewrite E1. nra.
Qed.

Theorem fine_exp_accurate x : is_finite x = true -> -13 <= B2R x <= 1 ->
  is_finite (fine_exp x) = true /\ Rabs (B2R (fine_exp x) - exp (B2R x)) <= b2 (-40) * exp (B2R x).
Proof.
  intros F Hx. destruct (fixed76_spec x F) as [X1 X2]. set (z := IZR (fixed76 x) * b2 (-76)) in *.
  assert (S76 : b2 (-76) <= / 2) by (change (/ 2) with (b2 (-1)); apply bpow_le; lia).
  assert (Hz : -14 <= z <= 1) by lra.
  pose proof (powers_end (2 ^ 130 + fixed76 x) z Hz) as P.
  assert (Hq : IZR (2 ^ 130 + fixed76 x) * b2 (-130) = 1 + z * b2 (-54)).
  { rewrite plus_IZR. change (IZR (2 ^ 130)) with (b2 130). rewrite Rmult_plus_distr_r, <- bpow_plus. change (b2 (130 + -130)) with 1.
    unfold z. rewrite Rmult_assoc, <- bpow_plus. reflexivity. }
  specialize (P Hq). unfold fine_exp. set (m := Nat.iter 54 square130 (2 ^ 130 + fixed76 x)%Z) in *. set (w := IZR m * b2 (-130)) in *.
  pose proof (exp_pos z) as Ez. pose proof (exp_pos (B2R x)) as Ex.
  (* exp z against exp x *)
  assert (Zx : Rabs (exp z - exp (B2R x)) <= b2 (-75) * exp (B2R x)).
  { assert (L : exp z <= exp (B2R x)) by (apply exp_le_exp; exact X1). rewrite Rabs_left1 by lra.
    pose proof (exp_ineq1_le (z - B2R x)) as M. unfold Rminus in M. rewrite exp_plus, exp_Ropp in M.
    assert (Q : exp z = (exp z * / exp (B2R x)) * exp (B2R x)) by (field; lra).
    assert ((1 + (z - B2R x)) * exp (B2R x) <= exp z) by (rewrite Q; apply Rmult_le_compat_r; lra).
    assert (b2 (-76) <= b2 (-75)) by (apply bpow_le; lia). nra. }
  assert (E3 : exp (B2R x) <= 3) by (eapply Rle_trans; [apply exp_le_exp, (proj2 Hx)|apply exp_le_3]).
  assert (S43 : b2 (-43) <= / 2) by (change (/ 2) with (b2 (-1)); apply bpow_le; lia).
  assert (Zl : exp z <= exp (B2R x)) by (apply exp_le_exp; exact X1).
  assert (W : Rabs (w - exp (B2R x)) <= b2 (-42) * exp (B2R x)).
  { replace (w - exp (B2R x)) with ((w - exp z) + (exp z - exp (B2R x))) by ring.
    eapply Rle_trans; [apply Rabs_triang|]. eapply Rle_trans; [apply Rplus_le_compat; [exact P|exact Zx]|].
    replace (b2 (-42)) with (b2 (-43) + b2 (-43)) by (change (b2 (-42)) with (b2 (1 + -43)); rewrite bpow_plus; change (b2 1) with 2; ring).
    assert (b2 (-75) <= b2 (-43)) by (apply bpow_le; lia). pose proof (bpow_gt_0 radix2 (-43)). nra. }
  assert (S42 : b2 (-42) <= / 2) by (change (/ 2) with (b2 (-1)); apply bpow_le; lia).
  apply Rabs_le_inv in W as W'.
  assert (Wp : 0 < w) by nra. assert (W6 : w <= 6) by nra.
  destruct (mk_ok m (-130)) as [Fm Em].
  { fold w. rewrite Rabs_pos_eq by lra. apply Rle_trans with (b2 3); [change (b2 3) with 8; lra|apply bpow_le; lia]. }
  split; [exact Fm|]. rewrite Em. fold w.
  assert (Rd : Rabs (rnd w - w) <= b2 (-52) * w).
  { rewrite <- (Rabs_pos_eq w) at 3 by lra. 
    assert (Lw : b2 (-1022) <= Rabs w).
    { rewrite Rabs_pos_eq by lra. apply Rle_trans with (b2 (-24)); [apply bpow_le; lia|].
      assert (b2 (-23) <= exp (B2R x)) by (eapply Rle_trans; [apply exp_minus_14|apply exp_le_exp; lra]).
      replace (b2 (-24)) with (/ 2 * b2 (-23)) by (change (/ 2) with (b2 (-1)); rewrite <- bpow_plus; reflexivity). nra. }
    pose proof (relative_error_N_FLT radix2 (-1074) 53 ltac:(lia) (fun n => negb (Z.even n)) w Lw) as Q.
    eapply Rle_trans; [exact Q|]. apply Rmult_le_compat_r; [apply Rabs_pos|]. change (/ 2) with (b2 (-1)). rewrite <- bpow_plus. apply bpow_le; lia. }
  replace (rnd w - exp (B2R x)) with ((rnd w - w) + (w - exp (B2R x))) by ring.
  eapply Rle_trans; [apply Rabs_triang|]. eapply Rle_trans; [apply Rplus_le_compat; [exact Rd|exact W]|].
  replace (b2 (-40)) with (4 * b2 (-42)) by (change 4 with (b2 2); rewrite <- bpow_plus; reflexivity).
  assert (b2 (-52) <= b2 (-42)) by (apply bpow_le; lia). pose proof (bpow_gt_0 radix2 (-42)). pose proof (bpow_gt_0 radix2 (-52)). nra.
Qed.

Lemma fine_accurate pow : accurate_exp (fine_libm pow).
Proof. intros x. apply fine_exp_accurate. Qed.
