(** The cell sum of one truncated Gaussian. *)
From Coq Require Import Reals Lra Lia ZArith List Psatz.
From Verif.Base Require Import Result Arith RArith.
From Verif.Model Require Import Event.
From Verif.Spec Require Import Profile.
From Verif.Proof Require Import Basics RBasics GaussInt Midpoint GridIntegral.
Import ListNotations.
Local Open Scope R_scope.

Lemma Rsum_product {X Y} (f : X -> R) (g : Y -> R) (l : list X) (m : list Y) :
  RBasics.Rsum (fun c : X * Y => f (fst c) * g (snd c)) (flat_map (fun x => map (fun y => (x, y)) m) l) = RBasics.Rsum f l * RBasics.Rsum g m.
Proof.
  induction l as [|x l IH]; [simpl; ring|]. cbn [flat_map]. rewrite Rsum_app, Rsum_map, IH, Rsum_cons. cbn [fst snd].
  rewrite Rsum_scale. ring.
Qed.

Lemma Rsum_zupto (f : Z -> R) N : RBasics.Rsum f (zupto N) = RBasics.Rsum (fun i => f (Z.of_nat i)) (seq 0 (Z.to_nat N)).
Proof.
  unfold zupto, zrange. rewrite Rsum_map. replace (N - 1 - 0 + 1)%Z with N by lia. apply Rsum_ext. intros i _. f_equal.
Qed.

(** Relative error of the cell sum of one truncated Gaussian, for s = step/width. *)
Definition disc_error (s : R) : R := 6 / 10000 + 11 / 10000 * s ^ 2 + 68 / 1000 * s ^ 4.

Lemma disc_sum (v st qx qy cut : R) (N : Z) :
  0 < st <= v -> 49 / 10 * v <= cut <= 51 / 10 * v ->
  Rabs qx + 5 * v <= IZR N * st / 2 -> Rabs qy + 5 * v <= IZR N * st / 2 ->
  Rabs (RBasics.Rsum (fun c : Z * Z =>
      let dx := (IZR (snd c) + / 2) * st - IZR N * st / 2 - qx in
      let dy := (IZR (fst c) + / 2) * st - IZR N * st / 2 - qy in
      if Rlt_dec (sqrt (dx ^ 2 + dy ^ 2)) cut then st * st * gauss2 (v ^ 2) dx dy else 0) (cells N) - 1) <= disc_error (st / v).
Proof.
  intros Hst Hc Hx Hy. pose proof PI_RGT_0 as HP. pose proof pi_low as PL.
  assert (HN : (0 < N)%Z).
  { apply lt_IZR. apply Rnot_le_lt. intros C. pose proof (Rabs_pos qx). assert (IZR N * st <= 0) by (rewrite <- (Rmult_0_l st); apply Rmult_le_compat_r; lra). lra. }
  assert (Hs : 0 < st / v <= 1).
  { split; [apply Rdiv_lt_0_compat; lra|]. apply Rmult_le_reg_r with v; [lra|]. unfold Rdiv. rewrite Rmult_assoc, Rinv_l by lra. lra. }
  set (s := st / v) in *.
  set (cx := fun (q : R) (i : Z) => (- (IZR N * st / 2) - q) / v + (IZR i + / 2) * s).
  assert (Row : forall q, Rabs q + 5 * v <= IZR N * st / 2 ->
    Rabs (RBasics.Rsum (fun i => if sel (cx q i) then s * bell (cx q i) else 0) (zupto N) - root2pi) <= eta s * root2pi /\
    0 <= RBasics.Rsum (fun i => if sel (cx q i) then s else 0) (zupto N) <= 112 / 10).
  { intros q Hq. rewrite !Rsum_zupto.
    assert (Iv : 0 < / v) by (apply Rinv_0_lt_compat; lra).
    pose proof (Rabs_def2x q (Rabs q) (Rle_refl _)) as Q.
    pose proof (row_sum ((- (IZR N * st / 2) - q) / v) s (Z.to_nat N) Hs) as RS.
    assert (E1 : (- (IZR N * st / 2) - q) / v <= -5).
    { apply Rmult_le_reg_r with v; [lra|]. unfold Rdiv at 1. rewrite Rmult_assoc, Rinv_l by lra. lra. }
    assert (E2 : 5 <= (- (IZR N * st / 2) - q) / v + INR (Z.to_nat N) * s).
    { rewrite INR_IZR_INZ, Z2Nat.id by lia. apply Rmult_le_reg_r with v; [lra|]. unfold s.
      replace (((- (IZR N * st / 2) - q) / v + IZR N * (st / v)) * v) with (- (IZR N * st / 2) - q + IZR N * st) by (field; lra). lra. }
    specialize (RS E1 E2). destruct RS as [R1 R2].
    split.
    - erewrite (Rsum_ext (fun i => if sel (cx q (Z.of_nat i)) then _ else 0)); [exact R1|]. intros i _. cbv beta. unfold cx. rewrite <- INR_IZR_INZ. reflexivity.
    - erewrite (Rsum_ext (fun i => if sel (cx q (Z.of_nat i)) then _ else 0)); [exact R2|]. intros i _. cbv beta. unfold cx. rewrite <- INR_IZR_INZ. reflexivity. }
  destruct (Row qx Hx) as [BX LX]. destruct (Row qy Hy) as [BY LY].
  set (SX := RBasics.Rsum (fun i => if sel (cx qx i) then s * bell (cx qx i) else 0) (zupto N)) in *.
  set (SY := RBasics.Rsum (fun i => if sel (cx qy i) then s * bell (cx qy i) else 0) (zupto N)) in *.
  set (NX := RBasics.Rsum (fun i => if sel (cx qx i) then s else 0) (zupto N)) in *.
  set (NY := RBasics.Rsum (fun i => if sel (cx qy i) then s else 0) (zupto N)) in *.
  set (F := fun c : Z * Z => _). 
  set (P := fun c : Z * Z => (if sel (cx qy (fst c)) then s * bell (cx qy (fst c)) else 0) * (if sel (cx qx (snd c)) then s * bell (cx qx (snd c)) else 0)).
  set (Q := fun c : Z * Z => (if sel (cx qy (fst c)) then s else 0) * (if sel (cx qx (snd c)) then s else 0)).
  assert (PQ : forall c, / (2 * PI) * P c - / (2 * PI * 59000) * Q c <= F c <= / (2 * PI) * P c).
  { intros [iy ix]. unfold F, P, Q. cbn [fst snd]. cbv zeta.
    set (dx := (IZR ix + / 2) * st - IZR N * st / 2 - qx). set (dy := (IZR iy + / 2) * st - IZR N * st / 2 - qy).
    assert (CX : cx qx ix = dx / v) by (unfold cx, dx, s; field; lra). assert (CY : cx qy iy = dy / v) by (unfold cx, dy, s; field; lra).
    rewrite CX, CY.
    assert (G : st * st * gauss2 (v ^ 2) dx dy = / (2 * PI) * (s * bell (dy / v) * (s * bell (dx / v)))).
    { unfold gauss2, bell, s. replace (st / v * exp (- (dy / v * (dy / v)) / 2) * (st / v * exp (- (dx / v * (dx / v)) / 2))) with (st / v * (st / v) * (exp (- (dy / v * (dy / v)) / 2) * exp (- (dx / v * (dx / v)) / 2))) by ring.
      rewrite <- exp_plus. replace (- (dy / v * (dy / v)) / 2 + - (dx / v * (dx / v)) / 2) with (- (dx ^ 2 + dy ^ 2) / (2 * v ^ 2)) by (field; lra).
      generalize (exp (- (dx ^ 2 + dy ^ 2) / (2 * v ^ 2))). intros z. field. lra. }
    pose proof (bell_pos (dx / v)) as B1. pose proof (bell_pos (dy / v)) as B2.
    assert (I1 : 0 < / (2 * PI)) by (apply Rinv_0_lt_compat; lra).
    assert (I2 : 0 < / (2 * PI * 59000)) by (apply Rinv_0_lt_compat; lra).
    assert (Z2 : 0 <= dx ^ 2 + dy ^ 2) by (pose proof (pow2_ge_0 dx); pose proof (pow2_ge_0 dy); lra).
    assert (SS : 0 < s * s) by (apply Rmult_lt_0_compat; lra).
    destruct (Rlt_dec (sqrt (dx ^ 2 + dy ^ 2)) cut) as [L|L].
    - assert (D2 : dx ^ 2 + dy ^ 2 <= (51 / 10 * v) ^ 2).
      { rewrite <- (pow2_sqrt (dx ^ 2 + dy ^ 2)) by exact Z2. apply pow_incr. split; [apply sqrt_pos|lra]. }
      assert (SE : forall d, d ^ 2 <= (51 / 10 * v) ^ 2 -> sel (d / v) = true).
      { intros d Hd. apply sel_true.
        assert (Rabs d <= 51 / 10 * v) by (apply Rnot_lt_le; intros C; assert (H : (51 / 10 * v) ^ 2 < Rabs d ^ 2) by (simpl; rewrite !Rmult_1_r; apply Rmult_le_0_lt_compat; lra); rewrite RPow_abs, (Rabs_pos_eq (d ^ 2)) in H by apply pow2_ge_0; lra).
        apply Rabs_def2x in H. split; [apply Rmult_le_reg_r with v; [lra|]|apply Rmult_le_reg_r with v; [lra|]]; unfold Rdiv at 2; rewrite ?Rmult_assoc, ?Rinv_l by lra; try lra.
        unfold Rdiv at 1. rewrite Rmult_assoc, Rinv_l by lra. lra. }
      rewrite !SE by (pose proof (pow2_ge_0 dx); pose proof (pow2_ge_0 dy); lra). rewrite G.
      assert (0 <= / (2 * PI * 59000) * (s * s)) by (apply Rmult_le_pos; lra). lra.
    - assert (T : 12 <= (dx ^ 2 + dy ^ 2) / (2 * v ^ 2)).
      { assert (D2 : (49 / 10 * v) ^ 2 <= dx ^ 2 + dy ^ 2).
        { rewrite <- (pow2_sqrt (dx ^ 2 + dy ^ 2)) by exact Z2. apply pow_incr. lra. }
        assert (V2 : 0 < v ^ 2) by (apply pow_lt; lra). apply Rmult_le_reg_r with (2 * v ^ 2); [lra|]. unfold Rdiv. rewrite Rmult_assoc, Rinv_l by lra.
        replace ((49 / 10 * v) ^ 2) with (2401 / 100 * v ^ 2) in D2 by field. lra. }
      assert (BB : 0 < bell (dy / v) * bell (dx / v) <= / 59000).
      { split; [apply Rmult_lt_0_compat; assumption|]. unfold bell. rewrite <- exp_plus.
        replace (- (dy / v * (dy / v)) / 2 + - (dx / v * (dx / v)) / 2) with (- ((dx ^ 2 + dy ^ 2) / (2 * v ^ 2))) by (field; lra). apply exp_12. exact T. }
      assert (U : 0 <= / (2 * PI) * (s * bell (dy / v) * (s * bell (dx / v))) <= / (2 * PI * 59000) * (s * s)).
      { replace (s * bell (dy / v) * (s * bell (dx / v))) with (s * s * (bell (dy / v) * bell (dx / v))) by ring.
        split; [apply Rmult_le_pos; [lra|apply Rmult_le_pos; lra]|].
        replace (/ (2 * PI * 59000) * (s * s)) with (/ (2 * PI) * (s * s * / 59000)) by (field; lra).
        apply Rmult_le_compat_l; [lra|]. apply Rmult_le_compat_l; lra. }
      destruct (sel (dy / v)), (sel (dx / v)); lra. }
  assert (SP : RBasics.Rsum P (cells N) = SY * SX).
  { unfold P, cells. rewrite (Rsum_product (fun i => if sel (cx qy i) then s * bell (cx qy i) else 0) (fun i => if sel (cx qx i) then s * bell (cx qx i) else 0)). reflexivity. }
  assert (SQ : RBasics.Rsum Q (cells N) = NY * NX).
  { unfold Q, cells. rewrite (Rsum_product (fun i => if sel (cx qy i) then s else 0) (fun i => if sel (cx qx i) then s else 0)). reflexivity. }
  assert (UP : RBasics.Rsum F (cells N) <= / (2 * PI) * (SY * SX)).
  { rewrite <- SP, <- Rsum_scale. apply Rsum_le. intros c _. apply PQ. }
  assert (LO : / (2 * PI) * (SY * SX) - / (2 * PI * 59000) * (NY * NX) <= RBasics.Rsum F (cells N)).
  { rewrite <- SP, <- SQ. rewrite <- !Rsum_scale. replace (RBasics.Rsum (fun x => / (2 * PI) * P x) (cells N) - RBasics.Rsum (fun x => / (2 * PI * 59000) * Q x) (cells N))
      with (RBasics.Rsum (fun x => / (2 * PI) * P x + - 1 * (/ (2 * PI * 59000) * Q x)) (cells N)) by (rewrite Rsum_plus, (Rsum_scale _ (-1)); ring).
    apply Rsum_le. intros c _. pose proof (PQ c). lra. }
  clearbody F P Q SX SY NX NY.
  assert (S2 : 0 < s ^ 2 <= 1) by (simpl; nra). assert (S4 : 0 < s ^ 4 <= 1) by (replace (s ^ 4) with (s ^ 2 * s ^ 2) by ring; nra).
  assert (EE : 0 < eta s <= 34 / 1000) by (unfold eta; lra).
  pose proof root2pi_low as RL. pose proof root2pi_sq as RS.
  apply Rabs_def2x in BX, BY.
  assert (X1 : (1 - eta s) * root2pi <= SX <= (1 + eta s) * root2pi) by lra.
  assert (Y1 : (1 - eta s) * root2pi <= SY <= (1 + eta s) * root2pi) by lra.
  assert (E0 : 0 <= (1 - eta s) * root2pi) by (apply Rmult_le_pos; lra).
  assert (M1 : (1 - eta s) * (1 - eta s) * (2 * PI) <= SY * SX <= (1 + eta s) * (1 + eta s) * (2 * PI)).
  { rewrite <- RS. split.
    - replace ((1 - eta s) * (1 - eta s) * (root2pi * root2pi)) with ((1 - eta s) * root2pi * ((1 - eta s) * root2pi)) by ring. apply Rmult_le_compat; lra.
    - replace ((1 + eta s) * (1 + eta s) * (root2pi * root2pi)) with ((1 + eta s) * root2pi * ((1 + eta s) * root2pi)) by ring. apply Rmult_le_compat; lra. }
  assert (I1 : 0 < / (2 * PI)) by (apply Rinv_0_lt_compat; lra).
  assert (M2 : (1 - eta s) * (1 - eta s) <= / (2 * PI) * (SY * SX) <= (1 + eta s) * (1 + eta s)).
  { split; (apply Rmult_le_reg_l with (2 * PI); [lra|]); rewrite <- (Rmult_assoc (2 * PI) (/ (2 * PI))), Rinv_r by lra; lra. }
  assert (M3 : / (2 * PI * 59000) * (NY * NX) <= 36 / 100000).
  { assert (NY * NX <= 112 / 10 * (112 / 10)) by (apply Rmult_le_compat; lra).
    assert (0 <= NY * NX) by (apply Rmult_le_pos; lra).
    assert (/ (2 * PI * 59000) <= / (6 * 59000)) by (apply Rinv_le_contravar; lra).
    assert (/ (2 * PI * 59000) * (NY * NX) <= / (6 * 59000) * (112 / 10 * (112 / 10))) by (apply Rmult_le_compat; try lra; apply Rlt_le, Rinv_0_lt_compat; lra). lra. }
  assert (E2 : 0 <= eta s * eta s <= 34 / 1000 * eta s) by (split; [apply Rmult_le_pos; lra|apply Rmult_le_compat_r; lra]).
  assert (DE : 2034 / 1000 * eta s + 36 / 100000 <= disc_error s) by (unfold disc_error, eta; lra).
  apply Rabs_le. lra.
Qed.
