(** The eccentricity sums in binary64. *)
From Coq Require Import ZArith Reals Lra Lia Bool List Psatz.
From Coquelicot Require Import Complex.
From Flocq Require Import Core BinarySingleNaN Relative Mult_error.
From Verif.Base Require Import Result Arith FArith.
From Verif.Model Require Import Config Nucleon Nucleus Event.
From Verif.Spec Require Import Finite.
From Verif.Proof Require Import RBasics Ieee IeeeInt IeeeSum.
Import ListNotations.
Local Open Scope R_scope.

Lemma lit_ap n lo hi : (1 <= n <= 10)%Z -> bpow radix2 lo <= IZR n <= bpow radix2 hi -> ap (f64_ofZ n) (IZR n) (IZR n) 0 lo hi.
Proof.
  intros Hn B. destruct (ofZ_ok n) as [F E]; [lia|]. apply ap_exact; auto. rewrite Rabs_pos_eq; [lra|]. apply IZR_le. lia.
Qed.

Lemma Cmod_sqrt a b : Cmod (a, b) = sqrt (a * a + b * b).
Proof. unfold Cmod. f_equal. cbn [fst snd]. ring. Qed.

Lemma Cmod_pair a b a' b' : Cmod (a, b) <= Cmod (a', b') + Rabs (a - a') + Rabs (b - b').
Proof.
  replace (a, b) with (Cplus (a', b') (Cplus (RtoC (a - a')) (Cmult Ci (RtoC (b - b'))))).
  - eapply Rle_trans; [apply Cmod_triangle|]. eapply Rle_trans; [apply Rplus_le_compat_l, Cmod_triangle|].
    rewrite Cmod_mult, !Cmod_R. unfold Ci. rewrite (Cmod_sqrt 0 1). replace (0 * 0 + 1 * 1) with 1 by ring. rewrite sqrt_1. lra.
  - unfold Cplus, Cmult, Ci, RtoC. cbn [fst snd]. f_equal; ring.
Qed.

Lemma Cmod_comp a b : Rabs a <= Cmod (a, b) /\ Rabs b <= Cmod (a, b).
Proof.
  rewrite Cmod_sqrt. split; (rewrite <- sqrt_Rsqr_abs; apply sqrt_le_1_alt; unfold Rsqr; nra).
Qed.

(** Relative and absolute slack of one cell. *)
Definition sl : R := / 1073741824.           (* 2^-30 *)
Definition ab : R := bpow radix2 (-200).

(** The contributions re, im, wt of one cell are close to a complex number and
    to its modulus. *)
Definition cell_ok (re im wt : f64) : Prop :=
  exists om, 0 <= om <= bpow radix2 300 /\
    is_finite re = true /\ is_finite im = true /\ is_finite wt = true /\
    Cmod (B2R re, B2R im) <= (1 + sl) * om + ab /\ Rabs (B2R wt - om) <= sl * om + ab.

(** The same with the complex number zn given; om is its modulus. *)
Definition cell_near (re im wt : f64) (zn : C) (om : R) : Prop :=
  0 <= om <= bpow radix2 300 /\
  is_finite re = true /\ is_finite im = true /\ is_finite wt = true /\
  Rabs (B2R re - fst zn) <= / 4 * sl * om + / 4 * ab /\ Rabs (B2R im - snd zn) <= / 4 * sl * om + / 4 * ab /\
  Rabs (B2R wt - om) <= / 4 * sl * om + / 4 * ab /\ Cmod zn = om.

Lemma near_ok re im wt zn om : cell_near re im wt zn om -> cell_ok re im wt.
Proof.
  intros (HO & F1 & F2 & F3 & E1 & E2 & E3 & M). exists om.
  assert (sl0 : 0 < sl) by (unfold sl; lra). assert (ab0 : 0 < ab) by apply bpow_gt_0.
  assert (slo : 0 <= sl * om) by (apply Rmult_le_pos; lra).
  split; [exact HO|]. split; [exact F1|]. split; [exact F2|]. split; [exact F3|]. split; [|lra].
  eapply Rle_trans; [apply (Cmod_pair _ _ (fst zn) (snd zn))|]. rewrite <- surjective_pairing, M. lra.
Qed.

Section Cell.
Variables t x y : f64.
Hypothesis Ft : is_finite t = true.
Hypothesis Fx : is_finite x = true.
Hypothesis Fy : is_finite y = true.
Hypothesis Bt : bpow radix2 (-40) <= B2R t <= bpow radix2 200.
Hypothesis Bx : Rabs (B2R x) <= bpow radix2 16.
Hypothesis By : Rabs (B2R y) <= bpow radix2 16.

Let T := B2R t.
Let X := B2R x.
Let Y := B2R y.
Let dl := bpow radix2 (-190).
Let s := Rabs X + Rabs Y + dl.
Let r := sqrt (X * X + Y * Y).

Lemma dl_pos : 0 < dl. Proof. apply bpow_gt_0. Qed.
Lemma s_range : bpow radix2 (-190) <= s <= bpow radix2 18.
Proof.
  unfold s. pose proof (Rabs_pos X). pose proof (Rabs_pos Y). unfold X, Y, dl in *.
  assert (bpow radix2 (-190) <= bpow radix2 16) by (apply bpow_le; lia).
  change 18%Z with (2 + 16)%Z. rewrite bpow_plus. change (bpow radix2 2) with 4. pose proof (bpow_gt_0 radix2 16). lra.
Qed.

Lemma ap_t : ap t T T 0 (-40) 200.
Proof. apply ap_exact; auto. unfold T. rewrite Rabs_pos_eq; [lra|]. pose proof (bpow_gt_0 radix2 (-40)). lra. Qed.
Lemma ap_x : ap x X s 0 (-190) 18.
Proof. apply ap_exact; auto; [|apply s_range]. unfold s. pose proof (Rabs_pos Y). pose proof dl_pos. lra. Qed.
Lemma ap_y : ap y Y s 0 (-190) 18.
Proof. apply ap_exact; auto; [|apply s_range]. unfold s. pose proof (Rabs_pos X). pose proof dl_pos. lra. Qed.

Lemma r_le : r <= Rabs X + Rabs Y.
Proof.
  unfold r. pose proof (Rabs_pos X). pose proof (Rabs_pos Y). rewrite <- (R_sqrt.sqrt_square (Rabs X + Rabs Y)) by lra.
  apply sqrt_le_1_alt. replace (X * X) with (Rabs X * Rabs X) by (rewrite <- Rabs_mult; apply Rabs_pos_eq; nra).
  replace (Y * Y) with (Rabs Y * Rabs Y) by (rewrite <- Rabs_mult; apply Rabs_pos_eq; nra). nra.
Qed.
Lemma r_ge : Rabs X + Rabs Y <= 2 * r.
Proof.
  destruct (Cmod_comp X Y) as [A B]. rewrite Cmod_sqrt in A, B. fold r in A, B. lra.
Qed.
Lemma r_pos : 0 <= r. Proof. apply sqrt_pos. Qed.

Lemma ap_r : ap (f64_sqrt (f64_add (f64_mul x x) (f64_mul y y))) r s 4 (-190) 18.
Proof.
  assert (L : bpow radix2 16 <= bpow radix2 400) by (apply bpow_le; lia).
  destruct (hypot_ok x y Fx Fy) as (F & S & E); [fold X; unfold X; lra|lra|].
  fold X Y in E. fold r in E.
  split; [exact F|]. pose proof r_le. pose proof r_pos. pose proof dl_pos. pose proof s_range.
  split; [rewrite Rabs_pos_eq; [unfold s; lra|apply r_pos]|]. split; [|split; [exact s_range|lia]].
  eapply Rle_trans; [exact E|].
  assert (bpow radix2 (-530) <= u53 * s).
  { apply Rle_trans with (u53 * bpow radix2 (-190)); [rewrite <- bpow_plus; apply bpow_le; lia|]. apply Rmult_le_compat_l; [apply bpow_ge_0|lra]. }
  assert (r <= s) by (unfold s; lra). pose proof u53_small. assert (u53 * r <= u53 * s) by (apply Rmult_le_compat_l; lra). lra.
Qed.

(** From errors in units of T s^j to errors in units of T r^j. *)
Lemma weight_scale j : (2 <= j <= 5)%nat -> T * s ^ j <= 1024 * (T * r ^ j) + bpow radix2 (-178).
Proof.
  intros Hj. pose proof s_range as [S0 S1]. pose proof dl_pos. pose proof r_pos as R0. pose proof r_ge.
  assert (T0 : 0 <= T) by (unfold T; pose proof (bpow_gt_0 radix2 (-40)); lra).
  assert (s0 : 0 <= s) by (pose proof (bpow_gt_0 radix2 (-190)); lra).
  assert (P : s ^ j <= 1024 * r ^ j + bpow radix2 (-378)).
  { destruct (Rle_lt_dec dl (2 * r)) as [C|C].
    - assert (s <= 4 * r) by (unfold s; lra).
      apply Rle_trans with ((4 * r) ^ j); [apply pow_incr; lra|]. rewrite Rpow_mult_distr.
      assert (4 ^ j <= 1024). { apply Rle_trans with (4 ^ 5); [apply Rle_pow; [lra|lia]|simpl; lra]. }
      assert (0 <= r ^ j) by (apply pow_le; lra). pose proof (bpow_gt_0 radix2 (-378)). nra.
    - assert (s <= bpow radix2 (-189)). { unfold s. change (-189)%Z with (1 + -190)%Z. rewrite bpow_plus. change (bpow radix2 1) with 2. fold dl. lra. }
      apply Rle_trans with (bpow radix2 (-189) ^ j); [apply pow_incr; lra|].
      apply Rle_trans with (bpow radix2 (-189) ^ 2).
      + apply Rle_trans with (bpow radix2 (-189) ^ 2 * 1); [|lra].
        replace j with (2 + (j - 2))%nat by lia. rewrite pow_add. apply Rmult_le_compat_l; [apply pow_le, bpow_ge_0|].
        rewrite <- (pow1 (j - 2)). apply pow_incr. split; [apply bpow_ge_0|]. change 1 with (bpow radix2 0). apply bpow_le. lia.
      + replace (bpow radix2 (-189) ^ 2) with (bpow radix2 (-378)). 
        * assert (0 <= r ^ j) by (apply pow_le; lra). lra.
        * change (-378)%Z with (-189 + -189)%Z. rewrite bpow_plus. ring. }
  assert (T * bpow radix2 (-378) <= bpow radix2 (-178)).
  { change (-178)%Z with (200 + -378)%Z. rewrite bpow_plus. apply Rmult_le_compat_r; [apply bpow_ge_0|apply Bt]. }
  apply Rle_trans with (T * (1024 * r ^ j + bpow radix2 (-378))); [apply Rmult_le_compat_l; auto|]. lra.
Qed.

Lemma assemble j re im wt rv iv :
  (2 <= j <= 5)%nat ->
  is_finite re = true -> is_finite im = true -> is_finite wt = true ->
  Rabs (B2R re - rv) <= 512 * u53 * (T * s ^ j) ->
  Rabs (B2R im - iv) <= 512 * u53 * (T * s ^ j) ->
  Rabs (B2R wt - T * r ^ j) <= 512 * u53 * (T * s ^ j) ->
  rv * rv + iv * iv = (T * r ^ j) * (T * r ^ j) ->
  cell_near re im wt (rv, iv) (T * r ^ j).
Proof.
  intros Hj F1 F2 F3 E1 E2 E3 HQ. pose proof (weight_scale j Hj) as W.
  pose proof r_pos as R0. assert (T0 : 0 <= T) by (unfold T; pose proof (bpow_gt_0 radix2 (-40)); lra).
  assert (P0 : 0 <= r ^ j) by (apply pow_le; lra).
  unfold cell_near. set (om := T * r ^ j) in *.
  assert (O0 : 0 <= om) by (apply Rmult_le_pos; auto).
  assert (D : 512 * u53 * (T * s ^ j) <= / 4 * sl * om + / 4 * ab).
  { apply Rle_trans with (512 * u53 * (1024 * om + bpow radix2 (-178))).
    - apply Rmult_le_compat_l; [pose proof u53_small; lra|exact W].
    - assert (A1 : 512 * u53 * 1024 <= / 4 * sl).
      { unfold sl. change u53 with (/ 9007199254740992). lra. }
      assert (A2 : 512 * u53 * bpow radix2 (-178) <= / 4 * ab).
      { unfold ab. change (-178)%Z with (22 + -200)%Z. rewrite (bpow_plus radix2 22 (-200)). 
        change (bpow radix2 22) with 4194304. change u53 with (/ 9007199254740992). pose proof (bpow_gt_0 radix2 (-200)). lra. }
      assert (512 * u53 * 1024 * om <= / 4 * sl * om) by (apply Rmult_le_compat_r; auto). lra. }
  assert (sl0 : 0 < sl) by (unfold sl; lra). assert (ab0 : 0 < ab) by apply bpow_gt_0.
  assert (slo : 0 <= sl * om) by (apply Rmult_le_pos; lra).
  split.
  { split; [exact O0|]. unfold om. apply Rle_trans with (bpow radix2 200 * bpow radix2 90).
    - apply Rmult_le_compat; auto; [apply Bt|].
      apply Rle_trans with (bpow radix2 18 ^ j).
      + apply pow_incr. split; [exact R0|]. pose proof r_le. pose proof s_range. pose proof dl_pos. unfold s in *. lra.
      + apply Rle_trans with (bpow radix2 18 ^ 5).
        * apply Rle_pow; [|lia]. change 1 with (bpow radix2 0). apply bpow_le. lia.
        * change 90%Z with (18 + (18 + (18 + (18 + 18))))%Z. rewrite !bpow_plus. apply Req_le. ring.
    - rewrite <- bpow_plus. apply bpow_le. lia. }
  split; [exact F1|]. split; [exact F2|]. split; [exact F3|]. cbn [fst snd]. split; [lra|]. split; [lra|]. split; [lra|].
  rewrite Cmod_sqrt, HQ. apply R_sqrt.sqrt_square. exact O0.
Qed.

(** Reading an error bound off an approximation. *)
Lemma ap_err h v M k lo hi c N : ap h v M k lo hi -> M = IZR c * N -> 0 <= N -> (k * c <= 512)%Z ->
  Rabs (B2R h - v) <= 512 * u53 * N.
Proof.
  intros (_ & _ & E & _ & K) HM HN HK. eapply Rle_trans; [exact E|]. rewrite HM.
  replace (IZR k * u53 * (IZR c * N)) with (IZR (k * c) * (u53 * N)) by (rewrite mult_IZR; ring).
  replace (512 * u53 * N) with (512 * (u53 * N)) by ring. apply Rmult_le_compat_r; [apply Rmult_le_pos; [apply bpow_ge_0|auto]|].
  apply IZR_le. exact HK.
Qed.

Lemma ap2 : ap (f64_ofZ 2) 2 2 0 1 1. Proof. apply lit_ap; [lia|]. change (bpow radix2 1) with 2. lra. Qed.
Lemma ap3 : ap (f64_ofZ 3) 3 3 0 1 2. Proof. apply lit_ap; [lia|]. change (bpow radix2 1) with 2. change (bpow radix2 2) with 4. lra. Qed.
Lemma ap4 : ap (f64_ofZ 4) 4 4 0 2 2. Proof. apply lit_ap; [lia|]. change (bpow radix2 2) with 4. lra. Qed.
Lemma ap5 : ap (f64_ofZ 5) 5 5 0 2 3. Proof. apply lit_ap; [lia|]. change (bpow radix2 2) with 4. change (bpow radix2 3) with 8. lra. Qed.
Lemma ap6 : ap (f64_ofZ 6) 6 6 0 2 3. Proof. apply lit_ap; [lia|]. change (bpow radix2 2) with 4. change (bpow radix2 3) with 8. lra. Qed.
Lemma ap10 : ap (f64_ofZ 10) 10 10 0 3 4. Proof. apply lit_ap; [lia|]. change (bpow radix2 3) with 8. change (bpow radix2 4) with 16. lra. Qed.


Ltac side := vm_compute; discriminate.
Ltac apg :=
  lazymatch goal with
  | |- ap (f64_mul _ _) _ _ _ _ _ => eapply ap_mul; [apg|apg|side|side|side]
  | |- ap (f64_add _ _) _ _ _ _ _ => eapply ap_add; [apg|apg|side|side]
  | |- ap (f64_sub _ _) _ _ _ _ _ => eapply ap_sub; [apg|apg|side|side]
  | |- ap (f64_sqrt _) _ _ _ _ _ => exact ap_r
  | |- ap (f64_ofZ 2) _ _ _ _ _ => exact ap2
  | |- ap (f64_ofZ 3) _ _ _ _ _ => exact ap3
  | |- ap (f64_ofZ 4) _ _ _ _ _ => exact ap4
  | |- ap (f64_ofZ 5) _ _ _ _ _ => exact ap5
  | |- ap (f64_ofZ 6) _ _ _ _ _ => exact ap6
  | |- ap (f64_ofZ 10) _ _ _ _ _ => exact ap10
  | |- ap t _ _ _ _ _ => exact ap_t
  | |- ap x _ _ _ _ _ => exact ap_x
  | |- ap y _ _ _ _ _ => exact ap_y
  end.

Declare Scope f_scope.
Local Notation "a * b" := (f64_mul a b) : f_scope.
Local Notation "a + b" := (f64_add a b) : f_scope.
Local Notation "a - b" := (f64_sub a b) : f_scope.
Local Notation "# n" := (f64_ofZ n) (at level 1) : f_scope.
Delimit Scope f_scope with F.
Let r2 := (x * x + y * y)%F.
Let rh := f64_sqrt r2.

Lemma TN j : 0 <= T * s ^ j.
Proof.
  pose proof s_range as [S0 _]. pose proof (bpow_gt_0 radix2 (-190)). apply Rmult_le_pos; [|apply pow_le; lra].
  unfold T. pose proof (bpow_gt_0 radix2 (-40)). lra.
Qed.
Lemma rr : r * r = X * X + Y * Y.
Proof. apply sqrt_sqrt. nra. Qed.

Ltac close c := eapply (ap_err _ _ _ _ _ _ c); [apg| simpl; ring | apply TN | side].
Ltac fin := match goal with |- is_finite ?h = true => assert (Q : exists v M k lo hi, ap h v M k lo hi) by (do 5 eexists; apg); destruct Q as (? & ? & ? & ? & ? & Q); apply Q end.

Lemma near2 : cell_near (t * (y * y - x * x))%F (t * #2 * (x * y))%F (t * r2)%F
  (T * (Y * Y - X * X), T * 2 * (X * Y)) (T * r ^ 2).
Proof.
  unfold r2. eapply (assemble 2); [lia|fin|fin|fin|close 2%Z|close 2%Z| |].
  - replace (T * r ^ 2) with (T * (X * X + Y * Y)) by (rewrite <- rr; ring). close 2%Z.
  - replace (T * r ^ 2) with (T * (r * r)) by ring. rewrite rr. ring.
Qed.
Lemma cell2 : cell_ok (t * (y * y - x * x))%F (t * #2 * (x * y))%F (t * r2)%F.
Proof. exact (near_ok _ _ _ _ _ near2). Qed.

Lemma near3 : cell_near (t * (y * y * y - #3 * y * (x * x)))%F (t * (#3 * x * (y * y) - x * x * x))%F (t * r2 * rh)%F
  (T * (Y * Y * Y - 3 * Y * (X * X)), T * (3 * X * (Y * Y) - X * X * X)) (T * r ^ 3).
Proof.
  unfold rh, r2. eapply (assemble 3); [lia|fin|fin|fin|close 4%Z|close 4%Z| |].
  - replace (T * r ^ 3) with (T * (X * X + Y * Y) * r) by (rewrite <- rr; ring). close 2%Z.
  - replace (T * r ^ 3 * (T * r ^ 3)) with (T * T * (r * r) * (r * r) * (r * r)) by ring. rewrite rr. ring.
Qed.
Lemma cell3 : cell_ok (t * (y * y * y - #3 * y * (x * x)))%F (t * (#3 * x * (y * y) - x * x * x))%F (t * r2 * rh)%F.
Proof. exact (near_ok _ _ _ _ _ near3). Qed.

Lemma near4 : cell_near (t * (x * x * (x * x) + y * y * (y * y) - #6 * (x * x * (y * y))))%F
  (t * #4 * (x * y) * (y * y - x * x))%F (t * (r2 * r2))%F
  (T * (X * X * (X * X) + Y * Y * (Y * Y) - 6 * (X * X * (Y * Y))), T * 4 * (X * Y) * (Y * Y - X * X)) (T * r ^ 4).
Proof.
  unfold r2. eapply (assemble 4); [lia|fin|fin|fin|close 8%Z|close 8%Z| |].
  - replace (T * r ^ 4) with (T * ((X * X + Y * Y) * (X * X + Y * Y))) by (rewrite <- rr; ring). close 4%Z.
  - replace (T * r ^ 4 * (T * r ^ 4)) with (T * T * (r * r) * (r * r) * (r * r) * (r * r)) by ring. rewrite rr. ring.
Qed.
Lemma cell4 : cell_ok (t * (x * x * (x * x) + y * y * (y * y) - #6 * (x * x * (y * y))))%F
  (t * #4 * (x * y) * (y * y - x * x))%F (t * (r2 * r2))%F.
Proof. exact (near_ok _ _ _ _ _ near4). Qed.

Lemma near5 : cell_near (t * y * (#5 * (x * x * (x * x)) - #10 * (x * x * (y * y)) + y * y * (y * y)))%F
  (t * x * (x * x * (x * x) - #10 * (x * x * (y * y)) + #5 * (y * y * (y * y))))%F (t * (r2 * r2) * rh)%F
  (T * Y * (5 * (X * X * (X * X)) - 10 * (X * X * (Y * Y)) + Y * Y * (Y * Y)), T * X * (X * X * (X * X) - 10 * (X * X * (Y * Y)) + 5 * (Y * Y * (Y * Y)))) (T * r ^ 5).
Proof.
  unfold rh, r2. eapply (assemble 5); [lia|fin|fin|fin|close 16%Z|close 16%Z| |].
  - replace (T * r ^ 5) with (T * ((X * X + Y * Y) * (X * X + Y * Y)) * r) by (rewrite <- rr; ring). close 4%Z.
  - replace (T * r ^ 5 * (T * r ^ 5)) with (T * T * (r * r) * (r * r) * (r * r) * (r * r) * (r * r)) by ring. rewrite rr. ring.
Qed.
Lemma cell5 : cell_ok (t * y * (#5 * (x * x * (x * x)) - #10 * (x * x * (y * y)) + y * y * (y * y)))%F
  (t * x * (x * x * (x * x) - #10 * (x * x * (y * y)) + #5 * (y * y * (y * y))))%F (t * (r2 * r2) * rh)%F.
Proof. exact (near_ok _ _ _ _ _ near5). Qed.

End Cell.

(** ** Accumulators *)

Definition lim : R := bpow radix2 300.
Definition total (k : Z) (om : R) : R := (1 + sl) * om + IZR k * ab.

Section Acc.
Variable L : Libm.

(** An accumulator after at most k cells. *)
Definition acc_ok (k : Z) (e : ecc_acc (FA L)) : Prop :=
  exists sre sim swt om, 0 <= om <= IZR k * lim /\ (0 <= k)%Z /\
    Cmod (sre, sim) <= total k om /\ Rabs (swt - om) <= sl * om + IZR k * ab /\
    tracks k (e_re e) sre (total k om) /\ tracks k (e_im e) sim (total k om) /\ tracks k (e_wt e) swt (total k om).

Lemma sl_small : 0 < sl <= / 1000000000. Proof. unfold sl. lra. Qed.
Lemma ab_small : 0 < ab <= 1.
Proof. split; [apply bpow_gt_0|]. change 1 with (bpow radix2 0). apply bpow_le. lia. Qed.

Lemma total_bound k om : 0 <= om <= IZR k * lim -> (0 <= k <= 2 ^ 26)%Z -> 0 <= total k om <= bpow radix2 330.
Proof.
  intros HO HK. unfold total. pose proof sl_small. pose proof ab_small.
  assert (0 <= IZR k <= 67108864) by (split; apply IZR_le; lia).
  assert (L1 : 1 <= lim) by (change 1 with (bpow radix2 0); apply bpow_le; lia).
  split; [nra|].
  apply Rle_trans with (2 * om + IZR k * 1); [nra|].
  apply Rle_trans with (3 * (67108864 * lim)); [nra|].
  unfold lim. change 330%Z with (30 + 300)%Z. rewrite (bpow_plus radix2 30 300). change (bpow radix2 30) with 1073741824.
  pose proof (bpow_gt_0 radix2 300). lra.
Qed.

Lemma acc_zero : acc_ok 0 ecc_zero.
Proof.
  assert (Z : is_finite (f64_lit 0 0) = true /\ B2R (f64_lit 0 0) = 0) by (split; vm_compute; reflexivity).
  destruct Z as [F E]. exists 0, 0, 0, 0.
  split; [unfold lim; lra|]. split; [lia|].
  assert (T0 : total 0 0 = 0) by (unfold total; lra). rewrite T0.
  split; [rewrite Cmod_sqrt; replace (0 * 0 + 0 * 0) with 0 by ring; rewrite sqrt_0; lra|].
  split; [rewrite Rminus_0_r, Rabs_R0; lra|].
  split; [|split]; apply tracks_zero; auto.
Qed.

Lemma acc_skip k e : acc_ok k e -> acc_ok (k + 1) e.
Proof.
  intros (sre & sim & swt & om & HO & K & HC & HW & T1 & T2 & T3). pose proof ab_small.
  assert (TT : total k om <= total (k + 1) om) by (unfold total; rewrite plus_IZR; lra).
  exists sre, sim, swt, om. rewrite !plus_IZR.
  assert (0 <= lim) by apply bpow_ge_0.
  split; [lra|]. split; [lia|]. split; [lra|]. split; [lra|].
  split; [|split]; (eapply tracks_weaken; [eassumption|lia|exact TT]).
Qed.

Lemma acc_add k e re im wt : acc_ok k e -> cell_ok re im wt -> (k < 2 ^ 26)%Z -> acc_ok (k + 1) (ecc_add (A:=FA L) e re im wt).
Proof.
  intros (sre & sim & swt & om & HO & K & HC & HW & T1 & T2 & T3) (w & W0 & F1 & F2 & F3 & HC' & HW') Hk.
  destruct (Cmod_comp (B2R re) (B2R im)) as [C1 C2].
  assert (TT : total (k + 1) (om + w) = total k om + ((1 + sl) * w + ab)) by (unfold total; rewrite plus_IZR; ring).
  assert (HO' : 0 <= om + w <= IZR (k + 1) * lim) by (rewrite plus_IZR; unfold lim in *; lra).
  pose proof (total_bound _ _ HO' ltac:(lia)) as TB. rewrite TT in TB.
  assert (B9 : bpow radix2 330 <= bpow radix2 900) by (apply bpow_le; lia).
  exists (sre + B2R re), (sim + B2R im), (swt + B2R wt), (om + w).
  split; [exact HO'|]. split; [lia|]. rewrite TT. pose proof sl_small. pose proof ab_small.
  split.
  { replace (sre + B2R re, sim + B2R im) with (Cplus (sre, sim) (B2R re, B2R im)) by reflexivity.
    eapply Rle_trans; [apply Cmod_triangle|]. lra. }
  split.
  { replace (swt + B2R wt - (om + w)) with ((swt - om) + (B2R wt - w)) by ring.
    eapply Rle_trans; [apply Rabs_triang|]. rewrite plus_IZR. lra. }
  assert (WB : Rabs (B2R wt) <= (1 + sl) * w + ab).
  { replace (B2R wt) with (w + (B2R wt - w)) by ring. eapply Rle_trans; [apply Rabs_triang|]. rewrite (Rabs_pos_eq w) by lra. lra. }
  split; [|split]; (apply tracks_add; [assumption|assumption|lra|lia|lra]).
Qed.

Notation eccentricity_fine := fraction_like (only parsing).

Lemma B2R_SF' (x : f64) f : B2SF x = f -> B2R x = SF2R radix2 f.
Proof. intros <-. symmetry. apply SF2R_B2SF. Qed.

Lemma tiny_v : is_finite (f64_lit 1 (-12)) = true /\ bpow radix2 (-40) <= B2R (f64_lit 1 (-12)) <= bpow radix2 (-30).
Proof.
  split; [vm_compute; reflexivity|].
  rewrite (B2R_SF' (f64_lit 1 (-12)) (SpecFloat.S754_finite false 4951760157141521 (-92))) by (vm_compute; reflexivity).
  unfold SF2R, F2R, Defs.Fnum, Defs.Fexp, cond_Zopp. change (bpow radix2 (-92)) with (/ IZR (2 ^ 92)).
  change (bpow radix2 (-40)) with (/ IZR (2 ^ 40)). change (bpow radix2 (-30)) with (/ IZR (2 ^ 30)).
  change (IZR (2 ^ 92)) with 4951760157141521099596496896. change (IZR (2 ^ 40)) with 1099511627776. change (IZR (2 ^ 30)) with 1073741824. lra.
Qed.

Lemma fmax_tiny (w : f64) : is_finite w = true ->
  let d := f64_fmax w (f64_lit 1 (-12)) in is_finite d = true /\ B2R w <= B2R d /\ bpow radix2 (-40) <= B2R d /\ (Rabs (B2R w) <= bpow radix2 400 -> B2R d <= bpow radix2 400).
Proof.
  intros F d. destruct tiny_v as [Ft Bt]. unfold d, f64_fmax.
  rewrite (finite_not_nan _ F), (finite_not_nan _ Ft). rewrite ltb_ok by auto.
  assert (bpow radix2 (-30) <= bpow radix2 400) by (apply bpow_le; lia).
  destruct (Rlt_bool_spec (B2R w) (B2R (f64_lit 1 (-12)))).
  - split; [exact Ft|]. split; [lra|]. split; [lra|]. intros _. lra.
  - split; [exact F|]. split; [lra|]. split; [lra|]. intros A. pose proof (Rle_abs (B2R w)). lra.
Qed.

Lemma acc_finish k e : acc_ok k e -> (k <= 2 ^ 26)%Z -> eccentricity_fine (ecc_finish (A:=FA L) e).
Proof.
  intros (sre & sim & swt & om & HO & K & HC & HW & T1 & T2 & T3) Hk.
  pose proof (total_bound _ _ HO ltac:(lia)) as TB. set (B := total k om) in *.
  assert (B4 : 2 * bpow radix2 330 <= bpow radix2 400).
  { change 2 with (bpow radix2 1). rewrite <- bpow_plus. apply bpow_le. lia. }
  pose proof (tracks_bound _ _ _ _ T1 ltac:(lia)) as M1. pose proof (tracks_bound _ _ _ _ T2 ltac:(lia)) as M2. pose proof (tracks_bound _ _ _ _ T3 ltac:(lia)) as M3.
  destruct T1 as (F1 & _ & E1 & _). destruct T2 as (F2 & _ & E2 & _). destruct T3 as (F3 & _ & E3 & _).
  destruct (hypot_ok (e_re e) (e_im e) F1 F2) as (Fh & Sh & Eh); [lra|lra|].
  set (h := f64_sqrt _) in *.
  destruct (fmax_tiny (e_wt e) F3) as (Fd & W1 & D0 & D1). set (d := f64_fmax _ _) in *.
  specialize (D1 ltac:(lra)).
  unfold ecc_finish. change (eccentricity_fine (f64_div h d)).
  assert (h0 : 0 <= B2R h) by (apply sign_nonneg; auto).
  assert (d0 : 0 < B2R d) by (pose proof (bpow_gt_0 radix2 (-40)); lra).
  (* the numbers *)
  assert (KU : 2 * IZR k * u53 <= / 67108864).
  { assert (IZR k <= 67108864) by (apply IZR_le; lia). change u53 with (/ 9007199254740992). lra. }
  assert (EB : 2 * IZR k * u53 * B <= / 67108864 * B) by (apply Rmult_le_compat_r; lra).
  assert (KA : IZR k * ab <= / 1000000000 * B2R d).
  { apply Rle_trans with (/ 1000000000 * bpow radix2 (-40)); [|lra].
    apply Rle_trans with (67108864 * ab); [apply Rmult_le_compat_r; [pose proof ab_small; lra|apply IZR_le; lia]|].
    unfold ab. change (-40)%Z with (160 + -200)%Z. rewrite (bpow_plus radix2 160 (-200)).
    assert (bpow radix2 60 <= bpow radix2 160) by (apply bpow_le; lia). change (bpow radix2 60) with 1152921504606846976 in *.
    pose proof (bpow_gt_0 radix2 (-200)). nra. }
  assert (H5 : bpow radix2 (-530) <= / 1000000000 * B2R d).
  { apply Rle_trans with (/ 1000000000 * bpow radix2 (-40)); [|lra].
    apply Rle_trans with (bpow radix2 (-100)); [apply bpow_le; lia|].
    change (-40)%Z with (60 + -100)%Z. rewrite (bpow_plus radix2 60 (-100)). change (bpow radix2 60) with 1152921504606846976.
    pose proof (bpow_gt_0 radix2 (-100)). lra. }
  set (ka := IZR k * ab) in *.
  assert (ka0 : 0 <= ka) by (apply Rmult_le_pos; [apply IZR_le; lia|pose proof ab_small; lra]).
  assert (EBv : B = (1 + sl) * om + ka) by reflexivity.
  pose proof sl_small as SL.
  assert (slo : 0 <= sl * om <= / 1000000000 * om) by (split; [apply Rmult_le_pos; lra|apply Rmult_le_compat_r; lra]).
  assert (WD : om <= B2R d * (1 + / 16000000)).
  { apply Rabs_le_inv in E3. apply Rabs_le_inv in HW. lra. }
  assert (CM : Cmod (B2R (e_re e), B2R (e_im e)) <= (1 + / 33000000) * B).
  { eapply Rle_trans; [apply (Cmod_pair _ _ sre sim)|]. lra. }
  rewrite Cmod_sqrt in CM. set (q := sqrt _) in *.
  assert (q0 : 0 <= q) by apply sqrt_pos.
  assert (uq : 0 <= 3 * u53 * q <= / 100000000000000 * q).
  { pose proof u53_small. split; [apply Rmult_le_pos; lra|]. apply Rmult_le_compat_r; lra. }
  apply Rabs_le_inv in Eh.
  assert (HD : B2R h <= (1 + / 1048576) * B2R d).
  { lra. }
  assert (Q : 0 <= B2R h / B2R d <= 1 + / 1048576).
  { split; [apply Rmult_le_pos; [lra|apply Rlt_le, Rinv_0_lt_compat; exact d0]|]. apply Rmult_le_reg_r with (B2R d); auto. unfold Rdiv. rewrite Rmult_assoc, Rinv_l; lra. }
  destruct (div_ok h d Fh ltac:(lra)) as (E & F & _).
  { rewrite Rabs_pos_eq by lra. apply Rle_trans with (bpow radix2 1); [change (bpow radix2 1) with 2; lra|apply bpow_le; lia]. }
  split; [exact F|]. rewrite E. split; [apply rnd_nonneg; lra|].
  assert (RP : rep (1 + / 1048576)).
  { replace (1 + / 1048576) with (IZR 1048577 * bpow radix2 (-20)) by (change (bpow radix2 (-20)) with (/ 1048576); lra).
    apply (generic_format_FLT radix2 (-1074) 53). exists (Float radix2 1048577 (-20)); [reflexivity| |]; cbn; lia. }
  rewrite <- (rnd_id _ RP). apply rnd_le. lra.
Qed.

End Acc.

(** ** Sums over the cells *)

Lemma fold_tracks {X} (f : X -> f64) (g : X -> R) (l : list X) : forall k a s t,
  (forall c, In c l -> is_finite (f c) = true /\ Rabs (B2R (f c)) <= g c <= bpow radix2 230) ->
  tracks k a s t -> t <= IZR k * bpow radix2 230 -> (k + Z.of_nat (length l) <= 2 ^ 26)%Z ->
  tracks (k + Z.of_nat (length l)) (fold_left (fun acc c => f64_add acc (f c)) l a)
    (s + Rsum (fun c => B2R (f c)) l) (t + Rsum g l).
Proof.
  induction l as [|c l IH]; intros k a s t Hf HT Ht Hk; cbn [fold_left length].
  - replace (k + Z.of_nat 0)%Z with k by lia. unfold Rsum; cbn [fold_right]. rewrite !Rplus_0_r. exact HT.
  - rewrite !Rsum_cons, <- !Rplus_assoc.
    replace (k + Z.of_nat (S (length l)))%Z with ((k + 1) + Z.of_nat (length l))%Z by lia.
    destruct (Hf c ltac:(simpl; auto)) as [F B]. destruct HT as (H1 & H2 & H3 & H4).
    cbn [length] in Hk.
    assert (Hb : t + g c <= IZR (k + 1) * bpow radix2 230) by (rewrite plus_IZR; lra).
    apply IH; auto; [intros; apply Hf; simpl; auto| |lia].
    apply tracks_add; [split; auto|exact F|lra|lia|].
    eapply Rle_trans; [exact Hb|]. apply Rle_trans with (bpow radix2 26 * bpow radix2 230).
    + apply Rmult_le_compat_r; [apply bpow_ge_0|]. change (bpow radix2 26) with (IZR (2 ^ 26)). apply IZR_le. lia.
    + rewrite <- bpow_plus. apply bpow_le. lia.
Qed.

Lemma zero_v : is_finite (f64_lit 0 0) = true /\ B2R (f64_lit 0 0) = 0.
Proof. split; vm_compute; reflexivity. Qed.

Lemma sum_tracks {X} (f : X -> f64) (g : X -> R) (l : list X) :
  (forall c, In c l -> is_finite (f c) = true /\ Rabs (B2R (f c)) <= g c <= bpow radix2 230) ->
  (Z.of_nat (length l) <= 2 ^ 26)%Z ->
  tracks (Z.of_nat (length l)) (fold_left (fun acc c => f64_add acc (f c)) l (f64_lit 0 0))
    (Rsum (fun c => B2R (f c)) l) (Rsum g l).
Proof.
  intros Hf Hk. destruct zero_v as [F E].
  pose proof (fold_tracks f g l 0 (f64_lit 0 0) 0 0 Hf (tracks_zero _ F E) ltac:(lra) ltac:(lia)) as T.
  rewrite !Rplus_0_l in T. exact T.
Qed.

Section Sums.
Variable t : Z * Z -> f64.
Variable cs : list (Z * Z).
Hypothesis Len : (Z.of_nat (length cs) <= 2 ^ 26)%Z.
Hypothesis Idx : forall c, In c cs -> (0 <= fst c <= 2 ^ 13)%Z /\ (0 <= snd c <= 2 ^ 13)%Z.
Hypothesis Cells : forall c, In c cs -> is_finite (t c) = true /\ 0 <= B2R (t c) <= bpow radix2 200.

Let tot := fold_left (fun acc c => f64_add acc (t c)) cs (f64_lit 0 0).
Let S := Rsum (fun c => B2R (t c)) cs.

Lemma S_range : 0 <= S <= bpow radix2 226.
Proof.
  split; [apply Rsum_nonneg; intros c Hc; apply Cells; exact Hc|].
  apply Rle_trans with (Rsum (fun _ => bpow radix2 200) cs); [apply Rsum_le; intros c Hc; apply Cells; exact Hc|].
  rewrite Rsum_const. change 226%Z with (26 + 200)%Z. rewrite bpow_plus. apply Rmult_le_compat_r; [apply bpow_ge_0|].
  rewrite INR_IZR_INZ. change (bpow radix2 26) with (IZR (2 ^ 26)). apply IZR_le. exact Len.
Qed.

Lemma tot_ok : is_finite tot = true /\ Rabs (B2R tot - S) <= / 67108864 * S.
Proof.
  assert (T : tracks (Z.of_nat (length cs)) tot S S).
  { apply sum_tracks; [|exact Len]. intros c Hc. destruct (Cells c Hc) as [F B].
    assert (bpow radix2 200 <= bpow radix2 230) by (apply bpow_le; lia).
    split; [exact F|]. rewrite Rabs_pos_eq by lra. lra. }
  destruct T as (F & _ & E & _). split; [exact F|]. eapply Rle_trans; [exact E|].
  apply Rmult_le_compat_r; [apply S_range|].
  assert (IZR (Z.of_nat (length cs)) <= 67108864) by (apply IZR_le; exact Len).
  change u53 with (/ 9007199254740992). lra.
Qed.

Lemma centre_ok (ix : Z * Z -> Z) (Hix : forall c, In c cs -> (0 <= ix c <= 2 ^ 13)%Z) : 0 < S ->
  let m := f64_div (fold_left (fun acc c => f64_add acc (f64_mul (t c) (f64_ofZ (ix c)))) cs (f64_lit 0 0)) tot in
  is_finite m = true /\ Rabs (B2R m) <= bpow radix2 15.
Proof.
  intros SP m. pose proof S_range as SR. destruct tot_ok as [FT ET]. apply Rabs_le_inv in ET.
  assert (T : tracks (Z.of_nat (length cs)) (fold_left (fun acc c => f64_add acc (f64_mul (t c) (f64_ofZ (ix c)))) cs (f64_lit 0 0))
     (Rsum (fun c => B2R (f64_mul (t c) (f64_ofZ (ix c)))) cs) (Rsum (fun c => bpow radix2 13 * B2R (t c)) cs)).
  { apply (sum_tracks (fun c => f64_mul (t c) (f64_ofZ (ix c)))); [|exact Len]. intros c Hc. destruct (Cells c Hc) as [F B].
    specialize (Hix c Hc). destruct (ofZ_ok (ix c)) as [Fi Ei]; [lia|].
    assert (I0 : 0 <= IZR (ix c) <= bpow radix2 13).
    { split; [apply IZR_le; lia|]. change (bpow radix2 13) with (IZR (2 ^ 13)). apply IZR_le. lia. }
    assert (P : 0 <= B2R (t c) * B2R (f64_ofZ (ix c)) <= bpow radix2 13 * B2R (t c)).
    { rewrite Ei. split; [apply Rmult_le_pos; lra|]. rewrite Rmult_comm. apply Rmult_le_compat_r; lra. }
    assert (Q : bpow radix2 13 * B2R (t c) <= bpow radix2 213).
    { change 213%Z with (13 + 200)%Z. rewrite bpow_plus. apply Rmult_le_compat_l; [apply bpow_ge_0|lra]. }
    destruct (mul_ok (t c) (f64_ofZ (ix c)) F Fi) as (E & F' & _).
    { rewrite Rabs_pos_eq by lra. apply Rle_trans with (bpow radix2 213); [lra|apply bpow_le; lia]. }
    split; [exact F'|]. split; [|eapply Rle_trans; [exact Q|apply bpow_le; lia]].
    rewrite E, Rabs_pos_eq by (apply rnd_nonneg; lra).
    rewrite <- (rnd_id (bpow radix2 13 * B2R (t c))); [apply rnd_le; lra|].
    rewrite Rmult_comm. apply mult_bpow_pos_exact_FLT; [apply rep_B2R|lia]. }
  rewrite Rsum_scale in T. fold S in T.
  pose proof (tracks_bound _ _ _ _ T ltac:(lia)) as B. destruct T as (F & _ & _ & _).
  match type of F with is_finite ?z = true => set (n := z) in * end.
  assert (Q : Rabs (B2R n / B2R tot) <= bpow radix2 15).
  { unfold Rdiv. rewrite Rabs_mult, Rabs_inv, (Rabs_pos_eq (B2R tot)) by lra.
    apply Rmult_le_reg_r with (B2R tot); [lra|]. rewrite Rmult_assoc, Rinv_l, Rmult_1_r by lra.
    change (bpow radix2 15) with 32768. change (bpow radix2 13) with 8192 in B. lra. }
  destruct (div_ok n tot F) as (E & F' & _); [lra|eapply Rle_trans; [exact Q|apply bpow_le; lia]|].
  split; [exact F'|]. unfold m. rewrite E.
  apply (abs_round_le_generic radix2 (FLT_exp (-1074) 53) ZnearestE); [apply rep_bpow; lia|exact Q].
Qed.

End Sums.

Lemma offset_ok i (m : f64) : (0 <= i <= 2 ^ 13)%Z -> is_finite m = true -> Rabs (B2R m) <= bpow radix2 15 ->
  let x := f64_sub (f64_ofZ i) m in is_finite x = true /\ Rabs (B2R x) <= bpow radix2 16.
Proof.
  intros Hi F B x. destruct (ofZ_ok i) as [Fi Ei]; [lia|].
  assert (I0 : 0 <= IZR i <= 8192) by (split; apply IZR_le; lia).
  assert (Q : Rabs (B2R (f64_ofZ i) - B2R m) <= bpow radix2 16).
  { rewrite Ei. change (bpow radix2 15) with 32768 in B. change (bpow radix2 16) with 65536. apply Rabs_le_inv in B. apply Rabs_le. lra. }
  destruct (sub_ok (f64_ofZ i) m Fi F) as (E & F' & _); [eapply Rle_trans; [exact Q|apply bpow_le; lia]|].
  split; [exact F'|]. unfold x. rewrite E. 
  apply (abs_round_le_generic radix2 (FLT_exp (-1074) 53) ZnearestE); [apply rep_bpow; lia|exact Q].
Qed.

Section Obs.
Variable L : Libm.
Variables xc yc : f64.
Hypothesis Fxc : is_finite xc = true.
Hypothesis Fyc : is_finite yc = true.
Hypothesis Bxc : Rabs (B2R xc) <= bpow radix2 15.
Hypothesis Byc : Rabs (B2R yc) <= bpow radix2 15.
Variable t : Z * Z -> f64.

Definition quad_ok (k : Z) (a : ecc_acc (FA L) * ecc_acc (FA L) * ecc_acc (FA L) * ecc_acc (FA L)) : Prop :=
  let '(a2, a3, a4, a5) := a in acc_ok L k a2 /\ acc_ok L k a3 /\ acc_ok L k a4 /\ acc_ok L k a5.

Lemma obs_ok (l : list (Z * Z)) : forall k a,
  (forall c, In c l -> (0 <= fst c <= 2 ^ 13)%Z /\ (0 <= snd c <= 2 ^ 13)%Z /\ is_finite (t c) = true /\ 0 <= B2R (t c) <= bpow radix2 200) ->
  quad_ok k a -> (k + Z.of_nat (length l) <= 2 ^ 26)%Z ->
  quad_ok (k + Z.of_nat (length l))
    (fold_left (fun acc (c : Z * Z) =>
       if nltb (FA L) (t c) tiny then acc else obs_cell (A:=FA L) xc yc (t c) (fst c) (snd c) acc) l a).
Proof.
  induction l as [|c l IH]; intros k a Hl HQ Hk; cbn [fold_left length].
  - replace (k + Z.of_nat 0)%Z with k by lia. exact HQ.
  - replace (k + Z.of_nat (Datatypes.S (length l)))%Z with ((k + 1) + Z.of_nat (length l))%Z by lia.
    cbn [length] in Hk. apply IH; [intros; apply Hl; simpl; auto| |lia].
    destruct (Hl c ltac:(simpl; auto)) as (I1 & I2 & F & B).
    destruct a as [[[a2 a3] a4] a5]. destruct HQ as (Q2 & Q3 & Q4 & Q5).
    destruct tiny_v as [Fti Bti].
    destruct (nltb (FA L) (t c) tiny) eqn:E; [repeat split; apply acc_skip; assumption|].
    change (f64_ltb (t c) (f64_lit 1 (-12)) = false) in E. rewrite ltb_ok in E by auto.
    assert (B' : bpow radix2 (-40) <= B2R (t c) <= bpow radix2 200).
    { split; [|lra]. destruct (Rlt_bool_spec (B2R (t c)) (B2R (f64_lit 1 (-12)))); [discriminate E|lra]. }
    destruct (offset_ok (snd c) xc I2 Fxc Bxc) as [Fx Bx]. destruct (offset_ok (fst c) yc I1 Fyc Byc) as [Fy By].
    unfold obs_cell. cbv zeta.
    change (nofZ (FA L)) with f64_ofZ. change (nsub (FA L)) with f64_sub. change (nmul (FA L)) with f64_mul.
    change (nadd (FA L)) with f64_add. change (nsqrt (FA L)) with f64_sqrt. change (nlit (FA L)) with f64_lit.
    set (x := f64_sub (f64_ofZ (snd c)) xc) in *. set (y := f64_sub (f64_ofZ (fst c)) yc) in *.
    split; [|split; [|split]]; (apply acc_add; [assumption| |lia]).
    + exact (cell2 _ _ _ F Fx Fy B' Bx By).
    + exact (cell3 _ _ _ F Fx Fy B' Bx By).
    + exact (cell4 _ _ _ F Fx Fy B' Bx By).
    + exact (cell5 _ _ _ F Fx Fy B' Bx By).
Qed.
End Obs.
