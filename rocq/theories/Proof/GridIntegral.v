(** Sums of a Gaussian cut at about five widths over a grid of cells. *)
From Coq Require Import Reals Lra Lia ZArith List Psatz.
From Coquelicot Require Import Coquelicot.
From Verif.Base Require Import Result.
From Verif.Proof Require Import Basics RBasics GaussInt Midpoint.
Import ListNotations.
Local Open Scope R_scope.

(** ** Numerical bounds *)

Lemma exp_64 u c : 0 <= u -> 0 < c -> c <= (1 + u / 64) ^ 64 -> exp (- u) <= / c.
Proof.
  intros Hu Hc H. rewrite exp_Ropp. apply Rinv_le_contravar; [exact Hc|]. apply Rle_trans with (1 := H). clear H.
  replace (exp u) with (exp (u / 64) ^ 64).
  - apply pow_incr. split; [lra|]. apply exp_ineq1_le.
  - assert (E : forall n, exp (u / 64) ^ n = exp (INR n * (u / 64))).
    { induction n as [|n IH]; [rewrite Rmult_0_l, exp_0; reflexivity|]. rewrite S_INR. cbn [pow]. rewrite IH, <- exp_plus. f_equal. ring. }
    rewrite E. f_equal. rewrite INR_IZR_INZ. change (IZR (Z.of_nat 64)) with 64. field.
Qed.
Lemma sq_ge x c c2 : 0 <= c -> c2 <= c * c -> c <= x -> c2 <= x * x.
Proof. intros. apply Rle_trans with (c * c); [assumption|]. apply Rmult_le_compat; lra. Qed.
Lemma pow64 (x : R) : x ^ 64 = (let a := x * x in let b := a * a in let c := b * b in let d := c * c in let e := d * d in e * e).
Proof. cbv zeta. ring. Qed.

Lemma bell_46 x : 46 / 10 <= Rabs x -> bell x <= / 17000.
Proof.
  intros H. assert (X : 2116 / 100 <= x * x) by (rewrite <- (Rabs_pos_eq (x * x)) by (pose proof (Rle_0_sqr x); unfold Rsqr in *; lra); rewrite Rabs_mult; apply sq_ge with (46 / 10); lra).
  apply Rle_trans with (exp (- (1058 / 100))).
  - unfold bell. destruct (Req_dec (- (x * x) / 2) (- (1058 / 100))) as [->|N]; [right; reflexivity|]. left. apply exp_increasing. lra.
  - apply exp_64; [lra|lra|]. rewrite pow64. cbv zeta.
    apply sq_ge with (131.5); [lra|lra|]. apply sq_ge with (11.47); [lra|lra|]. apply sq_ge with (3.388); [lra|lra|].
    apply sq_ge with (1.841); [lra|lra|]. apply sq_ge with (1.357); [lra|lra|]. apply sq_ge with (1.165); [lra|lra|]. lra.
Qed.

Lemma exp_12 u : 12 <= u -> exp (- u) <= / 59000.
Proof.
  intros H. apply Rle_trans with (exp (Ropp 12)).
  - destruct (Req_dec (- u) (Ropp 12)) as [->|N]; [right; reflexivity|]. left. apply exp_increasing. lra.
  - apply exp_64; [lra|lra|]. rewrite pow64. cbv zeta.
    apply sq_ge with (243); [lra|lra|]. apply sq_ge with (15.6); [lra|lra|]. apply sq_ge with (3.951); [lra|lra|].
    apply sq_ge with (1.988); [lra|lra|]. apply sq_ge with (1.41); [lra|lra|]. apply sq_ge with (1.1875); [lra|lra|]. lra.
Qed.

Lemma bell1_46 x : 46 / 10 <= Rabs x -> Rabs (bell1 x) <= 12 / 1000.
Proof.
  intros H. assert (X : 2116 / 100 <= x * x) by (rewrite <- (Rabs_pos_eq (x * x)) by (pose proof (Rle_0_sqr x); unfold Rsqr in *; lra); rewrite Rabs_mult; apply sq_ge with (46 / 10); lra).
  pose proof (bell_poly x) as B. pose proof (bell_pos x) as P. set (w := 1 + x * x / 12) in *.
  assert (W : 276 / 100 <= w) by (unfold w; lra).
  unfold bell1. rewrite Rabs_mult, Rabs_Ropp, (Rabs_pos_eq (bell x)) by lra.
  assert (A : Rabs x <= 18 / 10 * w).
  { unfold w. assert (Q : x * x = Rabs x * Rabs x) by (rewrite <- Rabs_mult, Rabs_pos_eq; [reflexivity|pose proof (Rle_0_sqr x); unfold Rsqr in *; lra]).
    rewrite Q. generalize (Rabs x). intros a. pose proof (Rle_0_sqr (a - 10 / 3)) as S. unfold Rsqr in S. lra. }
  apply Rle_trans with (18 / 10 * w * bell x); [apply Rmult_le_compat_r; lra|].
  assert (W5 : 160 <= w ^ 5).
  { apply Rle_trans with ((276 / 100) ^ 5); [lra|]. apply pow_incr. lra. }
  assert (B' : w ^ 5 * (w * bell x) <= 1) by (replace (w ^ 5 * (w * bell x)) with (w ^ 6 * bell x) by ring; exact B).
  assert (WB : 0 < w * bell x) by (apply Rmult_lt_0_compat; lra).
  assert (160 * (w * bell x) <= 1) by (apply Rle_trans with (2 := B'); apply Rmult_le_compat_r; lra).
  rewrite Rmult_assoc. lra.
Qed.

Definition root2pi : R := sqrt (2 * PI).
Lemma pi_low : 3 < PI. Proof. pose proof PI2_3_2. lra. Qed.
Lemma root2pi_sq : root2pi * root2pi = 2 * PI.
Proof. pose proof pi_low. unfold root2pi. apply sqrt_sqrt. lra. Qed.
Lemma root2pi_low : 24 / 10 <= root2pi.
Proof. pose proof pi_low. unfold root2pi. rewrite <- (sqrt_square (24 / 10)) by lra. apply sqrt_le_1_alt. lra. Qed.

Lemma Gs_46 x : 46 / 10 <= x -> (1 - / 17000) * (root2pi / 2) <= Gs x <= root2pi / 2.
Proof.
  intros H. destruct (Gs_range x) as [L U]. pose proof (Gs_nonneg x ltac:(lra)) as G0. pose proof (bell_46 x ltac:(rewrite Rabs_pos_eq; lra)) as B.
  pose proof root2pi_low as RL. pose proof root2pi_sq as RS. pose proof (bell_pos x) as BP. pose proof pi_low as PL.
  split.
  - apply Rnot_lt_le. intros C. assert (Gs x * Gs x < (1 - / 17000) * (root2pi / 2) * ((1 - / 17000) * (root2pi / 2))) by (apply Rmult_le_0_lt_compat; lra).
    replace ((1 - / 17000) * (root2pi / 2) * ((1 - / 17000) * (root2pi / 2))) with ((1 - / 17000) * (1 - / 17000) * (PI / 2)) in H0.
    2:{ replace ((1 - / 17000) * (root2pi / 2) * ((1 - / 17000) * (root2pi / 2))) with ((1 - / 17000) * (1 - / 17000) * (root2pi * root2pi / 4)) by field. rewrite RS. field. }
    assert (PI / 2 * (1 - / 17000) <= PI / 2 * (1 - bell x)) by (apply Rmult_le_compat_l; lra).
    assert ((1 - / 17000) * (1 - / 17000) * (PI / 2) <= (1 - / 17000) * (PI / 2)) by (apply Rmult_le_compat_r; lra). lra.
  - apply Rnot_lt_le. intros C. assert (root2pi / 2 * (root2pi / 2) < Gs x * Gs x) by (apply Rmult_le_0_lt_compat; lra).
    replace (root2pi / 2 * (root2pi / 2)) with (PI / 2) in H0; [lra|]. replace (root2pi / 2 * (root2pi / 2)) with (root2pi * root2pi / 4) by field. rewrite RS. field.
Qed.

(** ** One row *)
Lemma down_closed (P : nat -> Prop) (D : forall i, {P i} + {~ P i}) : (forall i j, (j <= i)%nat -> P i -> P j) ->
  forall N, exists k, (k <= N)%nat /\ forall i, (i < N)%nat -> (P i <-> (i < k)%nat).
Proof.
  intros M. induction N as [|N (k & Hk & IH)]; [exists 0%nat; split; [lia|intros; lia]|].
  destruct (D N) as [T|F].
  - exists (S N). split; [lia|]. intros i Hi. split; [lia|]. intros _. apply (M N); [lia|exact T].
  - exists k. split; [lia|]. intros i Hi. destruct (Nat.eq_dec i N) as [->|Q]; [|apply IH; lia]. split; [contradiction|lia].
Qed.

Lemma seq_plus k n : seq k n = map (fun j => (k + j)%nat) (seq 0 n).
Proof.
  revert k. induction n as [|n IH]; intros k; [reflexivity|]. cbn [seq map]. rewrite Nat.add_0_r. f_equal.
  rewrite (IH (S k)), (IH 1%nat), map_map. apply map_ext. intros j. lia.
Qed.

Lemma Rsum_zero {X} (f : X -> R) l : (forall x, In x l -> f x = 0) -> Rsum f l = 0.
Proof. intros H. rewrite (Rsum_ext _ (fun _ => 0)) by exact H. rewrite Rsum_const. ring. Qed.

Definition sel (c : R) : bool := if Rle_dec (Rabs c) (51 / 10) then true else false.
Lemma sel_true c : sel c = true <-> -51 / 10 <= c <= 51 / 10.
Proof.
  unfold sel. destruct (Rle_dec _ _) as [H|H].
  - apply Rabs_le_between in H. split; [intros _; lra|reflexivity].
  - split; [discriminate|]. intros Q. destruct H. apply Rabs_le. lra.
Qed.

Definition eta (s : R) : R := / 10000 + s ^ 2 / 2000 + s ^ 4 / 30.

Section Row.
Variables (a0 s : R) (N : nat).
Hypothesis Hs : 0 < s <= 1.
Hypothesis HL : a0 <= -5.
Hypothesis HR : 5 <= a0 + INR N * s.
Let c (i : nat) : R := a0 + (INR i + / 2) * s.

Lemma c_mono i j : (i <= j)%nat -> c i <= c j.
Proof. intros H. unfold c. apply le_INR in H. apply Rplus_le_compat_l, Rmult_le_compat_r; lra. Qed.

Lemma row_range : exists k1 n, (k1 + n <= N)%nat /\ (forall i, (i < N)%nat -> sel (c i) = true <-> (k1 <= i < k1 + n)%nat) /\
  a0 + INR k1 * s <= -46 / 10 /\ 46 / 10 <= a0 + INR k1 * s + INR n * s /\ INR n * s <= 102 / 10 + s.
Proof.
  destruct (down_closed (fun i => c i < -51 / 10) (fun i => Rlt_dec _ _) ltac:(intros i j Hij H; pose proof (c_mono j i Hij); lra) N) as (k1 & K1 & P1).
  destruct (down_closed (fun i => c i <= 51 / 10) (fun i => Rle_dec _ _) ltac:(intros i j Hij H; pose proof (c_mono j i Hij); lra) N) as (k2 & K2 & P2).
  assert (K12 : (k1 <= k2)%nat).
  { apply Nat.nlt_ge. intros C. assert (A : c k2 < -51 / 10) by (apply P1; lia). assert (B : ~ c k2 <= 51 / 10) by (rewrite P2 by lia; lia). lra. }
  exists k1, (k2 - k1)%nat. split; [lia|]. split; [|split; [|split]].
  - intros i Hi. rewrite sel_true. specialize (P1 i Hi). specialize (P2 i Hi). replace (k1 + (k2 - k1))%nat with k2 by lia. split.
    + intros [A B]. split; [|apply P2; exact B]. apply Nat.nlt_ge. intros C. apply P1 in C. lra.
    + intros [A B]. split; [|apply P2; exact B]. apply Rnot_lt_le. intros C. apply P1 in C. lia.
  - destruct (Nat.eq_dec k1 0) as [->|Q]; [simpl; lra|].
    assert (A : c (k1 - 1) < -51 / 10) by (apply P1; lia). unfold c in A. rewrite minus_INR in A by lia. simpl (INR 1) in A. lra.
  - rewrite minus_INR by lia. replace (a0 + INR k1 * s + (INR k2 - INR k1) * s) with (a0 + INR k2 * s) by ring.
    destruct (Nat.eq_dec k2 N) as [->|Q]; [lra|].
    assert (A : ~ c k2 <= 51 / 10) by (rewrite P2 by lia; lia). unfold c in A. lra.
  - destruct (Nat.eq_dec k1 k2) as [->|Q]; [rewrite Nat.sub_diag; simpl; lra|].
    assert (A : ~ c k1 < -51 / 10) by (rewrite P1 by lia; lia). assert (B : c (k2 - 1) <= 51 / 10) by (apply P2; lia).
    unfold c in A, B. rewrite minus_INR in B by lia. simpl (INR 1) in B. rewrite minus_INR by lia. lra.
Qed.

Lemma row_select (f : nat -> R) k1 n : (k1 + n <= N)%nat -> (forall i, (i < N)%nat -> sel (c i) = true <-> (k1 <= i < k1 + n)%nat) ->
  Rsum (fun i => if sel (c i) then f i else 0) (seq 0 N) = Rsum (fun j => f (k1 + j)%nat) (seq 0 n).
Proof.
  intros Hn P. replace N with (k1 + (n + (N - k1 - n)))%nat at 1 by lia. rewrite !seq_app, !Rsum_app, !Nat.add_0_l.
  rewrite (Rsum_zero _ (seq 0 k1)).
  2:{ intros i Hi. apply in_seq in Hi. destruct (sel (c i)) eqn:E; [|reflexivity]. apply P in E; lia. }
  rewrite (Rsum_zero _ (seq (k1 + n) _)).
  2:{ intros i Hi. apply in_seq in Hi. destruct (sel (c i)) eqn:E; [|reflexivity]. apply P in E; lia. }
  rewrite (seq_plus k1 n), Rsum_map, Rplus_0_l, Rplus_0_r. apply Rsum_ext. intros j Hj. apply in_seq in Hj.
  destruct (sel (c (k1 + j))) eqn:E; [reflexivity|]. exfalso. assert (sel (c (k1 + j)) = true) by (apply P; lia). congruence.
Qed.

Lemma row_sum :
  Rabs (Rsum (fun i => if sel (c i) then s * bell (c i) else 0) (seq 0 N) - root2pi) <= eta s * root2pi /\
  0 <= Rsum (fun i => if sel (c i) then s else 0) (seq 0 N) <= 112 / 10.
Proof.
  destruct row_range as (k1 & n & Hn & P & EA & EB & Len). rewrite !(row_select _ k1 n Hn P).
  split.
  - set (a := a0 + INR k1 * s) in *. set (b := a + INR n * s) in *.
    pose proof (mid_row n a s ltac:(lra)) as M. fold b in M.
    replace (fold_right Rplus 0 (map (fun i => s * bell (a + (INR i + / 2) * s)) (seq 0 n)))
      with (Rsum (fun j => s * bell (c (k1 + j))) (seq 0 n)) in M.
    2:{ unfold Rsum. generalize (seq 0 n). induction l as [|j l IH]; [reflexivity|]. cbn [fold_right map]. rewrite IH. f_equal. f_equal. f_equal.
        unfold c, a. rewrite plus_INR. ring. }
    set (S := Rsum _ _) in *.
    pose proof (Gs_46 b EB) as GB. pose proof (Gs_46 (- a) ltac:(lra)) as GA. rewrite Gs_odd in GA.
    pose proof (bell1_46 b ltac:(rewrite Rabs_pos_eq; lra)) as BB. pose proof (bell1_46 a ltac:(rewrite Rabs_left; lra)) as BA.
    apply Rabs_le_between in BB, BA, M. pose proof root2pi_low as RL.
    assert (S2 : 0 < s * s <= 1) by nra. assert (S4 : 0 < s ^ 4 <= 1) by (replace (s ^ 4) with (s * s * (s * s)) by ring; nra).
    assert (NS : INR n * (s ^ 5 / 144) <= 112 / 10 * (s ^ 4 / 144)).
    { replace (INR n * (s ^ 5 / 144)) with (INR n * s * (s ^ 4 / 144)) by (simpl; field). apply Rmult_le_compat_r; lra. }
    assert (BD : - (s * s / 1000) <= s * s / 24 * (bell1 b - bell1 a) <= s * s / 1000) by (split; nra).
    unfold eta. replace (s ^ 2) with (s * s) by ring.
    assert (E : (/ 10000 + s * s / 2000 + s ^ 4 / 30) * root2pi >= / 10000 * root2pi + 24 / 10 * (s * s / 2000 + s ^ 4 / 30)).
    { rewrite !Rmult_plus_distr_r. assert (24 / 10 * (s * s / 2000) <= s * s / 2000 * root2pi) by (rewrite Rmult_comm; apply Rmult_le_compat_l; lra).
      assert (24 / 10 * (s ^ 4 / 30) <= s ^ 4 / 30 * root2pi) by (rewrite Rmult_comm; apply Rmult_le_compat_l; lra). lra. }
    apply Rabs_le. lra.
  - rewrite Rsum_const, seq_length. pose proof (pos_INR n). split; [apply Rmult_le_pos|]; lra.
Qed.
End Row.
