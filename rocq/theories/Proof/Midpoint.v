(** The midpoint rule for the Gaussian. *)
From Coq Require Import Reals Lra Lia ZArith List Psatz.
From Coquelicot Require Import Coquelicot.
From Verif.Proof Require Import GaussInt.
Import ListNotations.
Local Open Scope R_scope.

(** Derivatives of the bell. *)
Definition bell1 (x : R) : R := - x * bell x.
Definition bell2 (x : R) : R := (x * x - 1) * bell x.
Definition bell3 (x : R) : R := (3 * x - x * x * x) * bell x.
Definition bell4 (x : R) : R := (x * x * x * x - 6 * (x * x) + 3) * bell x.

Lemma poly_derive (p dp : R -> R) (x : R) : is_derive p x (dp x) ->
  is_derive (fun x => p x * bell x) x (dp x * bell x + p x * (- x * bell x)).
Proof. intros H. apply (is_derive_mult p bell x (dp x) (- x * bell x) H (bell_derive x)). intros; apply Rmult_comm. Qed.

Lemma bell1_derive (x : R) : is_derive bell1 x (bell2 x).
Proof.
  unfold bell1, bell2. replace ((x * x - 1) * bell x) with (-1 * bell x + - x * (- x * bell x)) by ring.
  apply (poly_derive (fun x => - x) (fun _ => -1)). auto_derive; trivial.
Qed.
Lemma bell2_derive (x : R) : is_derive bell2 x (bell3 x).
Proof.
  unfold bell2, bell3. replace ((3 * x - x * x * x) * bell x) with (2 * x * bell x + (x * x - 1) * (- x * bell x)) by ring.
  apply (poly_derive (fun x => x * x - 1) (fun x => 2 * x)). auto_derive; [trivial|ring].
Qed.
Lemma bell3_derive (x : R) : is_derive bell3 x (bell4 x).
Proof.
  unfold bell3, bell4. replace ((x * x * x * x - 6 * (x * x) + 3) * bell x) with ((3 - 3 * (x * x)) * bell x + (3 * x - x * x * x) * (- x * bell x)) by ring.
  apply (poly_derive (fun x => 3 * x - x * x * x) (fun x => 3 - 3 * (x * x))). auto_derive; [trivial|ring].
Qed.

Lemma bell_poly (x : R) : (1 + x * x / 12) ^ 6 * bell x <= 1.
Proof.
  set (w := x * x / 12). assert (W : 0 <= w) by (unfold w; pose proof (Rle_0_sqr x); unfold Rsqr in *; lra).
  assert (E : bell x = / (exp w) ^ 6).
  { rewrite <- (Rinv_inv (bell x)). f_equal. unfold bell. rewrite <- exp_Ropp. simpl. rewrite Rmult_1_r, <- !exp_plus. f_equal. unfold w. field. }
  rewrite E. assert (P : 0 < exp w) by apply exp_pos. assert (I : 1 + w <= exp w) by (apply exp_ineq1_le).
  assert (0 < exp w ^ 6) by (apply pow_lt; lra). apply Rmult_le_reg_r with (exp w ^ 6); [lra|].
  rewrite Rmult_assoc, Rinv_l, Rmult_1_r, Rmult_1_l by lra. apply pow_incr. lra.
Qed.

Lemma bell4_bound (x : R) : Rabs (bell4 x) <= 3.
Proof.
  pose proof (bell_poly x) as B. pose proof (bell_pos x) as P. unfold bell4. replace (x * x * x * x) with (x * x * (x * x)) by ring. set (w := x * x) in *.
  assert (W : 0 <= w) by (unfold w; pose proof (Rle_0_sqr x); unfold Rsqr in *; lra).
  assert (Q : Rabs (w * w - 6 * w + 3) <= 3 * (1 + w / 12) ^ 6).
  { assert (E : (1 + w / 12) ^ 6 = 1 + w / 2 + 15 / 144 * (w * w) + 20 / 1728 * (w * w * w) + 15 / 20736 * (w * w * w * w) + 6 / 248832 * (w * w * w * w * w) + / 2985984 * (w * w * w * w * w * w)) by (simpl; field).
    assert (W2 : 0 <= w * w) by (apply Rmult_le_pos; lra). assert (W3 : 0 <= w * w * w) by (apply Rmult_le_pos; lra). assert (W4 : 0 <= w * w * w * w) by (apply Rmult_le_pos; lra).
    assert (W5 : 0 <= w * w * w * w * w) by (apply Rmult_le_pos; lra). assert (W6 : 0 <= w * w * w * w * w * w) by (apply Rmult_le_pos; lra).
    clearbody w. clear B.
    rewrite E. apply Rabs_le. split.
    - assert (0 <= (w - 2) * (w - 2)) by (pose proof (Rle_0_sqr (w - 2)); unfold Rsqr in *; lra). lra.
    - assert (0 <= w * ((w - 10) * (w - 10))) by (apply Rmult_le_pos; [lra|]; pose proof (Rle_0_sqr (w - 10)); unfold Rsqr in *; lra). lra. }
  rewrite Rabs_mult, (Rabs_pos_eq (bell x)) by lra.
  apply Rle_trans with (3 * (1 + w / 12) ^ 6 * bell x); [apply Rmult_le_compat_r; lra|]. rewrite Rmult_assoc. lra.
Qed.

(** A function with |f'| <= c t^n on t >= 0 and f(0) = 0. *)
Lemma grow (f df : R -> R) (c : R) (n : nat) : f 0 = 0 -> (forall t, is_derive f t (df t)) ->
  (forall t, 0 <= t -> Rabs (df t) <= c * t ^ n) -> forall t, 0 <= t -> Rabs (f t) <= c / (INR n + 1) * t ^ (S n).
Proof.
  intros F0 D B t Ht. pose proof (pos_INR n) as PN.
  assert (G : forall s, s = 1 \/ s = -1 -> s * f t <= c / (INR n + 1) * t ^ (S n)).
  { intros s Hs. set (g := fun t => c / (INR n + 1) * t ^ (S n) - s * f t).
    assert (Dg : forall u, is_derive g u (c * u ^ n - s * df u)).
    { intros u. unfold g. apply (is_derive_minus (K:=R_AbsRing) (V:=R_NormedModule) (fun t => c / (INR n + 1) * t ^ S n) (fun t => s * f t)).
      - replace (c * u ^ n) with (c / (INR n + 1) * (INR (S n) * 1 * u ^ pred (S n))) by (rewrite S_INR; cbn [pred]; field; lra).
        apply (is_derive_scal (fun t => t ^ S n)). apply (is_derive_pow (fun t => t) (S n) u 1). apply (is_derive_id (K:=R_AbsRing)).
      - apply (is_derive_scal f). apply D. }
    destruct (MVT_gen g 0 t (fun u => c * u ^ n - s * df u)) as (x & Hx & E).
    - intros; apply Dg.
    - intros y _. apply continuity_pt_filterlim. apply (ex_derive_continuous (K:=R_AbsRing) (V:=R_NormedModule)). eexists. apply Dg.
    - rewrite Rmin_left, Rmax_right in Hx by lra.
      assert (G0 : g 0 = 0) by (unfold g; rewrite F0, pow_i by lia; ring).
      rewrite G0 in E. specialize (B x ltac:(lra)). apply Rabs_le_between in B.
      assert (0 <= c * x ^ n - s * df x) by (destruct Hs; subst s; lra).
      assert (0 <= g t); [|unfold g in *; lra]. replace (g t) with ((c * x ^ n - s * df x) * (t - 0)) by lra. apply Rmult_le_pos; lra. }
  pose proof (G 1 ltac:(auto)). pose proof (G (-1) ltac:(auto)). apply Rabs_le. lra.
Qed.

Section Mid.
Variable m : R.
Lemma plus_derive (u du : R -> R) t : (forall x, is_derive u x (du x)) -> is_derive (fun t => u (m + t)) t (du (m + t)).
Proof.
  intros H. replace (du (m + t)) with (scal 1 (du (m + t))) by (unfold scal; cbn; unfold mult; cbn; ring).
  apply (is_derive_comp (K:=R_AbsRing) (V:=R_NormedModule) u (fun t => m + t) t); [apply H|]. auto_derive; trivial.
Qed.
Lemma minus_derive (u du : R -> R) t : (forall x, is_derive u x (du x)) -> is_derive (fun t => u (m - t)) t (- du (m - t)).
Proof.
  intros H. replace (- du (m - t)) with (scal (-1) (du (m - t))) by (unfold scal; cbn; unfold mult; cbn; ring).
  apply (is_derive_comp (K:=R_AbsRing) (V:=R_NormedModule) u (fun t => m - t) t); [apply H|]. auto_derive; [trivial|ring].
Qed.
Lemma sym_derive (u du p dp : R -> R) t : (forall x, is_derive u x (du x)) -> (forall t, is_derive p t (dp t)) ->
  is_derive (fun t => u (m + t) + u (m - t) - p t) t (du (m + t) - du (m - t) - dp t).
Proof.
  intros H P. apply (is_derive_minus (K:=R_AbsRing) (V:=R_NormedModule) (fun t => u (m + t) + u (m - t)) p); [|apply P].
  apply (is_derive_plus (K:=R_AbsRing) (V:=R_NormedModule) (fun t => u (m + t)) (fun t => u (m - t))); [apply plus_derive; exact H|apply (minus_derive u du); exact H].
Qed.
Lemma anti_derive (u du p dp : R -> R) t : (forall x, is_derive u x (du x)) -> (forall t, is_derive p t (dp t)) ->
  is_derive (fun t => u (m + t) - u (m - t) - p t) t (du (m + t) + du (m - t) - dp t).
Proof.
  intros H P. replace (du (m + t) + du (m - t)) with (du (m + t) - (- du (m - t))) by ring.
  apply (is_derive_minus (K:=R_AbsRing) (V:=R_NormedModule) (fun t => u (m + t) - u (m - t)) p); [|apply P].
  apply (is_derive_minus (K:=R_AbsRing) (V:=R_NormedModule) (fun t => u (m + t)) (fun t => u (m - t))); [apply plus_derive; exact H|apply (minus_derive u du); exact H].
Qed.

Lemma mid1 : forall t, 0 <= t -> Rabs (bell3 (m + t) - bell3 (m - t) - 0) <= 6 / (INR 0 + 1) * t ^ 1.
Proof.
  apply (grow (fun t => bell3 (m + t) - bell3 (m - t) - 0) (fun t => bell4 (m + t) + bell4 (m - t) - 0) 6 0).
  - replace (m + 0) with m by ring. replace (m - 0) with m by ring. lra.
  - intros t. apply (anti_derive bell3 bell4 (fun _ => 0) (fun _ => 0)); [apply bell3_derive|]. intros; auto_derive; trivial.
  - intros t _. pose proof (bell4_bound (m + t)) as A. pose proof (bell4_bound (m - t)) as B. apply Rabs_le_between in A, B. simpl. apply Rabs_le. lra.
Qed.
Lemma mid2 : forall t, 0 <= t -> Rabs (bell2 (m + t) + bell2 (m - t) - 2 * bell2 m) <= 6 / (INR 1 + 1) * t ^ 2.
Proof.
  apply (grow (fun t => bell2 (m + t) + bell2 (m - t) - 2 * bell2 m) (fun t => bell3 (m + t) - bell3 (m - t) - 0) 6 1).
  - replace (m + 0) with m by ring. replace (m - 0) with m by ring. lra.
  - intros t. apply (sym_derive bell2 bell3 (fun _ => 2 * bell2 m) (fun _ => 0)); [apply bell2_derive|]. intros; auto_derive; trivial.
  - intros t Ht. eapply Rle_trans; [apply mid1; exact Ht|]. simpl. lra.
Qed.
Lemma mid3 : forall t, 0 <= t -> Rabs (bell1 (m + t) - bell1 (m - t) - 2 * t * bell2 m) <= 3 / (INR 2 + 1) * t ^ 3.
Proof.
  apply (grow (fun t => bell1 (m + t) - bell1 (m - t) - 2 * t * bell2 m) (fun t => bell2 (m + t) + bell2 (m - t) - 2 * bell2 m) 3 2).
  - replace (m + 0) with m by ring. replace (m - 0) with m by ring. lra.
  - intros t. apply (anti_derive bell1 bell2 (fun t => 2 * t * bell2 m) (fun _ => 2 * bell2 m)); [apply bell1_derive|]. intros; auto_derive; [trivial|ring].
  - intros t Ht. eapply Rle_trans; [apply mid2; exact Ht|]. simpl. nra.
Qed.
Lemma mid4 : forall t, 0 <= t -> Rabs (bell (m + t) + bell (m - t) - (2 * bell m + t * t * bell2 m)) <= 1 / (INR 3 + 1) * t ^ 4.
Proof.
  apply (grow (fun t => bell (m + t) + bell (m - t) - (2 * bell m + t * t * bell2 m)) (fun t => bell1 (m + t) - bell1 (m - t) - 2 * t * bell2 m) 1 3).
  - replace (m + 0) with m by ring. replace (m - 0) with m by ring. lra.
  - intros t. apply (sym_derive bell bell1 (fun t => 2 * bell m + t * t * bell2 m) (fun t => 2 * t * bell2 m)); [apply bell_derive|]. intros; auto_derive; [trivial|ring].
  - intros t Ht. eapply Rle_trans; [apply mid3; exact Ht|]. simpl. nra.
Qed.
Lemma mid5 : forall t, 0 <= t -> Rabs (Gs (m + t) - Gs (m - t) - (2 * t * bell m + t * t * t / 3 * bell2 m)) <= / 4 / (INR 4 + 1) * t ^ 5.
Proof.
  apply (grow (fun t => Gs (m + t) - Gs (m - t) - (2 * t * bell m + t * t * t / 3 * bell2 m)) (fun t => bell (m + t) + bell (m - t) - (2 * bell m + t * t * bell2 m)) (/ 4) 4).
  - replace (m + 0) with m by ring. replace (m - 0) with m by ring. lra.
  - intros t. apply (anti_derive Gs bell (fun t => 2 * t * bell m + t * t * t / 3 * bell2 m) (fun t => 2 * bell m + t * t * bell2 m)); [apply Gs_derive|].
    intros u. auto_derive; [trivial|]. field.
  - intros t Ht. eapply Rle_trans; [apply mid4; exact Ht|]. simpl. lra.
Qed.

(** One cell of width d centred at m. *)
Lemma mid_cell d : 0 <= d ->
  Rabs (d * bell m - (Gs (m + d / 2) - Gs (m - d / 2) - d * d / 24 * (bell1 (m + d / 2) - bell1 (m - d / 2)))) <= d ^ 5 / 144.
Proof.
  intros Hd. pose proof (mid5 (d / 2) ltac:(lra)) as A. pose proof (mid3 (d / 2) ltac:(lra)) as B.
  set (DG := Gs (m + d / 2) - Gs (m - d / 2)) in *. set (DB := bell1 (m + d / 2) - bell1 (m - d / 2)) in *.
  simpl INR in A, B.
  assert (A' : Rabs (DG - (d * bell m + d * d * d / 24 * bell2 m)) <= d ^ 5 / 640).
  { replace (d * bell m + d * d * d / 24 * bell2 m) with (2 * (d / 2) * bell m + d / 2 * (d / 2) * (d / 2) / 3 * bell2 m) by field.
    eapply Rle_trans; [exact A|]. right. simpl. field. }
  assert (B' : Rabs (DB - d * bell2 m) <= d ^ 3 / 8).
  { replace (d * bell2 m) with (2 * (d / 2) * bell2 m) by field. eapply Rle_trans; [exact B|]. right. simpl. field. }
  replace (d * bell m - (DG - d * d / 24 * DB)) with (- (DG - (d * bell m + d * d * d / 24 * bell2 m)) + d * d / 24 * (DB - d * bell2 m)) by field.
  eapply Rle_trans; [apply Rabs_triang|]. rewrite Rabs_Ropp, Rabs_mult, (Rabs_pos_eq (d * d / 24)) by nra.
  assert (d * d / 24 * Rabs (DB - d * bell2 m) <= d * d / 24 * (d ^ 3 / 8)) by (apply Rmult_le_compat_l; [nra|exact B']).
  assert (P : 0 <= d ^ 5) by (apply pow_le; lra).
  assert (E : d * d / 24 * (d ^ 3 / 8) = d ^ 5 / 192) by (simpl; field). lra.
Qed.
End Mid.

(** n adjacent cells of width d, from the edge a. *)
Lemma mid_row (n : nat) (a d : R) : 0 <= d ->
  Rabs (fold_right Rplus 0 (map (fun i => d * bell (a + (INR i + / 2) * d)) (seq 0 n))
        - (Gs (a + INR n * d) - Gs a - d * d / 24 * (bell1 (a + INR n * d) - bell1 a))) <= INR n * (d ^ 5 / 144).
Proof.
  intros Hd. induction n as [|n IH].
  - simpl. rewrite Rmult_0_l, Rplus_0_r. replace (0 - _) with 0 by ring. rewrite Rabs_R0. lra.
  - rewrite seq_S, map_app, fold_right_app. cbn [map fold_right]. rewrite Nat.add_0_l.
    assert (FR : forall l z, fold_right Rplus z l = fold_right Rplus 0 l + z) by (induction l as [|x l IHl]; intros z; cbn [fold_right]; [ring|rewrite IHl; ring]).
    rewrite FR, Rplus_0_r. pose proof (mid_cell (a + (INR n + / 2) * d) d Hd) as M.
    rewrite S_INR. replace (a + (INR n + / 2) * d + d / 2) with (a + (INR n + 1) * d) in M by field.
    replace (a + (INR n + / 2) * d - d / 2) with (a + INR n * d) in M by field.
    set (s := fold_right Rplus 0 _) in *. set (G1 := Gs (a + (INR n + 1) * d)) in *. set (G0 := Gs (a + INR n * d)) in *.
    set (B1 := bell1 (a + (INR n + 1) * d)) in *. set (B0 := bell1 (a + INR n * d)) in *.
    replace (s + d * bell (a + (INR n + / 2) * d) - (G1 - Gs a - d * d / 24 * (B1 - bell1 a)))
      with ((s - (G0 - Gs a - d * d / 24 * (B0 - bell1 a))) + (d * bell (a + (INR n + / 2) * d) - (G1 - G0 - d * d / 24 * (B1 - B0)))) by ring.
    eapply Rle_trans; [apply Rabs_triang|]. lra.
Qed.
