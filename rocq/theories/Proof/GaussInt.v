(** The Gaussian integral on [0, x], from differentiation under the integral. *)
From Coq Require Import Reals Lra.
From Coquelicot Require Import Coquelicot.
Local Open Scope R_scope.

(** exp(-x^2/2). *)
Definition bell (x : R) : R := exp (- (x * x) / 2).
Definition Gs (x : R) : R := RInt bell 0 x.

Lemma bell_pos (x : R) : 0 < bell x. Proof. apply exp_pos. Qed.
Lemma bell_derive (x : R) : is_derive bell x (- x * bell x).
Proof. unfold bell. auto_derive; [trivial|]. unfold Rdiv. match goal with |- context [exp ?a] => generalize (exp a) end. intros e. field. Qed.
Lemma bell_cont (x : R) : continuous bell x.
Proof. apply (ex_derive_continuous (K:=R_AbsRing) (V:=R_NormedModule)). eexists. apply bell_derive. Qed.
Lemma bell_int a b : ex_RInt bell a b.
Proof. apply (ex_RInt_continuous (V:=R_CompleteNormedModule)). intros; apply bell_cont. Qed.
Lemma Gs_derive (x : R) : is_derive Gs x (bell x).
Proof.
  unfold Gs. apply (is_derive_RInt (V:=R_NormedModule) bell _ 0).
  - apply filter_forall. intros y. apply (RInt_correct (V:=R_CompleteNormedModule)). apply bell_int.
  - apply bell_cont.
Qed.

Definition aux (x t : R) : R := exp (- (x * x) * (1 + t * t) / 2) / (1 + t * t).
Definition Ax (x : R) : R := RInt (aux x) 0 1.

Lemma pos1 t : 0 < 1 + t * t. Proof. pose proof (Rle_0_sqr t). unfold Rsqr in *. lra. Qed.
Lemma aux_derive (x t : R) : is_derive (fun u => aux u t) x (- x * exp (- (x * x) * (1 + t * t) / 2)).
Proof. pose proof (pos1 t). unfold aux. auto_derive; [lra|]. unfold Rdiv. match goal with |- context [exp ?a] => generalize (exp a) end. intros e. field. lra. Qed.
Lemma aux_cont (x t : R) : continuous (aux x) t.
Proof.
  pose proof (pos1 t) as P. apply (ex_derive_continuous (K:=R_AbsRing) (V:=R_NormedModule)). unfold aux.
  auto_derive. lra.
Qed.
Lemma aux_int x a b : ex_RInt (aux x) a b.
Proof. apply (ex_RInt_continuous (V:=R_CompleteNormedModule)). intros; apply aux_cont. Qed.

Lemma inner_cont (x t : R) : continuity_2d_pt (fun u v => Derive (fun z => aux z v) u) x t.
Proof.
  apply continuity_2d_pt_ext with (fun u v => - u * exp (- (u * u) * (1 + v * v) / 2)).
  { intros u v. symmetry. apply is_derive_unique. apply aux_derive. }
  apply continuity_2d_pt_mult.
  - apply continuity_2d_pt_opp, continuity_2d_pt_id1.
  - apply (continuity_1d_2d_pt_comp exp (fun u v => - (u * u) * (1 + v * v) / 2)).
    + apply derivable_continuous_pt, derivable_pt_exp.
    + apply continuity_2d_pt_ext with (fun u v => (- (u * u)) * (1 + v * v) * / 2); [reflexivity|].
      apply continuity_2d_pt_mult; [|apply continuity_2d_pt_const]. apply continuity_2d_pt_mult.
      * apply continuity_2d_pt_opp, continuity_2d_pt_mult; apply continuity_2d_pt_id1.
      * apply continuity_2d_pt_plus; [apply continuity_2d_pt_const|]. apply continuity_2d_pt_mult; apply continuity_2d_pt_id2.
Qed.

Lemma Ax_derive (x : R) : is_derive Ax x (- bell x * Gs x).
Proof.
  assert (D : is_derive Ax x (RInt (fun t => Derive (fun u => aux u t) x) 0 1)).
  { unfold Ax. apply is_derive_RInt_param.
    - apply filter_forall. intros y t _. eexists. apply aux_derive.
    - intros t _. apply inner_cont.
    - apply filter_forall. intros y. apply aux_int. }
  replace (- bell x * Gs x) with (RInt (fun t => Derive (fun u => aux u t) x) 0 1); [exact D|].
  rewrite (RInt_ext _ (fun t => scal (- bell x) (x * bell (x * t + 0)))).
  2:{ intros t _. assert (E1 : Derive (fun u => aux u t) x = - x * exp (- (x * x) * (1 + t * t) / 2)) by (apply is_derive_unique, aux_derive). rewrite E1. unfold scal; cbn. unfold mult; cbn. unfold bell.
      replace (- (x * x) * (1 + t * t) / 2) with (- (x * x) / 2 + - ((x * t + 0) * (x * t + 0)) / 2) by field. rewrite exp_plus. ring. }
  rewrite (RInt_scal (V:=R_CompleteNormedModule) (fun t => x * bell (x * t + 0)) 0 1).
  2:{ apply (ex_RInt_continuous (V:=R_CompleteNormedModule)). intros z _. apply (ex_derive_continuous (K:=R_AbsRing) (V:=R_NormedModule)). unfold bell. auto_derive. trivial. }
  change (- bell x * RInt (fun t : R => x * bell (x * t + 0)) 0 1 = - bell x * Gs x). f_equal. unfold Gs.
  pose proof (RInt_comp_lin (V:=R_CompleteNormedModule) bell x 0 0 1 (bell_int _ _)) as E.
  replace (x * 0 + 0) with 0 in E by ring. replace (x * 1 + 0) with x in E by ring. rewrite <- E. reflexivity.
Qed.

Lemma Ax_zero : Ax 0 = PI / 4.
Proof.
  unfold Ax. rewrite (RInt_ext _ (fun t => / (1 + t * t))).
  2:{ intros t _. unfold aux. replace (- (0 * 0) * (1 + t * t) / 2) with 0 by field. rewrite exp_0. unfold Rdiv. apply Rmult_1_l. }
  replace (PI / 4) with (minus (atan 1) (atan 0)).
  - apply (is_RInt_unique (V:=R_CompleteNormedModule)). apply (is_RInt_derive (V:=R_CompleteNormedModule)).
    + intros t _. pose proof (pos1 t). auto_derive; [trivial|]. unfold Rsqr. field. lra.
    + intros t _. pose proof (pos1 t). apply (ex_derive_continuous (K:=R_AbsRing) (V:=R_NormedModule)). auto_derive. lra.
  - rewrite atan_0, atan_1. unfold minus, plus, opp; cbn. field.
Qed.

Lemma Gs_square (x : R) : Gs x * Gs x + 2 * Ax x = PI / 2.
Proof.
  set (f := fun x => Gs x * Gs x + 2 * Ax x).
  assert (D : forall y, is_derive f y 0).
  { intros y. unfold f. replace 0 with (bell y * Gs y + Gs y * bell y + 2 * (- bell y * Gs y)) by ring.
    apply (is_derive_plus (K:=R_AbsRing) (V:=R_NormedModule) (fun x => Gs x * Gs x) (fun x => 2 * Ax x)).
    - apply (is_derive_mult Gs Gs y (bell y) (bell y)); [apply Gs_derive|apply Gs_derive|intros; apply Rmult_comm].
    - apply (is_derive_scal Ax y 2). apply Ax_derive. }
  assert (E : f x = f 0).
  { destruct (MVT_gen f 0 x (fun _ => 0)) as (c & _ & E).
    - intros; apply D.
    - intros y _. apply continuity_pt_filterlim. apply (ex_derive_continuous (K:=R_AbsRing) (V:=R_NormedModule)). eexists. apply D.
    - lra. }
  change (f x = PI / 2). rewrite E. unfold f, Gs. rewrite (RInt_point (V:=R_CompleteNormedModule)), Ax_zero. unfold zero; cbn. field.
Qed.

(** pi/2 (1 - exp(-x^2/2)) <= G(x)^2 <= pi/2. *)
Lemma Gs_range (x : R) : PI / 2 * (1 - bell x) <= Gs x * Gs x <= PI / 2.
Proof.
  pose proof (Gs_square x) as E. pose proof Ax_zero as Z.
  assert (U : Ax x <= bell x * (PI / 4)).
  { rewrite <- Z. unfold Ax. rewrite <- (RInt_scal (V:=R_CompleteNormedModule)) by apply aux_int.
    apply RInt_le; [lra|apply aux_int| |].
    - apply (ex_RInt_scal (V:=R_CompleteNormedModule)). apply aux_int.
    - intros t _. pose proof (pos1 t). unfold scal; cbn. unfold mult; cbn. unfold aux, bell.
      replace (- (0 * 0) * (1 + t * t) / 2) with 0 by field. rewrite exp_0.
      assert (0 < / (1 + t * t)) by (apply Rinv_0_lt_compat; lra). unfold Rdiv. rewrite Rmult_1_l.
      apply Rmult_le_compat_r; [lra|]. destruct (Req_dec x 0) as [->|Nx].
      + apply Req_le. f_equal. ring.
      + assert (L : - (x * x) * (1 + t * t) * / 2 <= - (x * x) * / 2).
        { pose proof (Rle_0_sqr t). pose proof (Rle_0_sqr x). unfold Rsqr in *. nra. }
        destruct L as [L|L]; [left; apply exp_increasing; exact L|right; rewrite L; reflexivity]. }
  assert (N : 0 <= Ax x).
  { unfold Ax. apply RInt_ge_0; [lra|apply aux_int|]. intros t _. pose proof (pos1 t). unfold aux.
    apply Rmult_le_pos; [apply Rlt_le, exp_pos|apply Rlt_le, Rinv_0_lt_compat; lra]. }
  split; lra.
Qed.

Lemma Gs_nonneg (x : R) : 0 <= x -> 0 <= Gs x.
Proof. intros H. unfold Gs. apply RInt_ge_0; [exact H|apply bell_int|]. intros. apply Rlt_le, bell_pos. Qed.
Lemma Gs_odd (x : R) : Gs (- x) = - Gs x.
Proof.
  set (f := fun x => Gs (- x) + Gs x).
  assert (D : forall y, is_derive f y 0).
  { intros y. unfold f. replace 0 with (- bell (- y) + bell y) by (unfold bell; replace (- y * - y) with (y * y) by ring; ring).
    apply (is_derive_plus (K:=R_AbsRing) (V:=R_NormedModule) (fun x => Gs (- x)) Gs); [|apply Gs_derive].
    replace (- bell (- y)) with (scal (-1) (bell (- y))) by (unfold scal; cbn; unfold mult; cbn; ring).
    apply (is_derive_comp (K:=R_AbsRing) (V:=R_NormedModule) Gs Ropp y); [apply Gs_derive|]. auto_derive; trivial. }
  assert (E : f x = f 0).
  { destruct (MVT_gen f 0 x (fun _ => 0)) as (c & _ & E).
    - intros; apply D.
    - intros y _. apply continuity_pt_filterlim. apply (ex_derive_continuous (K:=R_AbsRing) (V:=R_NormedModule)). eexists. apply D.
    - lra. }
  assert (G0 : Gs 0 = 0) by (unfold Gs; rewrite (RInt_point (V:=R_CompleteNormedModule)); reflexivity).
  unfold f in E. rewrite Ropp_0, G0 in E. lra.
Qed.
Lemma Gs_incr a b : a <= b -> Gs a <= Gs b.
Proof.
  intros H. assert (E : Gs b = Gs a + RInt bell a b).
  { unfold Gs. symmetry. apply (RInt_Chasles (V:=R_CompleteNormedModule)); apply bell_int. }
  rewrite E. assert (0 <= RInt bell a b); [|lra]. apply RInt_ge_0; [exact H|apply bell_int|]. intros. apply Rlt_le, bell_pos.
Qed.
