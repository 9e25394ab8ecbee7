(** C36: the equation solved for the cross-section parameter. *)
From Coq Require Import Reals Lra Lia ZArith Psatz.
From Coquelicot Require Import Coquelicot.
From Verif.Base Require Import Result Arith RArith Rng.
From Verif.Model Require Import Random Config Nucleon Text Files CrossSection.
From Verif.Spec Require Import History CrossSection.
From Verif.Proof Require Import Basics RBasics Pairs.
Local Open Scope R_scope.

Lemma exp_pow n x : exp (INR n * x) = exp x ^ n.
Proof.
  induction n as [|n IH]; [simpl; rewrite Rmult_0_l; apply exp_0|].
  rewrite S_INR, Rmult_plus_distr_r, exp_plus, IH, Rmult_1_l. simpl. ring.
Qed.

(** ** The exponential integral *)


Section Ei.
Variable Ei : R -> R.
Hypothesis H : is_Ei Ei.

Lemma Ei_chasles a b : 0 < a -> 0 < b -> is_RInt (fun t => exp (- t) / t) a b (Ei (- b) - Ei (- a)).
Proof.
  intros Ha Hb.
  assert (C : ex_RInt (fun t => - (exp (- t) / t)) a b).
  { apply (ex_RInt_continuous (V:=R_CompleteNormedModule)). intros z Hz.
    assert (0 < z) by (pose proof (Rmin_pos a b Ha Hb); lra).
    apply (ex_derive_continuous (V:=R_NormedModule)). auto_derive. lra. }
  pose proof (RInt_correct _ _ _ C) as I. set (l := RInt (fun t => - (exp (- t) / t)) a b) in *.
  pose proof (is_RInt_gen_at_point _ _ _ _ I) as G || pose proof (proj2 (is_RInt_gen_at_point _ a b l) I) as G.
  pose proof (is_RInt_gen_Chasles _ _ _ _ G (H b Hb)) as G2.
  pose proof (is_RInt_gen_unique _ _ G2) as U1. pose proof (is_RInt_gen_unique _ _ (H a Ha)) as U2.
  rewrite U1 in U2. change (plus l (Ei (- b))) with (l + Ei (- b)) in U2.
  replace (Ei (- b) - Ei (- a)) with (opp l) by (change (opp l) with (- l); lra).
  apply (is_RInt_ext (fun t => opp (- (exp (- t) / t)))).
  - intros t _. change (- - (exp (- t) / t) = exp (- t) / t). ring.
  - apply (is_RInt_opp (V:=R_NormedModule)). exact I.
Qed.

Lemma Ei_derive y : 0 < y -> is_derive (fun y => Ei (- y)) y (exp (- y) / y).
Proof.
  intros Hy.
  apply (is_derive_ext_loc (fun x => RInt (fun t => exp (- t) / t) y x + Ei (- y))).
  - exists (mkposreal y Hy). intros z Hz. unfold ball in Hz; cbn in Hz. unfold AbsRing_ball, abs, minus, plus, opp in Hz; cbn in Hz.
    assert (0 < z) by (apply Rabs_def2 in Hz; lra).
    rewrite (is_RInt_unique _ _ _ _ (Ei_chasles y z Hy ltac:(assumption))). lra.
  - replace (exp (- y) / y) with (exp (- y) / y + 0) by ring.
    apply (is_derive_plus (V:=R_NormedModule)); [|apply (is_derive_const (V:=R_NormedModule))].
    apply (is_derive_RInt (V:=R_NormedModule) (fun t => exp (- t) / t) _ y).
    + exists (mkposreal y Hy). intros z Hz. unfold ball in Hz; cbn in Hz. unfold AbsRing_ball, abs, minus, plus, opp in Hz; cbn in Hz.
      assert (0 < z) by (apply Rabs_def2 in Hz; lra).
      apply (RInt_correct (V:=R_CompleteNormedModule)). eexists. apply Ei_chasles; assumption.
    + apply (ex_derive_continuous (V:=R_NormedModule)). auto_derive. lra.
Qed.

(** The left side of the equation, as a function of the parameter x. *)
Definition lhs (x : R) : R := 9 - Ei (- exp x) + Ei (- exp (x - 9)).

Lemma lhs_derive x : is_derive lhs x (exp (- exp (x - 9)) - exp (- exp x)).
Proof.
  unfold lhs.
  pose proof (exp_pos x) as P1. pose proof (exp_pos (x - 9)) as P2.
  assert (D : forall k, is_derive (fun x => Ei (- exp (x - k))) x (exp (- exp (x - k)))).
  { intros k. pose proof (exp_pos (x - k)) as P.
    replace (exp (- exp (x - k))) with (scal (exp (x - k)) (exp (- exp (x - k)) / exp (x - k)))
      by (unfold scal; cbn; unfold mult; cbn; field; lra).
    apply (is_derive_comp (V:=R_NormedModule) (fun y => Ei (- y)) (fun x => exp (x - k))); [apply Ei_derive; exact P|].
    auto_derive; auto. unfold Rminus. apply Rmult_1_l. }
  pose proof (D 0) as D0. pose proof (D 9) as D9. 
  apply (is_derive_ext (fun x => 9 - Ei (- exp (x - 0)) + Ei (- exp (x - 9)))).
  { intros t. rewrite Rminus_0_r. reflexivity. }
  rewrite Rminus_0_r in D0.
  replace (exp (- exp (x - 9)) - exp (- exp x)) with ((0 - exp (- exp x)) + exp (- exp (x - 9))) by ring.
  apply (is_derive_plus (V:=R_NormedModule)); [|exact D9].
  apply (is_derive_minus (V:=R_NormedModule)); [apply (is_derive_const (V:=R_NormedModule))|exact D0].
Qed.
Lemma slope x : 0 < exp (- exp (x - 9)) - exp (- exp x) < 1.
Proof.
  pose proof (exp_pos (- exp x)). pose proof (exp_pos (x - 9)).
  assert (exp (x - 9) < exp x) by (apply exp_increasing; lra).
  assert (exp (- exp x) < exp (- exp (x - 9))) by (apply exp_increasing; lra).
  assert (exp (- exp (x - 9)) < exp 0) by (apply exp_increasing; lra). rewrite exp_0 in *. lra.
Qed.

Lemma lhs_growth x y : x < y -> 0 < lhs y - lhs x < y - x.
Proof.
  intros L.
  destruct (MVT_gen lhs x y (fun t => exp (- exp (t - 9)) - exp (- exp t))) as (t & Ht & E).
  - intros t _. apply lhs_derive.
  - intros t _. apply continuity_pt_filterlim. apply (ex_derive_continuous (V:=R_NormedModule)). eexists. apply lhs_derive.
  - rewrite E. pose proof (slope t). nra.
Qed.

(** The integral of the collision probability. *)
Lemma cross_section_eq w x : 0 < w ->
  disc_cross_section (6 * w) (exp x * (4 * PI * w ^ 2)) w = 4 * PI * w ^ 2 * lhs x.
Proof.
  intros Hw. unfold disc_cross_section, lhs. pose proof PI_RGT_0 as Hpi.
  assert (W2 : 0 < w ^ 2) by (apply pow_lt; exact Hw).
  apply is_RInt_unique.
  set (P := fun b : R => PI * b ^ 2 + 4 * PI * w ^ 2 * Ei (- (exp x * exp (- b ^ 2 / (4 * w ^ 2))))).
  replace (4 * PI * w ^ 2 * (9 - Ei (- exp x) + Ei (- exp (x - 9)))) with (minus (P (6 * w)) (P 0)).
  - apply (is_RInt_derive (V:=R_CompleteNormedModule) P).
    + intros b _. unfold P.
      pose proof (exp_pos x) as X0. pose proof (exp_pos (- b ^ 2 / (4 * w ^ 2))) as X1.
      set (y := fun b : R => exp x * exp (- b ^ 2 / (4 * w ^ 2))).
      assert (Y0 : 0 < y b) by (apply Rmult_lt_0_compat; assumption).
      assert (Dy : is_derive y b (- (b / (2 * w ^ 2)) * y b)).
      { unfold y. auto_derive; [lra|]. unfold Rdiv. simpl. field. lra. }
      assert (DE : is_derive (fun b => Ei (- y b)) b (scal (- (b / (2 * w ^ 2)) * y b) (exp (- y b) / y b))).
      { apply (is_derive_comp (V:=R_NormedModule) (fun y => Ei (- y)) y); [apply Ei_derive; exact Y0|exact Dy]. }
      replace (2 * PI * b * collision_probability (exp x * (4 * PI * w ^ 2)) w b)
        with (PI * (2 * b) + (4 * PI * w ^ 2) * scal (- (b / (2 * w ^ 2)) * y b) (exp (- y b) / y b)).
      * apply (is_derive_plus (V:=R_NormedModule)).
        -- auto_derive; auto. ring.
        -- apply (is_derive_scal (fun b => Ei (- y b))). exact DE.
      * match goal with |- context [scal ?a ?b] => change (scal a b) with (Rmult a b) end.
        unfold collision_probability, overlap_at.
        replace (exp x * (4 * PI * w ^ 2) * (exp (- b ^ 2 / (4 * w ^ 2)) / (4 * PI * w ^ 2))) with (y b) by (unfold y; field; lra).
        clearbody y. generalize (y b) Y0. intros Y HY. field. repeat split; lra.
    + intros b _. apply (ex_derive_continuous (V:=R_NormedModule)). unfold collision_probability, overlap_at. auto_derive. 
      repeat split; lra.
  - unfold P, minus, plus, opp; cbn.
    assert (A0 : - (0 * (0 * 1)) / (4 * (w * (w * 1))) = 0) by (field; lra).
    assert (A6 : - (6 * w * (6 * w * 1)) / (4 * (w * (w * 1))) = - 9) by (field; lra).
    rewrite A0, A6, exp_0, (Rmult_1_r (exp x)), <- exp_plus. replace (x + -9) with (x - 9) by ring. ring.
Qed.

Lemma mvt_bounds (f f' : R -> R) a b lo hi : a < b -> (forall t, a <= t <= b -> is_derive f t (f' t)) ->
  (forall t, a <= t <= b -> lo <= f' t <= hi) -> lo * (b - a) <= f b - f a <= hi * (b - a).
Proof.
  intros L D B.
  destruct (MVT_gen f a b f') as (t & Ht & E).
  - intros t Ht. rewrite Rmin_left, Rmax_right in Ht by lra. apply D. lra.
  - intros t Ht. rewrite Rmin_left, Rmax_right in Ht by lra. apply continuity_pt_filterlim.
    apply (ex_derive_continuous (V:=R_NormedModule)). eexists. apply D. exact Ht.
  - rewrite Rmin_left, Rmax_right in Ht by lra. rewrite E. specialize (B t Ht).
    split; apply Rmult_le_compat_r; lra.
Qed.

Lemma exp_below_one t : 0 < t -> exp (- t) < 1.
Proof. intros. rewrite <- exp_0. apply exp_increasing. lra. Qed.
Lemma one_minus_exp t : 0 < t -> 1 - exp (- t) <= t.
Proof. intros. pose proof (exp_ineq1 (- t) ltac:(lra)). lra. Qed.

(** ln y - Ei(-y) has derivative (1 - exp(-y))/y. *)
Lemma lnEi_derive t : 0 < t -> is_derive (fun y => ln y - Ei (- y)) t ((1 - exp (- t)) / t).
Proof.
  intros Ht. replace ((1 - exp (- t)) / t) with (/ t - exp (- t) / t) by (field; lra).
  apply (is_derive_minus (V:=R_NormedModule)); [|apply Ei_derive; exact Ht].
  auto_derive; [exact Ht|]. field. lra.
Qed.
Lemma lhs_alt x : lhs x = (ln (exp x) - Ei (- exp x)) - (ln (exp (x - 9)) - Ei (- exp (x - 9))).
Proof. unfold lhs. rewrite !ln_exp. ring. Qed.

(** (1 - exp(-t))/t is positive, at most 1 and at most 1/t. *)
Lemma kernel_bounds t : 0 < t -> 0 < (1 - exp (- t)) / t <= 1.
Proof.
  intros Ht. pose proof (exp_below_one t Ht). pose proof (one_minus_exp t Ht). split.
  - apply Rdiv_lt_0_compat; lra.
  - apply Rmult_le_reg_r with t; [exact Ht|]. unfold Rdiv. rewrite Rmult_assoc, Rinv_l by lra. lra.
Qed.
Lemma exps x : 0 < exp (x - 9) < exp x.
Proof. split; [apply exp_pos|apply exp_increasing; lra]. Qed.

Lemma lhs_small x : lhs x <= exp x.
Proof.
  rewrite lhs_alt. pose proof (exps x) as E.
  pose proof (mvt_bounds (fun y => ln y - Ei (- y)) (fun t => (1 - exp (- t)) / t) (exp (x - 9)) (exp x) 0 1 ltac:(lra)) as M.
  cbv beta in M. apply Rle_trans with (1 * (exp x - exp (x - 9))); [apply M|lra].
  - intros t Ht. apply lnEi_derive. lra.
  - intros t Ht. pose proof (kernel_bounds t ltac:(lra)). lra.
Qed.
Lemma lhs_nonneg x : 0 <= lhs x.
Proof.
  rewrite lhs_alt. pose proof (exps x) as E.
  pose proof (mvt_bounds (fun y => ln y - Ei (- y)) (fun t => (1 - exp (- t)) / t) (exp (x - 9)) (exp x) 0 1 ltac:(lra)) as M.
  cbv beta in M. apply Rle_trans with (0 * (exp x - exp (x - 9))); [lra|apply M].
  - intros t Ht. apply lnEi_derive. lra.
  - intros t Ht. pose proof (kernel_bounds t ltac:(lra)). lra.
Qed.
Lemma lhs_pos x : 0 < lhs x.
Proof. pose proof (lhs_nonneg (x - 1)). pose proof (lhs_growth (x - 1) x ltac:(lra)). lra. Qed.

Lemma lhs_le_9 x : lhs x <= 9.
Proof.
  unfold lhs. pose proof (exps x) as E.
  pose proof (mvt_bounds (fun y => Ei (- y)) (fun t => exp (- t) / t) (exp (x - 9)) (exp x) 0 (/ exp (x - 9)) ltac:(lra)) as M.
  cbv beta in M. assert (0 * (exp x - exp (x - 9)) <= Ei (- exp x) - Ei (- exp (x - 9))); [|lra].
  apply M.
  - intros t Ht. apply Ei_derive. lra.
  - intros t Ht. pose proof (exp_pos (- t)). pose proof (exp_below_one t ltac:(lra)). split.
    + left. apply Rdiv_lt_0_compat; lra.
    + apply Rle_trans with (/ t); [|apply Rinv_le_contravar; lra].
      unfold Rdiv. rewrite <- (Rmult_1_l (/ t)) at 2. apply Rmult_le_compat_r; [left; apply Rinv_0_lt_compat; lra|lra].
Qed.
Lemma lhs_lt_9 x : lhs x < 9.
Proof. pose proof (lhs_le_9 (x + 1)). pose proof (lhs_growth x (x + 1) ltac:(lra)). lra. Qed.

(** For x >= 9: within exp(-exp(x-9)) of 9. *)
Lemma lhs_large x : 9 <= x -> 9 - exp (- exp (x - 9)) <= lhs x.
Proof.
  intros Hx. unfold lhs. pose proof (exps x) as E.
  assert (E1 : 1 <= exp (x - 9)) by (rewrite <- exp_0; destruct (Req_dec x 9) as [->|N]; [right; f_equal; lra|left; apply exp_increasing; lra]).
  pose proof (mvt_bounds (fun y => - exp (- y) - Ei (- y)) (fun t => exp (- t) - exp (- t) / t) (exp (x - 9)) (exp x) 0 1 ltac:(lra)) as M.
  cbv beta in M.
  assert (0 * (exp x - exp (x - 9)) <= - exp (- exp x) - Ei (- exp x) - (- exp (- exp (x - 9)) - Ei (- exp (x - 9)))).
  { apply M.
    - intros t Ht. apply (is_derive_minus (V:=R_NormedModule)); [|apply Ei_derive; lra]. auto_derive; auto. ring.
    - intros t Ht. pose proof (exp_pos (- t)). pose proof (exp_below_one t ltac:(lra)).
      assert (K : 0 <= exp (- t) / t <= exp (- t)).
      { split; [left; apply Rdiv_lt_0_compat; lra|].
        apply Rmult_le_reg_r with t; [lra|]. unfold Rdiv. rewrite Rmult_assoc, Rinv_l by lra. nra. }
      lra. }
  pose proof (exp_pos (- exp x)). lra.
Qed.
Lemma large_20 : 9 - / 1000000 <= lhs 20.
Proof.
  apply Rle_trans with (2 := lhs_large 20 ltac:(lra)).
  assert (E1 : 2 < exp 1) by (pose proof (exp_ineq1 1 ltac:(lra)); lra).
  assert (E11 : 2048 <= exp (20 - 9)).
  { replace (20 - 9) with (INR 11 * 1) by (simpl; lra). rewrite exp_pow. change 2048 with (IZR (2 ^ 11)).
    replace (IZR (2 ^ 11)) with (2 ^ 11) by (simpl; lra). apply pow_incr. lra. }
  assert (E2 : 1000000 <= exp (exp (20 - 9))).
  { set (z := exp (20 - 9)) in *. replace z with (z / 2 + z / 2) by lra. rewrite exp_plus.
    pose proof (exp_ineq1 (z / 2) ltac:(lra)). nra. }
  rewrite exp_Ropp. apply Rplus_le_compat_l, Ropp_le_contravar. apply Rinv_le_contravar; lra.
Qed.

(** Every value between is reached, by the intermediate value theorem. *)
Lemma lhs_continuous x : continuity_pt lhs x.
Proof. apply continuity_pt_filterlim. apply (ex_derive_continuous (V:=R_NormedModule)). eexists. apply lhs_derive. Qed.
Lemma lhs_reaches a b r : a <= b -> lhs a <= r <= lhs b -> exists x, a <= x <= b /\ lhs x = r.
Proof.
  intros L Hr.
  destruct (Req_dec (lhs a) r) as [E|Na]; [exists a; split; [lra|exact E]|].
  destruct (Req_dec (lhs b) r) as [E|Nb]; [exists b; split; [lra|exact E]|].
  destruct (Req_dec a b) as [->|Nab]; [lra|].
  destruct (IVT (fun x => lhs x - r) a b) as (x & Hx & E).
  - intros x. apply continuity_pt_minus; [apply lhs_continuous|apply continuity_pt_const; intros ? ?; reflexivity].
  - lra.
  - lra.
  - lra.
  - exists x. split; [exact Hx|lra].
Qed.
End Ei.

(** There is such a function (so the theorems below are not vacuous). *)
Section Exists.
Variable y : R.
Hypothesis Hy : 0 < y.
Let f (t : R) : R := exp (- t) / t.
Lemma f_int a b : 0 < a -> 0 < b -> ex_RInt f a b.
Proof.
  intros Ha Hb. apply (ex_RInt_continuous (V:=R_CompleteNormedModule)). intros z Hz.
  assert (0 < z) by (pose proof (Rmin_pos a b Ha Hb); lra).
  apply (ex_derive_continuous (V:=R_NormedModule)). unfold f. auto_derive. lra.
Qed.
Lemma f_pos t : 0 < t -> 0 < f t.
Proof. intros. apply Rdiv_lt_0_compat; [apply exp_pos|exact H]. Qed.
Lemma F_bound T : y <= T -> 0 <= RInt f y T <= / y.
Proof.
  intros HT. split.
  - apply RInt_ge_0; [exact HT|apply f_int; lra|]. intros t Ht. left. apply f_pos. lra.
  - apply Rle_trans with (RInt (fun t => / y * exp (- t)) y T).
    + assert (C : ex_RInt (fun t => / y * exp (- t)) y T).
      { apply (ex_RInt_continuous (V:=R_CompleteNormedModule)). intros z Hz. apply (ex_derive_continuous (V:=R_NormedModule)). auto_derive. auto. }
      apply RInt_le; [exact HT|apply f_int; lra|exact C|].
      intros t Ht. unfold f. rewrite (Rmult_comm (/ y)). apply Rmult_le_compat_l; [left; apply exp_pos|]. apply Rinv_le_contravar; lra.
    + assert (I : is_RInt (fun t => / y * exp (- t)) y T (minus (- / y * exp (- T)) (- / y * exp (- y)))).
      { apply (is_RInt_derive (V:=R_CompleteNormedModule) (fun t => - / y * exp (- t))).
        - intros t _. auto_derive; auto. ring.
        - intros t _. apply (ex_derive_continuous (V:=R_NormedModule)). auto_derive. auto. }
      rewrite (is_RInt_unique _ _ _ _ I). unfold minus, plus, opp; cbn.
      assert (0 < / y) by (apply Rinv_0_lt_compat; exact Hy).
      pose proof (exp_pos (- T)). pose proof (exp_below_one y Hy). nra.
Qed.
Lemma F_mono T T' : y <= T <= T' -> RInt f y T <= RInt f y T'.
Proof.
  intros HT. rewrite <- (RInt_Chasles f y T T'); [|apply f_int; lra|apply f_int; lra].
  change (plus ?a ?b) with (a + b).
  assert (0 <= RInt f T T'); [|lra]. apply RInt_ge_0; [lra|apply f_int; lra|]. intros t Ht. left. apply f_pos. lra.
Qed.
Lemma Ei_point : exists l, is_RInt_gen (fun t => - f t) (at_point y) (Rbar_locally p_infty) l.
Proof.
  destruct (completeness (fun v => exists T, y <= T /\ v = RInt f y T)) as (m & Ub & Lub).
  - exists (/ y). intros v (T & HT & ->). apply F_bound. exact HT.
  - exists (RInt f y y). exists y. split; [lra|reflexivity].
  - exists (- m). intros P (eps & HP). unfold filtermapi.
    assert (Ex : exists T0, y <= T0 /\ m - eps < RInt f y T0).
    { destruct (Classical_Prop.classic (exists T0, y <= T0 /\ m - eps < RInt f y T0)) as [X|N]; [exact X|exfalso].
      assert (K : m <= m - eps); [|pose proof (cond_pos eps); lra].
      apply Lub. intros v (T & HT & ->). apply Rnot_lt_le. intros X. apply N. exists T. split; assumption. }
    destruct Ex as (T0 & HT0 & Hm).
    apply (Filter_prod _ _ _ (fun x => x = y) (fun T => T0 < T)).
    + reflexivity.
    + exists T0. intros T HT. exact HT.
    + intros a T -> HT. cbn [fst snd]. exists (- RInt f y T). split.
      * apply (is_RInt_opp (V:=R_NormedModule) f). apply (RInt_correct (V:=R_CompleteNormedModule)). apply f_int; lra.
      * apply HP. change (Rabs (- RInt f y T - - m) < eps).
        assert (RInt f y T <= m) by (apply Ub; exists T; split; [lra|reflexivity]).
        pose proof (F_mono T0 T ltac:(lra)). apply Rabs_def1; lra.
Qed.
End Exists.

Lemma Ei_exists : exists Ei, is_Ei Ei.
Proof.
  exists (fun x => RInt_gen (fun t => - (exp (- t) / t)) (at_point (- x)) (Rbar_locally p_infty)).
  intros y Hy. rewrite Ropp_involutive. apply (RInt_gen_correct (V:=R_CompleteNormedModule)). exact (Ei_point y Hy).
Qed.

(** ** The theorems, for the code instantiated with real numbers and Ei *)

Section C36.
Variables Ei erfinv : R -> R.
Hypothesis HEi : is_Ei Ei.
Notation RX := (RA_with Ei erfinv).

(** The function whose root is sought is (cross section - sigma_NN)/(4 pi w^2). *)
Lemma analytic_fn_lhs sigma w x : 0 < w ->
  analytic_fn (A:=RX) (analytic_rhs (A:=RX) sigma w) (analytic_c (A:=RX)) x = lhs Ei x - sigma / (4 * PI * w ^ 2).
Proof.
  intros Hw. unfold analytic_fn, analytic_rhs, analytic_c, max_impact_widths, sqr, lhs.
  cbn [RA_with nadd nsub nmul ndiv nneg nexp nexpint nofZ nlit npi num].
  assert (C : Rlit 6 0 * Rlit 6 0 / 4 = 9) by (unfold Rlit; simpl; lra). rewrite C. simpl pow. rewrite Rmult_1_r. reflexivity.
Qed.

Theorem C36_equation : forall sigma w x : R, 0 < w ->
  let f := analytic_fn (A:=RX) (analytic_rhs (A:=RX) sigma w) (analytic_c (A:=RX)) in
  let sigma_of x := disc_cross_section (6 * w) (exp x * (4 * PI * w ^ 2)) w in
  (f x = 0 <-> sigma_of x = sigma) /\
  (f x < 0 <-> sigma_of x < sigma) /\
  f x = (sigma_of x - sigma) / (4 * PI * w ^ 2).
Proof.
  intros sigma w x Hw f sigma_of. unfold f, sigma_of. rewrite analytic_fn_lhs, (cross_section_eq Ei HEi) by exact Hw.
  pose proof PI_RGT_0. assert (W2 : 0 < 4 * PI * w ^ 2) by (pose proof (pow_lt w 2 Hw); nra). set (k := 4 * PI * w ^ 2) in *.
  assert (E : lhs Ei x - sigma / k = (k * lhs Ei x - sigma) / k) by (field; lra).
  assert (Ik : 0 < / k) by (apply Rinv_0_lt_compat; exact W2).
  split; [|split; [|exact E]]; rewrite E; unfold Rdiv; split; intros X.
  - destruct (Rmult_integral _ _ X); lra.
  - rewrite X. change ((sigma - sigma) * / k = 0). ring.
  - apply Rnot_le_lt. intros N. assert (0 <= (k * lhs Ei x - sigma) * / k) by (apply Rmult_le_pos; lra). lra.
  - assert (0 < (sigma - k * lhs Ei x) * / k) by (apply Rmult_lt_0_compat; lra). lra.
Qed.

(** The cross section grows strictly with the parameter, so there is at most one
    solution; and it is positive and less than the area of the disc. *)
Theorem C36_unique : forall w sp sp' : R, 0 < w -> 0 < sp -> 0 < sp' ->
  (sp < sp' -> disc_cross_section (6 * w) sp w < disc_cross_section (6 * w) sp' w) /\
  (disc_cross_section (6 * w) sp w = disc_cross_section (6 * w) sp' w -> sp = sp') /\
  0 < disc_cross_section (6 * w) sp w < PI * (6 * w) ^ 2.
Proof.
  intros w sp sp' Hw Hs Hs'. pose proof PI_RGT_0.
  assert (W2 : 0 < 4 * PI * w ^ 2) by (pose proof (pow_lt w 2 Hw); nra).
  assert (X : forall s, 0 < s -> exists x, s = exp x * (4 * PI * w ^ 2)).
  { intros s P. exists (ln (s / (4 * PI * w ^ 2))). rewrite exp_ln; [field; nra|apply Rdiv_lt_0_compat; assumption]. }
  assert (M : forall s s', 0 < s -> 0 < s' -> s < s' -> disc_cross_section (6 * w) s w < disc_cross_section (6 * w) s' w).
  { intros s s' P P' L. destruct (X s P) as (x & ->). destruct (X s' P') as (x' & ->).
    rewrite !(cross_section_eq Ei HEi) by exact Hw. apply Rmult_lt_compat_l; [exact W2|].
    assert (x < x'). { apply exp_lt_inv. apply Rmult_lt_reg_r with (4 * PI * w ^ 2); assumption. }
    pose proof (lhs_growth Ei HEi x x' ltac:(assumption)). lra. }
  split; [apply M; assumption|]. split.
  - intros E. destruct (Rtotal_order sp sp') as [L|[L|L]]; [|exact L|].
    + pose proof (M sp sp' Hs Hs' L). lra.
    + pose proof (M sp' sp Hs' Hs L). lra.
  - destruct (X sp Hs) as (x & ->). rewrite (cross_section_eq Ei HEi) by exact Hw.
    pose proof (lhs_pos Ei HEi x). pose proof (lhs_lt_9 Ei HEi x). split; [apply Rmult_lt_0_compat; assumption|].
    replace (PI * (6 * w) ^ 2) with (4 * PI * w ^ 2 * 9) by ring. apply Rmult_lt_compat_l; assumption.
Qed.

(** In the interval [-10, 20] that is searched there is exactly one solution when
    4 pi w^2 exp(-10) <= sigma_NN <= 4 pi w^2 (9 - 10^-6), and no solution at all,
    inside or outside, when sigma_NN <= 0 or sigma_NN >= pi (6w)^2. *)
Theorem C36_solvable : forall sigma w : R, 0 < w ->
  let f := analytic_fn (A:=RX) (analytic_rhs (A:=RX) sigma w) (analytic_c (A:=RX)) in
  (4 * PI * w ^ 2 * exp (-10) <= sigma <= 4 * PI * w ^ 2 * (9 - / 1000000) ->
     f (-10) <= 0 <= f 20 /\ exists! x, -10 <= x <= 20 /\ f x = 0) /\
  (sigma <= 0 -> forall x, 0 < f x) /\
  (PI * (6 * w) ^ 2 <= sigma -> forall x, f x < 0).
Proof.
  intros sigma w Hw f. unfold f. pose proof PI_RGT_0.
  assert (W2 : 0 < 4 * PI * w ^ 2) by (pose proof (pow_lt w 2 Hw); nra). set (k := 4 * PI * w ^ 2) in *.
  assert (Ik : 0 < / k) by (apply Rinv_0_lt_compat; exact W2).
  split; [|split].
  - intros [S1 S2].
    assert (Q1 : exp (-10) <= sigma / k).
    { apply Rmult_le_reg_l with k; [exact W2|]. replace (k * (sigma / k)) with sigma by (field; lra). exact S1. }
    assert (Q2 : sigma / k <= 9 - / 1000000).
    { apply Rmult_le_reg_l with k; [exact W2|]. replace (k * (sigma / k)) with sigma by (field; lra). exact S2. }
    pose proof (lhs_small Ei HEi (-10)) as B1. pose proof (large_20 Ei HEi) as B2.
    rewrite !analytic_fn_lhs by exact Hw. fold k. split; [lra|].
    destruct (lhs_reaches Ei HEi (-10) 20 (sigma / k) ltac:(lra) ltac:(lra)) as (x & Hx & E).
    exists x. split; [split; [exact Hx|]; rewrite analytic_fn_lhs by exact Hw; fold k; lra|].
    intros x' [_ E']. rewrite analytic_fn_lhs in E' by exact Hw. fold k in E'.
    destruct (Rtotal_order x x') as [L|[L|L]]; [|exact L|].
    + pose proof (lhs_growth Ei HEi x x' L). change (@eq (num RX)) with (@eq R) in E'. lra.
    + pose proof (lhs_growth Ei HEi x' x L). change (@eq (num RX)) with (@eq R) in E'. lra.
  - intros S x. rewrite analytic_fn_lhs by exact Hw. fold k. pose proof (lhs_pos Ei HEi x).
    assert (0 <= - sigma * / k) by (apply Rmult_le_pos; lra). unfold Rdiv. lra.
  - intros S x. rewrite analytic_fn_lhs by exact Hw. fold k. pose proof (lhs_lt_9 Ei HEi x).
    assert (9 <= sigma / k); [|lra].
    apply Rmult_le_reg_l with k; [exact W2|]. replace (k * (sigma / k)) with sigma by (field; lra).
    replace (k * 9) with (PI * (6 * w) ^ 2) by (unfold k; ring). exact S.
Qed.

(** The parameter returned for one constituent, given that the root finder
    returned a bracket [lo, hi] of a sign change. *)
Theorem C36_fit :
  forall (rg : Rng RX) (sv : Solver RX) (cfg : config RX) (e e' : engine rg) (lo hi : R),
  let w := nucleon_width cfg in
  let sigma_nn := cross_section cfg in
  let f := analytic_fn (A:=RX) (analytic_rhs (A:=RX) sigma_nn w) (analytic_c (A:=RX)) in
  0 < w -> constit_number cfg = 1%Z ->
  toms748 sv (engine rg) (fun x => ret (f x)) (-10) 20 39 1000 e = (Ret (lo, hi), e') ->
  lo <= hi -> f lo <= 0 <= f hi ->
  exists sp : R,
    compute_partonic rg sv cfg e = (Ret sp, e') /\ 0 < sp /\
    Rabs (disc_cross_section (6 * w) sp w - sigma_nn) <= 4 * PI * w ^ 2 * (hi - lo) / 2.
Proof.
  intros rg sv cfg e e' lo hi w sigma_nn f Hw Hm Hs Hl Hf. pose proof PI_RGT_0.
  assert (W2 : 0 < 4 * PI * w ^ 2) by (pose proof (pow_lt w 2 Hw); nra).
  exists (exp ((lo + hi) / 2) * (4 * PI * w ^ 2)). split; [|split].
  - unfold compute_partonic. rewrite Hm. cbn [Z.ltb Z.compare Pos.compare Pos.compare_cont].
    unfold analytic_partonic_cross_section, rethrow_domain, bind.
    change (analytic_bits) with 39%Z.
    match goal with |- context [toms748 sv (engine rg) ?g ?a ?b 39%Z 1000%Z e] =>
      change (toms748 sv (engine rg) g a b 39%Z 1000%Z e) with (toms748 sv (engine rg) (fun x => ret (f x)) (-10) 20 39 1000 e) end.
    rewrite Hs. unfold ret. do 2 f_equal. unfold sqr. cbn [RA_with nadd nsub nmul nexp nofZ nlit npi num]. fold w.
    assert (Mid : Rlit 5 (-1) * (lo + hi) = (lo + hi) / 2) by (unfold Rlit; simpl; field). rewrite Mid. clear. change (num RX) with R in *. cbv zeta in *.
    change (nucleon_width cfg) with w. generalize (exp ((lo + hi) / 2)) w. intros. change (@eq (num RX)) with (@eq R). ring.
  - apply Rmult_lt_0_compat; [apply exp_pos|exact W2].
  - rewrite (cross_section_eq Ei HEi) by exact Hw. unfold f in Hf. rewrite !analytic_fn_lhs in Hf by exact Hw.
    set (k := 4 * PI * w ^ 2) in *. fold w in Hf. fold sigma_nn in Hf. change (num RX) with R in *.
    assert (Es : sigma_nn = k * (sigma_nn / k)) by (field; lra).
    assert (B : Rabs (lhs Ei ((lo + hi) / 2) - sigma_nn / k) <= (hi - lo) / 2).
    { destruct (Req_dec lo hi) as [->|N].
      - replace ((hi + hi) / 2) with hi by field. apply Rabs_le. lra.
      - pose proof (lhs_growth Ei HEi lo ((lo + hi) / 2) ltac:(lra)). pose proof (lhs_growth Ei HEi ((lo + hi) / 2) hi ltac:(lra)).
        apply Rabs_le. lra. }
    rewrite Es at 1. rewrite <- Rmult_minus_distr_l, Rabs_mult, (Rabs_right k) by lra.
    unfold Rdiv. rewrite Rmult_assoc. apply Rmult_le_compat_l; [lra|exact B].
Qed.

(** Out of reach, the root finder's "no change of sign" becomes the error of the program. *)
Theorem C36_refuses :
  forall (rg : Rng RX) (sv : Solver RX) (cfg : config RX) (e : engine rg),
  0 < nucleon_width cfg -> constit_number cfg = 1%Z ->
  cross_section cfg <= 0 \/ PI * (6 * nucleon_width cfg) ^ 2 <= cross_section cfg ->
  (forall (g : R -> R) bits iters, 0 < g (-10) * g 20 ->
     exists m, toms748 sv (engine rg) (fun x => ret (g x)) (-10) 20 bits iters e = (Throw (DomainError m), e)) ->
  compute_partonic rg sv cfg e
    = (Throw (DomainError "unable to fit cross section -- nucleon width too small?"%string), e).
Proof.
  intros rg sv cfg e Hw Hm Ho Hsv.
  destruct (C36_solvable (cross_section cfg) (nucleon_width cfg) Hw) as (_ & Lo & Hi).
  set (f := analytic_fn (A:=RX) (analytic_rhs (A:=RX) (cross_section cfg) (nucleon_width cfg)) (analytic_c (A:=RX))) in *.
  assert (P : 0 < f (-10) * f 20).
  { destruct Ho as [Ho|Ho].
    - apply Rmult_lt_0_compat; apply Lo; exact Ho.
    - pose proof (Hi Ho (-10)) as H1. pose proof (Hi Ho 20) as H2. change (num RX) with R in *. nra. }
  destruct (Hsv f 39%Z 1000%Z P) as (m & E).
  unfold compute_partonic. rewrite Hm. cbn [Z.ltb Z.compare Pos.compare Pos.compare_cont].
  unfold analytic_partonic_cross_section, rethrow_domain, bind. change (analytic_bits) with 39%Z.
  match goal with |- context [toms748 sv (engine rg) ?g ?a ?b 39%Z 1000%Z e] =>
    match type of E with ?l = _ => change (toms748 sv (engine rg) g a b 39%Z 1000%Z e) with l end end.
  rewrite E. reflexivity.
Qed.

(** ** participate() uses this probability *)

(** A nucleon whose constituents, if they exist, are the single one at its position. *)
Definition structureless (n : nucleon RX) : Prop :=
  n_cexist n = true -> exists f : R, n_cons n = [@Constituent RX (n_x n) (n_y n) f].

Lemma sample_structureless (rg : Rng RX) nc (n : nucleon RX) s n' s' :
  nc_number nc = 1%Z -> structureless n -> sample_constituent_positions rg nc n s = (Ret n', s') ->
  exists f : R, n_cons n' = [@Constituent RX (n_x n) (n_y n) f].
Proof.
  intros Hm Hn H. unfold sample_constituent_positions in H. destruct (n_cexist n) eqn:Ec.
  - mstep H. apply Hn. exact Ec.
  - rewrite Hm in H. cbn [Z.to_nat] in H. change (cons_max_size <? 1)%Z with false in H. cbv iota in H.
    change (Pos.to_nat 1) with 1%nat in H. cbn [sample_local] in H.
    unfold bind in H. destruct (draw_normal rg s) as [[x| | |] s1]; try discriminate H.
    destruct (draw_normal rg s1) as [[y| | |] s2]; try discriminate H.
    destruct (draw_gamma rg s2) as [[g| | |] s3]; try discriminate H.
    unfold ret in H. injection H as <- _. cbn [n_cons map q_x q_y q_fluct]. exists g. do 2 f_equal.
    + cbn [RA_with nadd nsub ndiv nofZ nlit num]. unfold Rlit. simpl. change (@eq (num RX)) with (@eq R). field.
    + cbn [RA_with nadd nsub ndiv nofZ nlit num]. unfold Rlit. simpl. change (@eq (num RX)) with (@eq R). field.
Qed.

Lemma miss_probability (cfg : config RX) sp xa ya fa xb yb fb : 0 < constit_width cfg -> constit_number cfg = 1%Z ->
  one_minus_prob (nucleon_common_of cfg sp) [@Constituent RX xa ya fa] [@Constituent RX xb yb fb]
  = 1 - collision_probability sp (constit_width cfg) (sqrt ((xa - xb) ^ 2 + (ya - yb) ^ 2)).
Proof.
  intros Hv Hm. unfold one_minus_prob, nucleon_common_of, overlap, pair_overlap, sqr, collision_probability, overlap_at.
  cbn [nc_sigma_partonic nc_prefactor nc_number nc_constituent_width_sq fold_left q_x q_y]. rewrite Hm.
  change (to_size 1) with 1%Z. cbn [RA_with nadd nsub nmul ndiv nneg nexp nofZ nlit none_div_two_pi num].
  change (constit_width cfg) with (constit_width cfg : R). generalize (constit_width cfg : R) Hv. clear Hv. intros v Hv.
  rewrite <- (Rsqr_pow2 (sqrt _)). rewrite Rsqr_sqrt by (pose proof (pow2_ge_0 (xa - xb)); pose proof (pow2_ge_0 (ya - yb)); lra).
  pose proof PI_RGT_0.
  assert (A1 : - Rlit 25 (-2) * ((xa - xb) * (xa - xb) + (ya - yb) * (ya - yb)) / (v * v)
             = - ((xa - xb) ^ 2 + (ya - yb) ^ 2) / (4 * v ^ 2)) by (unfold Rlit; simpl; field; lra).
  rewrite A1.
  match goal with |- _ = 1 - (1 - ?t) => replace (1 - (1 - t)) with t by ring end.
  f_equal. unfold Rlit. simpl. field. repeat split; lra.
Qed.

Theorem C36_participate :
  forall (rg : Rng RX) (cfg : config RX) (sp : R) (a b a' b' : nucleon RX) s h s',
  let w := nucleon_width cfg in
  let d := sqrt ((n_x a - n_x b) ^ 2 + (n_y a - n_y b) ^ 2) in
  0 < w -> constit_width cfg = w -> constit_number cfg = 1%Z ->
  structureless a -> structureless b -> n_part a = false ->
  participate rg (nucleon_common_of cfg sp) a b s = (Ret (h, a', b'), s') ->
  max_impact (nucleon_common_of cfg sp) = 6 * w /\
  ((6 * w < d /\ h = false) \/
   (d <= 6 * w /\ exists e u e', canonical rg e = (u, e') /\ rs_eng s' = e' /\
      (h = true <-> 1 - collision_probability sp w d < u))).
Proof.
  intros rg cfg sp a b a' b' s h s' w d Hw Hv Hm Sa Sb Pa H.
  assert (M6 : nc_max_impact_sq (nucleon_common_of cfg sp) = (6 * w) ^ 2).
  { unfold nucleon_common_of, sqr, max_impact_widths. cbn [nc_max_impact_sq RA_with nmul nlit num]. fold w. unfold Rlit. simpl. ring. }
  assert (D0 : 0 <= (n_x a - n_x b) ^ 2 + (n_y a - n_y b) ^ 2).
  { pose proof (pow2_ge_0 (n_x a - n_x b)). pose proof (pow2_ge_0 (n_y a - n_y b)). lra. }
  assert (Rng : in_range (nucleon_common_of cfg sp) a b <-> d <= 6 * w).
  { unfold in_range. rewrite M6. cbn [RA_with nltb nadd nsub nmul num]. unfold sqr.
    replace (6 * w) with (sqrt ((6 * w) ^ 2)) at 2 by (rewrite <- Rsqr_pow2; apply sqrt_Rsqr; lra).
    unfold d. split; intros X.
    - apply Rltb_false in X. apply sqrt_le_1_alt. cbn [RA_with nadd nsub nmul num] in X. simpl in *. lra.
    - apply Rltb_false. apply sqrt_le_0 in X; [|exact D0|apply pow2_ge_0]. cbn [RA_with nadd nsub nmul num]. simpl in *. lra. }
  split.
  { unfold max_impact. rewrite M6. cbn [RA_with nsqrt]. rewrite <- Rsqr_pow2. apply sqrt_Rsqr. lra. }
  apply participate_inv in H. destruct H as [Ha _ _|Hn Hr|a1 b1 s1 s2 u e Hn Hr H1 H2 Hu h].
  - congruence.
  - left. split; [|reflexivity]. apply Rnot_le_lt. intros X. apply Hr, Rng, X.
  - right. split; [apply Rng, Hr|].
    assert (N1 : nc_number (nucleon_common_of cfg sp) = 1%Z) by (unfold nucleon_common_of; cbn [nc_number]; rewrite Hm; reflexivity).
    destruct (sample_structureless rg _ a s a1 s1 N1 Sa H1) as (fa & Ea).
    destruct (sample_structureless rg _ b s1 b1 s2 N1 Sb H2) as (fb & Eb).
    exists (rs_eng s2), u, e. split; [exact Hu|]. split; [reflexivity|].
    unfold h. rewrite Ea, Eb. rewrite miss_probability by (try exact Hm; rewrite Hv; exact Hw). rewrite Hv. fold d.
    apply Rltb_true.
Qed.
End C36.

(** ** Instances: width 1/2, sigma_NN = 6.4, one constituent (the program's defaults) *)

Section Instances.
Variables Ei erfinv : R -> R.
Hypothesis HEi : is_Ei Ei.
Notation RX := (RA_with Ei erfinv).

Definition fit_config (sigma : R) : config RX :=
  @Config RX ["p"; "p"]%string 1 true None false false 0 1 (1/2) (1/2) 1 0 sigma 1 0 0 0 1 (1/2).
Definition fit_rng : Rng RX :=
  MkRng RX nat (fun z => Z.to_nat z) (fun e => (1 / 2, S e))
    unit (fun _ _ => tt) (fun n e => (0, n, S e))
    unit (fun _ _ => tt) (fun g e => (1, g, S e))
    (fun _ lo hi _ e => (hi, S e)) (fun a _ e => (a, S e)) (fun l e => (l, S e))
    (fun l => l) (fun l => l).
(** A root finder that knows the answer x, and refuses when there is no change of sign. *)
Definition oracle_solver (x : R) : Solver RX := MkSolver RX (fun S f lo hi _ _ => ret (x, x)).
Definition refusing_solver : Solver RX := MkSolver RX (fun S f lo hi _ _ => throw (DomainError "no change of sign")).

Example C36_instance : exists x sp : R,
  -10 <= x <= 20 /\
  compute_partonic fit_rng (oracle_solver x) (fit_config (64/10)) 0%nat = (@Ret R sp, 0%nat) /\
  disc_cross_section (6 * (1/2)) sp (1/2) = 64/10.
Proof.
  pose proof PI_RGT_0 as P0. pose proof PI2_3_2 as P3. pose proof PI_4 as P4. unfold PI2 in P3.
  assert (E10 : exp (-10) < 1) by (rewrite <- exp_0; apply exp_increasing; lra). pose proof (exp_pos (-10)) as E0.
  destruct (C36_solvable Ei erfinv HEi (64/10) (1/2) ltac:(lra)) as (S & _).
  destruct S as (_ & x & (Hx & Hf) & _).
  { replace (4 * PI * (1/2) ^ 2) with PI by field. split; nra. }
  destruct (C36_fit Ei erfinv HEi fit_rng (oracle_solver x) (fit_config (64/10)) 0%nat 0%nat x x) as (sp & E & _ & B).
  - cbn. lra.
  - reflexivity.
  - reflexivity.
  - lra.
  - change (num RX) with R in *. cbn [nucleon_width cross_section fit_config]. rewrite Hf. lra.
  - exists x, sp. split; [exact Hx|]. split; [exact E|].
    cbn [nucleon_width cross_section fit_config] in B. 
    match type of B with _ <= ?r => replace r with 0 in B by field end.
    pose proof (Rabs_pos (disc_cross_section (6 * (1 / 2)) sp (1 / 2) - 64/10)).
    destruct (Req_dec (disc_cross_section (6 * (1 / 2)) sp (1 / 2) - 64/10) 0); [lra|]. exfalso. apply (Rabs_no_R0 _ H0). lra.
Qed.

(** sigma_NN = 40 fm^2 is more than pi 3^2. *)
Example C36_refuses_instance :
  compute_partonic fit_rng refusing_solver (fit_config 40) 0%nat
  = (@Throw R (DomainError "unable to fit cross section -- nucleon width too small?"%string), 0%nat).
Proof.
  apply (C36_refuses Ei erfinv HEi fit_rng refusing_solver (fit_config 40) 0%nat).
  - cbn. lra.
  - reflexivity.
  - right. cbn [nucleon_width cross_section fit_config]. pose proof PI_4. lra.
  - intros g bits iters _. exists "no change of sign"%string. reflexivity.
Qed.

Example C36_participate_instance : forall sp : R, exists (a b a' b' : nucleon RX) s h s',
  structureless Ei erfinv a /\ structureless Ei erfinv b /\
  participate fit_rng (nucleon_common_of (fit_config (64/10)) sp) a b s = (Ret (h, a', b'), s') /\
  (h = true <-> 1 - collision_probability sp (1/2) 1 < 1 / 2).
Proof.
  intros sp.
  set (a := @Nucleon RX 0 0 0 false false []). set (b := @Nucleon RX 1 0 0 false false []).
  set (s := @MkRstate RX fit_rng 0%nat tt tt).
  destruct (participate_returns fit_rng (nucleon_common_of (fit_config (64/10)) sp) a b s) as (h & a' & b' & s' & H).
  { cbn. discriminate. }
  exists a, b, a', b', s, h, s'. split; [discriminate|]. split; [discriminate|]. split; [exact H|].
  destruct (C36_participate Ei erfinv fit_rng (fit_config (64/10)) sp a b a' b' s h s') as (_ & [(F & _)|(_ & e & u & e' & Hu & _ & Hh)]);
    try reflexivity; try discriminate; try exact H; try (cbn; lra).
  - exfalso. cbn [nucleon_width fit_config] in F. unfold a, b in F. cbn [n_x n_y] in F.
    replace ((0 - 1) ^ 2 + (0 - 0) ^ 2) with 1 in F by ring. rewrite sqrt_1 in F. lra.
  - unfold a, b in Hh. cbn [n_x n_y nucleon_width fit_config] in Hh. replace ((0 - 1) ^ 2 + (0 - 0) ^ 2) with 1 in Hh by ring.
    rewrite sqrt_1 in Hh. cbn [canonical fit_rng] in Hu. injection Hu as <- _. exact Hh.
Qed.
End Instances.
