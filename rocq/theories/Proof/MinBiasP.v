(** Integrals over rings. *)
From Coq Require Import Reals Lra Lia.
From Coquelicot Require Import Coquelicot.
From Verif.Spec Require Import CrossSection MinBias.
Local Open Scope R_scope.

Section Ring.
Variables lo hi : R.
Hypothesis Hlo : 0 <= lo.
Hypothesis Hhi : lo < hi.
Definition dd : R := hi ^ 2 - lo ^ 2.
Lemma dd_pos : 0 < dd. Proof. unfold dd. nra. Qed.
Definition bof (u : R) : R := sqrt (lo ^ 2 + dd * u).
Definition uof (b : R) : R := (b ^ 2 - lo ^ 2) / dd.

Lemma bof_uof b : 0 <= b -> bof (uof b) = b.
Proof.
  intros Hb. unfold bof, uof. pose proof dd_pos. replace (lo ^ 2 + dd * ((b ^ 2 - lo ^ 2) / dd)) with (b ^ 2) by (field; lra).
  apply sqrt_pow2. exact Hb.
Qed.
Lemma uof_lo : uof lo = 0. Proof. unfold uof. pose proof dd_pos. field. lra. Qed.
Lemma uof_hi : uof hi = 1. Proof. unfold uof. fold dd. pose proof dd_pos. field. lra. Qed.
Lemma uof_le x y : 0 <= x <= y -> uof x <= uof y.
Proof.
  intros H. unfold uof, Rdiv. apply Rmult_le_compat_r; [apply Rlt_le, Rinv_0_lt_compat, dd_pos|]. nra.
Qed.
Lemma bof_range u : 0 <= u <= 1 -> lo <= bof u <= hi.
Proof.
  intros H. pose proof dd_pos. unfold bof. split.
  - rewrite <- (sqrt_pow2 lo) at 1 by exact Hlo. apply sqrt_le_1_alt. nra.
  - rewrite <- (sqrt_pow2 hi) by lra. apply sqrt_le_1_alt. unfold dd in *. nra.
Qed.
Lemma bof_continuous u : continuous bof u.
Proof.
  unfold bof. apply (continuous_comp (fun u => lo ^ 2 + dd * u) sqrt); [|apply continuous_sqrt].
  apply (continuous_plus (V:=R_NormedModule)); [apply continuous_const|]. apply (continuous_mult (K:=R_AbsRing) (fun _ => dd) (fun u => u)); [apply continuous_const|apply continuous_id].
Qed.
Lemma bof_le u b : 0 <= u -> 0 <= b -> (bof u <= b <-> u <= uof b).
Proof.
  intros Hu Hb. pose proof dd_pos. unfold bof, uof. split; intros H1.
  - apply Rmult_le_reg_l with dd; [assumption|]. replace (dd * ((b ^ 2 - lo ^ 2) / dd)) with (b ^ 2 - lo ^ 2) by (field; lra).
    assert (0 <= lo ^ 2 + dd * u) by nra. rewrite <- (sqrt_pow2 b) in H1 by exact Hb. apply sqrt_le_0 in H1; [lra|assumption|nra].
  - rewrite <- (sqrt_pow2 b) by exact Hb. apply sqrt_le_1_alt.
    assert (dd * u <= dd * ((b ^ 2 - lo ^ 2) / dd)) by (apply Rmult_le_compat_l; lra).
    replace (dd * ((b ^ 2 - lo ^ 2) / dd)) with (b ^ 2 - lo ^ 2) in H0 by (field; lra). lra.
Qed.

(** The integral over the variate is the one over the ring. *)
Lemma ring_part (m : R -> R) (x y : R) : lo <= x -> x <= y -> y <= hi -> (forall b, lo <= b <= hi -> continuous m b) ->
  is_RInt (fun u => m (bof u)) (uof x) (uof y) (RInt (fun b => 2 * b / dd * m b) x y) /\ ex_RInt (fun b => 2 * b / dd * m b) x y.
Proof.
  intros H1 H2 H3 C. pose proof dd_pos as Hd.
  assert (Cm : forall u, 0 <= u <= 1 -> continuous (fun u => m (bof u)) u).
  { intros u Hu. apply (continuous_comp bof m); [apply bof_continuous|]. apply C, bof_range, Hu. }
  assert (E : is_RInt (fun b => scal (2 * b / dd) (m (bof (uof b)))) x y (RInt (fun u => m (bof u)) (uof x) (uof y))).
  { apply (is_RInt_comp (V:=R_CompleteNormedModule) (fun u => m (bof u)) uof (fun b => 2 * b / dd)).
    - intros b Hb. rewrite Rmin_left, Rmax_right in Hb by lra. apply Cm. rewrite <- uof_lo, <- uof_hi. split; apply uof_le; lra.
    - intros b _. split; [unfold uof; auto_derive; [exact I|field; lra]|].
      apply (ex_derive_continuous (K:=R_AbsRing) (V:=R_NormedModule)). auto_derive. exact I. }
  assert (E' : is_RInt (fun b => 2 * b / dd * m b) x y (RInt (fun u => m (bof u)) (uof x) (uof y))).
  { eapply is_RInt_ext; [|exact E]. intros b Hb. rewrite Rmin_left, Rmax_right in Hb by lra. unfold scal. cbn. unfold mult. cbn.
    rewrite bof_uof by lra. reflexivity. }
  split; [|eexists; exact E'].
  rewrite (is_RInt_unique _ _ _ _ E'). apply (RInt_correct (V:=R_CompleteNormedModule)).
  apply (ex_RInt_continuous (V:=R_CompleteNormedModule)). intros u Hu. apply Cm.
  assert (uof x <= uof y) by (apply uof_le; lra). rewrite Rmin_left, Rmax_right in Hu by assumption.
  assert (uof lo <= uof x) by (apply uof_le; lra). assert (uof y <= uof hi) by (apply uof_le; lra). rewrite uof_lo in *. rewrite uof_hi in *. lra.
Qed.

Lemma scale_ring (m : R -> R) x y : ex_RInt (fun b => 2 * b / dd * m b) x y ->
  RInt (fun b => 2 * b / dd * m b) x y = RInt (fun b => 2 * PI * b * m b) x y / (PI * dd) /\ ex_RInt (fun b => 2 * PI * b * m b) x y.
Proof.
  intros Ex. pose proof dd_pos. pose proof PI_RGT_0.
  assert (I : is_RInt (fun b => 2 * PI * b * m b) x y (PI * dd * RInt (fun b => 2 * b / dd * m b) x y)).
  { eapply is_RInt_ext; [|apply (is_RInt_scal (V:=R_NormedModule) (fun b => 2 * b / dd * m b) x y (PI * dd)), (RInt_correct (V:=R_CompleteNormedModule)), Ex].
    intros b _. unfold scal. cbn. unfold mult. cbn. field. lra. }
  split; [|eexists; exact I]. rewrite (is_RInt_unique _ _ _ _ I). change (RInt (fun b => 2 * b / dd * m b) x y = PI * dd * RInt (fun b => 2 * b / dd * m b) x y / (PI * dd)).
  generalize (RInt (fun b => 2 * b / dd * m b) x y : R). intros r. change (@eq R r (PI * dd * r / (PI * dd))). field. lra.
Qed.

(** A continuous function, and one that changes over at distance [c]. *)
Lemma ring_whole (m : R -> R) : (forall b, lo <= b <= hi -> continuous m b) ->
  is_RInt (fun u => m (bof u)) 0 1 (ring_average lo hi m) /\ ex_RInt (fun b => 2 * PI * b * m b) lo hi.
Proof.
  intros C. destruct (ring_part m lo hi ltac:(lra) ltac:(lra) ltac:(lra) C) as [E Ex]. rewrite uof_lo, uof_hi in E.
  destruct (scale_ring m lo hi Ex) as [S1 S2]. split; [|exact S2]. unfold ring_average, ring_integral. fold dd. rewrite <- S1. exact E.
Qed.

Lemma ring_broken (m m1 m2 : R -> R) (c : R) : 0 <= c -> (forall b, lo <= b <= hi -> continuous m1 b) -> (forall b, lo <= b <= hi -> continuous m2 b) ->
  (forall b, lo <= b <= hi -> b <= c -> m b = m1 b) -> (forall b, lo <= b <= hi -> c < b -> m b = m2 b) ->
  is_RInt (fun u => m (bof u)) 0 1 (ring_average lo hi m) /\ ex_RInt (fun b => 2 * PI * b * m b) lo hi.
Proof.
  intros Hc C1 C2 E1 E2.
  set (k := Rmax lo (Rmin hi c)).
  assert (K : lo <= k <= hi). { unfold k, Rmax, Rmin. destruct (Rle_dec hi c), (Rle_dec lo _); lra. }
  assert (Kl : forall b, lo <= b -> b < k -> m b = m1 b).
  { intros b H1 H2. apply E1; [lra|]. unfold k, Rmax, Rmin in *. destruct (Rle_dec hi c), (Rle_dec lo _); lra. }
  assert (Kr : forall b, b <= hi -> k < b -> m b = m2 b).
  { intros b H1 H2. apply E2; [lra|]. unfold k, Rmax, Rmin in *. destruct (Rle_dec hi c), (Rle_dec lo _); lra. }
  destruct (ring_part m1 lo k ltac:(lra) ltac:(lra) ltac:(lra) C1) as [P1 X1].
  destruct (ring_part m2 k hi ltac:(lra) ltac:(lra) ltac:(lra) C2) as [P2 X2].
  rewrite uof_lo in P1. rewrite uof_hi in P2.
  assert (U0 : 0 <= uof k) by (rewrite <- uof_lo; apply uof_le; lra).
  assert (U1 : uof k <= 1) by (rewrite <- uof_hi; apply uof_le; lra).
  assert (B1 : forall u, 0 < u < uof k -> bof u < k).
  { intros u Hu. apply Rnot_le_lt. intros N. assert (uof k <= u); [|lra].
    rewrite <- (bof_uof k) in N by lra. unfold bof in N. pose proof dd_pos.
    apply sqrt_le_0 in N; [|nra|nra]. apply Rmult_le_reg_l with dd; [assumption|lra]. }
  assert (B2 : forall u, uof k < u < 1 -> k < bof u).
  { intros u Hu. apply Rnot_le_lt. intros N. apply bof_le in N; lra. }
  assert (Q1 : is_RInt (fun u => m (bof u)) 0 (uof k) (RInt (fun b => 2 * b / dd * m1 b) lo k)).
  { eapply is_RInt_ext; [|exact P1]. intros u Hu. rewrite Rmin_left, Rmax_right in Hu by assumption. symmetry. apply Kl; [|apply B1, Hu].
    apply bof_range. lra. }
  assert (Q2 : is_RInt (fun u => m (bof u)) (uof k) 1 (RInt (fun b => 2 * b / dd * m2 b) k hi)).
  { eapply is_RInt_ext; [|exact P2]. intros u Hu. rewrite Rmin_left, Rmax_right in Hu by assumption. symmetry. apply Kr; [|apply B2, Hu].
    apply bof_range. lra. }
  destruct (scale_ring m1 lo k X1) as [S1 Z1]. destruct (scale_ring m2 k hi X2) as [S2 Z2].
  assert (W1 : is_RInt (fun b => 2 * PI * b * m b) lo k (RInt (fun b => 2 * PI * b * m1 b) lo k)).
  { eapply is_RInt_ext; [|apply (RInt_correct (V:=R_CompleteNormedModule)); exact Z1]. intros b Hb. rewrite Rmin_left, Rmax_right in Hb by lra. rewrite Kl by lra. reflexivity. }
  assert (W2 : is_RInt (fun b => 2 * PI * b * m b) k hi (RInt (fun b => 2 * PI * b * m2 b) k hi)).
  { eapply is_RInt_ext; [|apply (RInt_correct (V:=R_CompleteNormedModule)); exact Z2]. intros b Hb. rewrite Rmin_left, Rmax_right in Hb by lra. rewrite Kr by lra. reflexivity. }
  pose proof (is_RInt_Chasles (V:=R_NormedModule) _ _ _ _ _ _ W1 W2) as W. unfold plus in W. cbn in W.
  split; [|eexists; exact W].
  unfold ring_average, ring_integral. rewrite (is_RInt_unique _ _ _ _ W). fold dd. rewrite S1 in Q1. rewrite S2 in Q2.
  pose proof (is_RInt_Chasles (V:=R_NormedModule) _ _ _ _ _ _ Q1 Q2) as Q. unfold plus in Q. cbn in Q.
  match goal with |- is_RInt _ _ _ ?v => match type of Q with is_RInt _ _ _ ?v' => replace v with v' by (unfold Rdiv; rewrite Rmult_plus_distr_r; reflexivity) end end. exact Q.
Qed.
End Ring.

(** A step. *)
Lemma step_integral (p a b : R) : 0 <= p <= 1 -> is_RInt (fun u => if Rlt_dec p u then a else b) 0 1 ((1 - p) * a + p * b).
Proof.
  intros Hp.
  assert (E1 : is_RInt (fun u => if Rlt_dec p u then a else b) 0 p (p * b)).
  { apply (is_RInt_ext (fun _ => b)).
    - intros u Hu. rewrite Rmin_left, Rmax_right in Hu by lra. destruct (Rlt_dec p u); [lra|reflexivity].
    - replace (p * b) with (scal (p - 0) b) by (unfold scal; cbn; unfold mult; cbn; ring). apply (is_RInt_const (V:=R_NormedModule)). }
  assert (E2 : is_RInt (fun u => if Rlt_dec p u then a else b) p 1 ((1 - p) * a)).
  { apply (is_RInt_ext (fun _ => a)).
    - intros u Hu. rewrite Rmin_left, Rmax_right in Hu by lra. destruct (Rlt_dec p u); [reflexivity|lra].
    - apply (is_RInt_const (V:=R_NormedModule)). }
  rewrite Rplus_comm. apply (is_RInt_Chasles (V:=R_NormedModule) _ 0 p 1 _ _ E1 E2).
Qed.

Lemma collision_continuous sp w b : 0 < w -> continuous (collision_probability sp w) b.
Proof.
  intros Hw. apply (ex_derive_continuous (K:=R_AbsRing) (V:=R_NormedModule)). unfold collision_probability, overlap_at. auto_derive. exact I.
Qed.
Lemma collision_range sp w b : 0 < w -> 0 <= sp -> 0 <= collision_probability sp w b < 1.
Proof.
  intros Hw Hs. unfold collision_probability. set (t := sp * overlap_at w b).
  assert (T : 0 <= t). { unfold t, overlap_at. apply Rmult_le_pos; [exact Hs|]. apply Rlt_le, Rdiv_lt_0_compat; [apply exp_pos|]. pose proof PI_RGT_0. pose proof (pow_lt w 2 Hw). nra. }
  pose proof (exp_pos (- t)). split; [|lra]. assert (exp (- t) <= 1); [|lra]. rewrite <- exp_0. destruct T as [T| <-]; [apply Rlt_le, exp_increasing; lra|rewrite Ropp_0; lra].
Qed.
Lemma strike_range sp w b : 0 < w -> 0 <= sp -> 0 <= strike sp w b < 1.
Proof. intros Hw Hs. unfold strike. destruct (Rle_dec _ _); [apply collision_range; assumption|lra]. Qed.

(** The average exists: a Riemann integral, 0 where there is none. *)
Lemma riemann_average : unit_average (fun g => RInt g 0 1).
Proof.
  split.
  - intros c. rewrite RInt_const. unfold scal. cbn. unfold mult. cbn. ring.
  - intros f g H. apply RInt_ext. intros x _. apply H.
  - intros g l H. apply (is_RInt_unique (V:=R_CompleteNormedModule)). exact H.
Qed.

Lemma integral_linear (f g : R -> R) (a b c : R) : ex_RInt f a b -> ex_RInt g a b ->
  RInt (fun x => f x + c * g x) a b = RInt f a b + c * RInt g a b.
Proof.
  intros Hf Hg. apply (is_RInt_unique (V:=R_CompleteNormedModule)).
  exact (is_RInt_plus (V:=R_NormedModule) _ _ _ _ _ _ (RInt_correct (V:=R_CompleteNormedModule) _ _ _ Hf)
    (is_RInt_scal (V:=R_NormedModule) _ _ _ c _ (RInt_correct (V:=R_CompleteNormedModule) _ _ _ Hg))).
Qed.
Lemma ring_linear (f g : R -> R) (lo hi c : R) : ex_RInt (fun b => 2 * PI * b * f b) lo hi -> ex_RInt (fun b => 2 * PI * b * g b) lo hi ->
  ring_integral lo hi (fun b => f b + c * g b) = ring_integral lo hi f + c * ring_integral lo hi g.
Proof.
  intros Hf Hg. unfold ring_integral. rewrite <- (integral_linear _ _ _ _ c Hf Hg). apply RInt_ext. intros b _.
  change (@eq R (2 * PI * b * (f b + c * g b)) (2 * PI * b * f b + c * (2 * PI * b * g b))). ring.
Qed.
Lemma ring_one lo hi : ring_integral lo hi (fun _ => 1) = PI * (hi ^ 2 - lo ^ 2) /\ ex_RInt (fun b => 2 * PI * b * 1) lo hi.
Proof.
  assert (X : is_RInt (fun b => 2 * PI * b * 1) lo hi (PI * (hi ^ 2 - lo ^ 2))).
  { replace (PI * (hi ^ 2 - lo ^ 2)) with (PI * hi ^ 2 - PI * lo ^ 2) by ring.
    apply (is_RInt_derive (V:=R_CompleteNormedModule) (fun b => PI * b ^ 2)).
    - intros b _. auto_derive; [exact I|ring].
    - intros b _. apply (ex_derive_continuous (K:=R_AbsRing) (V:=R_NormedModule)). auto_derive. exact I. }
  split; [apply (is_RInt_unique (V:=R_CompleteNormedModule)); exact X|eexists; exact X].
Qed.
Lemma ring_ex_ext lo hi (f g : R -> R) : (forall b, f b = g b) -> ex_RInt (fun b => 2 * PI * b * f b) lo hi -> ex_RInt (fun b => 2 * PI * b * g b) lo hi.
Proof. intros H X. eapply ex_RInt_ext; [|exact X]. intros b _. cbv beta. rewrite H. reflexivity. Qed.
