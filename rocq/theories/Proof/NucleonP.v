(** Nucleon boundary and thickness in real arithmetic. *)
From Coq Require Import Reals Lra.
From Verif.Base Require Import Result Arith RArith.
From Verif.Model Require Import FastExp Config Nucleon.
From Verif.Proof Require Import Basics RBasics ExpP FastExpP.
Local Open Scope R_scope.

(** ** boundary *)

Lemma scan_R (xs : list R) (lo hi a b : R) : lo <= hi ->
  fold_left (scan (A:=RA)) xs (lo, hi) = (a, b) ->
  (forall x, In x (lo :: hi :: xs) -> a <= x <= b) /\
  In a (lo :: xs) /\ In b (hi :: xs).
Proof.
  revert lo hi. induction xs as [|x xs IH]; intros lo hi H E.
  - simpl in E. inversion E; subst. split; [|simpl; auto]. intros y [<-|[<-|[]]]; lra.
  - cbn [fold_left] in E. unfold scan at 2 in E. cbn [nltb RA RA_with] in E.
    destruct (Rltb_spec x lo); [|destruct (Rltb_spec hi x)];
    apply IH in E; try lra; destruct E as (Q & Ia & Ib); (split; [|simpl in *; tauto]).
    + intros y Hy. assert (a <= x <= b) by (apply Q; simpl; auto).
      assert (a <= hi <= b) by (apply Q; simpl; auto).
      destruct Hy as [<-|[<-|[<-|Hy]]]; try lra. apply Q. simpl; auto.
    + intros y Hy. assert (a <= x <= b) by (apply Q; simpl; auto).
      assert (a <= lo <= b) by (apply Q; simpl; auto).
      destruct Hy as [<-|[<-|[<-|Hy]]]; try lra. apply Q. simpl; auto.
    + intros y Hy. assert (a <= lo <= b) by (apply Q; simpl; auto).
      assert (a <= hi <= b) by (apply Q; simpl; auto).
      destruct Hy as [<-|[<-|[<-|Hy]]]; try lra. apply Q. simpl; auto.
Qed.

Lemma boundary_R nc (n : nucleon RA) (b0 b1 b2 b3 : R) :
  boundary (A:=RA) nc n = Ret (b0, b1, b2, b3) ->
  let r := sqrt (nc_constituent_radius_sq nc) in
  n_cons n <> [] /\
  (forall q : constituent RA, In q (n_cons n) -> b0 <= q_x q - r /\ q_x q + r <= b1 /\ b2 <= q_y q - r /\ q_y q + r <= b3) /\
  (exists q : constituent RA, In q (n_cons n) /\ b0 = q_x q - r) /\ (exists q : constituent RA, In q (n_cons n) /\ b1 = q_x q + r) /\
  (exists q : constituent RA, In q (n_cons n) /\ b2 = q_y q - r) /\ (exists q : constituent RA, In q (n_cons n) /\ b3 = q_y q + r).
Proof.
  intros H r. unfold boundary in H. destruct (n_cons n) as [|q qs]; [discriminate|].
  destruct (fold_left (scan (A:=RA)) (map q_x qs) (q_x q, q_x q)) as [xa xb] eqn:X.
  destruct (fold_left (scan (A:=RA)) (map q_y qs) (q_y q, q_y q)) as [ya yb] eqn:Y.
  apply scan_R in X; [|simpl; lra]. apply scan_R in Y; [|simpl; lra].
  cbn [nsub nadd nsqrt RA RA_with] in H. inversion H. clear H. fold r in H1, H2, H3, H4. subst b0 b1 b2 b3.
  destruct X as (X & X1 & X2), Y as (Y & Y1 & Y2).
  split; [discriminate|].
  assert (F : forall (f : constituent RA -> R) a, In a (f q :: map f qs) -> exists p, In p (q :: qs) /\ a = f p).
  { intros f a [<-|Ha]; [exists q; simpl; auto|]. apply in_map_iff in Ha. destruct Ha as (p & <- & Hp). exists p; simpl; auto. }
  split.
  - intros p Hp. assert (In (q_x p) (q_x q :: q_x q :: map q_x qs)).
    { destruct Hp as [->|Hp]; simpl; auto. right; right. apply in_map; auto. }
    assert (In (q_y p) (q_y q :: q_y q :: map q_y qs)).
    { destruct Hp as [->|Hp]; simpl; auto. right; right. apply in_map; auto. }
    specialize (X _ H). specialize (Y _ H0). simpl in *. fold r. lra.
  - destruct (F _ _ X1) as (p1 & I1 & E1). destruct (F _ _ X2) as (p2 & I2 & E2).
    destruct (F _ _ Y1) as (p3 & I3 & E3). destruct (F _ _ Y2) as (p4 & I4 & E4).
    rewrite E1, E2, E3, E4.
    repeat split; [exists p1|exists p2|exists p3|exists p4]; split; auto; unfold r; simpl; ring.
Qed.

Lemma boundary_returns {A} nc (n : nucleon A) : n_cons n <> [] -> exists b0 b1 b2 b3, boundary nc n = Ret (b0, b1, b2, b3).
Proof.
  intros H. unfold boundary. destruct (n_cons n) as [|q qs]; [congruence|].
  destruct (fold_left (scan (A:=A)) (map q_x qs) (q_x q, q_x q)) as [xa xb].
  destruct (fold_left (scan (A:=A)) (map q_y qs) (q_y q, q_y q)) as [ya yb]. eauto 6.
Qed.

(** ** thickness *)

(** The table of NucleonCommon. *)
Definition fe0 : fast_exp RA := fast_exp_new (A:=RA) (- Rlit 5 (-1) * (Rlit 5 0 * Rlit 5 0)) (Rlit 0 0) 1000.
Definition fexp (x : R) : R := match fast_exp_eval true fe0 x with Ret y => y | _ => 0 end.

Lemma fast_exp_debug {A} dbg (fe : fast_exp A) x :
  nltb A x (fe_xmin fe) = false -> nltb A (fe_xmax fe) x = false ->
  fast_exp_eval dbg fe x = fast_exp_eval true fe x.
Proof. intros H1 H2. unfold fast_exp_eval. rewrite H1, H2, !andb_false_r. reflexivity. Qed.

Lemma fexp_ok dbg x : - (25/2) <= x <= 0 ->
  fast_exp_eval dbg fe0 x = Ret (fexp x) /\
  exp x * (1 - 2 / 100000) <= fexp x <= exp x.
Proof.
  intros H. unfold fexp.
  assert (Hx : - Rlit 5 (-1) * (Rlit 5 0 * Rlit 5 0) <= x <= Rlit 0 0) by (rlits; lra).
  assert (Hlt : - Rlit 5 (-1) * (Rlit 5 0 * Rlit 5 0) < Rlit 0 0) by (rlits; lra).
  destruct (fast_exp_eval_R dbg _ _ 1000 x Hlt ltac:(lia) Hx) as (k & Hk & Ha & E & _).
  destruct (fast_exp_error true _ _ 1000 x Hlt ltac:(lia) Hx) as (y & Ey & B & _).
  unfold fe0 at 2. rewrite Ey. split.
  - assert (G : fast_exp_eval dbg fe0 x = fast_exp_eval true fe0 x); [|unfold fe0; rewrite <- Ey; exact G].
    apply fast_exp_debug; cbn [nltb RA RA_with fe0 fast_exp_new fe_xmin fe_xmax]; apply Rltb_false; lra.
  - unfold fe0. rewrite Ey. split; [|lra]. eapply Rle_trans; [|apply B].
    apply Rmult_le_compat_l; [left; apply exp_pos|]. rlits.
    replace (IZR (1000 - 1)) with 999 by reflexivity.
    set (dx := (0 - - (5 / 10) * (5 * 5)) / 999).
    assert (D : dx = 125 / 9990) by (unfold dx; field).
    rewrite D. pose proof (exp_small (125 / 9990 / 2) ltac:(lra)) as S.
    assert (125 / 9990 * (125 / 9990) / 8 * exp (125 / 9990 / 2)
            <= 125 / 9990 * (125 / 9990) / 8 * / (1 - 125 / 9990 / 2)) by (apply Rmult_le_compat_l; lra).
    lra.
Qed.

Definition dist2 (x y : R) (q : constituent RA) : R := (x - q_x q) * (x - q_x q) + (y - q_y q) * (y - q_y q).

Definition term (v x y : R) (q : constituent RA) : R :=
  if Rltb (dist2 x y q) (5 * v * (5 * v)) then q_fluct q * fexp (- (5 / 10) * dist2 x y q / (v * v)) else 0.

Lemma arg_range v d : 0 <= d < 5 * v * (5 * v) -> - (25/2) <= - (5 / 10) * d / (v * v) <= 0.
Proof.
  intros [H0 H]. assert (P : 0 < v * v) by lra.
  assert (Q : d / (v * v) * (v * v) = d) by (field; intros E; subst; lra).
  assert (0 <= d / (v * v)) by (apply Rmult_le_pos; [lra|left; apply Rinv_0_lt_compat; auto]).
  assert (d / (v * v) <= 25) by (apply Rmult_le_reg_r with (v * v); auto; lra).
  unfold Rdiv in *. rewrite Rmult_assoc. lra.
Qed.

Lemma dist2_pos x y q : 0 <= dist2 x y q.
Proof. unfold dist2. pose proof (Rle_0_sqr (x - q_x q)). pose proof (Rle_0_sqr (y - q_y q)). unfold Rsqr in *. lra. Qed.

Lemma thickness_R (cfg : config RA) sp dbg (n : nucleon RA) (x y : R) :
  let nc := nucleon_common_of cfg sp in
  thickness (A:=RA) dbg nc n x y = Ret (nc_prefactor nc * Rsum (term (constit_width cfg) x y) (n_cons n)).
Proof.
  intros nc. unfold thickness.
  assert (F : forall (qs : list (constituent RA)) acc, rfold (thickness_step dbg nc x y) qs acc
              = Ret (acc + Rsum (term (constit_width cfg) x y) qs)).
  { induction qs as [|q qs IH]; intros acc; [cbn [rfold Rsum fold_right]; f_equal; rring|].
    cbn [rfold]. assert (E : thickness_step dbg nc x y acc q = Ret (acc + term (constit_width cfg) x y q)).
    { unfold thickness_step, nc, nucleon_common_of, sqr, max_radius_widths.
      cbn [nc_constituent_radius_sq nc_fast_exp nc_constituent_width_sq].
      cbn [nltb RA RA_with nsub nadd nmul nlit nneg ndiv]. fold (dist2 x y q).
      change (fast_exp_new (A:=RA) (- Rlit 5 (-1) * (Rlit 5 0 * Rlit 5 0)) (Rlit 0 0) 1000) with fe0.
      unfold term. generalize (constit_width cfg). simpl num. intros v. rlits.
      destruct (Rltb_spec (dist2 x y q) (5 * v * (5 * v))) as [L|L].
      - rewrite (proj1 (fexp_ok dbg _ (arg_range _ _ (conj (dist2_pos x y q) L)))). reflexivity.
      - f_equal. rring. }
    rewrite E. cbn [rbind]. rewrite IH. f_equal. rewrite Rsum_cons. rring. }
  rewrite F. cbn [rbind]. f_equal. cbn [nmul nlit RA RA_with]. rlits. rring.
Qed.

Lemma term_zero v x y q : 5 * Rabs v <= sqrt (dist2 x y q) -> term v x y q = 0.
Proof.
  intros H. unfold term. destruct (Rltb_spec (dist2 x y q) (5 * v * (5 * v))) as [L|L]; auto. exfalso.
  assert (S : sqrt (dist2 x y q) < sqrt (5 * v * (5 * v))).
  { apply sqrt_lt_1_alt. split; [apply dist2_pos|lra]. }
  replace (5 * v * (5 * v)) with ((5 * v)²) in S by reflexivity.
  rewrite sqrt_Rsqr_abs, Rabs_mult, (Rabs_right 5) in S by lra. lra.
Qed.

(** Coordinate-wise version. *)
Lemma term_zero_x v x y (q : constituent RA) : 5 * Rabs v <= Rabs (x - q_x q) -> term v x y q = 0.
Proof.
  intros H. apply term_zero. eapply Rle_trans; [exact H|]. rewrite <- sqrt_Rsqr_abs. apply sqrt_le_1_alt.
  unfold dist2, Rsqr. pose proof (Rle_0_sqr (y - q_y q)). unfold Rsqr in *. lra.
Qed.
Lemma term_zero_y v x y (q : constituent RA) : 5 * Rabs v <= Rabs (y - q_y q) -> term v x y q = 0.
Proof.
  intros H. apply term_zero. eapply Rle_trans; [exact H|]. rewrite <- sqrt_Rsqr_abs. apply sqrt_le_1_alt.
  unfold dist2, Rsqr. pose proof (Rle_0_sqr (x - q_x q)). unfold Rsqr in *. lra.
Qed.

Lemma Rsum_zero {X} (f : X -> R) l : (forall x, In x l -> f x = 0) -> Rsum f l = 0.
Proof. induction l; intros H; simpl; auto. rewrite H, IHl; simpl; auto; [lra|]. intros; apply H; simpl; auto. Qed.

Lemma radius_sq_R (cfg : config RA) sp : sqrt (nc_constituent_radius_sq (nucleon_common_of cfg sp)) = 5 * Rabs (constit_width cfg).
Proof.
  unfold nucleon_common_of, sqr, max_radius_widths. cbn [nc_constituent_radius_sq]. cbn [nmul nlit RA RA_with]. rlits.
  generalize (constit_width cfg). simpl. intros v.
  replace (5 * v * (5 * v)) with ((5 * v)²) by reflexivity. rewrite sqrt_Rsqr_abs, Rabs_mult, (Rabs_right 5) by lra. reflexivity.
Qed.

(** Outside the boundary box the profile vanishes. *)
Lemma thickness_outside (cfg : config RA) sp dbg (n : nucleon RA) (b0 b1 b2 b3 x y : R) :
  let nc := nucleon_common_of cfg sp in
  boundary nc n = Ret (b0, b1, b2, b3) ->
  x <= b0 \/ b1 <= x \/ y <= b2 \/ b3 <= y ->
  thickness (A:=RA) dbg nc n x y = Ret 0.
Proof.
  intros nc Hb Ho. unfold nc. rewrite thickness_R. f_equal. simpl num.
  rewrite Rsum_zero; [rring|]. intros q Hq.
  apply boundary_R in Hb. destruct Hb as (_ & Hb & _). specialize (Hb q Hq).
  unfold nc in Hb. rewrite radius_sq_R in Hb. pose proof (Rabs_pos (constit_width cfg)) as Hv.
  destruct Ho as [H|[H|[H|H]]].
  - apply term_zero_x. rewrite (Rabs_left1 (x - q_x q)); lra.
  - apply term_zero_x. rewrite (Rabs_right (x - q_x q)); lra.
  - apply term_zero_y. rewrite (Rabs_left1 (y - q_y q)); lra.
  - apply term_zero_y. rewrite (Rabs_right (y - q_y q)); lra.
Qed.
