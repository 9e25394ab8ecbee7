(** Properties of the generalized mean. *)
From Coq Require Import Reals Lra.
From Verif.Base Require Import Result Arith RArith.
From Verif.Model Require Import Event.
From Verif.Spec Require Import Mean.
From Verif.Proof Require Import RBasics.
Local Open Scope R_scope.

Lemma Rpower_pos x p : 0 < Rpower x p. Proof. apply exp_pos. Qed.

Lemma pow0_nonneg x p : 0 <= pow0 x p.
Proof. unfold pow0. destruct (Req_EM_T x 0); [lra|]. left. apply Rpower_pos. Qed.

Lemma pow0_le x y p : 0 < p -> 0 <= x <= y -> pow0 x p <= pow0 y p.
Proof.
  intros Hp [Hx Hxy]. unfold pow0. destruct (Req_EM_T x 0), (Req_EM_T y 0); try lra.
  - left; apply Rpower_pos.
  - apply Rle_Rpower_l; lra.
Qed.

Lemma pow0_mult x y p : 0 <= x -> 0 <= y -> pow0 (x * y) p = pow0 x p * pow0 y p.
Proof.
  intros Hx Hy. unfold pow0. destruct (Req_EM_T x 0) as [->|Nx]; [rewrite Rmult_0_l; destruct (Req_EM_T 0 0); lra|].
  destruct (Req_EM_T y 0) as [->|Ny]; [rewrite Rmult_0_r; destruct (Req_EM_T 0 0); lra|].
  destruct (Req_EM_T (x * y) 0) as [E|_]; [apply Rmult_integral in E; lra|].
  symmetry. apply Rpower_mult_distr; lra.
Qed.

Lemma pow0_inv x p : 0 < p -> 0 <= x -> pow0 (pow0 x p) (1 / p) = x.
Proof.
  intros Hp Hx. unfold pow0. destruct (Req_EM_T x 0) as [->|N]; [destruct (Req_EM_T 0 0); lra|].
  destruct (Req_EM_T (Rpower x p) 0) as [E|_]; [pose proof (Rpower_pos x p); lra|].
  rewrite Rpower_mult. replace (p * (1 / p)) with 1 by (field; lra). apply Rpower_1. lra.
Qed.

Lemma Rpower_inv x p : p <> 0 -> 0 < x -> Rpower (Rpower x p) (1 / p) = x.
Proof. intros Hp Hx. rewrite Rpower_mult. replace (p * (1 / p)) with 1 by (field; lra). apply Rpower_1. lra. Qed.

Lemma Rpower_anti x y p : p < 0 -> 0 < x <= y -> Rpower y p <= Rpower x p.
Proof.
  intros Hp [Hx Hxy]. unfold Rpower.
  assert (ln x <= ln y) by (destruct Hxy as [H| ->]; [left; apply ln_increasing; lra|lra]).
  assert (p * ln y <= p * ln x).
  { replace (p * ln y) with (- (- p * ln y)) by ring. replace (p * ln x) with (- (- p * ln x)) by ring.
    apply Ropp_le_contravar. apply Rmult_le_compat_l; lra. }
  destruct H0 as [H0| ->]; [left; apply exp_increasing; auto|lra].
Qed.

Lemma eps12_pos : 0 < eps12. Proof. unfold eps12. lra. Qed.

(** The program's mean is the documented one. *)
Lemma gen_mean_spec p a b : 0 <= a -> 0 <= b ->
  gen_mean (choose_mean (A:=RA) p) a b = M_p p a b.
Proof.
  intros Ha Hb. unfold choose_mean, M_p. cbn [nltb nabs RA RA_with nlit]. unfold tiny. cbn [nlit RA RA_with]. rlits.
  fold eps12. destruct (Rltb_spec (Rabs p) eps12) as [L|L], (Rlt_dec (Rabs p) eps12) as [L'|L']; try contradiction.
  - reflexivity.
  - destruct (Rltb_spec 0 p) as [P|P], (Rlt_dec 0 p) as [P'|P']; try contradiction; cbn [gen_mean].
    + unfold positive_pmean. cbn [npow nmul nadd ndiv nlit RA RA_with]. rlits. unfold Rpow, pow0.
      destruct (Req_EM_T p 0) as [Z|Z]; [lra|].
      assert (Z' : 1 / p <> 0) by (apply Rgt_not_eq; apply Rdiv_lt_0_compat; lra).
      destruct (Req_EM_T (1 / p) 0); [contradiction|].
      set (A1 := if Req_EM_T a 0 then 0 else Rpower a p). set (B1 := if Req_EM_T b 0 then 0 else Rpower b p).
      replace (5 / 10 * (A1 + B1)) with ((A1 + B1) / 2) by lra. reflexivity.
    + unfold negative_pmean, positive_pmean. unfold tiny. cbn [nltb npow nmul nadd ndiv nlit RA RA_with]. rlits. fold eps12.
      pose proof eps12_pos.
      destruct (Rltb_spec a eps12), (Rlt_dec a eps12); try contradiction; cbn [orb]; [reflexivity|].
      destruct (Rltb_spec b eps12), (Rlt_dec b eps12); try contradiction; cbn [orb]; [reflexivity|].
      unfold Rpow. destruct (Req_EM_T a 0); [lra|]. destruct (Req_EM_T b 0); [lra|].
      pose proof (Rpower_pos a p). pose proof (Rpower_pos b p).
      destruct (Req_EM_T (5 / 10 * (Rpower a p + Rpower b p)) 0); [lra|].
      f_equal. lra.
Qed.

Lemma M_p_sym p a b : M_p p a b = M_p p b a.
Proof.
  unfold M_p. destruct (Rlt_dec (Rabs p) eps12); [f_equal; ring|].
  destruct (Rlt_dec 0 p); [f_equal; lra|].
  destruct (Rlt_dec a eps12), (Rlt_dec b eps12); auto. f_equal. lra.
Qed.

Lemma M_p_nonneg p a b : 0 <= M_p p a b.
Proof.
  unfold M_p. destruct (Rlt_dec (Rabs p) eps12); [apply sqrt_pos|].
  destruct (Rlt_dec 0 p); [apply pow0_nonneg|].
  destruct (Rlt_dec a eps12); [lra|]. destruct (Rlt_dec b eps12); [lra|]. left; apply Rpower_pos.
Qed.

(** Where the program does not replace the mean by 0. *)
Definition regular (p a b : R) : Prop := - eps12 < p \/ (eps12 <= a /\ eps12 <= b).

Lemma regular_cases p a b : regular p a b -> 0 <= a -> 0 <= b ->
  (Rabs p < eps12 /\ M_p p a b = sqrt (a * b)) \/
  (eps12 <= p /\ M_p p a b = pow0 ((pow0 a p + pow0 b p) / 2) (1 / p)) \/
  (p <= - eps12 /\ eps12 <= a /\ eps12 <= b /\ M_p p a b = Rpower ((Rpower a p + Rpower b p) / 2) (1 / p)).
Proof.
  intros Hr Ha Hb. pose proof eps12_pos. unfold M_p, regular in *.
  destruct (Rlt_dec (Rabs p) eps12) as [L|L]; [auto|]. right.
  assert (L' : eps12 <= Rabs p) by lra. unfold Rabs in L'. destruct (Rcase_abs p).
  - right. destruct (Rlt_dec 0 p); [lra|]. destruct Hr as [Hr|[Hr1 Hr2]]; [lra|].
    destruct (Rlt_dec a eps12); [lra|]. destruct (Rlt_dec b eps12); [lra|]. repeat split; lra.
  - left. destruct (Rlt_dec 0 p); [|lra]. split; lra.
Qed.

Lemma M_p_bounds p a b : 0 <= a -> 0 <= b -> regular p a b -> Rmin a b <= M_p p a b <= Rmax a b.
Proof.
  intros Ha Hb Hr.
  assert (G : forall a b, 0 <= a -> a <= b -> regular p a b -> a <= M_p p a b <= b).
  { clear. intros a b Ha Hab Hr. pose proof eps12_pos.
    destruct (regular_cases p a b Hr Ha ltac:(lra)) as [(L & ->)|[(P & ->)|(P & A1 & B1 & ->)]].
    - split.
      + rewrite <- (sqrt_square a) at 1 by lra. apply sqrt_le_1_alt. apply Rmult_le_compat_l; lra.
      + rewrite <- (sqrt_square b) at 2 by lra. apply sqrt_le_1_alt. apply Rmult_le_compat_r; lra.
    - assert (Hp : 0 < p) by lra. pose proof (pow0_le a b p Hp ltac:(lra)).
      pose proof (pow0_nonneg a p). assert (Hq : 0 < 1 / p) by (apply Rdiv_lt_0_compat; lra).
      split.
      + rewrite <- (pow0_inv a p) at 1 by lra. apply pow0_le; lra.
      + rewrite <- (pow0_inv b p) at 2 by lra. apply pow0_le; lra.
    - assert (Hp : p < 0) by lra. pose proof (Rpower_anti a b p Hp ltac:(lra)).
      pose proof (Rpower_pos b p). pose proof (Rpower_pos a p).
      assert (Hq : 1 / p < 0) by (unfold Rdiv; rewrite Rmult_1_l; apply Rinv_lt_0_compat; lra).
      split.
      + rewrite <- (Rpower_inv a p) at 1 by lra. apply Rpower_anti; lra.
      + rewrite <- (Rpower_inv b p) at 2 by lra. apply Rpower_anti; lra. }
  destruct (Rle_dec a b).
  - rewrite Rmin_left, Rmax_right by lra. apply G; auto.
  - rewrite Rmin_right, Rmax_left by lra. rewrite M_p_sym. apply G; try lra.
    unfold regular in *. tauto.
Qed.

Lemma M_p_upper p a b : 0 <= a -> 0 <= b -> M_p p a b <= Rmax a b.
Proof.
  intros Ha Hb. destruct (Rlt_dec (- eps12) p) as [H|H]; [apply M_p_bounds; auto; left; auto|].
  destruct (Rle_dec eps12 a); [destruct (Rle_dec eps12 b)|].
  - apply M_p_bounds; auto. right; auto.
  - assert (E : M_p p a b = 0).
    { unfold M_p. pose proof eps12_pos. destruct (Rlt_dec (Rabs p) eps12) as [L|L]; [rewrite Rabs_left in L; lra|].
      destruct (Rlt_dec 0 p); [lra|]. destruct (Rlt_dec a eps12); auto. destruct (Rlt_dec b eps12); auto; lra. }
    rewrite E. eapply Rle_trans; [exact Ha|apply Rmax_l].
  - assert (E : M_p p a b = 0).
    { unfold M_p. pose proof eps12_pos. destruct (Rlt_dec (Rabs p) eps12) as [L|L]; [rewrite Rabs_left in L; lra|].
      destruct (Rlt_dec 0 p); [lra|]. destruct (Rlt_dec a eps12); auto; lra. }
    rewrite E. eapply Rle_trans; [exact Ha|apply Rmax_l].
Qed.

Lemma M_p_idem p a : 0 <= a -> regular p a a -> M_p p a a = a.
Proof. intros Ha Hr. pose proof (M_p_bounds p a a Ha Ha Hr). rewrite Rmin_left, Rmax_left in H by lra. lra. Qed.

Lemma M_p_mono p a a' b : 0 <= a <= a' -> 0 <= b -> M_p p a b <= M_p p a' b.
Proof.
  intros [Ha Haa] Hb. pose proof eps12_pos as E0.
  assert (S : regular p a b \/ M_p p a b = 0).
  { unfold regular, M_p. destruct (Rlt_dec (Rabs p) eps12) as [L|L].
    - left. left. unfold Rabs in L. destruct (Rcase_abs p); lra.
    - destruct (Rlt_dec 0 p); [left; left; lra|].
      destruct (Rlt_dec a eps12); auto. destruct (Rlt_dec b eps12); auto. left. right. lra. }
  destruct S as [S|S]; [|rewrite S; apply M_p_nonneg].
  assert (S' : regular p a' b) by (unfold regular in *; destruct S as [S|[S1 S2]]; [left; auto|right; split; lra]).
  destruct (regular_cases p a b S Ha Hb) as [(L & ->)|[(P & ->)|(P & A1 & B1 & ->)]];
  destruct (regular_cases p a' b S' ltac:(lra) Hb) as [(L2 & ->)|[(P2 & ->)|(P2 & A2 & B2 & ->)]];
    try (unfold Rabs in *; destruct (Rcase_abs p); lra).
  - apply sqrt_le_1_alt. apply Rmult_le_compat_r; lra.
  - apply pow0_le; [apply Rdiv_lt_0_compat; lra|].
    pose proof (pow0_nonneg a p). pose proof (pow0_nonneg b p). pose proof (pow0_le a a' p ltac:(lra) ltac:(lra)). lra.
  - assert (Hq : 1 / p < 0) by (unfold Rdiv; rewrite Rmult_1_l; apply Rinv_lt_0_compat; lra).
    apply Rpower_anti; auto. pose proof (Rpower_anti a a' p ltac:(lra) ltac:(lra)).
    pose proof (Rpower_pos a' p). pose proof (Rpower_pos b p). lra.
Qed.

Lemma M_p_homogeneous p c a b : 0 <= a -> 0 <= b -> 0 <= c -> regular p a b -> regular p (c * a) (c * b) ->
  M_p p (c * a) (c * b) = c * M_p p a b.
Proof.
  intros Ha Hb Hc S S'. pose proof eps12_pos as E0.
  assert (Hca : 0 <= c * a) by (apply Rmult_le_pos; auto). assert (Hcb : 0 <= c * b) by (apply Rmult_le_pos; auto).
  destruct (regular_cases p a b S Ha Hb) as [(L & ->)|[(P & ->)|(P & A1 & B1 & ->)]];
  destruct (regular_cases p (c * a) (c * b) S' Hca Hcb) as [(L2 & ->)|[(P2 & ->)|(P2 & A2 & B2 & ->)]];
    try (unfold Rabs in *; destruct (Rcase_abs p); lra).
  - replace (c * a * (c * b)) with (c * c * (a * b)) by ring.
    rewrite sqrt_mult, sqrt_square; auto; apply Rmult_le_pos; auto.
  - rewrite !pow0_mult by auto.
    replace ((pow0 c p * pow0 a p + pow0 c p * pow0 b p) / 2) with (pow0 c p * ((pow0 a p + pow0 b p) / 2)) by field.
    pose proof (pow0_nonneg a p). pose proof (pow0_nonneg b p).
    rewrite pow0_mult; [|apply pow0_nonneg|lra]. rewrite pow0_inv; auto. lra.
  - assert (Cp : 0 < c).
    { destruct Hc as [Hc| <-]; auto. rewrite Rmult_0_l in A2. lra. }
    rewrite <- !Rpower_mult_distr by lra.
    replace ((Rpower c p * Rpower a p + Rpower c p * Rpower b p) / 2) with (Rpower c p * ((Rpower a p + Rpower b p) / 2)) by field.
    pose proof (Rpower_pos a p). pose proof (Rpower_pos b p).
    rewrite <- Rpower_mult_distr; [|apply Rpower_pos|lra]. rewrite Rpower_inv; auto. lra.
Qed.

Lemma M_p_zero p b : p <= 0 -> 0 <= b -> M_p p 0 b = 0.
Proof.
  intros Hp Hb. pose proof eps12_pos. unfold M_p. destruct (Rlt_dec (Rabs p) eps12).
  - rewrite Rmult_0_l. apply sqrt_0.
  - destruct (Rlt_dec 0 p); [lra|]. destruct (Rlt_dec 0 eps12); auto; lra.
Qed.
