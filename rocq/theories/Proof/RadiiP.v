(** Geometry of sampled nuclei (exact arithmetic). *)
From Coq Require Import Reals Lra Permutation Sorted FunctionalExtensionality.
From Verif.Base Require Import Result Arith RArith Rng.
From Verif.Model Require Import Random Config Nucleon Files Nucleus Collider.
From Verif.Spec Require Import Contract Draws Geometry Radii.
From Verif.Proof Require Import Basics RBasics Sampling ShiftP.
Local Open Scope R_scope.

Lemma sin_cos_1 t : cos t * cos t + sin t * sin t = 1.
Proof. pose proof (sin2_cos2 t) as H. unfold Rsqr in H. lra. Qed.

Lemma sqrt_1_c c : -1 <= c <= 1 -> sqrt (1 - c * c) * sqrt (1 - c * c) = 1 - c * c.
Proof. intros H. apply sqrt_sqrt. nra. Qed.

(** The square of the distance from the origin of a point in polar coordinates. *)
Lemma polar_norm r c ph : -1 <= c <= 1 ->
  let p := polar (A:=RA) r c ph in vdot p p = r * r.
Proof.
  intros H. unfold polar, vdot, vx, vy, vz. cbn [fst snd].
  cbn [num RA RA_with nadd nsub nmul ndiv nneg nlit nofZ nsqrt ncos nsin]. rlits.
  pose proof (sqrt_1_c c H) as S. pose proof (sin_cos_1 ph) as C.
  set (q := sqrt (1 - c * c)) in *.
  transitivity (r * r * (q * q) * (cos ph * cos ph + sin ph * sin ph) + r * r * (c * c)); [ring|].
  rewrite C, S. ring.
Qed.

Lemma vnorm_of_square p r : 0 <= r -> vdot p p = r * r -> vnorm p = r.
Proof. intros H E. unfold vnorm. rewrite E. apply sqrt_square. exact H. Qed.

Section Draws.
Context (rg : Rng RA) (OK : rng_ok rg).

Lemma drawn_range k e : 0 <= drawn rg k e < 1.
Proof.
  destruct (ok_canonical rg OK (after rg k e)) as [H1 H2].
  apply Rltb_false in H1. apply Rltb_true in H2. unfold drawn. split; assumption.
Qed.

Lemma cos_draw_range k e : -1 <= cos_draw rg k e <= 1.
Proof.
  pose proof (drawn_range k e) as H. unfold cos_draw.
  cbn [num RA RA_with nadd nsub nmul nofZ]. lra.
Qed.

Lemma draw_ws_R Rw a : draw_ws rg Rw a = woods_saxon_draw rg Rw a.
Proof.
  unfold draw_ws, woods_saxon_draw, act. apply functional_extensionality. intros e.
  replace (ws_weight (A:=RA) Rw a) with (fermi_density Rw a).
  - cbn [nadd nmul nlit RA RA_with]. rlits. reflexivity.
  - apply functional_extensionality. intros r. unfold ws_weight, fermi_density. cbn [nadd nsub nmul ndiv nexp nlit RA RA_with]. rlits.
    replace (r ^ 2) with (r * r) by ring. reflexivity.
Qed.

Lemma draw_ws_range Rw a e r e' :
  0 <= Rw + 10 * a -> draw_ws rg Rw a e = (Ret r, e') -> 0 <= r <= Rw + 10 * a.
Proof.
  intros H0 H. unfold draw_ws in H. apply act_inv in H. destruct H as (x & E & Ex).
  assert (x = r) by congruence. subst x. clear Ex.
  assert (nltb RA (nadd RA Rw (nmul RA (nlit RA 10 0) a)) (nlit RA 0 0) = false) as H1.
  { apply Rltb_false. cbn. rlits. lra. }
  destruct (ok_pwl rg OK 1000 _ _ (ws_weight (A:=RA) Rw a) e H1) as [P1 P2].
  rewrite E in P1, P2. cbn [fst] in P1, P2. apply Rltb_false in P1. apply Rltb_false in P2.
  cbn in P1, P2. rlits in P1. rlits in P2. lra.
Qed.
End Draws.

Lemma Sorted_nondec (l : list R) :
  StronglySorted (fun x y => nltb RA y x = false) l -> StronglySorted Rle l.
Proof.
  induction 1 as [|x l H IH HF]; constructor; auto.
  eapply Forall_impl; [|exact HF]. intros y Hy. apply Rltb_false in Hy. exact Hy.
Qed.

(** Rotations. *)
Definition tilt_spin (ca sa cb sb : R) : mat :=
  ((cb, - ca * sb, sa * sb), (sb, ca * cb, - sa * cb), (0, sa, ca)).

Lemma tilt_spin_apply ca sa cb sb p :
  rotate_tilt_spin (A:=RA) ca sa cb sb p = mapply (tilt_spin ca sa cb sb) p.
Proof.
  destruct p as [[x y] z]. unfold rotate_tilt_spin, mapply, tilt_spin, vdot, vx, vy, vz. cbn [fst snd].
  cbn [num RA RA_with nadd nsub nmul]. f_equal; [f_equal|]; ring.
Qed.

Lemma tilt_spin_proper ca sa cb sb :
  ca * ca + sa * sa = 1 -> cb * cb + sb * sb = 1 -> proper_rotation (tilt_spin ca sa cb sb).
Proof.
  intros H1 H2. unfold proper_rotation, tilt_spin, vdot, vcross, vx, vy, vz. cbn [fst snd].
  assert (sa * sa = 1 - ca * ca) as Ea by lra. assert (sb * sb = 1 - cb * cb) as Eb by lra.
  repeat split.
  - transitivity (cb * cb + (ca * ca + sa * sa) * (sb * sb)); [ring|]. rewrite H1. lra.
  - transitivity (sb * sb + (ca * ca + sa * sa) * (cb * cb)); [ring|]. rewrite H1. lra.
  - transitivity (ca * ca + sa * sa); [ring|]. exact H1.
  - transitivity (cb * sb - (ca * ca + sa * sa) * (cb * sb)); [ring|]. rewrite H1. ring.
  - ring.
  - ring.
  - transitivity ((ca * ca + sa * sa) * (cb * cb + sb * sb)); [ring|]. rewrite H1, H2. ring.
Qed.

Definition euler (c1 s1 c2 s2 c3 s3 : R) : mat :=
  ((c1 * c3 - c2 * s1 * s3, - (c3 * s1 + c1 * c2 * s3), s2 * s3),
   (c1 * s3 + c2 * c3 * s1, - (s1 * s3 - c1 * c2 * c3), - (c3 * s2)),
   (s1 * s2, c1 * s2, c2)).

Lemma euler_apply c1 s1 c2 s2 c3 s3 p :
  rotate_euler (A:=RA) c1 s1 c2 s2 c3 s3 p = mapply (euler c1 s1 c2 s2 c3 s3) p.
Proof.
  destruct p as [[x y] z]. unfold rotate_euler, mapply, euler, vdot, vx, vy, vz. cbn [fst snd].
  cbn [num RA RA_with nadd nsub nmul]. f_equal; [f_equal|]; ring.
Qed.

Lemma euler_proper c1 s1 c2 s2 c3 s3 :
  c1 * c1 + s1 * s1 = 1 -> c2 * c2 + s2 * s2 = 1 -> c3 * c3 + s3 * s3 = 1 ->
  proper_rotation (euler c1 s1 c2 s2 c3 s3).
Proof.
  intros H1 H2 H3. unfold proper_rotation, euler, vdot, vcross, vx, vy, vz. cbn [fst snd].
  assert (s1 * s1 = 1 - c1 * c1) as E1 by lra.
  assert (s2 * s2 = 1 - c2 * c2) as E2 by lra.
  assert (s3 * s3 = 1 - c3 * c3) as E3 by lra.
  repeat split.
  - transitivity ((c3*c3) * (c1*c1 + s1*s1) + (s3*s3) * ((c2*c2) * (c1*c1 + s1*s1) + s2*s2)); [ring|].
    rewrite H1. rewrite !Rmult_1_r. rewrite H2. lra.
  - transitivity ((s3*s3) * (c1*c1 + s1*s1) + (c3*c3) * ((c2*c2) * (c1*c1 + s1*s1) + s2*s2)); [ring|].
    rewrite H1. rewrite !Rmult_1_r. rewrite H2. lra.
  - transitivity ((s2*s2) * (c1*c1 + s1*s1) + c2*c2); [ring|]. rewrite H1. lra.
  - transitivity (c3 * s3 * ((c1*c1 + s1*s1) - (c2*c2) * (c1*c1 + s1*s1) - s2*s2)); [ring|].
    rewrite H1. rewrite E2. ring.
  - transitivity (s2 * s3 * (c2 - c2 * (c1*c1+s1*s1))); [ring|]. rewrite H1. ring.
  - transitivity (s2 * c3 * (c2 * (c1*c1+s1*s1) - c2)); [ring|]. rewrite H1. ring.
  - transitivity ((c1*c1 + s1*s1) * (c2*c2 + s2*s2) * (c3*c3 + s3*s3) * 1
       + 0); [|rewrite H1, H2, H3; ring].
    transitivity ((c3*c3+s3*s3) * ((c2*c2) * (c1*c1+s1*s1) + s2*s2 * ((c1*c1+s1*s1)))); [ring|].
    ring.
Qed.

Lemma rotation_dot m p q : proper_rotation m -> vdot (mapply m p) (mapply m q) = vdot p q.
Proof.
  destruct m as [[[[a1 a2] a3] [[b1 b2] b3]] [[c1 c2] c3]].
  destruct p as [[p1 p2] p3]. destruct q as [[q1 q2] q3].
  unfold proper_rotation, mapply, vdot, vcross, vx, vy, vz. cbn [fst snd].
  intros (R1 & R2 & R3 & R12 & R13 & R23 & D).
  (* rows orthonormal and det 1: each row is the cross product of the others *)
  assert (X : a1 = b2*c3 - b3*c2 /\ a2 = b3*c1 - b1*c3 /\ a3 = b1*c2 - b2*c1).
  { assert (N : (a1 - (b2*c3 - b3*c2))*(a1 - (b2*c3 - b3*c2)) + (a2 - (b3*c1 - b1*c3))*(a2 - (b3*c1 - b1*c3))
                + (a3 - (b1*c2 - b2*c1))*(a3 - (b1*c2 - b2*c1)) = 0).
    { transitivity ((a1*a1+a2*a2+a3*a3) - 2 * (a1*(b2*c3-b3*c2)+a2*(b3*c1-b1*c3)+a3*(b1*c2-b2*c1))
        + ((b1*b1+b2*b2+b3*b3)*(c1*c1+c2*c2+c3*c3) - (b1*c1+b2*c2+b3*c3)*(b1*c1+b2*c2+b3*c3))); [ring|].
      rewrite R1, D, R2, R3, R23. ring. }
    pose proof (Rle_0_sqr (a1 - (b2*c3 - b3*c2))) as S1. pose proof (Rle_0_sqr (a2 - (b3*c1 - b1*c3))) as S2.
    pose proof (Rle_0_sqr (a3 - (b1*c2 - b2*c1))) as S3. unfold Rsqr in *.
    assert (forall u, u * u = 0 -> u = 0) as Z by (intros u Hu; destruct (Rmult_integral _ _ Hu); auto).
    split; [|split]; apply Rminus_diag_uniq; apply Z; lra. }
  destruct X as (X1 & X2 & X3).
  assert (B1 : b1*b1 + c1*c1 = 1 - a1*a1 /\ b2*b2 + c2*c2 = 1 - a2*a2 /\ b3*b3 + c3*c3 = 1 - a3*a3 /\
               b1*b2 + c1*c2 = - a1*a2 /\ b1*b3 + c1*c3 = - a1*a3 /\ b2*b3 + c2*c3 = - a2*a3).
  { clear R1 R12 R13 D.
    assert (Y1 : a1*a1 = (b2*b2+b3*b3)*(c2*c2+c3*c3) - (b2*c2+b3*c3)*(b2*c2+b3*c3)) by (rewrite X1; ring).
    assert (Y2 : a2*a2 = (b3*b3+b1*b1)*(c3*c3+c1*c1) - (b3*c3+b1*c1)*(b3*c3+b1*c1)) by (rewrite X2; ring).
    assert (Y3 : a3*a3 = (b1*b1+b2*b2)*(c1*c1+c2*c2) - (b1*c1+b2*c2)*(b1*c1+b2*c2)) by (rewrite X3; ring).
    assert (Rb : forall i j k, i + j + k = 1 -> i + j = 1 - k) by (intros; lra).
    replace (b2*b2+b3*b3) with (1 - b1*b1) in Y1 by lra. replace (c2*c2+c3*c3) with (1 - c1*c1) in Y1 by lra.
    replace (b2*c2+b3*c3) with (- (b1*c1)) in Y1 by lra.
    replace (b3*b3+b1*b1) with (1 - b2*b2) in Y2 by lra. replace (c3*c3+c1*c1) with (1 - c2*c2) in Y2 by lra.
    replace (b3*c3+b1*c1) with (- (b2*c2)) in Y2 by lra.
    replace (b1*b1+b2*b2) with (1 - b3*b3) in Y3 by lra. replace (c1*c1+c2*c2) with (1 - c3*c3) in Y3 by lra.
    replace (b1*c1+b2*c2) with (- (b3*c3)) in Y3 by lra.
    split; [lra|]. split; [lra|]. split; [lra|].
    (* off-diagonal: use the third rows *)
    split; [|split].
    - rewrite X1, X2.
      transitivity (- ((b2*c3 - b3*c2) * (b3*c1 - b1*c3))); [|ring].
      assert (b1*c1 = - (b2*c2+b3*c3)) as E by lra.
      transitivity (b1*b2*(c1*c1+c2*c2+c3*c3) + c1*c2*(b1*b1+b2*b2+b3*b3)
                    - (b1*c2+b2*c1)*(b1*c1+b2*c2+b3*c3)); [rewrite R2, R3, R23; ring|]. ring.
    - rewrite X1, X3.
      transitivity (b1*b3*(c1*c1+c2*c2+c3*c3) + c1*c3*(b1*b1+b2*b2+b3*b3)
                    - (b1*c3+b3*c1)*(b1*c1+b2*c2+b3*c3)); [rewrite R2, R3, R23; ring|]. ring.
    - rewrite X2, X3.
      transitivity (b2*b3*(c1*c1+c2*c2+c3*c3) + c2*c3*(b1*b1+b2*b2+b3*b3)
                    - (b2*c3+b3*c2)*(b1*c1+b2*c2+b3*c3)); [rewrite R2, R3, R23; ring|]. ring. }
  destruct B1 as (D1 & D2 & D3 & O12 & O13 & O23).
  transitivity (p1*q1*(a1*a1 + (b1*b1+c1*c1)) + p2*q2*(a2*a2 + (b2*b2+c2*c2)) + p3*q3*(a3*a3+(b3*b3+c3*c3))
     + (p1*q2+p2*q1)*(a1*a2 + (b1*b2+c1*c2)) + (p1*q3+p3*q1)*(a1*a3+(b1*b3+c1*c3))
     + (p2*q3+p3*q2)*(a2*a3+(b2*b3+c2*c3))); [ring|].
  rewrite D1, D2, D3, O12, O13, O23. ring.
Qed.

Lemma mapply_sub m p q : mapply m (vsub p q) = vsub (mapply m p) (mapply m q).
Proof.
  destruct m as [[[[a1 a2] a3] [[b1 b2] b3]] [[c1 c2] c3]].
  destruct p as [[p1 p2] p3]. destruct q as [[q1 q2] q3].
  unfold mapply, vsub, vdot, vx, vy, vz. cbn [fst snd]. f_equal; [f_equal|]; ring.
Qed.

(** Rigid: distances from the centre and mutual distances are preserved. *)
Lemma rotation_rigid m p q : proper_rotation m ->
  vnorm (mapply m p) = vnorm p /\ vdist (mapply m p) (mapply m q) = vdist p q.
Proof.
  intros H. unfold vdist. rewrite <- mapply_sub. unfold vnorm. rewrite !rotation_dot by exact H. auto.
Qed.

Lemma dist3_vdist (n m : nucleon RA) : dist3_sq (A:=RA) n m = vdot (vsub (pos n) (pos m)) (vsub (pos n) (pos m)).
Proof. reflexivity. Qed.

(** Not too close means at least the minimum distance. *)
Lemma too_close_false d prev (n : nucleon RA) : 0 <= d ->
  is_too_close (A:=RA) (d * d) prev n = false ->
  d * d < 1 / 10000000000 \/ (forall m, In m prev -> d <= vdist (pos n) (pos m)).
Proof.
  intros Hd. unfold is_too_close. cbn [nltb RA RA_with nlit]. rlits.
  destruct (Rltb_spec (d * d) (1 / 10000000000)); [auto|]. intros H. right. intros m Hm.
  assert (G := existsb_exists (fun n2 => Rltb (dist3_sq n n2) (d * d)) prev).
  destruct (Rltb (dist3_sq n m) (d * d)) eqn:E.
  - assert (existsb (fun n2 => Rltb (dist3_sq n n2) (d * d)) prev = true) by (apply existsb_exists; eauto).
    congruence.
  - apply Rltb_false in E. unfold vdist, vnorm. rewrite <- dist3_vdist.
    rewrite <- (sqrt_square d Hd). apply sqrt_le_1_alt. exact E.
Qed.

Lemma too_close_true d prev (n : nucleon RA) : 0 <= d ->
  is_too_close (A:=RA) (d * d) prev n = true ->
  1 / 10000000000 <= d * d /\ exists m, In m prev /\ vdist (pos n) (pos m) < d.
Proof.
  intros Hd. unfold is_too_close. cbn [nltb RA RA_with nlit]. rlits.
  destruct (Rltb_spec (d * d) (1 / 10000000000)) as [|Hge]; [discriminate|]. intros H.
  split; [lra|].
  apply existsb_exists in H. destruct H as (m & Hm & H). apply Rltb_true in H.
  exists m. split; auto. unfold vdist, vnorm. rewrite <- dist3_vdist.
  rewrite <- (sqrt_square d Hd). apply sqrt_lt_1_alt. split; [|exact H].
  rewrite dist3_vdist. unfold vdot. nra.
Qed.
