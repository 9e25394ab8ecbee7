(** Commutativity of binary64 addition and multiplication. *)
From Coq Require Import Reals Lra.
From Flocq Require Import Core BinarySingleNaN.
From Verif.Base Require Import Result Arith FArith.

Lemma binary_overflow_not_finite m s :
  forall x : f64, B2SF x = binary_overflow prec64 emax64 m s -> m = mode_NE -> x = B754_infinity s.
Proof. intros x H ->. destruct x; simpl in H; inversion H; reflexivity. Qed.

Lemma f64_mul_comm x y : f64_mul x y = f64_mul y x.
Proof.
  unfold f64_mul.
  destruct (is_finite x) eqn:Fx; [destruct (is_finite y) eqn:Fy|].
  - pose proof (Bmult_correct prec64 emax64 _ _ mode_NE x y) as H1.
    pose proof (Bmult_correct prec64 emax64 _ _ mode_NE y x) as H2.
    rewrite (Rmult_comm (B2R y)) in H2. rewrite (xorb_comm (Bsign y)) in H2.
    destruct (Rlt_bool _ _).
    + destruct H1 as (R1 & F1 & S1), H2 as (R2 & F2 & S2).
      rewrite Fx, Fy in F1, F2. simpl in F1, F2.
      apply B2R_Bsign_inj; auto; [congruence|].
      rewrite S1, S2; auto.
      * destruct (Bmult mode_NE y x); simpl in *; congruence.
      * destruct (Bmult mode_NE x y); simpl in *; congruence.
    + apply binary_overflow_not_finite in H1; auto. apply binary_overflow_not_finite in H2; auto. congruence.
  - destruct x as [sx|sx| |sx mx ex Hx], y as [sy|sy| |sy my ey Hy]; try discriminate; simpl; try (rewrite xorb_comm); reflexivity.
  - destruct x as [sx|sx| |sx mx ex Hx], y as [sy|sy| |sy my ey Hy]; try discriminate; simpl; try (rewrite xorb_comm); reflexivity.
Qed.

Lemma f64_add_comm x y : f64_add x y = f64_add y x.
Proof.
  unfold f64_add.
  destruct (is_finite x) eqn:Fx; [destruct (is_finite y) eqn:Fy|].
  - pose proof (Bplus_correct prec64 emax64 _ _ mode_NE x y Fx Fy) as H1.
    pose proof (Bplus_correct prec64 emax64 _ _ mode_NE y x Fy Fx) as H2.
    rewrite (Rplus_comm (B2R y)) in H2.
    destruct (Rlt_bool _ _).
    + destruct H1 as (R1 & F1 & S1), H2 as (R2 & F2 & S2).
      apply B2R_Bsign_inj; auto; [congruence|]. rewrite S1, S2.
      destruct (Rcompare _ 0); auto. apply andb_comm.
    + destruct H1 as [H1 S1], H2 as [H2 S2]. apply binary_overflow_not_finite in H1; auto. apply binary_overflow_not_finite in H2; auto. congruence.
  - destruct x as [sx|sx| |sx mx ex Hx], y as [sy|sy| |sy my ey Hy]; try discriminate; simpl; try reflexivity;
      try (destruct (Bool.eqb sx sy) eqn:E); try reflexivity.
  - destruct x as [sx|sx| |sx mx ex Hx], y as [sy|sy| |sy my ey Hy]; try discriminate; simpl; try reflexivity;
      destruct sx, sy; reflexivity.
Qed.
