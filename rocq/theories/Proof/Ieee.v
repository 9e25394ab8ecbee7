(** Binary64 operations as rounded real operations. *)
From Coq Require Import ZArith Reals Lra Lia Bool Psatz.
From Flocq Require Import Core BinarySingleNaN Relative Plus_error.
From Verif.Base Require Import Result Arith FArith.
Local Open Scope R_scope.

(** Rounding to nearest even in binary64 (without overflow). *)
Definition rnd (x : R) : R := round radix2 (FLT_exp (-1074) 53) ZnearestE x.
Definition rep (x : R) : Prop := generic_format radix2 (FLT_exp (-1074) 53) x.

Global Instance fexp64_valid : Valid_exp (FLT_exp (-1074) 53). Proof. apply FLT_exp_valid. reflexivity. Qed.
Global Instance prec53 : Prec_gt_0 53. Proof. reflexivity. Qed.

Lemma rnd_le x y : x <= y -> rnd x <= rnd y.
Proof. apply round_le; auto with typeclass_instances. Qed.
Lemma rnd_rep x : rep (rnd x).
Proof. apply generic_format_round; auto with typeclass_instances. Qed.
Lemma rnd_id x : rep x -> rnd x = x.
Proof. apply round_generic; auto with typeclass_instances. Qed.
Lemma rnd_0 : rnd 0 = 0.
Proof. apply round_0; auto with typeclass_instances. Qed.
Lemma rep_B2R (x : f64) : rep (B2R x).
Proof. apply (generic_format_B2R prec64 emax64). Qed.
Lemma rep_0 : rep 0. Proof. apply generic_format_0. Qed.
Lemma rep_bpow e : (-1074 <= e)%Z -> rep (bpow radix2 e).
Proof. intros. apply generic_format_FLT_bpow; auto with typeclass_instances. Qed.
Lemma rnd_nonneg x : 0 <= x -> 0 <= rnd x.
Proof. intros H. rewrite <- rnd_0. apply rnd_le. exact H. Qed.
Lemma rnd_opp x : rnd (- x) = - rnd x.
Proof. apply round_NE_opp. Qed.

Lemma rnd_rel x : bpow radix2 (-1022) <= Rabs x -> exists e, Rabs e <= bpow radix2 (-53) /\ rnd x = x * (1 + e).
Proof.
  intros H. destruct (relative_error_N_FLT_ex radix2 (-1074) 53 ltac:(reflexivity) (fun z => negb (Z.even z)) x) as (e & He & E).
  - exact H.
  - exists e. split; [|exact E]. eapply Rle_trans; [exact He|]. right. simpl. lra.
Qed.

Lemma rnd_plus_rel x y : rep x -> rep y -> exists e, Rabs e <= bpow radix2 (-53) /\ rnd (x + y) = (x + y) * (1 + e).
Proof.
  intros Hx Hy. destruct (FLT_plus_error_N_ex radix2 (-1074) 53 (fun z => negb (Z.even z)) x y Hx Hy) as (e & He & E).
  exists e. split; [|exact E]. eapply Rle_trans; [exact He|]. unfold u_ro. change (-53 + 1)%Z with (-52)%Z.
  simpl. lra.
Qed.

Lemma lt_emax x : Rabs x <= bpow radix2 1000 -> Rlt_bool (Rabs (rnd x)) (bpow radix2 emax64) = true.
Proof.
  intros H. apply Rlt_bool_true. apply Rle_lt_trans with (bpow radix2 1000); [|apply bpow_lt; reflexivity].
  apply (abs_round_le_generic radix2 (FLT_exp (-1074) 53) ZnearestE); auto. apply rep_bpow. lia.
Qed.

Lemma finite_not_nan (x : f64) : is_finite x = true -> is_nan x = false.
Proof. destruct x; cbn; congruence. Qed.

Section Ops.
Variables x y : f64.
Hypothesis Fx : is_finite x = true.
Hypothesis Fy : is_finite y = true.

Lemma mul_ok : Rabs (B2R x * B2R y) <= bpow radix2 1000 ->
  B2R (f64_mul x y) = rnd (B2R x * B2R y) /\ is_finite (f64_mul x y) = true /\
  Bsign (f64_mul x y) = xorb (Bsign x) (Bsign y).
Proof.
  intros H. pose proof (Bmult_correct prec64 emax64 prec64_gt_0 prec64_lt_emax mode_NE x y) as C.
  change (round radix2 (SpecFloat.fexp prec64 emax64) (round_mode mode_NE) (B2R x * B2R y)) with (rnd (B2R x * B2R y)) in C.
  rewrite (lt_emax _ H) in C. destruct C as (C1 & C2 & C3).
  rewrite Fx, Fy in C2. split; [exact C1|]. split; [exact C2|].
  apply C3. apply finite_not_nan. exact C2.
Qed.

Lemma add_ok : Rabs (B2R x + B2R y) <= bpow radix2 1000 ->
  B2R (f64_add x y) = rnd (B2R x + B2R y) /\ is_finite (f64_add x y) = true /\
  Bsign (f64_add x y) = match Rcompare (B2R x + B2R y) 0 with Eq => andb (Bsign x) (Bsign y) | Lt => true | Gt => false end.
Proof.
  intros H. pose proof (Bplus_correct prec64 emax64 prec64_gt_0 prec64_lt_emax mode_NE x y Fx Fy) as C.
  change (round radix2 (SpecFloat.fexp prec64 emax64) (round_mode mode_NE) (B2R x + B2R y)) with (rnd (B2R x + B2R y)) in C.
  rewrite (lt_emax _ H) in C. exact C.
Qed.

Lemma sub_ok : Rabs (B2R x - B2R y) <= bpow radix2 1000 ->
  B2R (f64_sub x y) = rnd (B2R x - B2R y) /\ is_finite (f64_sub x y) = true /\
  Bsign (f64_sub x y) = match Rcompare (B2R x - B2R y) 0 with Eq => andb (Bsign x) (negb (Bsign y)) | Lt => true | Gt => false end.
Proof.
  intros H. pose proof (Bminus_correct prec64 emax64 prec64_gt_0 prec64_lt_emax mode_NE x y Fx Fy) as C.
  change (round radix2 (SpecFloat.fexp prec64 emax64) (round_mode mode_NE) (B2R x - B2R y)) with (rnd (B2R x - B2R y)) in C.
  rewrite (lt_emax _ H) in C. exact C.
Qed.

Lemma div_ok : B2R y <> 0 -> Rabs (B2R x / B2R y) <= bpow radix2 1000 ->
  B2R (f64_div x y) = rnd (B2R x / B2R y) /\ is_finite (f64_div x y) = true /\
  Bsign (f64_div x y) = xorb (Bsign x) (Bsign y).
Proof.
  intros H0 H. pose proof (Bdiv_correct prec64 emax64 prec64_gt_0 prec64_lt_emax mode_NE x y H0) as C.
  change (round radix2 (SpecFloat.fexp prec64 emax64) (round_mode mode_NE) (B2R x / B2R y)) with (rnd (B2R x / B2R y)) in C.
  rewrite (lt_emax _ H) in C. destruct C as (C1 & C2 & C3).
  rewrite Fx in C2. split; [exact C1|]. split; [exact C2|].
  apply C3. apply finite_not_nan. exact C2.
Qed.

End Ops.

Lemma sqrt_ok (x : f64) : is_finite x = true -> Bsign x = false ->
  B2R (f64_sqrt x) = rnd (sqrt (B2R x)) /\ is_finite (f64_sqrt x) = true /\ Bsign (f64_sqrt x) = false.
Proof.
  intros Fx S. destruct (Bsqrt_correct prec64 emax64 prec64_gt_0 prec64_lt_emax mode_NE x) as (C1 & C2 & C3).
  split; [exact C1|]. clear C1. 
  assert (F : is_finite (f64_sqrt x) = true).
  { unfold f64_sqrt. rewrite C2. destruct x as [| | |[] m e B]; cbn in *; congruence. }
  split; [exact F|]. unfold f64_sqrt in *. rewrite C3; [exact S|].
  apply finite_not_nan. exact F.
Qed.

Lemma sign_nonneg (x : f64) : is_finite x = true -> Bsign x = false -> 0 <= B2R x.
Proof.
  destruct x as [| | |[] m e B]; cbn; intros; try discriminate; try lra. apply F2R_ge_0. simpl. lia.
Qed.
Lemma pos_sign (x : f64) : 0 < B2R x -> Bsign x = false /\ is_finite x = true.
Proof.
  destruct x as [[]| | |[] m e B]; cbn; intros; try lra; auto.
  exfalso. assert (F2R (Float radix2 (Z.neg m) e) < 0) by (apply F2R_lt_0; reflexivity). lra.
Qed.

Lemma ltb_ok (x y : f64) : is_finite x = true -> is_finite y = true -> f64_ltb x y = Rlt_bool (B2R x) (B2R y).
Proof. intros. apply Bltb_correct; auto. Qed.

(** Taking the square root of a rounded square gives the number back. *)
Lemma sqrt_square x : rep x -> bpow radix2 (-500) <= x <= bpow radix2 500 -> rnd (sqrt (rnd (x * x))) = x.
Proof.
  intros Fx [Hlo Hhi].
  assert (X0 : 0 < x) by (pose proof (bpow_gt_0 radix2 (-500)); lra).
  set (e := mag radix2 x : Z).
  assert (Hm : bpow radix2 (e - 1) <= x < bpow radix2 e).
  { pose proof (bpow_mag_le radix2 x ltac:(lra)) as M1. pose proof (bpow_mag_gt radix2 x) as M2. rewrite Rabs_pos_eq in M1, M2 by lra. split; assumption. }
  assert (He : (-499 <= e)%Z).
  { assert (-500 < e)%Z; [|lia]. apply (lt_bpow radix2). lra. }
  assert (Ulp : ulp radix2 (FLT_exp (-1074) 53) x = bpow radix2 (e - 53)).
  { rewrite ulp_neq_0 by lra. unfold cexp, FLT_exp. f_equal. fold e. lia. }
  set (U := bpow radix2 (e - 53)) in *. assert (U0 : 0 < U) by apply bpow_gt_0.
  assert (E53 : bpow radix2 e = U * 9007199254740992).
  { unfold U. replace e with ((e - 53) + 53)%Z at 1 by lia. rewrite bpow_plus. simpl. lra. }
  assert (E52 : bpow radix2 (e - 1) = U * 4503599627370496).
  { unfold U. replace (e - 1)%Z with ((e - 53) + 52)%Z by lia. rewrite bpow_plus. simpl. lra. }
  (* x <= 2^e - ulp *)
  assert (Hx : x <= U * 9007199254740991).
  { assert (P : x <= pred radix2 (FLT_exp (-1074) 53) (bpow radix2 e)).
    { apply pred_ge_gt; auto with typeclass_instances. apply rep_bpow; lia. lra. }
    rewrite pred_bpow in P. replace (FLT_exp (-1074) 53 e) with (e - 53)%Z in P by (unfold FLT_exp; lia). fold U in P. lra. }
  destruct (rnd_rel (x * x)) as (d & Hd & Ed).
  { rewrite Rabs_pos_eq by nra. apply Rle_trans with (bpow radix2 (-500) * bpow radix2 (-500)).
    - rewrite <- bpow_plus. apply bpow_le. lia.
    - pose proof (bpow_gt_0 radix2 (-500)). nra. }
  rewrite Ed. change (bpow radix2 (-53)) with (/ 9007199254740992) in Hd. apply Rabs_le_inv in Hd.
  destruct (Req_dec x (bpow radix2 (e - 1))) as [Ep|Ep].
  - (* a power of two: everything exact *)
    assert (Ex : rnd (x * x) = x * x).
    { apply rnd_id. rewrite Ep, <- bpow_plus. apply rep_bpow. lia. }
    rewrite <- Ed, Ex, sqrt_square by lra. apply rnd_id. exact Fx.
  - assert (S1 : x * x * (1 + d) = (x * sqrt (1 + d)) * (x * sqrt (1 + d))).
    { replace (x * sqrt (1 + d) * (x * sqrt (1 + d))) with (x * x * (sqrt (1 + d) * sqrt (1 + d))) by ring.
      rewrite sqrt_sqrt by lra. ring. }
    assert (Q0 : 0 <= sqrt (1 + d)) by apply sqrt_pos.
    rewrite S1, R_sqrt.sqrt_square by nra. set (q := sqrt (1 + d)) in *.
    assert (Qs : q * q = 1 + d) by (unfold q; apply sqrt_sqrt; lra).
    assert (Qhi : q - 1 <= / 18014398509481984) by nra.
    assert (Qlo : 1 - q <= / 18014398509481983) by nra.
    apply Rle_antisym.
    + apply round_N_le_midp; auto with typeclass_instances.
      rewrite succ_eq_pos by lra. rewrite Ulp. nra.
    + apply round_N_ge_midp; auto with typeclass_instances.
      rewrite pred_eq_pos by lra. unfold pred_pos. fold e. rewrite Req_bool_false by exact Ep. rewrite Ulp. nra.
Qed.

(** Rounding a difference of two representable numbers, multiplying by a
    representable number below 1 and rounding again never exceeds the exact
    difference. *)
Lemma shrink_le q p u : rep q -> rep p -> rep u -> 0 <= q - p -> 0 <= u < 1 ->
  rnd (rnd (q - p) * u) <= q - p.
Proof.
  intros Rq Rp Ru Hz Hu. set (z := q - p) in *. set (d := rnd z).
  assert (Rd : rep d) by apply rnd_rep.
  assert (D0 : 0 <= d) by (apply rnd_nonneg; exact Hz).
  destruct (Rle_lt_dec d z) as [Hd|Hd].
  - apply Rle_trans with d; [|exact Hd]. rewrite <- (rnd_id d Rd) at 2. apply rnd_le. nra.
  - (* rounded up *)
    assert (Nz : ~ rep z) by (intros H; unfold d in Hd; rewrite (rnd_id z H) in Hd; lra).
    assert (Zb : bpow radix2 (-1021) < z).
    { apply Rnot_le_lt. intros H. apply Nz. unfold z, Rminus.
      apply FLT_format_plus_small; auto with typeclass_instances.
      - apply generic_format_opp. exact Rp.
      - fold (q - p). fold z. rewrite Rabs_pos_eq by exact Hz. exact H. }
    pose proof (bpow_gt_0 radix2 (-1021)) as B0.
    set (e := mag radix2 d : Z).
    assert (Hm : bpow radix2 (e - 1) <= d < bpow radix2 e).
    { pose proof (bpow_mag_le radix2 d ltac:(lra)) as M1. pose proof (bpow_mag_gt radix2 d) as M2. rewrite Rabs_pos_eq in M1, M2 by lra. split; assumption. }
    assert (He : (-1021 < e)%Z) by (apply (lt_bpow radix2); lra).
    assert (Ulp : ulp radix2 (FLT_exp (-1074) 53) d = bpow radix2 (e - 53)).
    { rewrite ulp_neq_0 by lra. unfold cexp, FLT_exp. f_equal. fold e. lia. }
    set (U := bpow radix2 (e - 53)) in *. assert (U0 : 0 < U) by apply bpow_gt_0.
    assert (E52 : bpow radix2 (e - 1) = U * 4503599627370496).
    { unfold U. replace (e - 1)%Z with ((e - 53) + 52)%Z by lia. rewrite bpow_plus. simpl. lra. }
    assert (Pz : pred radix2 (FLT_exp (-1074) 53) d <= z).
    { apply Rnot_lt_le. intros H.
      assert (X : d <= pred radix2 (FLT_exp (-1074) 53) d).
      { unfold d at 1. rewrite <- (rnd_id (pred radix2 (FLT_exp (-1074) 53) d)).
        - apply rnd_le. lra.
        - apply generic_format_pred; auto with typeclass_instances. }
      assert (Y : pred radix2 (FLT_exp (-1074) 53) d < d) by (apply pred_lt_id; lra). lra. }
    apply Rle_trans with (pred radix2 (FLT_exp (-1074) 53) d); [|exact Pz].
    (* u <= 1 - 2^-53 *)
    assert (Hu1 : u <= 1 - / 9007199254740992).
    { assert (P : u <= pred radix2 (FLT_exp (-1074) 53) 1).
      { apply pred_ge_gt; auto with typeclass_instances. change 1 with (bpow radix2 0). apply rep_bpow. lia. lra. }
      change 1 with (bpow radix2 0) in P at 1. rewrite pred_bpow in P. change (FLT_exp (-1074) 53 0) with (-53)%Z in P.
      simpl (bpow radix2 0) in P. change (bpow radix2 (-53)) with (/ 9007199254740992) in P. exact P. }
    assert (Hdu : d * u <= d - d * / 9007199254740992).
    { replace (d - d * / 9007199254740992) with (d * (1 - / 9007199254740992)) by ring. apply Rmult_le_compat_l; lra. }
    destruct (Req_dec d (bpow radix2 (e - 1))) as [Ep|Ep].
    + assert (Pd : pred radix2 (FLT_exp (-1074) 53) d = d - U / 2).
      { rewrite Ep, pred_bpow. rewrite <- Ep. f_equal. f_equal. unfold U, FLT_exp.
        replace (Z.max (e - 1 - 53) (-1074)) with ((e - 53) + -1)%Z by lia. rewrite bpow_plus. simpl. lra. }
      rewrite <- (rnd_id (pred radix2 (FLT_exp (-1074) 53) d)).
      * apply rnd_le. rewrite Pd. lra.
      * apply generic_format_pred; auto with typeclass_instances.
    + apply round_N_le_midp; auto with typeclass_instances.
      * apply generic_format_pred; auto with typeclass_instances.
      * rewrite succ_pred by auto with typeclass_instances.
        rewrite pred_eq_pos by lra. unfold pred_pos. fold e. rewrite Req_bool_false by exact Ep. rewrite Ulp. lra.
Qed.
