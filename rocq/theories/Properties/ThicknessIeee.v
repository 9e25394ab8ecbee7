(** C25 (binary64 half) and C26: FastExp inside thickness() in IEEE-754 binary64
    arithmetic, for every libm. *)
From Coq Require Import ZArith Reals Lra Lia Bool Psatz.
From Flocq Require Import Core BinarySingleNaN.
From Verif.Base Require Import Result Arith FArith RArith.
From Verif.Model Require Import FastExp Config Nucleon.
From Verif.Spec Require Import Profile.
From Verif.Proof Require Import Basics RBasics Ieee DecR IeeeInt.
From Verif.Properties Require Import Thickness ImpactIeee.
Local Open Scope R_scope.

(** ** Facts about binary64 *)

Lemma rnd_between a b x : rep a -> rep b -> a <= x <= b -> a <= rnd x <= b.
Proof. intros Ha Hb [H1 H2]. rewrite <- (rnd_id a Ha) at 1. rewrite <- (rnd_id b Hb). split; apply rnd_le; assumption. Qed.

(** A double is NaN or has sign bit 0. *)
Definition unsigned (x : f64) : Prop := is_nan x = true \/ Bsign x = false.

Lemma mul_self_unsigned (x : f64) : unsigned (f64_mul x x).
Proof.
  unfold unsigned. pose proof (Bmult_correct prec64 emax64 prec64_gt_0 prec64_lt_emax mode_NE x x) as C.
  destruct (is_nan (f64_mul x x)) eqn:N; [left; reflexivity|right].
  destruct (Rlt_bool _ _) in C.
  - destruct C as (_ & _ & C). unfold f64_mul in *. rewrite (C N). apply xorb_nilpotent.
  - unfold f64_mul in *. rewrite xorb_nilpotent in C. cbn [binary_overflow overflow_to_inf] in C.
    destruct (Bmult mode_NE x x); cbn in C |- *; congruence.
Qed.

Lemma add_unsigned (x y : f64) : unsigned x -> unsigned y -> unsigned (f64_add x y).
Proof.
  unfold unsigned. intros Hx Hy.
  destruct (is_finite x) eqn:Fx, (is_finite y) eqn:Fy.
  - destruct Hx as [Hx|Hx]; [destruct x; discriminate|]. destruct Hy as [Hy|Hy]; [destruct y; discriminate|].
    right. pose proof (sign_nonneg x Fx Hx) as Px. pose proof (sign_nonneg y Fy Hy) as Py.
    pose proof (Bplus_correct prec64 emax64 prec64_gt_0 prec64_lt_emax mode_NE x y Fx Fy) as C.
    destruct (Rlt_bool _ _) in C.
    + destruct C as (_ & _ & C). unfold f64_add. rewrite C, Hx, Hy.
      destruct (Rcompare_spec (B2R x + B2R y) 0); try reflexivity. lra.
    + destruct C as (C & _). unfold f64_add. rewrite Hx in C. destruct (Bplus mode_NE x y); cbn in C |- *; congruence.
  - destruct x as [sx|sx| |sx mx ex Bx], y as [sy|sy| |sy my ey By]; try discriminate; cbn in *; intuition congruence.
  - destruct x as [sx|sx| |sx mx ex Bx], y as [sy|sy| |sy my ey By]; try discriminate; cbn in *; intuition congruence.
  - destruct x as [sx|sx| |sx mx ex Bx], y as [sy|sy| |sy my ey By]; try discriminate; cbn in *;
    try destruct sx; try destruct sy; cbn in *; intuition congruence.
Qed.

Lemma unsigned_below (x y : f64) : unsigned x -> is_finite y = true -> f64_ltb x y = true ->
  is_finite x = true /\ Bsign x = false /\ 0 <= B2R x < B2R y.
Proof.
  intros Hx Fy H.
  assert (Fx : is_finite x = true).
  { destruct x as [sx|sx| |sx mx ex Bx]; try reflexivity; destruct Hx as [Hx|Hx]; cbn in Hx; try discriminate; try subst sx;
    destruct y as [sy|sy| |sy my ey By]; try discriminate Fy; cbv in H; discriminate H. }
  destruct Hx as [Hx|Hx]; [destruct x; discriminate|].
  rewrite ltb_ok in H by assumption. split; [exact Fx|]. split; [exact Hx|].
  split; [apply sign_nonneg; assumption|]. destruct (Rlt_bool_spec (B2R x) (B2R y)); [assumption|discriminate].
Qed.

(** ** The table used by NucleonCommon *)

Definition xmin64 : f64 := f64_mul (Bopp (f64_lit 5 (-1))) (f64_mul (f64_lit 5 0) (f64_lit 5 0)).
Definition dx64 : f64 := f64_div (f64_sub (f64_lit 0 0) xmin64) (f64_ofZ 999).

Lemma xmin_v : is_finite xmin64 = true /\ B2R xmin64 = - 25 / 2.
Proof.
  split; [vm_compute; reflexivity|].
  rewrite (B2R_SF _ (SpecFloat.S754_finite true 7036874417766400 (-49))) by (vm_compute; reflexivity).
  cbn [SF2R cond_Zopp]. unfold F2R. cbn [Fnum Fexp]. change (- (7036874417766400))%Z with (-7036874417766400)%Z. change (bpow radix2 (-49)) with (/ 562949953421312). lra.
Qed.
Lemma dx_v : is_finite dx64 = true /\ B2R dx64 = 7212972376168963 / 576460752303423488.
Proof.
  split; [vm_compute; reflexivity|].
  rewrite (B2R_SF _ (SpecFloat.S754_finite false 7212972376168963 (-59))) by (vm_compute; reflexivity).
  cbn [SF2R cond_Zopp]. unfold F2R. cbn [Fnum Fexp]. change (bpow radix2 (-59)) with (/ 576460752303423488). lra.
Qed.
Lemma half_v : is_finite (f64_lit 5 (-1)) = true /\ B2R (f64_lit 5 (-1)) = / 2.
Proof.
  split; [vm_compute; reflexivity|].
  rewrite (B2R_SF _ (SpecFloat.S754_finite false 4503599627370496 (-53))) by (vm_compute; reflexivity).
  cbn [SF2R cond_Zopp]. unfold F2R. cbn [Fnum Fexp]. change (bpow radix2 (-53)) with (/ 9007199254740992). lra.
Qed.
Lemma five_v : is_finite (f64_lit 5 0) = true /\ B2R (f64_lit 5 0) = 5.
Proof.
  split; [vm_compute; reflexivity|].
  rewrite (B2R_SF _ (SpecFloat.S754_finite false 5629499534213120 (-50))) by (vm_compute; reflexivity).
  cbn [SF2R cond_Zopp]. unfold F2R. cbn [Fnum Fexp]. change (bpow radix2 (-50)) with (/ 1125899906842624). lra.
Qed.

Lemma rep_frac m k : (Z.abs m <= 2 ^ 53)%Z -> (0 <= k <= 1000)%Z -> rep (IZR m / IZR (2 ^ k)).
Proof.
  intros Hm Hk. destruct (Z.eq_dec (Z.abs m) (2 ^ 53)) as [E|E].
  - assert (Q : rep (bpow radix2 (53 - k))) by (apply rep_bpow; lia).
    assert (V : bpow radix2 (53 - k) = IZR (2 ^ 53) / IZR (2 ^ k)).
    { unfold Zminus. rewrite bpow_plus, bpow_opp. unfold Rdiv. f_equal. f_equal. symmetry. apply (IZR_Zpower radix2). lia. }
    rewrite V in Q. destruct (Z.abs_spec m) as [[_ A]|[_ A]].
    + replace m with (2 ^ 53)%Z by lia. exact Q.
    + replace m with (- 2 ^ 53)%Z by lia. rewrite opp_IZR. unfold Rdiv. rewrite Ropp_mult_distr_l_reverse. apply generic_format_opp. exact Q.
  - apply generic_format_FLT. apply FLT_spec with (Float radix2 m (- k)).
    + unfold F2R. cbn [Fnum Fexp]. rewrite bpow_opp. unfold Rdiv. f_equal. f_equal. apply (IZR_Zpower radix2). lia.
    + cbn [Fnum]. change (Zpower radix2 53) with (2 ^ 53)%Z. lia.
    + cbn [Fexp]. lia.
Qed.

Definition tiny : R := / 1073741824.          (* 2^-30 *)
Lemma rep_tiny : rep (- tiny).
Proof. replace (- tiny) with (IZR (-1) / IZR (2 ^ 30)) by (unfold tiny; change (IZR (2 ^ 30)) with 1073741824; lra). apply rep_frac; lia. Qed.
Lemma rep_lo : rep (- 25 / 2 - tiny).
Proof.
  replace (- 25 / 2 - tiny) with (IZR (-13421772801) / IZR (2 ^ 30)) by (unfold tiny; change (IZR (2 ^ 30)) with 1073741824; lra).
  apply rep_frac; lia.
Qed.

Lemma big_1000 x : Rabs x <= 2000 -> Rabs x <= bpow radix2 1000.
Proof. intros H. eapply Rle_trans; [exact H|]. apply Rle_trans with (bpow radix2 11); [cbn [bpow]; change (Z.pow_pos radix2 11) with 2048%Z; lra|apply bpow_le; lia]. Qed.

(** The index computed by FastExp is within the table for every argument in
    [-12.5 - 2^-30, 0]. *)
Lemma index_ok (x : f64) : is_finite x = true -> - 25 / 2 - tiny <= B2R x <= 0 ->
  exists z, f64_trunc (f64_add (f64_div (f64_sub x xmin64) dx64) (f64_lit 5 (-1))) = Some z /\ (0 <= z <= 999)%Z.
Proof.
  intros Fx Hx. destruct xmin_v as [Fm Vm]. destruct dx_v as [Fd Vd]. destruct half_v as [Fh Vh].
  assert (T : tiny = / 1073741824) by reflexivity.
  destruct (sub_ok x xmin64 Fx Fm) as (V1 & F1 & _).
  { apply big_1000. rewrite Vm. apply Rabs_le. lra. }
  rewrite Vm in V1.
  assert (B1 : - tiny <= B2R (f64_sub x xmin64) <= 25 / 2).
  { rewrite V1. apply rnd_between; [apply rep_tiny| |lra]. apply (rep_frac 25 1); lia. }
  set (y := f64_sub x xmin64) in *.
  assert (Dp : B2R dx64 = 7212972376168963 / 576460752303423488) by exact Vd.
  assert (Dp' : 1 / 80 <= B2R dx64) by (rewrite Dp; lra).
  assert (D0 : 0 < / B2R dx64) by (apply Rinv_0_lt_compat; lra).
  assert (Di : / B2R dx64 = 576460752303423488 / 7212972376168963) by (rewrite Dp; field).
  assert (B2 : -1 / 1048576 <= B2R y / B2R dx64 <= 3997 / 4).
  { unfold Rdiv. rewrite Di. split; nra. }
  destruct (div_ok y dx64 F1) as (V2 & F2 & _); [lra|apply big_1000; apply Rabs_le; lra|].
  assert (B3 : -1 / 1048576 <= B2R (f64_div y dx64) <= 3997 / 4).
  { rewrite V2. apply rnd_between; [apply (rep_frac (-1) 20); lia|apply (rep_frac 3997 2); lia|exact B2]. }
  set (u := f64_div y dx64) in *.
  destruct (add_ok u (f64_lit 5 (-1)) F2 Fh) as (V3 & F3 & _); [apply big_1000; rewrite Vh; apply Rabs_le; lra|].
  assert (B4 : 1 / 4 <= B2R (f64_add u (f64_lit 5 (-1))) <= 3999 / 4).
  { rewrite V3, Vh. apply rnd_between; [apply (rep_frac 1 2); lia|apply (rep_frac 3999 2); lia|lra]. }
  rewrite trunc_ok by exact F3. eexists. split; [reflexivity|].
  rewrite Ztrunc_floor by lra. split.
  - apply Zfloor_lub. lra.
  - assert (K : (Zfloor (B2R (f64_add u (f64_lit 5 (-1)))) < 1000)%Z); [|lia]. apply lt_IZR. eapply Rle_lt_trans; [apply Zfloor_lb|lra].
Qed.

(** ** The argument passed by thickness() *)

(** The constituent width: 0, or of moderate magnitude (either sign). *)
Definition usable_width (v : f64) : Prop :=
  is_finite v = true /\ (B2R v = 0 \/ bpow radix2 (-500) <= Rabs (B2R v) <= bpow radix2 490).

Section Arg.
Variable v : f64.
Let w5 : f64 := f64_mul (f64_lit 5 0) v.
Let rsq : f64 := f64_mul w5 w5.
Let vsq : f64 := f64_mul v v.

Lemma arg_ok (d : f64) : usable_width v -> unsigned d -> f64_ltb d rsq = true ->
  let x := f64_div (f64_mul (Bopp (f64_lit 5 (-1))) d) vsq in
  is_finite x = true /\ - 25 / 2 - tiny <= B2R x <= 0.
Proof.
  intros [Fv Hv] Ud Ld x. destruct half_v as [Fh Vh]. destruct five_v as [F5 V5].
  assert (T : tiny = / 1073741824) by reflexivity.
  assert (P1 : bpow radix2 490 * 8 = bpow radix2 493) by (change 8 with (bpow radix2 3); rewrite <- bpow_plus; reflexivity).
  assert (P2 : bpow radix2 493 * bpow radix2 493 = bpow radix2 986) by (rewrite <- bpow_plus; reflexivity).
  assert (P3 : bpow radix2 493 <= bpow radix2 1000) by (apply bpow_le; lia).
  assert (P4 : bpow radix2 986 <= bpow radix2 1000) by (apply bpow_le; lia).
  pose proof (bpow_gt_0 radix2 490) as G1. pose proof (bpow_gt_0 radix2 493) as G2.
  assert (Av : Rabs (B2R v) <= bpow radix2 490) by (destruct Hv as [->|[_ Hv]]; [rewrite Rabs_R0; lra|exact Hv]).
  pose proof (Rabs_pos (B2R v)) as Av0.
  destruct (mul_ok (f64_lit 5 0) v F5 Fv) as (V1 & F1 & _).
  { rewrite V5, Rabs_mult, (Rabs_right 5) by lra. lra. }
  fold w5 in V1, F1. rewrite V5 in V1.
  assert (A1 : Rabs (B2R w5) <= bpow radix2 493).
  { rewrite V1. apply (abs_round_le_generic radix2 (FLT_exp (-1074) 53) ZnearestE); [apply rep_bpow; lia|].
    rewrite Rabs_mult, (Rabs_right 5) by lra. lra. }
  pose proof (Rabs_pos (B2R w5)) as A1'.
  destruct (mul_ok w5 w5 F1 F1) as (V2 & F2 & _).
  { rewrite Rabs_mult. apply Rle_trans with (2 := P4). rewrite <- P2. apply Rmult_le_compat; assumption. }
  fold rsq in V2, F2.
  destruct (mul_ok v v Fv Fv) as (V3 & F3 & _).
  { rewrite Rabs_mult. apply Rle_trans with (2 := P4). rewrite <- P2. apply Rmult_le_compat; lra. }
  fold vsq in V3, F3.
  destruct (unsigned_below d rsq Ud F2 Ld) as (Fd & Sd & D0 & D1).
  destruct Hv as [Z|[Hv1 Hv2]].
  { exfalso. rewrite Z, Rmult_0_r, rnd_0 in V1. rewrite V1, Rmult_0_r, rnd_0 in V2. lra. }
  set (a := B2R v) in *.
  assert (P5 : bpow radix2 (-500) * bpow radix2 (-500) = bpow radix2 (-1000)) by (rewrite <- bpow_plus; reflexivity).
  pose proof (bpow_gt_0 radix2 (-500)) as G3. pose proof (bpow_gt_0 radix2 (-1000)) as G4.
  assert (Q0 : bpow radix2 (-1000) <= a * a).
  { rewrite <- P5. replace (a * a) with (Rabs a * Rabs a) by (rewrite <- Rabs_mult; apply Rabs_right; nra). apply Rmult_le_compat; lra. }
  assert (P6 : bpow radix2 (-1022) <= bpow radix2 (-1000)) by (apply bpow_le; lia).
  assert (P7 : bpow radix2 (-1022) <= bpow radix2 (-500)) by (apply bpow_le; lia).
  assert (E53 : bpow radix2 (-53) = / 9007199254740992) by reflexivity.
  destruct (rnd_rel (5 * a)) as (e1 & He1 & R1). { rewrite Rabs_mult, (Rabs_right 5) by lra. lra. }
  destruct (rnd_rel (a * a)) as (e3 & He3 & R3). { rewrite Rabs_right by lra. lra. }
  rewrite E53 in He1, He3.
  apply Rabs_def2x in He1. apply Rabs_def2x in He3.
  rewrite R1 in V1. rewrite R3 in V3.
  assert (Q1 : B2R w5 * B2R w5 = 25 * (a * a) * ((1 + e1) * (1 + e1))) by (rewrite V1; ring).
  assert (Q2 : 1 / 2 <= (1 + e1) * (1 + e1) <= 1 + 1 / 1000000000000) by nra.
  destruct (rnd_rel (B2R w5 * B2R w5)) as (e2 & He2 & R2). { rewrite Q1. rewrite Rabs_right by nra. nra. }
  rewrite E53 in He2. apply Rabs_def2x in He2. rewrite R2, Q1 in V2.
  (* -0.5 d, rounded: at most half of the radius squared *)
  assert (Fo : is_finite (Bopp (f64_lit 5 (-1)) : f64) = true) by (vm_compute; reflexivity).
  assert (Vo : B2R (Bopp (f64_lit 5 (-1)) : f64) = - / 2) by (rewrite B2R_Bopp, Vh; reflexivity).
  assert (RB : B2R rsq <= bpow radix2 986).
  { rewrite <- P2. assert (S8 : a * a <= bpow radix2 490 * bpow radix2 490).
    { replace (a * a) with (Rabs a * Rabs a) by (rewrite <- Rabs_mult; apply Rabs_right; nra). apply Rmult_le_compat; assumption. }
    assert (S9 : bpow radix2 493 * bpow radix2 493 = 64 * (bpow radix2 490 * bpow radix2 490)) by (rewrite <- P1; ring).
    rewrite S9, V2. 
    assert (S10 : (1 + e1) * (1 + e1) * (1 + e2) <= 2) by nra.
    assert (S11 : 0 <= (1 + e1) * (1 + e1) * (1 + e2)) by nra.
    replace (25 * (a * a) * ((1 + e1) * (1 + e1)) * (1 + e2)) with (25 * (a * a) * ((1 + e1) * (1 + e1) * (1 + e2))) by ring.
    apply Rle_trans with (25 * (a * a) * 2); [apply Rmult_le_compat_l; lra|lra]. }
  destruct (mul_ok (Bopp (f64_lit 5 (-1))) d Fo Fd) as (V4 & F4 & _).
  { rewrite Vo, Rabs_mult, Rabs_Ropp, (Rabs_right (/ 2)), (Rabs_right (B2R d)) by lra. lra. }
  rewrite Vo in V4. set (n := f64_mul (Bopp (f64_lit 5 (-1))) d) in *.
  assert (Qa : 0 < a * a) by lra.
  assert (RL : bpow radix2 (-1000) <= B2R rsq).
  { rewrite V2. assert (1 <= 25 * ((1 + e1) * (1 + e1)) * (1 + e2)) by nra.
    replace (25 * (a * a) * ((1 + e1) * (1 + e1)) * (1 + e2)) with (a * a * (25 * ((1 + e1) * (1 + e1)) * (1 + e2))) by ring. nra. }
  assert (B1 : - (B2R rsq / 2) * (1 + / 9007199254740992) <= B2R n <= 0).
  { rewrite V4. split; [|rewrite <- rnd_0; apply rnd_le; lra].
    destruct (rnd_rel (- (B2R rsq / 2))) as (e4 & He4 & R4).
    { rewrite Rabs_Ropp, Rabs_right by lra. assert (P8 : bpow radix2 (-1022) <= bpow radix2 (-1001)) by (apply bpow_le; lia).
      assert (P9 : bpow radix2 (-1001) = bpow radix2 (-1000) / 2) by (change (-1001)%Z with (-1000 + -1)%Z; rewrite bpow_plus; reflexivity). lra. }
    rewrite E53 in He4. apply Rabs_def2x in He4.
    apply Rle_trans with (rnd (- (B2R rsq / 2))); [rewrite R4|apply rnd_le; lra]. nra. }
  assert (Vs : B2R vsq = a * a * (1 + e3)) by exact V3.
  assert (Vp : 0 < B2R vsq) by (rewrite Vs; nra).
  assert (B2 : - 25 / 2 - tiny <= B2R n / B2R vsq <= 0).
  { split.
    - apply Rmult_le_reg_r with (B2R vsq); [exact Vp|]. unfold Rdiv at 2. rewrite Rmult_assoc, Rinv_l, Rmult_1_r by lra.
      eapply Rle_trans; [|exact (proj1 B1)]. rewrite Vs, V2, T.
      assert (K1 : (1 + e1) * (1 + e1) * (1 + e2) * (1 + / 9007199254740992) <= 1 + 1 / 100000000000) by nra.
      assert (K2 : (1 + 1 / 100000000000) * (25 / 2) <= (25 / 2 + / 1073741824) * (1 + e3)) by nra.
      assert (K3 : 25 / 2 * ((1 + e1) * (1 + e1) * (1 + e2) * (1 + / 9007199254740992)) <= (25 / 2 + / 1073741824) * (1 + e3)) by nra.
      assert (K4 : a * a * (25 / 2 * ((1 + e1) * (1 + e1) * (1 + e2) * (1 + / 9007199254740992))) <= a * a * ((25 / 2 + / 1073741824) * (1 + e3)))
        by (apply Rmult_le_compat_l; lra).
      lra.
    - unfold Rdiv. assert (0 < / B2R vsq) by (apply Rinv_0_lt_compat; exact Vp). nra. }
  destruct (div_ok n vsq F4) as (V5' & F5' & _); [lra|apply big_1000; apply Rabs_le; lra|].
  fold x in V5', F5'. split; [exact F5'|]. rewrite V5'. apply rnd_between; [apply rep_lo|apply rep_0|exact B2].
Qed.
End Arg.

(** ** C25, binary64 half *)

Lemma fexp64_ok (L : Libm) (dbg : bool) (cfg : config (FA L)) (sp : f64) (x : f64) :
  is_finite x = true -> - 25 / 2 - tiny <= B2R x <= 0 ->
  (exists e, fast_exp_eval (A:=FA L) dbg (nc_fast_exp (nucleon_common_of cfg sp)) x = Ret e) \/
  (dbg = true /\ fast_exp_eval (A:=FA L) dbg (nc_fast_exp (nucleon_common_of cfg sp)) x
                 = Throw (OutOfRange "argument must be within [xmin, xmax]"%string)).
Proof.
  intros Fx Hx. unfold nucleon_common_of. cbn [nc_fast_exp].
  destruct (index_ok x Fx Hx) as (z & Ez & Hz).
  unfold fast_exp_eval. destruct (dbg && _)%bool eqn:E.
  { right. apply andb_prop in E. split; [exact (proj1 E)|reflexivity]. }
  left. unfold to_size_t.
  change (ntrunc (FA L) _) with (f64_trunc (f64_add (f64_div (f64_sub x xmin64) dx64) (f64_lit 5 (-1)))).
  rewrite Ez.
  assert (B : ((0 <=? z)%Z && (z <=? size_max)%Z)%bool = true).
  { apply andb_true_intro. split; apply Z.leb_le; [lia|]. unfold size_max. lia. }
  rewrite B. cbn [rbind].
  assert (Ln : (Z.to_nat z < length (fe_table (fast_exp_new (A:=FA L) (xmin64 : num (FA L)) (f64_lit 0 0) 1000)))%nat).
  { unfold fast_exp_new. cbn [fe_table]. rewrite map_length, zupto_length. lia. }
  destruct (nth_error _ _) as [t|] eqn:N; [eexists; reflexivity|].
  exfalso. apply nth_error_None in N. revert N. apply Nat.lt_nge. exact Ln.
Qed.

(** For every libm, every usable constituent width, every nucleon (whatever
    doubles its constituents hold, NaN and infinities included) and every point,
    thickness() never indexes outside the table and never converts an
    unrepresentable double to an index: a release build returns, a debug build
    returns or throws out_of_range. *)
Theorem C25_ieee :
  forall (L : Libm) (cfg : config (FA L)) (sp : f64) (n : nucleon (FA L)) (x y : f64),
  usable_width (constit_width cfg) ->
  (exists t, thickness (A:=FA L) false (nucleon_common_of cfg sp) n x y = Ret t) /\
  ((exists t, thickness (A:=FA L) true (nucleon_common_of cfg sp) n x y = Ret t) \/
   exists m, thickness (A:=FA L) true (nucleon_common_of cfg sp) n x y = Throw (OutOfRange m)).
Proof.
  intros L cfg sp n x y Hw.
  assert (K : forall dbg qs t0,
    (exists t, rfold (thickness_step dbg (nucleon_common_of cfg sp) x y) qs t0 = Ret t) \/
    (dbg = true /\ exists m, rfold (thickness_step dbg (nucleon_common_of cfg sp) x y) qs t0 = Throw (OutOfRange m))).
  { intros dbg qs. induction qs as [|q qs IH]; intros t0; cbn [rfold]; [left; eexists; reflexivity|].
    unfold thickness_step at 1 3.
    set (d := nadd (FA L) _ _).
    destruct (nltb (FA L) d _) eqn:Ld; [|cbn [rbind]; apply IH].
    assert (Ud : unsigned d) by (apply add_unsigned; apply mul_self_unsigned).
    destruct (arg_ok (constit_width cfg) d Hw Ud Ld) as [Fa Ba].
    destruct (fexp64_ok L dbg cfg sp _ Fa Ba) as [[e Ee]|[-> Ee]].
    - match type of Ee with ?l = _ => match goal with |- context [fast_exp_eval ?a ?b ?c] => change (fast_exp_eval a b c) with l end end.
      rewrite Ee. cbn [rbind]. apply IH.
    - right. split; [reflexivity|]. eexists.
      match type of Ee with ?l = _ => match goal with |- context [fast_exp_eval ?a ?b ?c] => change (fast_exp_eval a b c) with l end end.
      rewrite Ee. reflexivity. }
  unfold thickness. split.
  - destruct (K false (n_cons n) (nlit (FA L) 0 0)) as [[t E]|[D _]]; [|discriminate D]. rewrite E. eexists. reflexivity.
  - destruct (K true (n_cons n) (nlit (FA L) 0 0)) as [[t E]|[_ [m E]]]; rewrite E; [left|right]; eexists; reflexivity.
Qed.

(** Instances: the documented default-like width 0.49, and width 0. *)
Definition width_049 (L : Libm) : config (FA L) :=
  let l := f64_lit in
  @Config (FA L) ["p"; "p"]%string 1 false None false false (l 0 0)%Z (l 1 0)%Z (l 49 (-2))%Z (l 49 (-2))%Z 1 (l 0 0)%Z
    (l 64 (-1))%Z (l 1 0)%Z (l 0 0)%Z (l 1 0)%Z 1 (l 1 0)%Z (l 5 (-1))%Z.

Lemma v049 : is_finite (f64_lit 49 (-2)) = true /\ B2R (f64_lit 49 (-2)) = 8827055269646172 / 18014398509481984.
Proof.
  split; [vm_compute; reflexivity|].
  rewrite (B2R_SF _ (SpecFloat.S754_finite false 8827055269646172 (-54))) by (vm_compute; reflexivity).
  cbn [SF2R cond_Zopp]. unfold F2R. cbn [Fnum Fexp]. change (bpow radix2 (-54)) with (/ 18014398509481984). lra.
Qed.

Lemma usable_049 : usable_width (f64_lit 49 (-2)).
Proof.
  destruct v049 as [F V]. split; [exact F|]. right. rewrite V, Rabs_right by lra. split.
  - apply Rle_trans with (bpow radix2 (-2)); [apply bpow_le; lia|]. change (bpow radix2 (-2)) with (/ 4). lra.
  - apply Rle_trans with (bpow radix2 0); [|apply bpow_le; lia]. change (bpow radix2 0) with 1. lra.
Qed.

Example C25_ieee_instance : forall (L : Libm) (sp x y : f64) (n : nucleon (FA L)),
  exists t, thickness (A:=FA L) false (nucleon_common_of (width_049 L) sp) n x y = Ret t.
Proof. intros L sp x y n. apply (C25_ieee L (width_049 L) sp n x y usable_049). Qed.

(** ** C26 *)

(** Exact arithmetic: a debug build never throws, whatever the width. *)
Theorem C26_exact : forall (cfg : config RA) (sp : R) (n : nucleon RA) (dbg : bool) (x y : R),
  exists t : R, thickness (A:=RA) dbg (nucleon_common_of cfg sp) n x y = Ret t.
Proof. intros. eexists. apply NucleonP.thickness_R. Qed.

(** binary64: constituent width 0.49, one constituent at the origin, and the
    point (0x1.6c3a9a0728f6bp-3, 0x1.38c5ce09ffd89p+1). *)
Definition pt_x : f64 := f64_mk 0x16c3a9a0728f6b (-55).
Definition pt_y : f64 := f64_mk 0x138c5ce09ffd89 (-51).

Lemma pt_v : B2R pt_x = 6407582796386155 / 36028797018963968 /\ B2R pt_y = 5502355090963849 / 2251799813685248.
Proof.
  split.
  - rewrite (B2R_SF _ (SpecFloat.S754_finite false 6407582796386155 (-55))) by (vm_compute; reflexivity).
    cbn [SF2R cond_Zopp]. unfold F2R. cbn [Fnum Fexp]. change (bpow radix2 (-55)) with (/ 36028797018963968). lra.
  - rewrite (B2R_SF _ (SpecFloat.S754_finite false 5502355090963849 (-51))) by (vm_compute; reflexivity).
    cbn [SF2R cond_Zopp]. unfold F2R. cbn [Fnum Fexp]. change (bpow radix2 (-51)) with (/ 2251799813685248). lra.
Qed.

(** The point is strictly inside the disc of 5 widths (as real numbers), the
    debug build throws out_of_range there and the release build returns. *)
Theorem C26_ieee :
  forall (L : Libm) (cfg : config (FA L)) (sp fluct : f64) (z : f64) (p e : bool),
  constit_width cfg = f64_lit 49 (-2) ->
  let n := @Nucleon (FA L) (f64_lit 0 0) (f64_lit 0 0) z p e [@Constituent (FA L) (f64_lit 0 0) (f64_lit 0 0) fluct] in
  let v := B2R (constit_width cfg : f64) in
  sqrt (B2R pt_x ^ 2 + B2R pt_y ^ 2) < 5 * v /\
  thickness (A:=FA L) true (nucleon_common_of cfg sp) n pt_x pt_y
    = Throw (OutOfRange "argument must be within [xmin, xmax]"%string) /\
  exists t, thickness (A:=FA L) false (nucleon_common_of cfg sp) n pt_x pt_y = Ret t.
Proof.
  intros L cfg sp fluct z p e Hv n v. destruct v049 as [Fv Vv]. destruct pt_v as [Vx Vy].
  split; [|split].
  - unfold v. rewrite Hv, Vv, Vx, Vy.
    replace (5 * (8827055269646172 / 18014398509481984)) with (sqrt ((5 * (8827055269646172 / 18014398509481984)) ^ 2)).
    + apply sqrt_lt_1_alt. split; [|lra]. simpl pow. lra.
    + replace ((5 * (8827055269646172 / 18014398509481984)) ^ 2) with ((5 * (8827055269646172 / 18014398509481984)) * (5 * (8827055269646172 / 18014398509481984))) by ring.
      apply R_sqrt.sqrt_square. lra.
  - unfold thickness, n. cbn [n_cons rfold]. unfold thickness_step, nucleon_common_of. cbn [nc_constituent_radius_sq nc_fast_exp nc_constituent_width_sq q_x q_y].
    rewrite Hv. unfold sqr, max_radius_widths.
    set (d := f64_add (f64_mul (f64_sub pt_x (f64_lit 0 0)) (f64_sub pt_x (f64_lit 0 0)))
                      (f64_mul (f64_sub pt_y (f64_lit 0 0)) (f64_sub pt_y (f64_lit 0 0)))).
    set (rr := f64_mul (f64_mul (f64_lit 5 0) (f64_lit 49 (-2))) (f64_mul (f64_lit 5 0) (f64_lit 49 (-2)))).
    assert (B1 : f64_ltb d rr = true) by (vm_cast_no_check (eq_refl true)).
    assert (B2 : f64_ltb (f64_div (f64_mul (Bopp (f64_lit 5 (-1))) d) (f64_mul (f64_lit 49 (-2)) (f64_lit 49 (-2)))) xmin64 = true)
      by (vm_cast_no_check (eq_refl true)).
    change (nltb (FA L) _ _) with (f64_ltb d rr) at 1. rewrite B1.
    unfold fast_exp_eval. cbn [fe_xmin fast_exp_new]. cbn [andb].
    change (nltb (FA L) _ _) with (f64_ltb (f64_div (f64_mul (Bopp (f64_lit 5 (-1))) d) (f64_mul (f64_lit 49 (-2)) (f64_lit 49 (-2)))) xmin64) at 1.
    rewrite B2. cbn [orb rbind]. reflexivity.
  - apply (C25_ieee L cfg sp n pt_x pt_y). rewrite Hv. exact usable_049.
Qed.
Example C26_instance : forall L : Libm, constit_width (width_049 L) = f64_lit 49 (-2).
Proof. reflexivity. Qed.

(** The restriction on the width is needed: with width 2^-538 the squared width
    underflows to 0 although the squared radius does not, the argument is -inf
    and converting it to an index is undefined. *)
Theorem C25_underflow :
  forall (L : Libm) (cfg : config (FA L)) (sp fluct : f64) (z : f64) (p e : bool),
  constit_width cfg = f64_mk 1 (-538) ->
  let n := @Nucleon (FA L) (f64_lit 0 0) (f64_lit 0 0) z p e [@Constituent (FA L) (f64_lit 0 0) (f64_lit 0 0) fluct] in
  thickness (A:=FA L) false (nucleon_common_of cfg sp) n (f64_mk 1 (-536)) (f64_lit 0 0) = UB UbFloatToInt.
Proof.
  intros L cfg sp fluct z p e Hv n.
  unfold thickness, n. cbn [n_cons rfold]. unfold thickness_step, nucleon_common_of. cbn [nc_constituent_radius_sq nc_fast_exp nc_constituent_width_sq q_x q_y].
  rewrite Hv. unfold sqr, max_radius_widths.
  set (px := f64_mk 1 (-536)). set (v := f64_mk 1 (-538)).
  set (d := f64_add (f64_mul (f64_sub px (f64_lit 0 0)) (f64_sub px (f64_lit 0 0)))
                    (f64_mul (f64_sub (f64_lit 0 0) (f64_lit 0 0)) (f64_sub (f64_lit 0 0) (f64_lit 0 0)))).
  set (rr := f64_mul (f64_mul (f64_lit 5 0) v) (f64_mul (f64_lit 5 0) v)).
  assert (B1 : f64_ltb d rr = true) by (vm_cast_no_check (eq_refl true)).
  change (nltb (FA L) _ _) with (f64_ltb d rr) at 1. rewrite B1.
  unfold fast_exp_eval. cbn [fe_xmin fe_dx fast_exp_new andb].
  set (q := f64_add (f64_div (f64_sub (f64_div (f64_mul (Bopp (f64_lit 5 (-1))) d) (f64_mul v v)) xmin64) dx64) (f64_lit 5 (-1))).
  assert (B2 : f64_trunc q = None) by (vm_compute; reflexivity).
  unfold to_size_t. change (ntrunc (FA L) _) with (f64_trunc q). rewrite B2. reflexivity.
Qed.
