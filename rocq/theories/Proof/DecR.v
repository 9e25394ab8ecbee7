(** Printed decimals and their values, in real arithmetic and in binary64. *)
From Coq Require Import ZArith Reals Lra Lia Bool Psatz.
From Flocq Require Import Core BinarySingleNaN.
From Verif.Base Require Import Result Arith RArith FArith.
From Verif.Proof Require Import Ieee.
Local Open Scope R_scope.

Local Notation p10 := (bpow radix10).

Lemma p10_Z k : (0 <= k)%Z -> p10 k = IZR (10 ^ k).
Proof. intros H. symmetry. apply (IZR_Zpower radix10). exact H. Qed.
Lemma p10_div k : (k < 0)%Z -> p10 k = / IZR (10 ^ (- k)).
Proof. intros H. rewrite <- p10_Z by lia. rewrite bpow_opp, Rinv_inv by (apply Rgt_not_eq, bpow_gt_0). reflexivity. Qed.

Lemma Rlit_spec m e : Rlit m e = IZR m * p10 e.
Proof.
  unfold Rlit. destruct (Z.ltb_spec e 0) as [H|H].
  - rewrite p10_div by exact H. reflexivity.
  - rewrite p10_Z by exact H. apply mult_IZR.
Qed.

Lemma ZnearestE_close x : Rabs (IZR (ZnearestE x) - x) <= / 2.
Proof. rewrite Rabs_minus_sym. apply Znearest_half. Qed.
Lemma ZnearestE_nonneg x : 0 <= x -> (0 <= ZnearestE x)%Z.
Proof.
  intros H. replace 0%Z with (ZnearestE (IZR 0)) by (apply Zrnd_IZR; typeclasses eauto).
  apply Zrnd_le; [typeclasses eauto|exact H].
Qed.

(** "%.kf" in exact arithmetic. *)
Lemma Rfixed_spec k x : (0 <= k)%Z -> exists n, Rfixed k x = FDec (Rltb x 0) n /\ (0 <= n)%Z /\
  Rabs (IZR n * p10 (- k) - Rabs x) <= / 2 * p10 (- k) /\ IZR n <= Rabs x * p10 k + / 2.
Proof.
  intros Hk. exists (ZnearestE (Rabs x * IZR (10 ^ k))). split; [reflexivity|].
  rewrite <- (p10_Z k Hk). pose proof (bpow_gt_0 radix10 k) as P. pose proof (bpow_gt_0 radix10 (- k)) as P'.
  split; [apply ZnearestE_nonneg; apply Rmult_le_pos; [apply Rabs_pos|lra]|].
  pose proof (ZnearestE_close (Rabs x * p10 k)) as C.
  split; [|apply Rabs_le_inv in C; lra].
  replace (Rabs x) with (Rabs x * p10 k * p10 (- k)) at 2
    by (rewrite Rmult_assoc, <- bpow_plus, Z.add_opp_diag_r; simpl; ring).
  rewrite <- Rmult_minus_distr_r, Rabs_mult, (Rabs_pos_eq (p10 (- k))) by lra.
  apply Rmult_le_compat_r; lra.
Qed.

(** "%.ke" in exact arithmetic, for x <> 0. *)
Lemma Rsci_spec k x : (0 <= k)%Z -> x <> 0 -> exists m e, Rsci k x = SDec (Rltb x 0) m e /\
  (10 ^ k <= m < 10 ^ (k + 1))%Z /\
  Rabs (IZR m * p10 (e - k) - Rabs x) <= / 2 * p10 (- k) * Rabs x /\
  (mag radix10 x - 1 <= e <= mag radix10 x)%Z.
Proof.
  intros Hk Hx. unfold Rsci. destruct (Req_EM_T x 0) as [E|_]; [contradiction|]. unfold Rdecexp.
  set (e := (mag radix10 x - 1)%Z). set (m := ZnearestE (Rabs x * p10 (k - e))).
  assert (B : p10 e <= Rabs x < p10 (e + 1)).
  { destruct (mag radix10 x) as [mg Hm]. cbn [mag_val] in e. specialize (Hm Hx). unfold e.
    replace (mg - 1 + 1)%Z with mg by lia. exact Hm. }
  assert (Bm : p10 k <= Rabs x * p10 (k - e) < p10 (k + 1)).
  { pose proof (bpow_gt_0 radix10 (k - e)) as P. split.
    - replace (p10 k) with (p10 e * p10 (k - e)) by (rewrite <- bpow_plus; f_equal; lia). apply Rmult_le_compat_r; lra.
    - replace (p10 (k + 1)) with (p10 (e + 1) * p10 (k - e)) by (rewrite <- bpow_plus; f_equal; lia). apply Rmult_lt_compat_r; lra. }
  assert (Zm : (10 ^ k <= m <= 10 ^ (k + 1))%Z).
  { unfold m. split.
    - replace (10 ^ k)%Z with (ZnearestE (IZR (10 ^ k))) by (apply Zrnd_IZR; typeclasses eauto).
      apply Zrnd_le; [typeclasses eauto|]. rewrite <- p10_Z by lia. lra.
    - replace (10 ^ (k + 1))%Z with (ZnearestE (IZR (10 ^ (k + 1)))) by (apply Zrnd_IZR; typeclasses eauto).
      apply Zrnd_le; [typeclasses eauto|]. rewrite <- p10_Z by lia. lra. }
  assert (C : Rabs (IZR m * p10 (e - k) - Rabs x) <= / 2 * p10 (- k) * Rabs x).
  { pose proof (ZnearestE_close (Rabs x * p10 (k - e))) as C. fold m in C.
    replace (Rabs x) with (Rabs x * p10 (k - e) * p10 (e - k)) at 1
      by (rewrite Rmult_assoc, <- bpow_plus; replace (k - e + (e - k))%Z with 0%Z by lia; simpl; ring).
    pose proof (bpow_gt_0 radix10 (e - k)) as P.
    rewrite <- Rmult_minus_distr_r, Rabs_mult, (Rabs_pos_eq (p10 (e - k))) by lra.
    apply Rle_trans with (/ 2 * p10 (e - k)); [apply Rmult_le_compat_r; lra|].
    replace (e - k)%Z with (- k + e)%Z by lia. rewrite bpow_plus, <- Rmult_assoc.
    apply Rmult_le_compat_l; [|lra]. pose proof (bpow_gt_0 radix10 (- k)). lra. }
  assert (Pk : (10 ^ (k + 1) = 10 * 10 ^ k)%Z) by (rewrite Z.pow_add_r by lia; lia).
  assert (Pp : (0 < 10 ^ k)%Z) by (apply Z.pow_pos_nonneg; lia).
  destruct (Z.eqb_spec m (10 ^ (k + 1))) as [Em|Em].
  - exists (10 ^ k)%Z, (e + 1)%Z. split; [reflexivity|]. split; [lia|]. split; [|unfold e; lia].
    replace (IZR (10 ^ k) * p10 (e + 1 - k)) with (IZR m * p10 (e - k)); [exact C|].
    rewrite Em. rewrite <- !p10_Z by lia. rewrite <- !bpow_plus. f_equal. lia.
  - exists m, e. split; [reflexivity|]. split; [lia|]. split; [exact C|unfold e; lia].
Qed.

(** ** Binary64 *)

Lemma rhe_div_nearest a b : (0 < b)%Z -> rhe_div a b = ZnearestE (IZR a / IZR b).
Proof.
  intros Hb. assert (Hb' : 0 < IZR b) by (apply IZR_lt; exact Hb).
  unfold rhe_div, Znearest. rewrite Zfloor_div by lia.
  set (q := (a / b)%Z). set (r := (a mod b)%Z).
  assert (E : IZR a / IZR b - IZR q = IZR r / IZR b).
  { assert (Ha : IZR a = IZR b * IZR q + IZR r) by (rewrite <- mult_IZR, <- plus_IZR; f_equal; apply Z.div_mod; lia).
    rewrite Ha. field. lra. }
  rewrite E.
  assert (Cm : Rcompare (IZR r / IZR b) (/ 2) = Z.compare (2 * r) b).
  { rewrite <- Rcompare_IZR, mult_IZR.
    replace (IZR r / IZR b) with (2 * IZR r * / (2 * IZR b)) by (field; lra).
    replace (/ 2) with (IZR b * / (2 * IZR b)) by (field; lra).
    apply Rcompare_mult_r. apply Rinv_0_lt_compat. lra. }
  rewrite Cm.
  assert (Ce : r <> 0%Z -> Zceil (IZR a / IZR b) = (q + 1)%Z).
  { intros Hr. rewrite Zceil_floor_neq; rewrite Zfloor_div by lia; fold q; [reflexivity|].
    intros K. assert (Z0 : IZR r / IZR b = 0) by lra. apply Hr. apply eq_IZR.
    apply Rmult_eq_reg_r with (/ IZR b); [|apply Rinv_neq_0_compat; lra]. unfold Rdiv in Z0. lra. }
  pose proof (Z.mod_pos_bound a b Hb) as Br. fold r in Br.
  destruct (Z.compare_spec (2 * r) b); [|reflexivity|].
  - rewrite Ce by lia. destruct (Z.even q); reflexivity.
  - rewrite Ce by lia. reflexivity.
Qed.

Lemma two_pow e : (0 <= e)%Z -> IZR (2 ^ e) = bpow radix2 e.
Proof. intros. apply (IZR_Zpower radix2). exact H. Qed.

Lemma scaled_spec m e k : let (a, b) := scaled m e k in
  (0 < b)%Z /\ (0 < a)%Z /\ IZR a / IZR b = IZR (Zpos m) * bpow radix2 e * p10 k.
Proof.
  unfold scaled.
  assert (B1 : (0 < if (0 <=? e)%Z then 1 else 2 ^ (- e))%Z) by (destruct (Z.leb_spec 0 e); [lia|apply Z.pow_pos_nonneg; lia]).
  assert (B2 : (0 < if (0 <=? k)%Z then 1 else 10 ^ (- k))%Z) by (destruct (Z.leb_spec 0 k); [lia|apply Z.pow_pos_nonneg; lia]).
  assert (A1 : (0 < if (0 <=? e)%Z then 2 ^ e else 1)%Z) by (destruct (Z.leb_spec 0 e); [apply Z.pow_pos_nonneg; lia|lia]).
  assert (A2 : (0 < if (0 <=? k)%Z then 10 ^ k else 1)%Z) by (destruct (Z.leb_spec 0 k); [apply Z.pow_pos_nonneg; lia|lia]).
  split; [apply Z.mul_pos_pos; assumption|]. split; [repeat apply Z.mul_pos_pos; try assumption; lia|].
  rewrite !mult_IZR.
  assert (E2 : IZR (if (0 <=? e)%Z then 2 ^ e else 1) / IZR (if (0 <=? e)%Z then 1 else 2 ^ (- e)) = bpow radix2 e).
  { destruct (Z.leb_spec 0 e).
    - rewrite two_pow by lia. field.
    - rewrite two_pow by lia. rewrite bpow_opp. unfold Rdiv. rewrite Rinv_inv. ring. }
  assert (E10 : IZR (if (0 <=? k)%Z then 10 ^ k else 1) / IZR (if (0 <=? k)%Z then 1 else 10 ^ (- k)) = p10 k).
  { destruct (Z.leb_spec 0 k).
    - rewrite <- p10_Z by lia. field.
    - rewrite <- p10_Z by lia. rewrite bpow_opp. unfold Rdiv. rewrite Rinv_inv. ring. }
  rewrite <- E2, <- E10. apply IZR_lt in B1, B2. field. lra.
Qed.

Lemma B2R_abs (s : bool) m e H : Rabs (B2R (B754_finite s m e H : f64)) = IZR (Zpos m) * bpow radix2 e.
Proof.
  cbn [B2R]. unfold F2R. cbn [Fnum Fexp]. rewrite Rabs_mult, (Rabs_pos_eq (bpow radix2 e)) by apply bpow_ge_0.
  f_equal. destruct s; cbn [cond_Zopp]; [rewrite opp_IZR, Rabs_Ropp|]; apply Rabs_pos_eq; apply IZR_le; lia.
Qed.

(** "%.kf" of a double: the exact value rounded half to even. *)
Lemma f64_fixed_spec k (x : f64) : (0 <= k)%Z -> is_finite x = true ->
  f64_fixed k x = FDec (Bsign x) (ZnearestE (Rabs (B2R x) * IZR (10 ^ k))).
Proof.
  intros Hk Fx. destruct x as [s|s| |s m e He]; try discriminate Fx.
  - cbn [f64_fixed Bsign B2R]. rewrite Rabs_R0, Rmult_0_l. f_equal. symmetry. apply (Zrnd_IZR _ 0).
  - unfold f64_fixed. cbn [Bsign]. pose proof (scaled_spec m e k) as S. destruct (scaled m e k) as [a b].
    destruct S as (Hb & _ & E). rewrite rhe_div_nearest by exact Hb. rewrite E, B2R_abs, <- p10_Z by exact Hk. reflexivity.
Qed.

Lemma f64_decexp_spec m e : (-1100 <= e)%Z -> IZR (Zpos m) * bpow radix2 e <> 0 ->
  f64_decexp m e = (mag radix10 (IZR (Zpos m) * bpow radix2 e) - 1)%Z.
Proof.
  intros He Hx. unfold f64_decexp. pose proof (scaled_spec m e 400) as S. destruct (scaled m e 400) as [a b].
  destruct S as (Hb & Ha & E). set (x := IZR (Zpos m) * bpow radix2 e) in *.
  assert (Hbr : 0 < IZR b) by (apply IZR_lt; exact Hb).
  assert (P400 : 0 < p10 400) by apply bpow_gt_0.
  assert (Big : p10 (-400) <= x).
  { unfold x. apply Rle_trans with (1 * bpow radix2 (-1100)).
    - rewrite Rmult_1_l. change (-400)%Z with (- (400))%Z. change (-1100)%Z with (- (1100))%Z. rewrite !bpow_opp.
      apply Rinv_le; [apply bpow_gt_0|]. rewrite p10_Z by lia. rewrite <- two_pow by lia. apply IZR_le.
      apply Z.leb_le. vm_compute. reflexivity.
    - apply Rmult_le_compat; [lra|apply bpow_ge_0|apply IZR_le; lia|apply bpow_le; exact He]. }
  assert (Xp : 0 < x) by (pose proof (bpow_gt_0 radix10 (-400)); lra).
  assert (Q : (0 < a / b)%Z).
  { apply Z.div_str_pos. split; [exact Hb|]. apply le_IZR.
    apply Rmult_le_reg_r with (/ IZR b); [apply Rinv_0_lt_compat; exact Hbr|]. rewrite Rinv_r by lra.
    change (IZR a * / IZR b) with (IZR a / IZR b). rewrite E.
    apply Rle_trans with (p10 (-400) * p10 400); [rewrite <- bpow_plus; right; reflexivity|].
    apply Rmult_le_compat_r; lra. }
  set (q := (a / b)%Z) in *.
  pose proof (Zdigits_correct radix10' q) as D. rewrite Z.abs_eq in D by lia.
  assert (Dp : (0 < Zdigits radix10' q)%Z) by (apply Zdigits_gt_0; lia).
  set (d := Zdigits radix10' q) in *.
  change (Zpower radix10' (d - 1)) with (10 ^ (d - 1))%Z in D. change (Zpower radix10' d) with (10 ^ d)%Z in D.
  assert (Fl : IZR q <= x * p10 400 < IZR q + 1).
  { rewrite <- E. unfold q. rewrite <- Zfloor_div by lia. split; [apply Zfloor_lb|apply Zfloor_ub]. }
  assert (M : (mag radix10 x = d - 400 :> Z)%Z).
  { apply mag_unique_pos. split.
    - apply Rmult_le_reg_r with (p10 400); [exact P400|]. rewrite <- bpow_plus.
      replace (d - 400 - 1 + 400)%Z with (d - 1)%Z by lia. rewrite (p10_Z (d - 1)) by lia.
      apply Rle_trans with (IZR q); [apply IZR_le; lia|lra].
    - apply Rmult_lt_reg_r with (p10 400); [exact P400|]. rewrite <- bpow_plus.
      replace (d - 400 + 400)%Z with d by lia. rewrite (p10_Z d) by lia.
      apply Rlt_le_trans with (IZR q + 1); [lra|]. rewrite <- (plus_IZR q 1). apply IZR_le. lia. }
  rewrite M. lia.
Qed.

(** "%.ke" of a double. *)
Lemma f64_sci_spec k (x : f64) : (0 <= k)%Z -> is_finite x = true -> 0 < B2R x -> f64_sci k x = Rsci k (B2R x).
Proof.
  intros Hk Fx Px. destruct x as [s|s| |s m e He]; try discriminate Fx; [cbn [B2R] in Px; lra|].
  assert (Sp : s = false) by (apply (pos_sign _ Px)). subst s.
  assert (Xa : B2R (B754_finite false m e He : f64) = IZR (Zpos m) * bpow radix2 e) by reflexivity.
  unfold Rsci. destruct (Req_EM_T _ 0) as [Z|Z]; [lra|].
  assert (Bd : (-1100 <= e)%Z).
  { pose proof He as B. apply andb_prop in B. destruct B as [B _]. unfold SpecFloat.canonical_mantissa in B.
    apply Zeq_bool_eq in B. unfold SpecFloat.fexp, SpecFloat.emin in B.
    change (3 - emax64 - prec64)%Z with (-1074)%Z in B. lia. }
  unfold Rdecexp. rewrite Xa. rewrite (Rabs_pos_eq (IZR (Zpos m) * bpow radix2 e)) by (rewrite <- Xa; lra).
  assert (Lt : Rltb (IZR (Zpos m) * bpow radix2 e) 0 = false) by (apply Rltb_false; rewrite <- Xa; lra). rewrite Lt.
  unfold f64_sci. rewrite f64_decexp_spec by (try exact Bd; rewrite <- Xa; lra).
  set (d := (mag radix10 _ - 1)%Z).
  pose proof (scaled_spec m e (k - d)) as S. destruct (scaled m e (k - d)) as [a b]. destruct S as (Hb & _ & E).
  rewrite rhe_div_nearest by exact Hb. rewrite E. reflexivity.
Qed.

Lemma mk_ok m e : Rabs (IZR m * bpow radix2 e) <= bpow radix2 1000 ->
  is_finite (f64_mk m e) = true /\ B2R (f64_mk m e) = rnd (IZR m * bpow radix2 e).
Proof.
  intros H. unfold f64_mk.
  pose proof (binary_normalize_correct prec64 emax64 prec64_gt_0 prec64_lt_emax mode_NE m e false) as C.
  cbv zeta in C. change (F2R (Float radix2 m e)) with (IZR m * bpow radix2 e) in C.
  change (round radix2 (SpecFloat.fexp prec64 emax64) (round_mode mode_NE) (IZR m * bpow radix2 e)) with (rnd (IZR m * bpow radix2 e)) in C.
  rewrite (lt_emax _ H) in C. destruct C as (C1 & C2 & _). split; [exact C2|exact C1].
Qed.

(** A decimal literal is within 2^-52 of its value. *)
Lemma lit_ok m e : (0 <= m)%Z -> IZR m * p10 e <= bpow radix2 999 -> (m = 0%Z \/ bpow radix2 (-1000) <= IZR m * p10 e) ->
  is_finite (f64_lit m e) = true /\ Rabs (B2R (f64_lit m e) - IZR m * p10 e) <= bpow radix2 (-52) * (IZR m * p10 e) /\
  0 <= B2R (f64_lit m e).
Proof.
  intros Hm Hx Lx. set (x := IZR m * p10 e) in *.
  assert (X0 : 0 <= x) by (apply Rmult_le_pos; [apply IZR_le; exact Hm|apply bpow_ge_0]).
  (* the number that is rounded *)
  assert (K : exists y, 0 <= y /\ Rabs (y - x) <= bpow radix2 (-1100) * x /\
    (Rabs y <= bpow radix2 1000 -> is_finite (f64_lit m e) = true /\ B2R (f64_lit m e) = rnd y)).
  { unfold f64_lit. destruct (Z.ltb_spec e 0) as [He|He].
    - set (d := (10 ^ (- e))%Z). set (s := (Z.log2 d + 1200)%Z).
      assert (Dp : (0 < d)%Z) by (apply Z.pow_pos_nonneg; lia).
      assert (Sp : (1200 <= s)%Z) by (pose proof (Z.log2_nonneg d); lia).
      set (n := (Z.abs m * 2 ^ s)%Z). set (q := (2 * (n / d) + (if (n mod d =? 0)%Z then 0 else 1))%Z).
      assert (Dr : 0 < IZR d) by (apply IZR_lt; exact Dp).
      assert (Ex : IZR n / IZR d = x * bpow radix2 s).
      { unfold n, x. rewrite Z.abs_eq by exact Hm. rewrite mult_IZR, two_pow by lia. rewrite p10_div by exact He. fold d. field. lra. }
      assert (Pm : 0 < bpow radix2 (- s - 1)) by apply bpow_gt_0.
      assert (Ss : (Z.sgn m * q = q)%Z).
      { destruct (Z.eq_dec m 0) as [->|Hn]; [|rewrite Z.sgn_pos by lia; lia].
        unfold q, n. cbn [Z.abs]. rewrite Z.mul_0_l, Zdiv_0_l, Zmod_0_l. reflexivity. }
      rewrite Ss.
      exists (IZR q * bpow radix2 (- s - 1)).
      assert (Q0 : (0 <= q)%Z).
      { assert (0 <= n / d)%Z by (apply Z.div_pos; [unfold n; apply Z.mul_nonneg_nonneg; [lia|apply Z.pow_nonneg; lia]|lia]).
        unfold q. destruct (n mod d =? 0)%Z; lia. }
      split; [apply Rmult_le_pos; [apply IZR_le; exact Q0|lra]|].
      split; [|intros Hy; apply mk_ok; exact Hy].
      (* |q/2 - n/d| <= 1/2, and 0 when m = 0 *)
      assert (Hq : Rabs (IZR q / 2 - IZR n / IZR d) <= / 2).
      { assert (En : IZR n / IZR d = IZR (n / d) + IZR (n mod d) / IZR d).
        { assert (N : IZR n = IZR d * IZR (n / d) + IZR (n mod d)) by (rewrite <- mult_IZR, <- plus_IZR; f_equal; apply Z.div_mod; lia).
          rewrite N at 1. field. lra. }
        rewrite En. unfold q. rewrite plus_IZR, mult_IZR.
        destruct (Z.eqb_spec (n mod d) 0) as [E0|E0].
        - rewrite E0. apply Rabs_le. unfold Rdiv. rewrite Rmult_0_l. lra.
        - pose proof (Z.mod_pos_bound n d Dp) as B.
          assert (0 <= IZR (n mod d) / IZR d <= 1).
          { split; [apply Rmult_le_pos; [apply IZR_le; lia|left; apply Rinv_0_lt_compat; lra]|].
            apply Rmult_le_reg_r with (IZR d); [exact Dr|]. unfold Rdiv. rewrite Rmult_assoc, Rinv_l, Rmult_1_r, Rmult_1_l by lra.
            apply IZR_le. lia. }
          apply Rabs_le. lra. }
      assert (Ey : IZR q * bpow radix2 (- s - 1) - x = (IZR q / 2 - IZR n / IZR d) * bpow radix2 (- s)).
      { rewrite Ex. replace (- s - 1)%Z with (- s + -1)%Z by lia. rewrite bpow_plus. rewrite Rmult_minus_distr_r.
        replace (x * bpow radix2 s * bpow radix2 (- s)) with x
          by (rewrite Rmult_assoc, <- bpow_plus, Z.add_opp_diag_r; cbn [bpow]; ring).
        change (bpow radix2 (-1)) with (/ 2). field. }
      destruct (Z.eq_dec m 0) as [->|Hn].
      { assert (Q00 : q = 0%Z) by (unfold q, n; cbn [Z.abs]; rewrite Z.mul_0_l, Zdiv_0_l, Zmod_0_l; reflexivity).
        unfold x. rewrite Q00, !Rmult_0_l, Rminus_0_r, Rabs_R0. lra. }
      rewrite Ey, Rabs_mult, (Rabs_pos_eq (bpow radix2 (- s))) by apply bpow_ge_0.
      assert (Xd : / IZR d <= x).
      { unfold x. rewrite p10_div by exact He. fold d. rewrite <- (Rmult_1_l (/ IZR d)) at 1. apply Rmult_le_compat_r; [left; apply Rinv_0_lt_compat; exact Dr|apply IZR_le; lia]. }
      assert (D2 : IZR d <= bpow radix2 (Z.log2 d + 1)).
      { rewrite <- two_pow by (pose proof (Z.log2_nonneg d); lia). apply IZR_le. pose proof (Z.log2_spec d Dp). unfold Z.succ in *. lia. }
      assert (Bd : bpow radix2 (- s) <= bpow radix2 (-1199) * / IZR d).
      { unfold s. replace (- (Z.log2 d + 1200))%Z with (-1199 + - (Z.log2 d + 1))%Z by lia. rewrite bpow_plus.
        apply Rmult_le_compat_l; [apply bpow_ge_0|]. rewrite bpow_opp. apply Rinv_le; [exact Dr|exact D2]. }
      pose proof (bpow_ge_0 radix2 (- s)) as Q1. pose proof (bpow_gt_0 radix2 (-1199)) as Q2.
      assert (Q3 : bpow radix2 (-1199) <= bpow radix2 (-1100)) by (apply bpow_le; lia).
      assert (Q4 : bpow radix2 (- s) <= bpow radix2 (-1199) * x) by (eapply Rle_trans; [exact Bd|apply Rmult_le_compat_l; lra]).
      assert (Q5 : bpow radix2 (-1199) * x <= bpow radix2 (-1100) * x) by (apply Rmult_le_compat_r; lra).
      apply Rle_trans with (/ 2 * bpow radix2 (- s)); [apply Rmult_le_compat_r; assumption|lra].
    - exists x. split; [exact X0|]. split.
      + rewrite Rminus_diag_eq by reflexivity. rewrite Rabs_R0. apply Rmult_le_pos; [apply bpow_ge_0|exact X0].
      + intros Hy. unfold f64_ofZ. pose proof (mk_ok (m * 10 ^ e) 0) as Mk. simpl (bpow radix2 0) in Mk. rewrite Rmult_1_r in Mk.
        rewrite mult_IZR, <- p10_Z in Mk by exact He. apply Mk. exact Hy. }
  destruct K as (y & Y0 & Hy & Hv).
  assert (T1 : bpow radix2 (-1100) <= / 1024) by (change (/ 1024) with (bpow radix2 (-10)); apply bpow_le; lia).
  pose proof (bpow_gt_0 radix2 (-1100)) as T2.
  assert (T3 : bpow radix2 (-1100) * x <= / 1024 * x) by (apply Rmult_le_compat_r; lra).
  apply Rabs_le_inv in Hy.
  assert (T4 : bpow radix2 1000 = 2 * bpow radix2 999) by (change 1000%Z with (1 + 999)%Z; rewrite bpow_plus; reflexivity).
  destruct (Hv ltac:(rewrite Rabs_pos_eq by exact Y0; lra)) as (V1 & V2).
  split; [exact V1|]. rewrite V2. split; [|apply rnd_nonneg; exact Y0].
  destruct Lx as [Lx|Lx].
  { assert (x = 0) by (unfold x; rewrite Lx; ring). assert (y = 0) by nra. subst y. rewrite H, rnd_0. rewrite Rminus_0_r, Rabs_R0. lra. }
  assert (Ylow : bpow radix2 (-1022) <= Rabs y).
  { rewrite Rabs_pos_eq by exact Y0. apply Rle_trans with (bpow radix2 (-1001)); [apply bpow_le; lia|].
    assert (bpow radix2 (-1000) = 2 * bpow radix2 (-1001)) by (change (-1000)%Z with (1 + -1001)%Z; rewrite bpow_plus; reflexivity). lra. }
  destruct (rnd_rel y Ylow) as (er & Her & ->).
  assert (T5 : bpow radix2 (-53) = / 2 * bpow radix2 (-52)) by (change (-53)%Z with (-1 + -52)%Z; rewrite bpow_plus; reflexivity).
  assert (T6 : bpow radix2 (-1100) <= / 8 * bpow radix2 (-52)).
  { change (/ 8) with (bpow radix2 (-3)). rewrite <- bpow_plus. apply bpow_le. lia. }
  pose proof (bpow_gt_0 radix2 (-52)) as T7.
  assert (T8 : bpow radix2 (-1100) * x <= / 8 * bpow radix2 (-52) * x) by (apply Rmult_le_compat_r; lra).
  replace (y * (1 + er) - x) with ((y - x) + y * er) by ring.
  eapply Rle_trans; [apply Rabs_triang|].
  assert (Rabs (y - x) <= / 8 * bpow radix2 (-52) * x) by (apply Rabs_le; lra).
  assert (Rabs (y * er) <= (x * (1 + / 1024)) * bpow radix2 (-53)).
  { rewrite Rabs_mult. apply Rmult_le_compat; [apply Rabs_pos|apply Rabs_pos| |exact Her]. rewrite Rabs_pos_eq by exact Y0. lra. }
  assert (0 <= bpow radix2 (-52) * x) by (apply Rmult_le_pos; lra).
  replace (x * (1 + / 1024) * bpow radix2 (-53)) with ((1 + / 1024) * / 2 * (bpow radix2 (-52) * x)) in * by (rewrite T5; ring).
  replace (/ 8 * bpow radix2 (-52) * x) with (/ 8 * (bpow radix2 (-52) * x)) in * by ring.
  lra.
Qed.
