(** C44: names of the event files. *)
From Coq Require Import Reals Lra Ascii.
From Flocq Require Import Core BinarySingleNaN.
From Verif.Base Require Import Result Arith RArith FArith Rng.
From Verif.Model Require Import Config Nucleon Nucleus Event Text Files CrossSection Output Collider.
From Verif.Spec Require Import Decimal.
From Verif.Proof Require Import Basics RBasics TextP TableP Ieee DecR IeeeInt.
Local Open Scope string_scope.
Local Open Scope Z_scope.

(** ** Digit strings of equal length are ordered like their values *)
Lemma dval_bound s : every digit s = true -> 0 <= dval s < 10 ^ Z.of_nat (String.length s).
Proof.
  assert (G : forall s a, every digit s = true -> 0 <= a -> a * 10 ^ Z.of_nat (String.length s) <= dval_from a s < (a + 1) * 10 ^ Z.of_nat (String.length s)).
  { clear. induction s as [|c s IH]; intros a H Ha.
    - cbn [String.length dval_from]. change (10 ^ Z.of_nat 0) with 1. lia.
    - cbn [every] in H. apply andb_prop in H. destruct H as [H1 H2].
      assert (D : 0 <= Z.of_nat (nat_of_ascii c) - 48 < 10).
      { unfold digit in H1. apply andb_prop in H1. destruct H1 as [H1 H1']. apply Nat.leb_le in H1, H1'. lia. }
      cbn [dval_from]. specialize (IH (10 * a + (Z.of_nat (nat_of_ascii c) - 48)) H2 ltac:(lia)).
      cbn [String.length]. rewrite Nat2Z.inj_succ, Z.pow_succ_r by lia. assert (0 < 10 ^ Z.of_nat (String.length s)) by (apply Z.pow_pos_nonneg; lia). nia. }
  intros H. specialize (G s 0 H ltac:(lia)). unfold dval. lia.
Qed.

Lemma compare_digits u v : forall s t, every digit s = true -> every digit t = true -> String.length s = String.length t ->
  dval s < dval t -> String.compare (s ++ u) (t ++ v) = Lt.
Proof.
  assert (G : forall s t a b, every digit s = true -> every digit t = true -> String.length s = String.length t ->
    dval_from a s < dval_from b t -> a = b -> String.compare (s ++ u) (t ++ v) = Lt).
  { induction s as [|c s IH]; intros [|c' t] a b Hs Ht L V E; try discriminate L.
    - cbn in V. lia.
    - cbn [every] in Hs, Ht. apply andb_prop in Hs, Ht. destruct Hs as [Hc Hs]. destruct Ht as [Hc' Ht].
      cbn [String.length] in L. injection L as L. cbn [append String.compare]. cbn [dval_from] in V.
      unfold Ascii.compare. destruct (N.compare_spec (N_of_ascii c) (N_of_ascii c')) as [EQ|LT|GT].
      + apply (IH t _ _ Hs Ht L V). subst b. unfold nat_of_ascii. rewrite EQ. reflexivity.
      + reflexivity.
      + exfalso. rewrite !dval_from_spec in V. pose proof (dval_bound s Hs) as B1. pose proof (dval_bound t Ht) as B2. rewrite <- L in *.
        assert (Z.of_nat (nat_of_ascii c') + 1 <= Z.of_nat (nat_of_ascii c)) by (unfold nat_of_ascii; lia).
        subst b. assert (P : 0 < 10 ^ Z.of_nat (String.length s)) by (apply Z.pow_pos_nonneg; lia). nia. }
  intros s t Hs Ht L V. exact (G s t 0 0 Hs Ht L V eq_refl).
Qed.

(** The name of event i is its number in exactly [w] decimal digits (one, if [w] is
    zero: a run of one event), then ".dat". *)
Theorem C44_form : forall w N i, N <= 10 ^ w -> 0 <= i < N ->
  exists s, text_file_name w i = s ++ ".dat" /\ every digit s = true /\ String.length s = Z.to_nat (Z.max 1 w) /\ dval s = i.
Proof.
  intros w N k HN Hk.
  assert (Hw : 0 <= w) by (destruct (Z.neg_nonneg_cases w); [rewrite Z.pow_neg_r in HN by assumption; lia|assumption]).
  assert (W1 : 1 <= w \/ k = 0) by (destruct (Z.eq_dec w 0) as [->|]; [change (10 ^ 0) with 1 in HN; lia|lia]).
  exists (pad_left "0"%char w (print_Z k)). split; [reflexivity|].
  unfold print_Z. destruct (Z.ltb_spec k 0); [lia|].
  destruct (print_N_spec k ltac:(lia)) as (P1 & P2 & P3 & _).
  assert (L1 : (1 <= String.length (print_N k))%nat) by (destruct (print_N k); [contradiction|cbn; lia]).
  assert (HM : 10 ^ w <= 10 ^ (Z.max 1 w)) by (apply Z.pow_le_mono_r; lia).
  assert (L : (String.length (print_N k) <= Z.to_nat (Z.max 1 w))%nat) by (apply print_N_length; [rewrite Z2Nat.id by lia; lia|lia]).
  unfold pad_left. split; [rewrite every_app, P1, repeat_char_every; reflexivity|]. split; [rewrite length_app_s, repeat_char_length; lia|].
  rewrite dval_zeros. exact P3.
Qed.

(** Names are distinct and sort in event order when the width is sufficient. *)
Theorem C44_names : forall w N i j, N <= 10 ^ w -> 0 <= i < j -> j < N -> String.compare (text_file_name w i) (text_file_name w j) = Lt.
Proof.
  intros w N i j HN Hi Hj.
  destruct (C44_form w N i HN ltac:(lia)) as (s & -> & S1 & S2 & S3). destruct (C44_form w N j HN ltac:(lia)) as (t & -> & T1 & T2 & T3).
  apply compare_digits; [assumption|assumption|congruence|lia].
Qed.

(** ** The width *)
Local Open Scope R_scope.
Lemma ln10_pos : 0 < ln 10. Proof. rewrite <- ln_1. apply ln_increasing; lra. Qed.
Lemma log10_pow w : (0 <= w)%Z -> ln (IZR (10 ^ w)) / ln 10 = IZR w.
Proof.
  intros H. rewrite <- (Z2Nat.id w) by exact H. induction (Z.to_nat w) as [|k IH].
  - change (IZR (10 ^ Z.of_nat 0)) with 1. rewrite ln_1. unfold Rdiv. rewrite Rmult_0_l. reflexivity.
  - rewrite Nat2Z.inj_succ, Z.pow_succ_r, mult_IZR by lia. rewrite ln_mult; [|lra|apply IZR_lt, Z.pow_pos_nonneg; lia].
    pose proof ln10_pos. unfold Z.succ. rewrite plus_IZR, <- IH. field. lra.
Qed.
Lemma log10_le a b : (0 < a <= b)%Z -> ln (IZR a) / ln 10 <= ln (IZR b) / ln 10.
Proof.
  intros [H1 H2]. pose proof ln10_pos. apply Rmult_le_compat_r; [left; apply Rinv_0_lt_compat; assumption|].
  destruct (Z.eq_dec a b) as [->|]; [lra|]. left. apply ln_increasing; apply IZR_lt; lia.
Qed.
Lemma log10_lt a b : (0 < a < b)%Z -> ln (IZR a) / ln 10 < ln (IZR b) / ln 10.
Proof.
  intros [H1 H2]. pose proof ln10_pos. apply Rmult_lt_compat_r; [apply Rinv_0_lt_compat; assumption|].
  apply ln_increasing; apply IZR_lt; lia.
Qed.

(** [w] is the least exponent with N <= 10^w. *)
Definition least_exponent (N w : Z) : Prop := (0 <= w /\ N <= 10 ^ w /\ (forall v, 0 <= v -> N <= 10 ^ v -> w <= v))%Z.

Lemma ceil_log10 N : (1 <= N)%Z -> least_exponent N (Zceil (ln (IZR N) / ln 10)).
Proof.
  intros H. set (y := ln (IZR N) / ln 10).
  assert (Y0 : 0 <= y) by (unfold y; rewrite <- (log10_pow 0) by lia; apply log10_le; change (10 ^ 0)%Z with 1%Z; lia).
  assert (C0 : (0 <= Zceil y)%Z) by (rewrite <- (Zceil_IZR 0); apply Zceil_le, Y0).
  split; [exact C0|]. split.
  - destruct (Z.le_gt_cases N (10 ^ Zceil y)) as [|G]; [assumption|exfalso].
    assert (P : (0 < 10 ^ Zceil y)%Z) by (apply Z.pow_pos_nonneg; lia).
    pose proof (log10_lt _ _ (conj P G)) as L. rewrite log10_pow in L by exact C0. fold y in L. pose proof (Zceil_ub y). lra.
  - intros v Hv Le. apply Zceil_glb. rewrite <- (log10_pow v) by exact Hv. apply log10_le. lia.
Qed.

Lemma least_small N w : (1 <= N <= int_max)%Z -> least_exponent N w -> (w <= 10)%Z.
Proof. intros H (_ & _ & M). apply M; [lia|]. unfold int_max in H. change (10 ^ 10)%Z with 10000000000%Z. lia. Qed.

Theorem C44_width_real : forall N, (1 <= N <= int_max)%Z -> exists w, output_width (A:=RA) N = Ret w /\ least_exponent N w.
Proof.
  intros N H. pose proof (ceil_log10 N ltac:(lia)) as L. exists (Zceil (ln (IZR N) / ln 10)). split; [|exact L].
  unfold output_width, to_int. cbn [ntrunc nceil nlog10 nofZ RA RA_with]. rewrite Ztrunc_IZR.
  pose proof (least_small N _ H L) as B. destruct L as (B0 & _).
  replace (in_int _) with true; [reflexivity|]. symmetry. unfold in_int, int_min, int_max. apply andb_true_intro. split; apply Z.leb_le; lia.
Qed.

Theorem C44_sorted_real : forall N w i j, (1 <= N <= int_max)%Z -> output_width (A:=RA) N = Ret w -> (0 <= i < j)%Z -> (j < N)%Z ->
  String.compare (text_file_name w i) (text_file_name w j) = Lt.
Proof.
  intros N w i j H E Hi Hj. destruct (C44_width_real N H) as (w' & E' & (_ & L & _)). assert (w' = w) by congruence. subst w'.
  apply (C44_names w N); assumption.
Qed.

(** Binary64: for every libm whose log10 of an integer is within 10^-10 of the
    true value, the width is sufficient and at most one more than necessary. *)
Lemma log10_gap k : (0 <= k <= 9)%Z -> IZR k + / 10000000000 < ln (IZR (10 ^ k + 1)) / ln 10.
Proof.
  intros Hk. assert (P : (1 <= 10 ^ k)%Z) by (assert (0 < 10 ^ k)%Z by (apply Z.pow_pos_nonneg; lia); lia).
  assert (U : (10 ^ k <= 10 ^ 9)%Z) by (apply Z.pow_le_mono_r; lia). change (10 ^ 9)%Z with 1000000000%Z in U.
  set (x := IZR (10 ^ k)). assert (X : 1 <= x <= 1000000000) by (split; apply IZR_le; assumption).
  rewrite <- (log10_pow k) by lia. fold x.
  rewrite plus_IZR. fold x. pose proof ln10_pos as L10.
  assert (E3 : ln 10 < 3).
  { apply exp_lt_inv. rewrite exp_ln by lra.
    assert (E1 : 5 / 4 < exp (/ 4)) by (apply Rle_lt_trans with (1 + / 4); [lra|apply exp_ineq1; lra]).
    assert (E2 : 25 / 16 < exp (/ 2)) by (replace (/ 2) with (/ 4 + / 4) by lra; rewrite exp_plus; nra).
    assert (E4 : 12 / 5 < exp 1) by (replace 1 with (/ 2 + / 2) by lra; rewrite exp_plus; nra).
    assert (E5 : 5 < exp (1 + 1)) by (rewrite exp_plus; nra).
    replace 3 with (1 + 1 + 1) by ring. rewrite (exp_plus (1 + 1) 1). nra. }
  assert (LL : ln (x + 1) - ln x > / (x + 1)).
  { replace (ln (x + 1) - ln x) with (- ln (x / (x + 1))).
    - assert (ln (x / (x + 1)) < x / (x + 1) - 1).
      { assert (Q : 0 < x / (x + 1) < 1).
        { split; [apply Rdiv_lt_0_compat; lra|]. apply (Rmult_lt_reg_r (x + 1)); [lra|]. unfold Rdiv. rewrite Rmult_assoc, Rinv_l by lra. lra. }
        set (q := x / (x + 1)) in *. apply exp_lt_inv. rewrite exp_ln by lra.
        assert (1 + (q - 1) < exp (q - 1)) by (apply exp_ineq1; lra). lra. }
      assert (x / (x + 1) - 1 = - / (x + 1)) by (field; lra). lra.
    - unfold Rdiv. rewrite ln_mult, ln_Rinv; [ring|lra|lra|apply Rinv_0_lt_compat; lra]. }
  assert (I1 : / 1000000001 <= / (x + 1)) by (apply Rinv_le_contravar; lra).
  assert (D : ln (x + 1) / ln 10 - ln x / ln 10 = (ln (x + 1) - ln x) / ln 10) by (field; lra).
  assert (K : / 10000000000 < (ln (x + 1) - ln x) / ln 10).
  { apply (Rmult_lt_reg_r (ln 10)); [exact L10|]. unfold Rdiv. rewrite Rmult_assoc, Rinv_l by lra.
    assert (/ 10000000000 * ln 10 < / 10000000000 * 3) by (apply Rmult_lt_compat_l; lra). lra. }
  lra.
Qed.

Definition good_log10 (L : Libm) : Prop := forall N, (1 <= N <= int_max)%Z ->
  is_finite (m_log10 L (f64_ofZ N)) = true /\ Rabs (B2R (m_log10 L (f64_ofZ N)) - ln (IZR N) / ln 10) <= / 10000000000.

Theorem C44_width_ieee : forall L N, good_log10 L -> (1 <= N <= int_max)%Z ->
  exists w, output_width (A:=FA L) N = Ret w /\ exists w0, least_exponent N w0 /\ (w0 <= w <= w0 + 1)%Z.
Proof.
  intros L N G H. destruct (G N H) as [F E]. set (y := m_log10 L (f64_ofZ N)) in *.
  pose proof (ceil_log10 N ltac:(lia)) as LE. set (w0 := Zceil (ln (IZR N) / ln 10)) in *.
  pose proof (least_small N w0 H LE) as B. pose proof LE as (B0 & LU & LM).
  assert (T : ln (IZR N) / ln 10 <= IZR w0) by apply Zceil_ub.
  assert (T0 : 0 <= ln (IZR N) / ln 10) by (rewrite <- (log10_pow 0) by lia; apply log10_le; change (10 ^ 0)%Z with 1%Z; lia).
  assert (TB : IZR w0 <= 10) by (apply IZR_le; exact B).
  apply Rabs_le_inv in E.
  assert (Yb : Rabs (B2R y) <= IZR (2 ^ 53)).
  { apply Rle_trans with 11; [apply Rabs_le; lra|]. apply IZR_le. vm_compute. discriminate. }
  assert (C : (w0 <= Zceil (B2R y) <= w0 + 1)%Z).
  { split.
    - destruct (Z.eq_dec w0 0) as [Z|Z].
      + rewrite Z. apply le_IZR. assert (-1 < Zceil (B2R y))%Z; [|apply IZR_le; lia]. apply lt_IZR.
        apply Rlt_le_trans with (B2R y); [|apply Zceil_ub]. lra.
      + assert (Q : (10 ^ (w0 - 1) + 1 <= N)%Z).
        { destruct (Z.le_gt_cases N (10 ^ (w0 - 1))) as [K|K]; [|lia]. specialize (LM (w0 - 1)%Z ltac:(lia) K). lia. }
        pose proof (log10_gap (w0 - 1) ltac:(lia)) as GP.
        assert (P1 : (0 < 10 ^ (w0 - 1))%Z) by (apply Z.pow_pos_nonneg; lia).
        pose proof (log10_le _ _ (conj (ltac:(lia) : (0 < 10 ^ (w0 - 1) + 1)%Z) Q)) as Q2.
        assert (w0 - 1 < Zceil (B2R y))%Z; [|lia]. apply lt_IZR. apply Rlt_le_trans with (B2R y); [lra|apply Zceil_ub].
    - apply Zceil_glb. rewrite plus_IZR. lra. }
  exists (Zceil (B2R y)). split; [|exists w0; split; [exact LE|exact C]].
  unfold output_width, to_int. change (ntrunc (FA L) (nceil (FA L) (nlog10 (FA L) (nofZ (FA L) N)))) with (f64_trunc (f64_ceil y)).
  rewrite ceil_trunc_ok by assumption.
  replace (in_int _) with true; [reflexivity|]. symmetry. unfold in_int, int_min, int_max. apply andb_true_intro. split; apply Z.leb_le; lia.
Qed.

Theorem C44_sorted_ieee : forall L N w i j, good_log10 L -> (1 <= N <= int_max)%Z -> output_width (A:=FA L) N = Ret w ->
  (0 <= i < j)%Z -> (j < N)%Z -> String.compare (text_file_name w i) (text_file_name w j) = Lt.
Proof.
  intros L N w i j G H E Hi Hj. destruct (C44_width_ieee L N G H) as (w' & E' & w0 & (W0 & LU & _) & B). assert (w' = w) by congruence. subst w'.
  apply (C44_names w N); try assumption. eapply Z.le_trans; [exact LU|]. apply Z.pow_le_mono_r; lia.
Qed.

(** With no events the constructor of the outputs is undefined behaviour: log10
    of zero is minus infinity. *)
Theorem C44_no_events : forall L (rg : Rng (FA L)) bd cfg (s : sys rg), number_events cfg = 0%Z ->
  m_log10 L (B754_zero false) = B754_infinity true -> output_new rg bd cfg s = (UB UbFloatToInt, s).
Proof.
  intros L rg bd cfg s H H0. unfold output_new. rewrite H.
  assert (E : output_width (A:=FA L) 0 = UB UbFloatToInt).
  { unfold output_width, to_int. change (nlog10 (FA L) (nofZ (FA L) 0)) with (m_log10 L (f64_ofZ 0)).
    replace (f64_ofZ 0) with (B754_zero false : f64) by (apply B2SF_inj; vm_compute; reflexivity). rewrite H0. reflexivity. }
  unfold bind, lift. rewrite E. reflexivity.
Qed.

(** ** Non-vacuity *)
(** A libm whose log10 is the true value cut after eleven decimals, divided in
    binary64, and minus infinity at zero. *)
Definition cut_log10 (x : f64) : f64 :=
  match x with
  | B754_zero _ => B754_infinity true
  | _ => f64_div (f64_ofZ (Zfloor (ln (B2R x) / ln 10 * 100000000000))) (f64_ofZ 100000000000)
  end.
Definition cut_libm : Libm := {|
  m_exp := fun x => x; m_log := fun x => x; m_log10 := cut_log10; m_pow := fun x _ => x; m_cos := fun x => x; m_sin := fun x => x;
  m_cbrt := fun x => x; m_expint := fun x => x; m_erfinv := fun x => x |}.

Example C44_good_log10_instance : good_log10 cut_libm.
Proof.
  intros N H. cbn [m_log10 cut_libm].
  destruct (ofZ_ok N ltac:(unfold int_max in H; lia)) as [F V].
  assert (E : cut_log10 (f64_ofZ N) = f64_div (f64_ofZ (Zfloor (ln (IZR N) / ln 10 * 100000000000))) (f64_ofZ 100000000000)).
  { rewrite <- V. unfold cut_log10. destruct (f64_ofZ N) eqn:Q; try reflexivity. exfalso. cbn [B2R] in V. apply (eq_IZR 0 N) in V. lia. }
  rewrite E. clear E F V. pose proof (ceil_log10 N ltac:(lia)) as LE. pose proof (least_small N _ H LE) as B.
  set (y := ln (IZR N) / ln 10) in *.
  assert (Y0 : 0 <= y) by (unfold y; rewrite <- (log10_pow 0) by lia; apply log10_le; change (10 ^ 0)%Z with 1%Z; lia).
  assert (Y1 : y <= 10) by (eapply Rle_trans; [apply Zceil_ub|apply IZR_le; exact B]).
  set (k := Zfloor (y * 100000000000)).
  assert (K1 : IZR k <= y * 100000000000) by apply Zfloor_lb.
  assert (K2 : y * 100000000000 < IZR k + 1) by apply Zfloor_ub.
  assert (K0 : (0 <= k)%Z) by (apply Zfloor_lub; lra).
  assert (K3 : (k <= 1000000000000)%Z) by (apply le_IZR; lra).
  destruct (ofZ_ok k ltac:(lia)) as [Fk Vk]. destruct (ofZ_ok 100000000000 ltac:(lia)) as [Fc Vc].
  assert (Q : 0 <= IZR k / 100000000000 <= 10).
  { split; [apply Rmult_le_pos; [apply IZR_le; exact K0|lra]|]. apply Rmult_le_reg_r with 100000000000; [lra|]. unfold Rdiv. rewrite Rmult_assoc, Rinv_l by lra. lra. }
  destruct (div_ok (f64_ofZ k) (f64_ofZ 100000000000) Fk) as (D1 & D2 & _).
  - rewrite Vc. lra.
  - rewrite Vk, Vc. rewrite Rabs_pos_eq by lra. apply Rle_trans with (bpow radix2 4); [cbn [bpow]; simpl; lra|apply bpow_le; lia].
  - split; [exact D2|]. rewrite D1, Vk, Vc.
    assert (RE : Rabs (rnd (IZR k / 100000000000) - IZR k / 100000000000) <= / 100000000000).
    { destruct (Z.eq_dec k 0) as [->|K].
      - replace (0 / 100000000000) with 0 by lra. rewrite rnd_0. rewrite Rminus_0_r, Rabs_R0. lra.
      - assert (K1' : 1 <= IZR k) by (apply IZR_le; lia).
        destruct (rnd_rel (IZR k / 100000000000)) as (e & He & E).
        + rewrite Rabs_pos_eq by lra. apply Rle_trans with (bpow radix2 (-40)); [apply bpow_le; lia|].
          change (-40)%Z with (Z.opp 40). rewrite bpow_opp. assert (P : bpow radix2 40 = 1099511627776) by (rewrite <- (IZR_Zpower radix2) by lia; reflexivity). rewrite P. lra.
        + rewrite E. replace (IZR k / 100000000000 * (1 + e) - IZR k / 100000000000) with (IZR k / 100000000000 * e) by ring.
          rewrite Rabs_mult, Rabs_pos_eq by lra. change (-53)%Z with (Z.opp 53) in He. rewrite bpow_opp in He.
          assert (P : bpow radix2 53 = 9007199254740992) by (rewrite <- (IZR_Zpower radix2) by lia; reflexivity). rewrite P in He. pose proof (Rabs_pos e). nra. }
    apply Rabs_le_inv in RE. apply Rabs_le. lra.
Qed.

Example C44_names_instance :
  exists w, output_width (A:=FA cut_libm) 11 = Ret w /\ String.compare (text_file_name w 2) (text_file_name w 10) = Lt /\
  String.compare (text_file_name 1 2) (text_file_name 1 10) = Gt.
Proof.
  destruct (C44_width_ieee cut_libm 11 C44_good_log10_instance ltac:(unfold int_max; lia)) as (w & E & _).
  exists w. split; [exact E|]. split; [|reflexivity].
  apply (C44_sorted_ieee cut_libm 11 w 2 10 C44_good_log10_instance); [unfold int_max; lia|exact E|lia|lia].
Qed.

Example C44_no_events_instance : m_log10 cut_libm (B754_zero false) = B754_infinity true.
Proof. reflexivity. Qed.
