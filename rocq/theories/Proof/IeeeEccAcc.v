(** Accuracy of the eccentricities in binary64. *)
From Coq Require Import ZArith Reals Lra Lia Bool List Psatz.
From Coquelicot Require Import Complex.
From Flocq Require Import Core BinarySingleNaN Relative Mult_error.
From Verif.Base Require Import Result Arith FArith RArith.
From Verif.Model Require Import Config Nucleon Nucleus Event.
From Verif.Spec Require Import Grid Ecc EccRounded MeanRounded.
From Verif.Proof Require Import Basics RBasics Ieee IeeeInt IeeeSum IeeeEcc EccP.
Import ListNotations.
Local Open Scope R_scope.

Lemma zpow_S z n : zpow z (S n) = Cmult z (zpow z n). Proof. reflexivity. Qed.

(** Powers of nearby complex numbers. *)
Lemma zpow_close z z' u n : 0 <= u -> Cmod (Cminus z' z) <= u * Cmod z ->
  Cmod (Cminus (zpow z' n) (zpow z n)) <= ((1 + u) ^ n - 1) * Cmod z ^ n.
Proof.
  intros Hu H. pose proof (Cmod_ge_0 z) as M0.
  assert (M' : Cmod z' <= (1 + u) * Cmod z).
  { replace z' with (Cplus (Cminus z' z) z) by (unfold Cminus; ring). eapply Rle_trans; [apply Cmod_triangle|]. lra. }
  induction n as [|n IH].
  - replace (Cminus (zpow z' 0) (zpow z 0)) with (RtoC 0) by (unfold zpow; simpl; unfold Cminus; ring). rewrite Cmod_0. simpl. lra.
  - rewrite !zpow_S. replace (Cminus (Cmult z' (zpow z' n)) (Cmult z (zpow z n)))
      with (Cplus (Cmult z' (Cminus (zpow z' n) (zpow z n))) (Cmult (Cminus z' z) (zpow z n))) by (unfold Cminus; ring).
    eapply Rle_trans; [apply Cmod_triangle|]. rewrite !Cmod_mult, Cmod_zpow.
    assert (P0 : 0 <= Cmod z ^ n) by (apply pow_le; exact M0).
    assert (A : Cmod z' * Cmod (Cminus (zpow z' n) (zpow z n)) <= (1 + u) * Cmod z * (((1 + u) ^ n - 1) * Cmod z ^ n)).
    { apply Rmult_le_compat; auto using Cmod_ge_0. }
    assert (B : Cmod (Cminus z' z) * Cmod z ^ n <= u * Cmod z * Cmod z ^ n) by (apply Rmult_le_compat_r; auto).
    simpl. lra.
Qed.

Lemma pow_small n u : (n <= 5)%nat -> 0 <= u <= / 100 -> (1 + u) ^ n - 1 <= 6 * u.
Proof.
  intros Hn Hu. assert (P : 1 <= (1 + u)) by lra.
  apply Rle_trans with ((1 + u) ^ 5 - 1); [pose proof (Rle_pow (1 + u) n 5 P Hn); lra|].
  assert (u * u <= / 100 * u) by (apply Rmult_le_compat_r; lra). simpl. nra.
Qed.

(** One cell, with the exact offsets. *)
Definition cell_true (re im wt : f64) (zn : C) (om : R) : Prop :=
  0 <= om <= bpow radix2 301 /\
  is_finite re = true /\ is_finite im = true /\ is_finite wt = true /\
  Rabs (B2R re - fst zn) <= / 2 * sl * om + ab /\ Rabs (B2R im - snd zn) <= / 2 * sl * om + ab /\
  Rabs (B2R wt - om) <= / 2 * sl * om + ab /\ Cmod zn = om.

Lemma near_true re im wt zn' om' zn om T n z z' : (n <= 5)%nat -> 0 <= T -> cell_near re im wt zn' om' ->
  zn' = Cmult (RtoC T) (zpow z' n) -> zn = Cmult (RtoC T) (zpow z n) -> om' = T * Cmod z' ^ n -> om = T * Cmod z ^ n ->
  Cmod (Cminus z' z) <= 2 * u53 * Cmod z -> cell_true re im wt zn om.
Proof.
  intros Hn HT (HO & F1 & F2 & F3 & E1 & E2 & E3 & M) Ezn' Ezn Eom' Eom Hz.
  pose proof u53_small as [U0 U1]. pose proof (Cmod_ge_0 z) as M0.
  assert (D : Cmod (Cminus zn' zn) <= 12 * u53 * om).
  { rewrite Ezn', Ezn, Eom. replace (Cminus (Cmult (RtoC T) (zpow z' n)) (Cmult (RtoC T) (zpow z n))) with (Cmult (RtoC T) (Cminus (zpow z' n) (zpow z n))) by (unfold Cminus; ring).
    rewrite Cmod_mult, Cmod_R, Rabs_pos_eq by exact HT.
    pose proof (zpow_close z z' (2 * u53) n ltac:(lra) Hz) as ZC. pose proof (pow_small n (2 * u53) Hn ltac:(lra)) as PS.
    assert (P0 : 0 <= Cmod z ^ n) by (apply pow_le; exact M0).
    assert (((1 + 2 * u53) ^ n - 1) * Cmod z ^ n <= 6 * (2 * u53) * Cmod z ^ n) by (apply Rmult_le_compat_r; auto).
    replace (12 * u53 * (T * Cmod z ^ n)) with (T * (6 * (2 * u53) * Cmod z ^ n)) by ring. apply Rmult_le_compat_l; lra. }
  assert (O0 : 0 <= om) by (rewrite Eom; apply Rmult_le_pos; [exact HT|apply pow_le; exact M0]).
  assert (Mz : Cmod zn = om).
  { rewrite Ezn, Eom, Cmod_mult, Cmod_R, Rabs_pos_eq, Cmod_zpow by exact HT. reflexivity. }
  assert (OM : Rabs (om' - om) <= 12 * u53 * om).
  { rewrite <- M, <- Mz at 1. eapply Rle_trans; [|exact D]. apply Rabs_le. split.
    - pose proof (Cmod_triangle zn' (Cminus zn zn')) as TR. replace (Cplus zn' (Cminus zn zn')) with zn in TR by (unfold Cminus; ring).
      replace (Cmod (Cminus zn zn')) with (Cmod (Cminus zn' zn)) in TR by (replace (Cminus zn zn') with (Copp (Cminus zn' zn)) by (unfold Cminus; ring); symmetry; apply Cmod_opp). lra.
    - pose proof (Cmod_triangle zn (Cminus zn' zn)) as TR. replace (Cplus zn (Cminus zn' zn)) with zn' in TR by (unfold Cminus; ring). lra. }
  destruct (Cmod_comp (fst zn' - fst zn) (snd zn' - snd zn)) as [C1 C2].
  replace (fst zn' - fst zn, snd zn' - snd zn) with (Cminus zn' zn) in C1, C2 by (unfold Cminus, Cplus, Copp; cbn; f_equal; ring).
  assert (ab0 : 0 < ab) by apply bpow_gt_0. assert (S : / 4 * sl * om <= / 4 * sl * om) by lra.
  assert (US : 12 * u53 * om <= / 16 * sl * om).
  { apply Rmult_le_compat_r; [exact O0|]. unfold sl. change u53 with (/ 9007199254740992). lra. }
  apply Rabs_le_inv in OM. assert (sl0 : 0 < sl <= / 1000000000) by (unfold sl; lra).
  assert (SO : 0 <= sl * om <= om) by (split; [apply Rmult_le_pos; lra|]; rewrite <- (Rmult_1_l om) at 2; apply Rmult_le_compat_r; lra).
  assert (OM2 : om' <= 2 * om) by lra.
  assert (SO' : / 4 * sl * om' <= (/ 4 + / 8) * sl * om).
  { assert (om' <= om + / 16 * om) by lra. assert (sl * om' <= sl * (om + / 16 * om)) by (apply Rmult_le_compat_l; lra). lra. }
  assert (B301 : bpow radix2 301 = 2 * bpow radix2 300) by (change 301%Z with (1 + 300)%Z; rewrite bpow_plus; reflexivity).
  split. { split; [exact O0|]. rewrite B301. pose proof (bpow_gt_0 radix2 300). assert (12 * u53 * om <= / 2 * om) by (apply Rmult_le_compat_r; lra). lra. }
  split; [exact F1|]. split; [exact F2|]. split; [exact F3|].
  split; [|split; [|split; [|exact Mz]]].
  - replace (B2R re - fst zn) with ((B2R re - fst zn') + (fst zn' - fst zn)) by ring. eapply Rle_trans; [apply Rabs_triang|]. lra.
  - replace (B2R im - snd zn) with ((B2R im - snd zn') + (snd zn' - snd zn)) by ring. eapply Rle_trans; [apply Rabs_triang|]. lra.
  - replace (B2R wt - om) with ((B2R wt - om') + (om' - om)) by ring. eapply Rle_trans; [apply Rabs_triang|].
    assert (Rabs (om' - om) <= 12 * u53 * om) by (apply Rabs_le; lra). lra.
Qed.

(** Offsets from the centre. *)
Lemma offset_rel i (m : f64) : (0 <= i <= 2 ^ 13)%Z -> is_finite m = true -> Rabs (B2R m) <= bpow radix2 15 ->
  exists e, Rabs e <= u53 /\ B2R (f64_sub (f64_ofZ i) m) = (IZR i - B2R m) * (1 + e).
Proof.
  intros Hi F B. destruct (ofZ_ok i) as [Fi Ei]; [lia|].
  assert (I0 : 0 <= IZR i <= 8192) by (split; apply IZR_le; lia).
  destruct (sub_ok (f64_ofZ i) m Fi F) as (E & _).
  { rewrite Ei. apply Rle_trans with (bpow radix2 16); [|apply bpow_le; lia]. change (bpow radix2 15) with 32768 in B. change (bpow radix2 16) with 65536. apply Rabs_le_inv in B. apply Rabs_le. lra. }
  destruct (rnd_plus_rel (B2R (f64_ofZ i)) (- B2R m) (rep_B2R _)) as (e & He & R).
  { apply generic_format_opp. apply rep_B2R. }
  exists e. split; [exact He|]. rewrite E. unfold Rminus at 1. rewrite R, Ei. ring.
Qed.

Lemma offset_close x y e f : Rabs e <= u53 -> Rabs f <= u53 ->
  Cmod (Cminus (y * (1 + f), x * (1 + e)) (y, x)) <= 2 * u53 * Cmod (y, x).
Proof.
  intros He Hf. replace (Cminus (y * (1 + f), x * (1 + e)) (y, x)) with (y * f, x * e) by (unfold Cminus, Cplus, Copp; cbn; f_equal; ring).
  eapply Rle_trans; [apply (Cmod_pair _ _ 0 0)|]. rewrite !Rminus_0_r. replace (Cmod (0, 0)) with 0 by (symmetry; apply Cmod_0).
  destruct (Cmod_comp y x) as [C1 C2]. rewrite !Rabs_mult.
  assert (Rabs y * Rabs f <= Cmod (y, x) * u53) by (apply Rmult_le_compat; auto using Rabs_pos).
  assert (Rabs x * Rabs e <= Cmod (y, x) * u53) by (apply Rmult_le_compat; auto using Rabs_pos). lra.
Qed.

Section Acc.
Variable L : Libm.
Definition lim' : R := bpow radix2 301.

Definition acc_near (k : Z) (e : ecc_acc (FA L)) (Z : C) (om : R) : Prop :=
  exists sre sim swt, 0 <= om <= IZR k * lim' /\ (0 <= k)%Z /\ Cmod Z <= om /\
    Rabs (sre - fst Z) <= sl * om + IZR k * ab /\ Rabs (sim - snd Z) <= sl * om + IZR k * ab /\ Rabs (swt - om) <= sl * om + IZR k * ab /\
    tracks k (e_re e) sre (total k om) /\ tracks k (e_im e) sim (total k om) /\ tracks k (e_wt e) swt (total k om).

Lemma total_bound' k om : 0 <= om <= IZR k * lim' -> (0 <= k <= 2 ^ 26)%Z -> 0 <= total k om <= bpow radix2 330.
Proof.
  intros HO HK. unfold total. pose proof sl_small. pose proof ab_small.
  assert (0 <= IZR k <= 67108864) by (split; apply IZR_le; lia).
  assert (L1 : 1 <= lim') by (change 1 with (bpow radix2 0); apply bpow_le; lia).
  split; [nra|].
  apply Rle_trans with (2 * om + IZR k * 1); [nra|].
  apply Rle_trans with (3 * (67108864 * lim')); [nra|].
  unfold lim'. change 330%Z with (29 + 301)%Z. rewrite (bpow_plus radix2 29 301). change (bpow radix2 29) with 536870912.
  pose proof (bpow_gt_0 radix2 301). lra.
Qed.

Lemma near_zero : acc_near 0 ecc_zero (RtoC 0) 0.
Proof.
  destruct zero_v as [F E]. exists 0, 0, 0.
  split; [unfold lim'; lra|]. split; [lia|]. split; [rewrite Cmod_0; lra|].
  assert (T0 : total 0 0 = 0) by (unfold total; lra). rewrite T0. cbn [RtoC fst snd]. rewrite Rminus_0_r, Rabs_R0.
  split; [lra|]. split; [lra|]. split; [lra|]. split; [|split]; apply tracks_zero; auto.
Qed.

Lemma near_skip k e Z om : acc_near k e Z om -> acc_near (k + 1) e Z om.
Proof.
  intros (sre & sim & swt & HO & K & HC & H1 & H2 & HW & T1 & T2 & T3). pose proof ab_small.
  assert (TT : total k om <= total (k + 1) om) by (unfold total; rewrite plus_IZR; lra).
  exists sre, sim, swt. rewrite !plus_IZR. assert (0 <= lim') by apply bpow_ge_0.
  split; [lra|]. split; [lia|]. split; [lra|]. split; [lra|]. split; [lra|]. split; [lra|].
  split; [|split]; (eapply tracks_weaken; [eassumption|lia|exact TT]).
Qed.

Lemma near_add k e Z om re im wt zn w : acc_near k e Z om -> cell_true re im wt zn w -> (k < 2 ^ 26)%Z ->
  acc_near (k + 1) (ecc_add (A:=FA L) e re im wt) (Cplus Z zn) (om + w).
Proof.
  intros (sre & sim & swt & HO & K & HC & H1 & H2 & HW & T1 & T2 & T3) (W0 & F1 & F2 & F3 & E1 & E2 & E3 & M) Hk.
  destruct (Cmod_comp (fst zn) (snd zn)) as [C1 C2]. rewrite <- surjective_pairing, M in C1, C2.
  assert (TT : total (k + 1) (om + w) = total k om + ((1 + sl) * w + ab)) by (unfold total; rewrite plus_IZR; ring).
  assert (HO' : 0 <= om + w <= IZR (k + 1) * lim') by (rewrite plus_IZR; unfold lim' in *; lra).
  pose proof (total_bound' _ _ HO' ltac:(lia)) as TB. rewrite TT in TB.
  assert (B9 : bpow radix2 330 <= bpow radix2 900) by (apply bpow_le; lia).
  pose proof sl_small. pose proof ab_small. assert (SW : 0 <= sl * w) by (apply Rmult_le_pos; lra).
  exists (sre + B2R re), (sim + B2R im), (swt + B2R wt).
  split; [exact HO'|]. split; [lia|]. split; [eapply Rle_trans; [apply Cmod_triangle|]; lra|]. rewrite TT, plus_IZR. cbn [Cplus fst snd].
  split. { replace (sre + B2R re - (fst Z + fst zn)) with ((sre - fst Z) + (B2R re - fst zn)) by ring. eapply Rle_trans; [apply Rabs_triang|]. lra. }
  split. { replace (sim + B2R im - (snd Z + snd zn)) with ((sim - snd Z) + (B2R im - snd zn)) by ring. eapply Rle_trans; [apply Rabs_triang|]. lra. }
  split. { replace (swt + B2R wt - (om + w)) with ((swt - om) + (B2R wt - w)) by ring. eapply Rle_trans; [apply Rabs_triang|]. lra. }
  assert (B1 : Rabs (B2R re) <= (1 + sl) * w + ab).
  { replace (B2R re) with (fst zn + (B2R re - fst zn)) by ring. eapply Rle_trans; [apply Rabs_triang|]. lra. }
  assert (B2 : Rabs (B2R im) <= (1 + sl) * w + ab).
  { replace (B2R im) with (snd zn + (B2R im - snd zn)) by ring. eapply Rle_trans; [apply Rabs_triang|]. lra. }
  assert (B3 : Rabs (B2R wt) <= (1 + sl) * w + ab).
  { replace (B2R wt) with (w + (B2R wt - w)) by ring. eapply Rle_trans; [apply Rabs_triang|]. rewrite (Rabs_pos_eq w) by lra. lra. }
  split; [|split]; (apply tracks_add; [assumption|assumption|lra|lia|lra]).
Qed.

Lemma fmax_thr (w : f64) : is_finite w = true ->
  let d := f64_fmax w (f64_lit 1 (-12)) in is_finite d = true /\ B2R d = Rmax (B2R w) threshold.
Proof.
  intros F d. destruct tiny_v as [Ft Bt]. unfold d, f64_fmax, threshold.
  rewrite (finite_not_nan _ F), (finite_not_nan _ Ft). rewrite ltb_ok by auto.
  destruct (Rlt_bool_spec (B2R w) (B2R (f64_lit 1 (-12)))).
  - split; [exact Ft|]. rewrite Rmax_right by lra. reflexivity.
  - split; [exact F|]. rewrite Rmax_left by lra. reflexivity.
Qed.

Lemma Rmax_lip a b c : Rabs (Rmax a c - Rmax b c) <= Rabs (a - b).
Proof. unfold Rmax. destruct (Rle_dec a c), (Rle_dec b c); unfold Rabs; repeat destruct Rcase_abs; lra. Qed.

Lemma near_finish k e Z om : acc_near k e Z om -> (k <= 2 ^ 26)%Z ->
  is_finite (ecc_finish (A:=FA L) e : f64) = true /\ 0 <= B2R (ecc_finish (A:=FA L) e : f64) /\
  Rabs (B2R (ecc_finish (A:=FA L) e : f64) - Cmod Z / Rmax om threshold) <= / 4194304.
Proof.
  intros (sre & sim & swt & HO & K & HC & HR & HI & HW & T1 & T2 & T3) Hk.
  pose proof (total_bound' _ _ HO ltac:(lia)) as TB. set (B := total k om) in *.
  assert (B4 : 2 * bpow radix2 330 <= bpow radix2 400).
  { change 2 with (bpow radix2 1). rewrite <- bpow_plus. apply bpow_le. lia. }
  pose proof (tracks_bound _ _ _ _ T1 ltac:(lia)) as M1. pose proof (tracks_bound _ _ _ _ T2 ltac:(lia)) as M2. pose proof (tracks_bound _ _ _ _ T3 ltac:(lia)) as M3.
  destruct T1 as (F1 & _ & E1 & _). destruct T2 as (F2 & _ & E2 & _). destruct T3 as (F3 & _ & E3 & _).
  destruct (hypot_ok (e_re e) (e_im e) F1 F2) as (Fh & Sh & Eh); [lra|lra|].
  set (h := f64_sqrt _) in *.
  destruct (fmax_thr (e_wt e) F3) as (Fd & Ed). set (d := f64_fmax _ _) in *.
  unfold ecc_finish. change (nsqrt (FA L)) with f64_sqrt. change (ndiv (FA L)) with f64_div. change (nfmax (FA L)) with f64_fmax.
  change (nadd (FA L)) with f64_add. change (nmul (FA L)) with f64_mul. change (@Event.tiny (FA L)) with (f64_lit 1 (-12)). fold h. fold d.
  assert (h0 : 0 <= B2R h) by (apply sign_nonneg; auto).
  assert (TH : bpow radix2 (-40) <= threshold) by apply tiny_v. pose proof (bpow_gt_0 radix2 (-40)) as TH0.
  assert (d0 : bpow radix2 (-40) <= B2R d) by (rewrite Ed; eapply Rle_trans; [exact TH|apply Rmax_r]).
  set (D := Rmax om threshold) in *. assert (D0 : om <= D /\ threshold <= D) by (split; [apply Rmax_l|apply Rmax_r]).
  assert (KU : 2 * IZR k * u53 <= / 67108864).
  { assert (IZR k <= 67108864) by (apply IZR_le; lia). change u53 with (/ 9007199254740992). lra. }
  assert (EB : 2 * IZR k * u53 * B <= / 67108864 * B) by (apply Rmult_le_compat_r; lra).
  assert (KA : IZR k * ab <= / 1000000000 * B2R d).
  { apply Rle_trans with (/ 1000000000 * bpow radix2 (-40)); [|lra].
    apply Rle_trans with (67108864 * ab); [apply Rmult_le_compat_r; [pose proof ab_small; lra|apply IZR_le; lia]|].
    unfold ab. change (-40)%Z with (160 + -200)%Z. rewrite (bpow_plus radix2 160 (-200)).
    assert (bpow radix2 60 <= bpow radix2 160) by (apply bpow_le; lia). change (bpow radix2 60) with 1152921504606846976 in *.
    pose proof (bpow_gt_0 radix2 (-200)). nra. }
  assert (H5 : bpow radix2 (-530) <= / 1000000000 * B2R d).
  { apply Rle_trans with (/ 1000000000 * bpow radix2 (-40)); [|lra].
    apply Rle_trans with (bpow radix2 (-100)); [apply bpow_le; lia|].
    change (-40)%Z with (60 + -100)%Z. rewrite (bpow_plus radix2 60 (-100)). change (bpow radix2 60) with 1152921504606846976.
    pose proof (bpow_gt_0 radix2 (-100)). lra. }
  set (ka := IZR k * ab) in *.
  assert (ka0 : 0 <= ka) by (apply Rmult_le_pos; [apply IZR_le; lia|pose proof ab_small; lra]).
  assert (EBv : B = (1 + sl) * om + ka) by reflexivity.
  pose proof sl_small as SL.
  assert (slo : 0 <= sl * om <= / 1000000000 * om) by (split; [apply Rmult_le_pos; lra|apply Rmult_le_compat_r; lra]).
  set (eta := / 60000000 * om + / 900000000 * B2R d).
  assert (N1 : Rabs (B2R (e_re e) - fst Z) <= eta).
  { replace (B2R (e_re e) - fst Z) with ((B2R (e_re e) - sre) + (sre - fst Z)) by ring. eapply Rle_trans; [apply Rabs_triang|]. unfold eta. lra. }
  assert (N2 : Rabs (B2R (e_im e) - snd Z) <= eta).
  { replace (B2R (e_im e) - snd Z) with ((B2R (e_im e) - sim) + (sim - snd Z)) by ring. eapply Rle_trans; [apply Rabs_triang|]. unfold eta. lra. }
  assert (N3 : Rabs (B2R (e_wt e) - om) <= eta).
  { replace (B2R (e_wt e) - om) with ((B2R (e_wt e) - swt) + (swt - om)) by ring. eapply Rle_trans; [apply Rabs_triang|]. unfold eta. lra. }
  assert (ND : Rabs (B2R d - D) <= eta) by (rewrite Ed; unfold D; eapply Rle_trans; [apply Rmax_lip|exact N3]).
  set (q := Cmod (B2R (e_re e), B2R (e_im e))).
  assert (NQ : Rabs (q - Cmod Z) <= 2 * eta).
  { rewrite (surjective_pairing Z). apply Rabs_le. split.
    - pose proof (Cmod_pair (fst Z) (snd Z) (B2R (e_re e)) (B2R (e_im e))) as CP. rewrite (Rabs_minus_sym (fst Z)), (Rabs_minus_sym (snd Z)) in CP. fold q in CP. lra.
    - pose proof (Cmod_pair (B2R (e_re e)) (B2R (e_im e)) (fst Z) (snd Z)) as CP. fold q in CP. lra. }
  assert (q0 : 0 <= q) by apply Cmod_ge_0. pose proof (Cmod_ge_0 Z) as Z0.
  rewrite <- Cmod_sqrt in Eh. fold q in Eh.
  assert (uq : 0 <= 3 * u53 * q <= / 100000000000000 * q).
  { pose proof u53_small. split; [apply Rmult_le_pos; lra|]. apply Rmult_le_compat_r; lra. }
  apply Rabs_le_inv in Eh, NQ, ND.
  assert (OD : om <= 2 * B2R d) by (unfold eta in *; lra).
  assert (NH : Rabs (B2R h - Cmod Z) <= 2 * eta + / 500000000 * B2R d) by (apply Rabs_le; unfold eta in *; lra).
  clear NQ Eh uq.
  assert (dp : 0 < B2R d) by lra. assert (Dp : 0 < D) by lra.
  assert (ZD : 0 <= Cmod Z / D <= 1).
  { split; [apply Rmult_le_pos; [lra|apply Rlt_le, Rinv_0_lt_compat; exact Dp]|]. apply Rmult_le_reg_r with D; [exact Dp|]. unfold Rdiv. rewrite Rmult_assoc, Rinv_l; lra. }
  assert (Q : Rabs (B2R h / B2R d - Cmod Z / D) <= / 8000000).
  { replace (B2R h / B2R d - Cmod Z / D) with (((B2R h - Cmod Z) + Cmod Z / D * (D - B2R d)) / B2R d) by (field; lra).
    unfold Rdiv at 1. rewrite Rabs_mult, Rabs_inv, (Rabs_pos_eq (B2R d)) by lra.
    apply Rmult_le_reg_r with (B2R d); [exact dp|]. rewrite Rmult_assoc, Rinv_l, Rmult_1_r by lra.
    eapply Rle_trans; [apply Rabs_triang|]. rewrite Rabs_mult, (Rabs_pos_eq (Cmod Z / D)) by lra.
    assert (Cmod Z / D * Rabs (D - B2R d) <= 1 * eta) by (apply Rmult_le_compat; [lra|apply Rabs_pos|lra|apply Rabs_le; lra]).
    unfold eta in *. lra. }
  apply Rabs_le_inv in Q.
  assert (P0 : 0 <= B2R h / B2R d) by (apply Rmult_le_pos; [lra|apply Rlt_le, Rinv_0_lt_compat; exact dp]).
  destruct (div_ok h d Fh ltac:(lra)) as (E & F & _).
  { rewrite Rabs_pos_eq by lra. apply Rle_trans with (bpow radix2 1); [change (bpow radix2 1) with 2; lra|apply bpow_le; lia]. }
  split; [exact F|]. rewrite E. split; [apply rnd_nonneg; lra|].
  pose proof (rnd_abs (B2R h / B2R d) 2 ltac:(rewrite Rabs_pos_eq; lra)) as RA.
  assert (bpow radix2 (-1022) <= 2) by (change 2 with (bpow radix2 1); apply bpow_le; lia). specialize (RA H). apply Rabs_le_inv in RA.
  pose proof u53_small. set (u := u53) in *. apply Rabs_le. lra.
Qed.
End Acc.

Section Obs.
Variable L : Libm.
Variables xc yc : f64.
Hypothesis Fxc : is_finite xc = true.
Hypothesis Fyc : is_finite yc = true.
Hypothesis Bxc : Rabs (B2R xc) <= bpow radix2 15.
Hypothesis Byc : Rabs (B2R yc) <= bpow radix2 15.
Variable t : Z * Z -> f64.

Let z (c : Z * Z) : C := (IZR (fst c) - B2R yc, IZR (snd c) - B2R xc).
Let tr (c : Z * Z) : R := B2R (t c).
Definition term (n : nat) (c : Z * Z) : C := Cmult (RtoC (tr c)) (zpow (z c) n).
Definition size (n : nat) (c : Z * Z) : R := tr c * Cmod (z c) ^ n.

Definition quad_near (k : Z) (a : ecc_acc (FA L) * ecc_acc (FA L) * ecc_acc (FA L) * ecc_acc (FA L)) (l : list (Z * Z)) : Prop :=
  let '(a2, a3, a4, a5) := a in let near n e := acc_near L k e (Csum (term n) l) (Rsum (size n) l) in
  near 2%nat a2 /\ near 3%nat a3 /\ near 4%nat a4 /\ near 5%nat a5.

Lemma Csum_snoc {X} (f : X -> C) l c : Csum f (l ++ [c]) = Cplus (Csum f l) (f c).
Proof. induction l as [|x l IH]; cbn [app Csum fold_right]; [unfold Csum; cbn [fold_right]; ring|]. change (Cplus (f x) (Csum f (l ++ [c])) = Cplus (Cplus (f x) (Csum f l)) (f c)). rewrite IH. ring. Qed.
Lemma Rsum_snoc {X} (f : X -> R) l c : Rsum f (l ++ [c]) = Rsum f l + f c.
Proof. rewrite Rsum_app, Rsum_cons. unfold Rsum at 2. cbn [fold_right]. ring. Qed.

Lemma obs_near (l : list (Z * Z)) : forall k a l0,
  (forall c, In c l -> (0 <= fst c <= 2 ^ 13)%Z /\ (0 <= snd c <= 2 ^ 13)%Z /\ is_finite (t c) = true /\ 0 <= B2R (t c) <= bpow radix2 200) ->
  quad_near k a l0 -> (k + Z.of_nat (length l) <= 2 ^ 26)%Z ->
  quad_near (k + Z.of_nat (length l))
    (fold_left (fun acc (c : Z * Z) =>
       if nltb (FA L) (t c) tiny then acc else obs_cell (A:=FA L) xc yc (t c) (fst c) (snd c) acc) l a)
    (l0 ++ heavy threshold l tr).
Proof.
  induction l as [|c l IH]; intros k a l0 Hl HQ Hk; cbn [fold_left length].
  - replace (k + Z.of_nat 0)%Z with k by lia. unfold heavy. cbn [filter]. rewrite app_nil_r. exact HQ.
  - replace (k + Z.of_nat (Datatypes.S (length l)))%Z with ((k + 1) + Z.of_nat (length l))%Z by lia.
    cbn [length] in Hk.
    destruct (Hl c ltac:(simpl; auto)) as (I1 & I2 & F & B). destruct tiny_v as [Fti Bti].
    assert (EL : nltb (FA L) (t c) tiny = Rltb (tr c) threshold).
    { change (nltb (FA L) (t c) tiny) with (f64_ltb (t c) (f64_lit 1 (-12))). rewrite ltb_ok by auto. fold threshold. fold (tr c).
      destruct (Rlt_bool_spec (tr c) threshold); symmetry; [apply Rltb_true|apply Rltb_false]; lra. }
    unfold heavy. cbn [filter]. rewrite <- EL. destruct (nltb (FA L) (t c) tiny) eqn:E; cbn [negb].
    + apply IH; [intros; apply Hl; simpl; auto| |lia].
      destruct a as [[[a2 a3] a4] a5]. destruct HQ as (Q2 & Q3 & Q4 & Q5). repeat split; apply near_skip; assumption.
    + change (c :: filter (fun c => negb (Rltb (tr c) threshold)) l) with ([c] ++ heavy threshold l tr). rewrite app_assoc.
      apply IH; [intros; apply Hl; simpl; auto| |lia].
      symmetry in EL. apply Rltb_false in EL.
      destruct a as [[[a2 a3] a4] a5]. destruct HQ as (Q2 & Q3 & Q4 & Q5).
      assert (B' : bpow radix2 (-40) <= B2R (t c) <= bpow radix2 200) by (unfold tr, threshold in EL; lra).
      destruct (offset_ok (snd c) xc I2 Fxc Bxc) as [Fx Bx]. destruct (offset_ok (fst c) yc I1 Fyc Byc) as [Fy By].
      destruct (offset_rel (snd c) xc I2 Fxc Bxc) as (ex & Hex & Ex). destruct (offset_rel (fst c) yc I1 Fyc Byc) as (ey & Hey & Ey).
      unfold obs_cell. cbv zeta.
      change (nofZ (FA L)) with f64_ofZ. change (nsub (FA L)) with f64_sub. change (nmul (FA L)) with f64_mul.
      change (nadd (FA L)) with f64_add. change (nsqrt (FA L)) with f64_sqrt. change (nlit (FA L)) with f64_lit.
      set (x := f64_sub (f64_ofZ (snd c)) xc) in *. set (y := f64_sub (f64_ofZ (fst c)) yc) in *.
      assert (HZ : Cmod (Cminus (B2R y, B2R x) (z c)) <= 2 * u53 * Cmod (z c)).
      { rewrite Ex, Ey. apply offset_close; assumption. }
      assert (HM : Cmod (B2R y, B2R x) = sqrt (B2R x * B2R x + B2R y * B2R y)) by (rewrite Cmod_sqrt; f_equal; ring).
      assert (T0 : 0 <= tr c) by (unfold tr; lra).
      unfold quad_near. rewrite !Csum_snoc, !Rsum_snoc.
      split; [|split; [|split]]; (apply near_add; [assumption| |lia]).
      * eapply (near_true _ _ _ _ _ _ _ (tr c) 2 (z c) (B2R y, B2R x)); [lia|exact T0|exact (near2 _ _ _ F Fx Fy B' Bx By)| |reflexivity|rewrite HM; reflexivity|reflexivity|exact HZ].
        rewrite zpow2. unfold Cmult, RtoC. cbn [fst snd]. fold (tr c). f_equal; ring.
      * eapply (near_true _ _ _ _ _ _ _ (tr c) 3 (z c) (B2R y, B2R x)); [lia|exact T0|exact (near3 _ _ _ F Fx Fy B' Bx By)| |reflexivity|rewrite HM; reflexivity|reflexivity|exact HZ].
        rewrite zpow3. unfold Cmult, RtoC. cbn [fst snd]. fold (tr c). f_equal; ring.
      * eapply (near_true _ _ _ _ _ _ _ (tr c) 4 (z c) (B2R y, B2R x)); [lia|exact T0|exact (near4 _ _ _ F Fx Fy B' Bx By)| |reflexivity|rewrite HM; reflexivity|reflexivity|exact HZ].
        rewrite zpow4. unfold Cmult, RtoC. cbn [fst snd]. fold (tr c). f_equal; ring.
      * eapply (near_true _ _ _ _ _ _ _ (tr c) 5 (z c) (B2R y, B2R x)); [lia|exact T0|exact (near5 _ _ _ F Fx Fy B' Bx By)| |reflexivity|rewrite HM; reflexivity|reflexivity|exact HZ].
        rewrite zpow5. unfold Cmult, RtoC. cbn [fst snd]. fold (tr c). f_equal; ring.
Qed.

(** Exchanging x and y does not change the modulus. *)
Lemma term_harmonic n cs : Cmod (Csum (term n) (heavy threshold cs tr)) = Cmod (harmonic threshold n cs tr (B2R xc, B2R yc)) /\
  Rsum (size n) (heavy threshold cs tr) = weight threshold n cs tr (B2R xc, B2R yc).
Proof.
  assert (ZE : forall c, z c = Cmult (0, 1) (Cconj (rel (B2R xc, B2R yc) c))).
  { intros c. unfold z, rel, Cmult, Cconj. cbn [fst snd]. f_equal; ring. }
  assert (C1 : Cmod (0, 1) = 1) by (rewrite Cmod_sqrt; replace (0 * 0 + 1 * 1) with 1 by ring; apply sqrt_1).
  split.
  - unfold harmonic. rewrite (Csum_ext (term n) (fun c => Cmult (zpow (0, 1) n) (Cconj (Cmult (RtoC (tr c)) (zpow (rel (B2R xc, B2R yc) c) n))))).
    + rewrite Csum_Cmult, Csum_conj, Cmod_mult, Cmod_zpow, Cmod_conj, C1, pow1, Rmult_1_l. reflexivity.
    + intros c _. unfold term. rewrite ZE, zpow_mult, zpow_conj. unfold Cmult, Cconj, RtoC; cbn [fst snd]. f_equal; ring.
  - unfold weight. apply Rsum_ext. intros c _. unfold size. rewrite ZE, Cmod_mult, Cmod_conj, C1, Rmult_1_l. reflexivity.
Qed.
End Obs.

(** ** The centre *)
Section Centre.
Variable t : Z * Z -> f64.
Variable cs : list (Z * Z).
Variable N : Z.
Hypothesis HN : (1 <= N <= 2 ^ 13)%Z.
Hypothesis Len : (Z.of_nat (length cs) <= N * N)%Z.
Hypothesis Cells : forall c, In c cs -> is_finite (t c) = true /\ 0 <= B2R (t c) <= bpow radix2 200.
Variable ix : Z * Z -> Z.
Hypothesis Hix : forall c, In c cs -> (0 <= ix c <= N)%Z.
Let S := Rsum (fun c => B2R (t c)) cs.
Hypothesis SP : bpow radix2 (-500) <= S.

Lemma centre_close :
  let m := f64_div (fold_left (fun acc c => f64_add acc (f64_mul (t c) (f64_ofZ (ix c)))) cs (f64_lit 0 0))
                   (fold_left (fun acc c => f64_add acc (t c)) cs (f64_lit 0 0)) in
  is_finite m = true /\ Rabs (B2R m - Rsum (fun c => B2R (t c) * IZR (ix c)) cs / S) <= IZR N * IZR N * IZR N * bpow radix2 (-49).
Proof.
  intros m. pose proof (bpow_gt_0 radix2 (-500)) as P5. pose proof u53_small as [U0 U1].
  assert (L26 : (Z.of_nat (length cs) <= 2 ^ 26)%Z) by nia.
  set (k := Z.of_nat (length cs)) in *. assert (K0 : 0 <= IZR k) by (apply IZR_le; lia).
  assert (NR : 1 <= IZR N <= 8192) by (split; apply IZR_le; lia).
  assert (K1 : IZR k <= IZR N * IZR N) by (rewrite <- mult_IZR; apply IZR_le; exact Len).
  pose proof (S_range t cs L26 Cells) as SR. fold S in SR.
  assert (T1 : tracks k (fold_left (fun acc c => f64_add acc (t c)) cs (f64_lit 0 0)) S S).
  { apply sum_tracks; [|exact L26]. intros c Hc. destruct (Cells c Hc) as [F B].
    assert (bpow radix2 200 <= bpow radix2 230) by (apply bpow_le; lia).
    split; [exact F|]. rewrite Rabs_pos_eq by lra. lra. }
  assert (Prod : forall c, In c cs -> is_finite (f64_mul (t c) (f64_ofZ (ix c))) = true /\
     exists e h, Rabs e <= u53 /\ Rabs h <= bpow radix2 (-1075) /\ B2R (f64_mul (t c) (f64_ofZ (ix c))) = B2R (t c) * IZR (ix c) * (1 + e) + h).
  { intros c Hc. destruct (Cells c Hc) as [F B]. specialize (Hix c Hc). destruct (ofZ_ok (ix c)) as [Fi Ei]; [lia|].
    assert (I0 : 0 <= IZR (ix c) <= 8192) by (split; apply IZR_le; lia).
    destruct (mul_ok (t c) (f64_ofZ (ix c)) F Fi) as (E & F' & _).
    { rewrite Ei, Rabs_pos_eq by (apply Rmult_le_pos; lra). apply Rle_trans with (bpow radix2 200 * bpow radix2 13); [change (bpow radix2 13) with 8192; apply Rmult_le_compat; lra|].
      rewrite <- bpow_plus. apply bpow_le. lia. }
    split; [exact F'|]. rewrite E, Ei. destruct (rnd_err (B2R (t c) * IZR (ix c))) as (e & h & He & Hh & R). exists e, h. auto. }
  assert (B75 : 0 < bpow radix2 (-1075)) by apply bpow_gt_0.
  assert (IX : forall c, In c cs -> 0 <= B2R (t c) * IZR (ix c) <= IZR N * B2R (t c)).
  { intros c Hc. destruct (Cells c Hc) as [F B]. specialize (Hix c Hc). assert (0 <= IZR (ix c) <= IZR N) by (split; apply IZR_le; lia).
    split; [apply Rmult_le_pos; lra|]. rewrite Rmult_comm. apply Rmult_le_compat_r; lra. }
  set (g := fun c => 2 * (IZR N * B2R (t c)) + bpow radix2 (-1075)).
  assert (T2 : tracks k (fold_left (fun acc c => f64_add acc (f64_mul (t c) (f64_ofZ (ix c)))) cs (f64_lit 0 0))
     (Rsum (fun c => B2R (f64_mul (t c) (f64_ofZ (ix c)))) cs) (Rsum g cs)).
  { apply (sum_tracks (fun c => f64_mul (t c) (f64_ofZ (ix c))) g); [|exact L26]. intros c Hc.
    destruct (Prod c Hc) as (F & e & h & He & Hh & R). pose proof (IX c Hc) as I. destruct (Cells c Hc) as [_ B]. split; [exact F|]. unfold g. split.
    - rewrite R. eapply Rle_trans; [apply Rabs_triang|]. apply Rplus_le_compat; [|exact Hh]. rewrite Rabs_mult, Rabs_pos_eq by lra.
      rewrite Rmult_comm. apply Rmult_le_compat; try apply Rabs_pos; try lra. apply Rabs_le. apply Rabs_le_inv in He. lra.
    - assert (IZR N * B2R (t c) <= 8192 * bpow radix2 200) by (apply Rmult_le_compat; lra).
      assert (bpow radix2 (-1075) <= bpow radix2 200) by (apply bpow_le; lia).
      change 230%Z with (30 + 200)%Z. rewrite bpow_plus. change (bpow radix2 30) with 1073741824. lra. }
  destruct T1 as (F1 & _ & E1 & _). destruct T2 as (F2 & _ & E2 & _).
  set (tot := fold_left (fun acc c => f64_add acc (t c)) cs (f64_lit 0 0)) in *.
  set (num := fold_left (fun acc c => f64_add acc (f64_mul (t c) (f64_ofZ (ix c)))) cs (f64_lit 0 0)) in *.
  set (Sn := Rsum (fun c => B2R (t c) * IZR (ix c)) cs).
  assert (SnR : 0 <= Sn <= IZR N * S).
  { unfold Sn, S. split; [apply Rsum_nonneg; intros c Hc; apply IX; exact Hc|]. rewrite <- Rsum_scale. apply Rsum_le. intros c Hc. apply IX. exact Hc. }
  assert (KB : IZR k * bpow radix2 (-1075) <= u53 * S).
  { apply Rle_trans with (bpow radix2 26 * bpow radix2 (-1075)).
    - apply Rmult_le_compat_r; [lra|]. change (bpow radix2 26) with (IZR (2 ^ 26)). apply IZR_le. exact L26.
    - apply Rle_trans with (u53 * bpow radix2 (-500)); [rewrite <- !bpow_plus; apply bpow_le; lia|apply Rmult_le_compat_l; lra]. }
  assert (GS : Rsum g cs <= 3 * (IZR N * S)).
  { unfold g. rewrite Rsum_plus, Rsum_const, INR_IZR_INZ. fold k. rewrite (Rsum_ext _ (fun c => (2 * IZR N) * B2R (t c))) by (intros; ring). rewrite Rsum_scale. fold S.
    assert (u53 * S <= 1 * S) by (apply Rmult_le_compat_r; lra). assert (1 * S <= IZR N * S) by (apply Rmult_le_compat_r; lra). lra. }
  assert (PS : Rabs (Rsum (fun c => B2R (f64_mul (t c) (f64_ofZ (ix c)))) cs - Sn) <= 2 * u53 * (IZR N * S)).
  { assert (Q : forall l, (forall c, In c l -> In c cs) -> Rabs (Rsum (fun c => B2R (f64_mul (t c) (f64_ofZ (ix c)))) l - Rsum (fun c => B2R (t c) * IZR (ix c)) l)
        <= u53 * (IZR N * Rsum (fun c => B2R (t c)) l) + IZR (Z.of_nat (length l)) * bpow radix2 (-1075)).
    { induction l as [|c l IH]; intros Hl.
      - unfold Rsum; cbn [fold_right length]. rewrite Rminus_0_r, Rabs_R0. simpl. lra.
      - rewrite !Rsum_cons. cbn [length]. rewrite Nat2Z.inj_succ, succ_IZR.
        destruct (Prod c (Hl c (or_introl eq_refl))) as (_ & e & h & He & Hh & R). pose proof (IX c (Hl c (or_introl eq_refl))) as I.
        specialize (IH (fun c Hc => Hl c (or_intror Hc))). rewrite R.
        match goal with |- Rabs (?a * (1 + e) + h + ?b - (?a + ?d)) <= _ => replace (a * (1 + e) + h + b - (a + d)) with ((a * e + h) + (b - d)) by ring end.
        eapply Rle_trans; [apply Rabs_triang|]. 
        assert (Rabs (B2R (t c) * IZR (ix c) * e + h) <= u53 * (IZR N * B2R (t c)) + bpow radix2 (-1075)).
        { eapply Rle_trans; [apply Rabs_triang|]. apply Rplus_le_compat; [|exact Hh]. rewrite Rabs_mult, Rabs_pos_eq by lra. rewrite Rmult_comm. apply Rmult_le_compat; try apply Rabs_pos; lra. }
        lra. }
    specialize (Q cs (fun c H => H)). fold k Sn S in Q. assert (u53 * S <= u53 * (IZR N * S)).
    { apply Rmult_le_compat_l; [lra|]. rewrite <- (Rmult_1_l S) at 1. apply Rmult_le_compat_r; lra. }
    lra. }
  set (n3 := IZR N * IZR N * IZR N).
  assert (ku : 2 * IZR k * u53 <= / 67108864).
  { assert (IZR k <= 67108864) by (apply IZR_le; lia). change u53 with (/ 9007199254740992). lra. }
  assert (S0 : 0 < S) by lra.
  assert (EN : Rabs (B2R num - Sn) <= 8 * u53 * n3 * S).
  { replace (B2R num - Sn) with ((B2R num - Rsum (fun c => B2R (f64_mul (t c) (f64_ofZ (ix c)))) cs) + (Rsum (fun c => B2R (f64_mul (t c) (f64_ofZ (ix c)))) cs - Sn)) by ring.
    eapply Rle_trans; [apply Rabs_triang|].
    assert (A1 : 2 * IZR k * u53 * Rsum g cs <= 2 * (IZR N * IZR N) * u53 * (3 * (IZR N * S))).
    { apply Rmult_le_compat; [nra| |apply Rmult_le_compat_r; lra|exact GS].
      apply Rsum_nonneg. intros c Hc. unfold g. pose proof (IX c Hc). lra. }
    assert (A2 : 2 * u53 * (IZR N * S) <= 2 * u53 * (n3 * S)).
    { apply Rmult_le_compat_l; [lra|]. apply Rmult_le_compat_r; [lra|]. unfold n3. nra. }
    unfold n3 in *. lra. }
  assert (ET : Rabs (B2R tot - S) <= 2 * IZR k * u53 * S) by exact E1.
  assert (ET2 : Rabs (B2R tot - S) <= 2 * (IZR N * IZR N) * u53 * S) by (eapply Rle_trans; [exact ET|]; apply Rmult_le_compat_r; [lra|]; apply Rmult_le_compat_r; lra).
  assert (ET3 : Rabs (B2R tot - S) <= / 67108864 * S) by (eapply Rle_trans; [exact ET|]; apply Rmult_le_compat_r; lra).
  apply Rabs_le_inv in ET3. assert (tp : / 2 * S <= B2R tot) by lra. assert (tp0 : 0 < B2R tot) by lra.
  assert (SQ : 0 <= Sn / S <= IZR N).
  { split; [apply Rmult_le_pos; [lra|apply Rlt_le, Rinv_0_lt_compat; lra]|]. apply Rmult_le_reg_r with S; [lra|]. unfold Rdiv. rewrite Rmult_assoc, Rinv_l; lra. }
  assert (n31 : IZR N <= n3) by (unfold n3; nra).
  assert (Q : Rabs (B2R num / B2R tot - Sn / S) <= 11 * u53 * n3).
  { replace (B2R num / B2R tot - Sn / S) with (((B2R num - Sn) + Sn / S * (S - B2R tot)) / B2R tot) by (field; lra).
    unfold Rdiv at 1. rewrite Rabs_mult, Rabs_inv, (Rabs_pos_eq (B2R tot)) by lra.
    apply Rmult_le_reg_r with (B2R tot); [exact tp0|]. rewrite Rmult_assoc, Rinv_l, Rmult_1_r by lra.
    eapply Rle_trans; [apply Rabs_triang|]. rewrite Rabs_mult, (Rabs_pos_eq (Sn / S)) by lra. rewrite (Rabs_minus_sym S).
    assert (A : Sn / S * Rabs (B2R tot - S) <= IZR N * (2 * (IZR N * IZR N) * u53 * S)) by (apply Rmult_le_compat; [lra|apply Rabs_pos|lra|exact ET2]).
    apply Rle_trans with (10 * u53 * n3 * S); [unfold n3 in *; lra|].
    assert (un : 0 <= u53 * n3) by (apply Rmult_le_pos; lra).
    apply Rle_trans with (11 * u53 * n3 * (S * (1 - / 67108864))); [nra|]. apply Rmult_le_compat_l; lra. }
  assert (un : 11 * u53 * n3 <= 1).
  { assert (n3 <= 8192 * 8192 * 8192) by (unfold n3; apply Rmult_le_compat; [nra|lra|apply Rmult_le_compat; lra|lra]).
    change u53 with (/ 9007199254740992). lra. }
  pose proof Q as Q'. apply Rabs_le_inv in Q'.
  assert (QB : Rabs (B2R num / B2R tot) <= 2 * IZR N) by (apply Rabs_le; lra).
  destruct (div_ok num tot F2 ltac:(lra)) as (E & F & _).
  { eapply Rle_trans; [exact QB|]. apply Rle_trans with (bpow radix2 20); [change (bpow radix2 20) with 1048576; lra|apply bpow_le; lia]. }
  split; [exact F|]. unfold m. rewrite E. fold Sn.
  assert (B22 : bpow radix2 (-1022) <= 2 * IZR N) by (apply Rle_trans with (bpow radix2 0); [apply bpow_le; lia|change (bpow radix2 0) with 1; lra]).
  pose proof (rnd_abs _ _ QB B22) as RA.
  assert (C49 : bpow radix2 (-49) = 16 * u53) by (change (-49)%Z with (4 + -53)%Z; rewrite bpow_plus; reflexivity). fold n3. rewrite C49.
  assert (UN : u53 * IZR N <= u53 * n3) by (apply Rmult_le_compat_l; lra).
  apply Rabs_le_inv in RA. apply Rabs_le. lra.
Qed.
End Centre.

(** ** Moving the centre *)
Lemma zpow_close_M z z' M u n : 0 <= u -> Cmod z <= M -> Cmod (Cminus z' z) <= u * M ->
  Cmod (Cminus (zpow z' n) (zpow z n)) <= ((1 + u) ^ n - 1) * M ^ n.
Proof.
  intros Hu HM H. pose proof (Cmod_ge_0 z) as M0.
  assert (M' : Cmod z' <= (1 + u) * M).
  { replace z' with (Cplus (Cminus z' z) z) by (unfold Cminus; ring). eapply Rle_trans; [apply Cmod_triangle|]. lra. }
  induction n as [|n IH].
  - replace (Cminus (zpow z' 0) (zpow z 0)) with (RtoC 0) by (unfold zpow; simpl; unfold Cminus; ring). rewrite Cmod_0. simpl. lra.
  - rewrite !zpow_S. replace (Cminus (Cmult z' (zpow z' n)) (Cmult z (zpow z n)))
      with (Cplus (Cmult z' (Cminus (zpow z' n) (zpow z n))) (Cmult (Cminus z' z) (zpow z n))) by (unfold Cminus; ring).
    eapply Rle_trans; [apply Cmod_triangle|]. rewrite !Cmod_mult, Cmod_zpow.
    assert (P0 : 0 <= Cmod z ^ n) by (apply pow_le; exact M0).
    assert (P1 : Cmod z ^ n <= M ^ n) by (apply pow_incr; lra).
    assert (A : Cmod z' * Cmod (Cminus (zpow z' n) (zpow z n)) <= (1 + u) * M * (((1 + u) ^ n - 1) * M ^ n)).
    { apply Rmult_le_compat; auto using Cmod_ge_0. }
    assert (B : Cmod (Cminus z' z) * Cmod z ^ n <= u * M * M ^ n) by (apply Rmult_le_compat; auto using Cmod_ge_0).
    simpl. lra.
Qed.

Lemma Csum_minus {X} (f g : X -> C) l : Csum (fun c => Cminus (f c) (g c)) l = Cminus (Csum f l) (Csum g l).
Proof.
  induction l as [|x l IH]; [unfold Csum; simpl; unfold Cminus; ring|].
  change (Cplus (Cminus (f x) (g x)) (Csum (fun c => Cminus (f c) (g c)) l) = Cminus (Cplus (f x) (Csum f l)) (Cplus (g x) (Csum g l))).
  rewrite IH. unfold Cminus. ring.
Qed.

Lemma Csum_bound {X} (f : X -> C) (g : X -> R) l : (forall c, In c l -> Cmod (f c) <= g c) -> Cmod (Csum f l) <= Rsum g l.
Proof.
  induction l as [|x l IH]; intros H; [unfold Csum, Rsum; simpl; rewrite Cmod_0; lra|].
  change (Cmod (Cplus (f x) (Csum f l)) <= Rsum g (x :: l)). rewrite Rsum_cons. eapply Rle_trans; [apply Cmod_triangle|].
  apply Rplus_le_compat; [apply H; left; reflexivity|apply IH; intros c Hc; apply H; right; exact Hc].
Qed.

Lemma Rsum_bound {X} (f g : X -> R) l : (forall c, In c l -> Rabs (f c) <= g c) -> Rabs (Rsum f l) <= Rsum g l.
Proof.
  induction l as [|x l IH]; intros H; [unfold Rsum; simpl; rewrite Rabs_R0; lra|].
  rewrite !Rsum_cons. eapply Rle_trans; [apply Rabs_triang|].
  apply Rplus_le_compat; [apply H; left; reflexivity|apply IH; intros c Hc; apply H; right; exact Hc].
Qed.

Lemma Rsum_minus {X} (f g : X -> R) l : Rsum (fun c => f c - g c) l = Rsum f l - Rsum g l.
Proof. induction l as [|x l IH]; [unfold Rsum; simpl; ring|]. rewrite !Rsum_cons, IH. ring. Qed.

Lemma Cmod_rev a b : Rabs (Cmod a - Cmod b) <= Cmod (Cminus a b).
Proof.
  assert (T : forall x y, Cmod x - Cmod y <= Cmod (Cminus x y)).
  { intros x y. pose proof (Cmod_triangle (Cminus x y) y) as H. replace (Cplus (Cminus x y) y) with x in H by (unfold Cminus; ring). lra. }
  pose proof (T a b) as T1. pose proof (T b a) as T2.
  replace (Cminus b a) with (Copp (Cminus a b)) in T2 by (unfold Cminus; ring). rewrite Cmod_opp in T2. apply Rabs_le. lra.
Qed.

(** The eccentricity about a centre off by D, if the heavy cells are on average
    at least one cell away from the centre. *)
Lemma ecc_shift eps n cs t z0 z1 D : 0 < eps -> (n <= 5)%nat -> 0 <= D <= / 512 -> Cmod (Cminus z0 z1) <= D ->
  (forall c, In c cs -> 0 <= t c) -> Rsum t (heavy eps cs t) <= weight eps n cs t z1 ->
  Rabs (ecc_about eps n cs t z0 - ecc_about eps n cs t z1) <= 25 * D.
Proof.
  intros He Hn HD Hz Ht HW. unfold ecc_about. set (l := heavy eps cs t) in *.
  assert (Hl : forall c, In c l -> 0 <= t c) by (intros c Hc; apply Ht; apply filter_In in Hc; apply Hc).
  set (W1 := weight eps n cs t z1) in *. set (W0 := weight eps n cs t z0) in *.
  set (H1 := harmonic eps n cs t z1) in *. set (H0 := harmonic eps n cs t z0) in *.
  assert (PW : forall c, Cmod (Cminus (zpow (rel z0 c) n) (zpow (rel z1 c) n)) <= 6 * D * (1 + Cmod (rel z1 c) ^ n)).
  { intros c. set (M := Rmax 1 (Cmod (rel z1 c))).
    assert (M1 : 1 <= M) by apply Rmax_l. assert (M2 : Cmod (rel z1 c) <= M) by apply Rmax_r.
    eapply Rle_trans; [apply (zpow_close_M _ _ M D); [lra|exact M2|]|].
    - replace (Cminus (rel z0 c) (rel z1 c)) with (Copp (Cminus z0 z1)) by (unfold rel, Cminus, Copp, Cplus; cbn [fst snd]; f_equal; ring).
      rewrite Cmod_opp. apply Rle_trans with (D * 1); [lra|]. apply Rmult_le_compat_l; lra.
    - assert (MP : 0 <= M ^ n <= 1 + Cmod (rel z1 c) ^ n).
      { split; [apply pow_le; lra|]. pose proof (pow_le _ n (Cmod_ge_0 (rel z1 c))). unfold M, Rmax. destruct (Rle_dec _ _); [lra|]. rewrite pow1. lra. }
      pose proof (pow_small n D Hn ltac:(lra)). apply Rmult_le_compat; try lra.
      pose proof (pow_R1_Rle (1 + D) n ltac:(lra)). lra. }
  assert (SUM : Rsum (fun c => t c * (6 * D * (1 + Cmod (rel z1 c) ^ n))) l <= 12 * D * W1).
  { replace (Rsum (fun c => t c * (6 * D * (1 + Cmod (rel z1 c) ^ n))) l) with (6 * D * (Rsum t l + W1)).
    - assert (0 <= 6 * D) by lra. assert (6 * D * (Rsum t l + W1) <= 6 * D * (W1 + W1)) by (apply Rmult_le_compat_l; lra). lra.
    - unfold W1, weight. fold l. clear. induction l as [|x l IH]; [unfold Rsum; simpl; ring|]. rewrite !Rsum_cons, <- IH. ring. }
  assert (DH : Rabs (Cmod H0 - Cmod H1) <= 12 * D * W1).
  { eapply Rle_trans; [apply Cmod_rev|]. unfold H0, H1, harmonic. fold l. rewrite <- Csum_minus. eapply Rle_trans; [|exact SUM].
    apply Csum_bound. intros c Hc. replace (Cminus (Cmult (RtoC (t c)) (zpow (rel z0 c) n)) (Cmult (RtoC (t c)) (zpow (rel z1 c) n)))
      with (Cmult (RtoC (t c)) (Cminus (zpow (rel z0 c) n) (zpow (rel z1 c) n))) by (unfold Cminus; ring).
    rewrite Cmod_mult, Cmod_R, Rabs_pos_eq by (apply Hl; exact Hc). apply Rmult_le_compat_l; [apply Hl; exact Hc|apply PW]. }
  assert (DW : Rabs (W0 - W1) <= 12 * D * W1).
  { unfold W0, W1 at 1, weight. fold l. rewrite <- Rsum_minus. eapply Rle_trans; [|exact SUM].
    apply Rsum_bound. intros c Hc. replace (t c * Cmod (rel z0 c) ^ n - t c * Cmod (rel z1 c) ^ n) with (t c * (Cmod (rel z0 c) ^ n - Cmod (rel z1 c) ^ n)) by ring.
    rewrite Rabs_mult, Rabs_pos_eq by (apply Hl; exact Hc). apply Rmult_le_compat_l; [apply Hl; exact Hc|].
    eapply Rle_trans; [|apply PW]. rewrite <- (Cmod_zpow (rel z0 c)), <- (Cmod_zpow (rel z1 c)). apply Cmod_rev. }
  assert (HB : Cmod H1 <= W1).
  { unfold H1, harmonic, W1, weight. fold l. apply Csum_bound. intros c Hc. rewrite Cmod_mult, Cmod_R, Rabs_pos_eq, Cmod_zpow by (apply Hl; exact Hc). lra. }
  pose proof (Cmod_ge_0 H1) as P1. pose proof (Rmax_lip W0 W1 eps) as ML.
  assert (MM : Rabs (Rmax W0 eps - Rmax W1 eps) <= 12 * D * W1) by lra.
  pose proof (Rmax_l W0 eps). pose proof (Rmax_r W0 eps). pose proof (Rmax_l W1 eps). pose proof (Rmax_r W1 eps).
  set (m0 := Rmax W0 eps) in *. set (m1 := Rmax W1 eps) in *.
  replace (Cmod H0 / m0 - Cmod H1 / m1) with (((Cmod H0 - Cmod H1) + Cmod H1 * / m1 * (m1 - m0)) * / m0) by (field; lra).
  assert (I0 : 0 < / m0) by (apply Rinv_0_lt_compat; lra).
  rewrite Rabs_mult, (Rabs_pos_eq (/ m0)) by lra.
  assert (Q : Rabs (Cmod H1 * / m1 * (m1 - m0)) <= 1 * (12 * D * W1)).
  { assert (0 < / m1) by (apply Rinv_0_lt_compat; lra).
    assert (0 <= Cmod H1 * / m1 <= 1).
    { split; [apply Rmult_le_pos; lra|]. apply Rmult_le_reg_r with m1; [lra|]. rewrite Rmult_assoc, Rinv_l by lra. lra. }
    rewrite Rabs_mult, (Rabs_pos_eq (Cmod H1 * / m1)) by lra. apply Rmult_le_compat; try lra; [apply Rabs_pos|].
    rewrite Rabs_minus_sym. exact MM. }
  apply Rmult_le_reg_r with m0; [lra|]. rewrite Rmult_assoc, Rinv_l, Rmult_1_r by lra.
  eapply Rle_trans; [apply Rabs_triang|]. apply Rle_trans with (24 * D * W1); [lra|].
  apply Rabs_le_inv in DW. assert (W1 * (1 - 12 * D) <= m0) by lra. assert (0 <= W1) by lra.
  assert (HDW : W1 * (1 - / 32) <= m0).
  { apply Rle_trans with (2 := H5). apply Rmult_le_compat_l; lra. }
  assert (W1 <= 25 / 24 * m0) by lra.
  apply Rle_trans with (24 * D * (25 / 24 * m0)); [apply Rmult_le_compat_l; lra|]. lra.
Qed.
