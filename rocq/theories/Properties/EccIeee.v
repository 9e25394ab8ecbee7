(** C64: the eccentricities and the centre of mass are accurate in binary64. *)
From Coq Require Import ZArith Reals Lra Lia Bool List Psatz String.
From Coquelicot Require Import Complex.
From Flocq Require Import Core BinarySingleNaN Mult_error.
From Verif.Base Require Import Result Arith FArith RArith Rng.
From Verif.Model Require Import FastExp Config Nucleon Nucleus Event Files CrossSection Output Collider.
From Verif.Spec Require Import History Collision Replay Distributions Grid Evolved Total Finite Ecc EccRounded Mean MeanRounded.
From Verif.Proof Require Import Basics RBasics GridP EventP DepositR ReducedP Ctor Ieee IeeeInt IeeeSum IeeeEcc EccP IeeeEccAcc.
From Verif.Properties Require Import ImpactIeee ThicknessIeee GridIeee Reduced Replay Distributions FiniteIeee FiniteRun MeanIeee.
Import ListNotations.
Local Open Scope R_scope.

Lemma heavy_none eps cs t : (forall c, In c cs -> t c < eps) -> heavy eps cs t = [].
Proof.
  intros H. unfold heavy. induction cs as [|c cs IH]; [reflexivity|]. cbn [filter].
  unfold Rltb. destruct (Rlt_dec (t c) eps) as [_|F]; [|destruct F; apply H; left; reflexivity].
  cbn [negb]. apply IH. intros d Hd. apply H. right. exact Hd.
Qed.

Lemma ecc_none eps n cs t z : heavy eps cs t = [] -> ecc_about eps n cs t z = 0.
Proof. intros H. unfold ecc_about, harmonic. rewrite H. unfold Csum. cbn [fold_right]. rewrite Cmod_0. unfold Rdiv. ring. Qed.

(** The four published eccentricities, about the published centre: within 2^-22
    of the exact moments of the published reduced thickness. *)
Theorem C64_event :
  forall (L : Libm) (cfg : config (FA L)) (ev : event (FA L)) dbg nA nB nc ev',
  evolved cfg ev -> event_compute dbg ev nA nB nc = Ret ev' ->
  (ev_nsteps ev' <= 8192)%Z -> regular_map (ev_TR ev') ->
  exists e2 e3 e4 e5 : f64, ev_ecc ev' = [(2, e2); (3, e3); (4, e4); (5, e5)]%Z /\
    let right n (e : f64) := is_finite e = true /\
      Rabs (B2R e - ecc_about threshold n (cells (ev_nsteps ev')) (held (ev_TR ev')) (published_centre ev')) <= / 4194304 in
    right 2%nat e2 /\ right 3%nat e3 /\ right 4%nat e4 /\ right 5%nat e5.
Proof.
  intros L cfg ev dbg nA nB nc ev' He H HN HR. pose proof (evolved_ready _ _ He) as Hr.
  pose proof (event_compute_inv _ _ _ _ _ _ Hr H) as ((_ & _ & Edx & Ens & _) & _ & _ & _ & S & CT & EM & EX & EY & EE).
  rewrite <- Ens in HN |- *. cbv zeta in EM, EX, EY.
  set (N := ev_nsteps ev) in *. set (TR := ev_TR ev') in *.
  set (tc := fun c : Z * Z => cell TR (fst c) (snd c) : f64).
  assert (EQ : forall c, In c (cells N) -> rt (ev_mean ev) (ev_norm ev) (ev_TA ev') (ev_TB ev') c = tc c).
  { intros [iy ix] Hc. symmetry. apply CT. apply in_cells. exact Hc. }
  assert (Len : (Z.of_nat (length (cells N)) <= 2 ^ 26)%Z).
  { rewrite cells_length, Nat2Z.inj_mul. destruct (Z.le_gt_cases 0 N).
    - rewrite Z2Nat.id by lia. change (2 ^ 26)%Z with (8192 * 8192)%Z. apply Z.mul_le_mono_nonneg; lia.
    - replace (Z.to_nat N) with 0%nat by lia. cbn. lia. }
  assert (Idx : forall c, In c (cells N) -> (0 <= fst c <= 2 ^ 13)%Z /\ (0 <= snd c <= 2 ^ 13)%Z).
  { intros [iy ix] Hc. apply in_cells in Hc. unfold inside in Hc. cbn [fst snd]. lia. }
  assert (Cells : forall c, In c (cells N) -> is_finite (tc c) = true /\ 0 <= B2R (tc c) <= bpow radix2 200).
  { intros c Hc. apply HR. rewrite <- (cells_row_major' _ _ S). apply in_map_iff. exists c. auto. }
  rewrite (fold_left_ext_in (fun a c => nadd (FA L) a (rt _ _ _ _ c)) (fun a c => f64_add a (tc c))) in EX by (intros a c Hc; rewrite EQ by exact Hc; reflexivity).
  rewrite (fold_left_ext_in (fun a c => nadd (FA L) a (rt _ _ _ _ c)) (fun a c => f64_add a (tc c))) in EY by (intros a c Hc; rewrite EQ by exact Hc; reflexivity).
  rewrite (fold_left_ext_in (fun a c => nadd (FA L) a (nmul (FA L) (rt _ _ _ _ c) _)) (fun a c => f64_add a (f64_mul (tc c) (f64_ofZ (snd c))))) in EX by (intros a c Hc; rewrite EQ by exact Hc; reflexivity).
  rewrite (fold_left_ext_in (fun a c => nadd (FA L) a (nmul (FA L) (rt _ _ _ _ c) _)) (fun a c => f64_add a (f64_mul (tc c) (f64_ofZ (fst c))))) in EY by (intros a c Hc; rewrite EQ by exact Hc; reflexivity).
  change (held TR) with (fun c => B2R (tc c)).
  assert (TP : 0 < threshold) by (rewrite threshold_v; lra).
  destruct (Rle_lt_dec (Rsum (fun c => B2R (tc c)) (cells N)) 0) as [Z|Pos].
  - assert (ZZ : forall c, In c (cells N) -> B2R (tc c) <= 0).
    { intros c Hc. apply Rle_trans with (2 := Z). apply (in_split) in Hc. destruct Hc as (l1 & l2 & El).
      assert (Q : forall l, (forall c, In c l -> In c (cells N)) -> 0 <= Rsum (fun c => B2R (tc c)) l).
      { intros l Hl. apply Rsum_nonneg. intros c0 Hc0. apply Cells, Hl, Hc0. }
      pose proof (Q l1) as Q1. pose proof (Q l2) as Q2. rewrite El in *. rewrite Rsum_app, Rsum_cons.
      specialize (Q1 ltac:(intros; apply in_or_app; auto)). specialize (Q2 ltac:(intros; apply in_or_app; right; simpl; auto)). lra. }
    exists f64_zero, f64_zero, f64_zero, f64_zero. split.
    + apply (C16_empty_ieee L cfg ev dbg nA nB nc ev' He H). fold TR. intros t Ht.
      destruct (HR t Ht) as [Ft Bt]. destruct tiny_v as [Fy By]. rewrite ltb_ok by auto. apply Rlt_bool_true.
      rewrite <- (cells_row_major' _ _ S) in Ht. apply in_map_iff in Ht. destruct Ht as (c & <- & Hc).
      specialize (ZZ c Hc). unfold tc in ZZ. pose proof (bpow_gt_0 radix2 (-40)). lra.
    + cbv zeta. assert (HE : heavy threshold (cells N) (fun c => B2R (tc c)) = []).
      { apply heavy_none. intros c Hc. specialize (ZZ c Hc). lra. }
      assert (G : forall n, is_finite f64_zero = true /\ Rabs (B2R f64_zero - ecc_about threshold n (cells N) (fun c => B2R (tc c)) (published_centre ev')) <= / 4194304).
      { intros n. split; [reflexivity|]. rewrite (ecc_none _ _ _ _ _ HE). change (B2R f64_zero) with 0. rewrite Rminus_0_r, Rabs_R0. lra. }
      auto.
  - destruct (centre_ok tc (cells N) Len Cells snd ltac:(intros c Hc; apply Idx; exact Hc) Pos) as [F1 B1].
    destruct (centre_ok tc (cells N) Len Cells fst ltac:(intros c Hc; apply Idx; exact Hc) Pos) as [F2 B2].
    pose proof (obs_near L (ev_ixcm ev') (ev_iycm ev')) as OK. rewrite EX in OK at 1 2. rewrite EY in OK at 1 2.
    specialize (OK F1 F2 B1 B2 tc (cells N) 0%Z (ecc_zero, ecc_zero, ecc_zero, ecc_zero) nil).
    change (fun (acc : _) (c : Z * Z) => if nltb (FA L) (cell TR (fst c) (snd c)) (@Event.tiny (FA L)) then acc else _)
      with (fun acc (c : Z * Z) => if nltb (FA L) (tc c) (@Event.tiny (FA L)) then acc else obs_cell (A:=FA L) (ev_ixcm ev') (ev_iycm ev') (tc c) (fst c) (snd c) acc) in EE.
    destruct (fold_left _ (cells N) _) as [[[a2 a3] a4] a5] eqn:EF in OK, EE.
    destruct OK as (O2 & O3 & O4 & O5).
    { intros c Hc. destruct (Idx c Hc). destruct (Cells c Hc). auto. }
    { repeat split; apply near_zero. }
    { lia. }
    rewrite app_nil_l in O2, O3, O4, O5.
    exists (ecc_finish a2), (ecc_finish a3), (ecc_finish a4), (ecc_finish a5).
    split; [exact EE|]. cbv zeta.
    assert (FIN : forall n a, acc_near L (0 + Z.of_nat (length (cells N))) a
        (Csum (term (ev_ixcm ev') (ev_iycm ev') tc n) (heavy threshold (cells N) (fun c => B2R (tc c))))
        (Rsum (size (ev_ixcm ev') (ev_iycm ev') tc n) (heavy threshold (cells N) (fun c => B2R (tc c)))) ->
      is_finite (ecc_finish a : f64) = true /\
      Rabs (B2R (ecc_finish a : f64) - ecc_about threshold n (cells N) (fun c => B2R (tc c)) (published_centre ev')) <= / 4194304).
    { intros n a Ha. destruct (near_finish L _ _ _ _ Ha ltac:(lia)) as (Ff & _ & Ef). split; [exact Ff|].
      destruct (term_harmonic (ev_ixcm ev') (ev_iycm ev') tc n (cells N)) as [T1 T2].
      unfold ecc_about, published_centre. rewrite <- T1, <- T2. exact Ef. }
    split; [|split; [|split]]; apply FIN; assumption.
Qed.

(** The published centre: within N^3 2^-48 cells of the exact thickness-weighted
    mean position, N the number of grid steps. *)
Theorem C64_centre :
  forall (L : Libm) (cfg : config (FA L)) (ev : event (FA L)) dbg nA nB nc ev',
  evolved cfg ev -> event_compute dbg ev nA nB nc = Ret ev' ->
  (ev_nsteps ev' <= 8192)%Z -> regular_map (ev_TR ev') -> bpow radix2 (-500) <= exact_sum (ev_TR ev') ->
  is_finite (ev_ixcm ev' : f64) = true /\ is_finite (ev_iycm ev' : f64) = true /\
  Cmod (Cminus (published_centre ev') (centre (cells (ev_nsteps ev')) (held (ev_TR ev'))))
    <= IZR (ev_nsteps ev') ^ 3 * bpow radix2 (-48).
Proof.
  intros L cfg ev dbg nA nB nc ev' He H HN HR HS. pose proof (evolved_ready _ _ He) as Hr.
  pose proof (event_compute_inv _ _ _ _ _ _ Hr H) as ((_ & _ & Edx & Ens & _) & _ & _ & _ & S & CT & EM & EX & EY & EE).
  rewrite <- Ens in HN |- *. cbv zeta in EM, EX, EY.
  set (N := ev_nsteps ev) in *. set (TR := ev_TR ev') in *.
  set (tc := fun c : Z * Z => cell TR (fst c) (snd c) : f64).
  assert (EQ : forall c, In c (cells N) -> rt (ev_mean ev) (ev_norm ev) (ev_TA ev') (ev_TB ev') c = tc c).
  { intros [iy ix] Hc. symmetry. apply CT. apply in_cells. exact Hc. }
  rewrite (exact_sum_cells L N TR S) in HS. change (fun c => B2R (cell TR (fst c) (snd c) : f64)) with (fun c => B2R (tc c)) in HS.
  pose proof (bpow_gt_0 radix2 (-500)) as P5.
  assert (N1 : (1 <= N)%Z).
  { destruct (Z.le_gt_cases 1 N); [assumption|]. exfalso.
    assert (E : cells N = []) by (apply length_zero_iff_nil; rewrite cells_length; replace (Z.to_nat N) with 0%nat by lia; reflexivity).
    rewrite E in HS. unfold Rsum in HS. simpl in HS. lra. }
  assert (Len : (Z.of_nat (length (cells N)) <= N * N)%Z) by (rewrite cells_length, Nat2Z.inj_mul, Z2Nat.id by lia; lia).
  assert (Idx : forall c, In c (cells N) -> (0 <= fst c <= N)%Z /\ (0 <= snd c <= N)%Z).
  { intros [iy ix] Hc. apply in_cells in Hc. unfold inside in Hc. cbn [fst snd]. lia. }
  assert (Cells : forall c, In c (cells N) -> is_finite (tc c) = true /\ 0 <= B2R (tc c) <= bpow radix2 200).
  { intros c Hc. apply HR. rewrite <- (cells_row_major' _ _ S). apply in_map_iff. exists c. auto. }
  rewrite (fold_left_ext_in (fun a c => nadd (FA L) a (rt _ _ _ _ c)) (fun a c => f64_add a (tc c))) in EX by (intros a c Hc; rewrite EQ by exact Hc; reflexivity).
  rewrite (fold_left_ext_in (fun a c => nadd (FA L) a (rt _ _ _ _ c)) (fun a c => f64_add a (tc c))) in EY by (intros a c Hc; rewrite EQ by exact Hc; reflexivity).
  rewrite (fold_left_ext_in (fun a c => nadd (FA L) a (nmul (FA L) (rt _ _ _ _ c) _)) (fun a c => f64_add a (f64_mul (tc c) (f64_ofZ (snd c))))) in EX by (intros a c Hc; rewrite EQ by exact Hc; reflexivity).
  rewrite (fold_left_ext_in (fun a c => nadd (FA L) a (nmul (FA L) (rt _ _ _ _ c) _)) (fun a c => f64_add a (f64_mul (tc c) (f64_ofZ (fst c))))) in EY by (intros a c Hc; rewrite EQ by exact Hc; reflexivity).
  destruct (centre_close tc (cells N) N ltac:(lia) Len Cells snd ltac:(intros c Hc; apply Idx; exact Hc) HS) as [F1 C1].
  destruct (centre_close tc (cells N) N ltac:(lia) Len Cells fst ltac:(intros c Hc; apply Idx; exact Hc) HS) as [F2 C2].
  split; [rewrite EX; exact F1|]. split; [rewrite EY; exact F2|].
  change (held TR) with (fun c => B2R (tc c)). unfold centre.
  replace (Cminus (published_centre ev') _) with
    ((B2R (ev_ixcm ev' : f64) - Rsum (fun c => B2R (tc c) * IZR (snd c)) (cells N) / Rsum (fun c => B2R (tc c)) (cells N),
      B2R (ev_iycm ev' : f64) - Rsum (fun c => B2R (tc c) * IZR (fst c)) (cells N) / Rsum (fun c => B2R (tc c)) (cells N)) : C)
    by reflexivity.
  rewrite EX, EY. change (ndiv (FA L)) with f64_div. change (nlit (FA L)) with f64_lit.
  match goal with |- Cmod (?a, ?b) <= _ => assert (CA : Rabs a <= IZR N * IZR N * IZR N * bpow radix2 (-49)) by exact C1; assert (CB : Rabs b <= IZR N * IZR N * IZR N * bpow radix2 (-49)) by exact C2; generalize dependent a; intros A CA; generalize dependent b; intros B CB end.
  apply Rle_trans with (Rabs A + Rabs B).
  - replace (A, B) with (Cplus (RtoC A) (Cmult Ci (RtoC B))) by (unfold Cplus, Cmult, Ci, RtoC; cbn [fst snd]; f_equal; lra).
    eapply Rle_trans; [apply Cmod_triangle|]. rewrite Cmod_mult, !Cmod_R.
    replace (Cmod Ci) with 1; [lra|]. unfold Ci. rewrite Cmod_sqrt. replace (0 * 0 + 1 * 1) with 1 by ring. symmetry. apply sqrt_1.
  - change (-48)%Z with (1 + -49)%Z. rewrite bpow_plus. change (bpow radix2 1) with 2. replace (IZR N ^ 3) with (IZR N * IZR N * IZR N) by ring. lra.
Qed.

Lemma heavy_clear cs t : (forall c, In c cs -> t c < threshold \/ eps12 <= t c) -> heavy threshold cs t = heavy eps12 cs t.
Proof.
  intros H. destruct C63_documented as [T _]. unfold heavy. apply filter_ext_in. intros c Hc. specialize (H c Hc). f_equal.
  unfold Rltb. destruct (Rlt_dec (t c) threshold), (Rlt_dec (t c) eps12); try reflexivity; lra.
Qed.

(** Against the documented harmonics of Spec/Ecc.v (about the exact centre, with
    10^-12 exactly): the error is at most 2^-22 + 25 N^3 2^-48, for every harmonic
    whose heavy cells are, in the mean of r^n, at least one cell away from the centre. *)
Theorem C64_documented :
  forall (L : Libm) (cfg : config (FA L)) (ev : event (FA L)) dbg nA nB nc ev',
  evolved cfg ev -> event_compute dbg ev nA nB nc = Ret ev' ->
  (0 <= ev_nsteps ev' <= 8192)%Z -> regular_map (ev_TR ev') ->
  let cs := cells (ev_nsteps ev') in let t := held (ev_TR ev') in
  (forall c, In c cs -> t c < threshold \/ eps12 <= t c) ->
  exists e2 e3 e4 e5 : f64, ev_ecc ev' = [(2, e2); (3, e3); (4, e4); (5, e5)]%Z /\
    let right n (e : f64) := Rsum t (heavy eps12 cs t) <= weight eps12 n cs t (centre cs t) ->
      Rabs (B2R e - ecc_n n cs t) <= / 4194304 + 25 * (IZR (ev_nsteps ev') ^ 3 * bpow radix2 (-48)) in
    right 2%nat e2 /\ right 3%nat e3 /\ right 4%nat e4 /\ right 5%nat e5.
Proof.
  intros L cfg ev dbg nA nB nc ev' He H HN' HR cs t Clear. destruct HN' as [N0 HN].
  destruct (C64_event L cfg ev dbg nA nB nc ev' He H HN HR) as (e2 & e3 & e4 & e5 & EE & R2 & R3 & R4 & R5).
  exists e2, e3, e4, e5. split; [exact EE|]. cbv zeta in *. fold cs in R2, R3, R4, R5. fold t in R2, R3, R4, R5.
  set (N := ev_nsteps ev') in *. destruct C63_documented as [T _].
  assert (TP : 0 < threshold) by (rewrite threshold_v; lra).
  pose proof (bpow_gt_0 radix2 (-48)) as B48.
  assert (T0 : forall c, In c cs -> 0 <= t c).
  { intros c Hc. pose proof (evolved_ready _ _ He) as Hr.
    pose proof (event_compute_inv _ _ _ _ _ _ Hr H) as ((_ & _ & _ & Ens & _) & _ & _ & _ & S & _).
    apply HR. rewrite <- (cells_row_major' _ _ S). apply in_map_iff. exists c. split; [reflexivity|]. unfold cs, N in Hc. rewrite <- Ens in Hc. exact Hc. }
  assert (G : forall n (e : f64), (n <= 5)%nat -> Rabs (B2R e - ecc_about threshold n cs t (published_centre ev')) <= / 4194304 ->
    Rsum t (heavy eps12 cs t) <= weight eps12 n cs t (centre cs t) ->
    Rabs (B2R e - ecc_n n cs t) <= / 4194304 + 25 * (IZR N ^ 3 * bpow radix2 (-48))).
  2:{ repeat split; intros W; [apply G with (2 := proj2 R2)|apply G with (2 := proj2 R3)|apply G with (2 := proj2 R4)|apply G with (2 := proj2 R5)]; auto; lia. }
  intros n e Hn HE HW. change (ecc_n n cs t) with (ecc_about eps12 n cs t (centre cs t)).
  pose proof (heavy_clear cs t Clear) as HC.
  destruct (heavy threshold cs t) as [|c0 l] eqn:HV.
  - rewrite (ecc_none _ _ _ _ _ HV) in HE. rewrite (ecc_none eps12) by (symmetry; exact HC).
    assert (0 <= IZR N ^ 3 * bpow radix2 (-48)); [|lra].
    apply Rmult_le_pos; [|lra]. apply pow_le. apply IZR_le. exact N0.
  - assert (In0 : In c0 (heavy threshold cs t)) by (rewrite HV; left; reflexivity).
    unfold heavy in In0. apply filter_In in In0. destruct In0 as [I0 T1].
    assert (BIG : eps12 <= t c0).
    { destruct (Clear c0 I0) as [Q|Q]; [|exact Q]. exfalso. unfold Rltb in T1. destruct (Rlt_dec (t c0) threshold); [discriminate|lra]. }
    assert (SH : eps12 <= Rsum t (heavy eps12 cs t)).
    { rewrite <- HC, Rsum_cons. assert (0 <= Rsum t l); [|lra]. apply Rsum_nonneg. intros c Hc. apply T0.
      assert (In c (heavy threshold cs t)) by (rewrite HV; right; exact Hc). apply filter_In in H0. apply H0. }
    assert (EQH : forall z, harmonic threshold n cs t z = harmonic eps12 n cs t z) by (intros z; unfold harmonic; rewrite HV, HC; reflexivity).
    assert (EQW : forall z, weight threshold n cs t z = weight eps12 n cs t z) by (intros z; unfold weight; rewrite HV, HC; reflexivity).
    assert (EA : ecc_about eps12 n cs t (centre cs t) = ecc_about threshold n cs t (centre cs t)).
    { unfold ecc_about. rewrite EQH, EQW. f_equal. rewrite !Rmax_left by lra. reflexivity. }
    rewrite EA. destruct (C64_centre L cfg ev dbg nA nB nc ev' He H HN HR) as (_ & _ & CC).
    { pose proof (evolved_ready _ _ He) as Hr. pose proof (event_compute_inv _ _ _ _ _ _ Hr H) as ((_ & _ & _ & Ens & _) & _ & _ & _ & S & _).
      rewrite (exact_sum_cells L _ _ S). rewrite Ens. fold N. fold cs. change (bpow radix2 (-500) <= Rsum t cs).
      apply Rle_trans with (bpow radix2 (-40)); [apply bpow_le; lia|]. change (bpow radix2 (-40)) with (/ 1099511627776).
      apply Rle_trans with eps12; [unfold eps12; lra|]. apply Rle_trans with (1 := BIG).
      destruct (in_split _ _ I0) as (l1 & l2 & El). clear - El T0. rewrite El in *. rewrite Rsum_app, Rsum_cons.
      assert (0 <= Rsum t l1) by (apply Rsum_nonneg; intros c Hc; apply T0, in_or_app; auto).
      assert (0 <= Rsum t l2) by (apply Rsum_nonneg; intros c Hc; apply T0, in_or_app; right; right; exact Hc). lra. }
    fold N in CC. fold cs in CC. fold t in CC.
    assert (DB : 0 <= IZR N ^ 3 * bpow radix2 (-48) <= / 512).
    { assert (0 <= IZR N <= 8192) by (split; apply IZR_le; lia). assert (0 <= IZR N ^ 3 <= 8192 ^ 3) by (split; [apply pow_le|apply pow_incr]; lra).
      split; [apply Rmult_le_pos; lra|]. change (bpow radix2 (-48)) with (/ 281474976710656). simpl (8192 ^ 3) in H1. lra. }
    assert (SHI := ecc_shift threshold n cs t (published_centre ev') (centre cs t) _ TP Hn DB CC T0).
    rewrite EQW, HV, HC in SHI. specialize (SHI HW).
    replace (B2R e - ecc_about threshold n cs t (centre cs t)) with
      ((B2R e - ecc_about threshold n cs t (published_centre ev')) + (ecc_about threshold n cs t (published_centre ev') - ecc_about threshold n cs t (centre cs t))) by ring.
    eapply Rle_trans; [apply Rabs_triang|]. lra.
Qed.

(** From the nucleons, for ordinary parameters. *)
Theorem C64_compute :
  forall (L : Libm) (cfg : config (FA L)) (ev : event (FA L)) dbg nA nB sp ev',
  accurate_exp L -> accurate_pow L -> ordinary cfg -> light_nucleus nA -> light_nucleus nB ->
  evolved cfg ev -> event_compute dbg ev nA nB (nucleon_common_of cfg sp) = Ret ev' ->
  (0 <= ev_nsteps ev' <= 8192)%Z /\ regular_map (ev_TR ev') /\
  exists e2 e3 e4 e5 : f64, ev_ecc ev' = [(2, e2); (3, e3); (4, e4); (5, e5)]%Z /\
    let right n (e : f64) := is_finite e = true /\
      Rabs (B2R e - ecc_about threshold n (cells (ev_nsteps ev')) (held (ev_TR ev')) (published_centre ev')) <= / 4194304 in
    right 2%nat e2 /\ right 3%nat e3 /\ right 4%nat e4 /\ right 5%nat e5.
Proof.
  intros L cfg ev dbg nA nB sp ev' HL HP Ho HA HB He H.
  destruct (C61_compute L cfg ev dbg nA nB sp ev' HL HP Ho HA HB He H) as (_ & _ & RR & _).
  pose proof (evolved_ready _ _ He) as Hr. pose proof (event_compute_inv _ _ _ _ _ _ Hr H) as ((_ & _ & _ & Ens & _) & _).
  destruct (evolved_params _ _ He) as (ev0 & E0 & (_ & _ & _ & Ps & _)).
  pose proof (ordinary_steps L cfg ev0 Ho E0) as HN.
  destruct (C12_ieee L cfg (ordinary_grid L cfg Ho)) as (ev1 & E1 & _ & _ & _ & N1 & _).
  assert (ev1 = ev0) by congruence. subst ev1.
  assert (NB : (0 <= ev_nsteps ev' <= 8192)%Z) by (rewrite <- Ens, <- Ps; lia).
  split; [exact NB|]. split; [exact RR|]. apply (C64_event L cfg ev dbg nA nB _ ev' He H); [lia|exact RR].
Qed.

(** Every event of every finished run. *)
Theorem C64_run :
  forall (L : Libm) (rg : Rng (FA L)) sv bd cfuel fuel sfuel e (cfg : config (FA L)) (s s' : sys rg),
  accurate_exp L -> accurate_pow L -> ordinary cfg ->
  (forall f, from_gamma rg (fluctuation cfg) (ndiv (FA L) (nlit (FA L) 1 0) (fluctuation cfg)) f -> finite_upto f (bpow radix2 40)) ->
  collide rg sv bd cfuel fuel sfuel e cfg s = (Ret tt, s') ->
  exists ds, run_delivered rg sv bd cfuel fuel sfuel e cfg s s' ds /\
  forall d, In d ds -> (Z.of_nat (length (d_A d)) <= 2 ^ 20)%Z -> (Z.of_nat (length (d_B d)) <= 2 ^ 20)%Z ->
  let cs := cells (ev_nsteps (d_event d)) in let t := held (ev_TR (d_event d)) in
  exists e2 e3 e4 e5 : f64, ev_ecc (d_event d) = [(2, e2); (3, e3); (4, e4); (5, e5)]%Z /\
    (let about_published n (e : f64) :=
       Rabs (B2R e - ecc_about threshold n cs t (published_centre (d_event d))) <= / 4194304 in
     about_published 2%nat e2 /\ about_published 3%nat e3 /\ about_published 4%nat e4 /\ about_published 5%nat e5) /\
    ((forall c, In c cs -> t c < threshold \/ eps12 <= t c) ->
     let documented n (e : f64) :=
       Rsum t (heavy eps12 cs t) <= weight eps12 n cs t (centre cs t) ->
       Rabs (B2R e - ecc_n n cs t) <= / 4194304 + 25 * (IZR (ev_nsteps (d_event d)) ^ 3 * bpow radix2 (-48)) in
     documented 2%nat e2 /\ documented 3%nat e3 /\ documented 4%nat e4 /\ documented 5%nat e5).
Proof.
  intros L rg sv bd cfuel fuel sfuel e cfg s s' HL HP Ho HG H.
  destruct (C52_weights _ _ _ _ _ _ _ _ _ _ _ H) as (ds & D & W). exists ds. split; [exact D|].
  intros d Hd LA LB. specialize (fun n => W d n Hd).
  destruct D as (co & nA & nB & ev0 & nst & gst & s1 & rs' & C & _ & EF & _).
  pose proof (collider_new_inv _ _ _ _ _ _ _ _ _ _ _ _ _ _ C) as Hc.
  destruct (ct_nc _ _ _ _ _ _ _ _ _ _ _ Hc) as (sp & Enc).
  assert (HE : event_compute (debug bd) ev0 (d_A d) (d_B d) (co_nc co) = Ret (d_event d)).
  { clear - EF Hd. induction EF as [|n ns rs x rs1 xs rs2 Hx _ IH]; [destruct Hd|].
    destruct Hd as [<-|Hd]; [|apply IH; exact Hd]. destruct Hx as (_ & a & b & _ & _ & _ & E). exact E. }
  rewrite Enc in HE.
  pose proof (or_number _ Ho) as Hm.
  assert (Em : to_size (constit_number cfg) = constit_number cfg) by (unfold to_size; apply Z.mod_small; unfold size_max; lia).
  assert (LN : forall l, (forall n, In n l -> In n (d_A d ++ d_B d)) -> (Z.of_nat (length l) <= 2 ^ 20)%Z -> light_nucleus l).
  { intros l Hl Hs. split; [exact Hs|]. intros n Hn Hq. destruct (W n (Hl n Hn) Hq) as [Wl Wf]. rewrite Em in Wl. split.
    - rewrite Wl, Z2Nat.id by lia. lia.
    - intros q Hq'. apply HG, Wf, Hq'. }
  assert (Ev : evolved cfg ev0) by (constructor; apply (ct_event _ _ _ _ _ _ _ _ _ _ _ Hc)).
  destruct (C64_compute L cfg ev0 (debug bd) (d_A d) (d_B d) sp (d_event d) HL HP Ho) as (HN & RM & e2 & e3 & e4 & e5 & EE & R); auto.
  - apply LN; [intros; apply in_or_app; auto|exact LA].
  - apply LN; [intros; apply in_or_app; auto|exact LB].
  - cbv zeta in *. exists e2, e3, e4, e5. split; [exact EE|]. split; [repeat split; apply R|]. intros Clear.
    destruct (C64_documented L cfg ev0 (debug bd) (d_A d) (d_B d) _ (d_event d) Ev HE HN RM Clear) as (f2 & f3 & f4 & f5 & EF' & Q).
    rewrite EE in EF'. injection EF' as -> -> -> ->. exact Q.
Qed.

(** Cases: the event of C61_instance; two equal cells two columns apart satisfy
    the distance condition of C64_documented in each harmonic, and no cell lies
    between the double and 10^-12. *)
Theorem C64_instance : forall (L : Libm) (sp : f64), accurate_exp L -> accurate_pow L ->
  (exists ev ev', event_new (width_049 L) = Ret ev /\
     event_compute false ev (one_proton L) (one_proton L) (nucleon_common_of (width_049 L) sp) = Ret ev' /\
     ordinary (width_049 L) /\ light_nucleus (one_proton L)) /\
  let t (c : Z * Z) := if (fst c =? 0)%Z then (if (snd c =? 1)%Z then 0 else 1) else 0 in
  (forall c, In c (cells 3) -> t c < threshold \/ eps12 <= t c) /\
  forall n, Rsum t (heavy eps12 (cells 3) t) <= weight eps12 n (cells 3) t (centre (cells 3) t).
Proof.
  intros L sp HL HP. split.
  - destruct (C61_instance L sp HL HP) as (ev & ev' & E & R & Ho & HN & _). exists ev, ev'. auto.
  - assert (TP : 0 < threshold) by (rewrite threshold_v; lra). intros t. split.
    + intros [y x] _. unfold t, eps12. cbn [fst snd]. destruct (y =? 0)%Z; [destruct (x =? 1)%Z|]; lra.
    + intros n.
      assert (E : cells 3 = [(0, 0); (0, 1); (0, 2); (1, 0); (1, 1); (1, 2); (2, 0); (2, 1); (2, 2)]%Z) by reflexivity.
      assert (HV : heavy eps12 (cells 3) t = [(0, 0); (0, 2)]%Z).
      { rewrite E. unfold heavy, t. cbn [filter fst snd Z.eqb Pos.eqb]. unfold Rltb.
        destruct (Rlt_dec 1 eps12); [unfold eps12 in *; lra|]. destruct (Rlt_dec 0 eps12); [|unfold eps12 in *; lra]. reflexivity. }
      assert (CE : centre (cells 3) t = (1, 0)).
      { rewrite E. unfold centre, Rsum, t. cbn [fold_right fst snd Z.eqb Pos.eqb]. f_equal; field. }
      unfold weight. rewrite HV, CE. unfold Rsum, t, rel. cbn [fold_right fst snd Z.eqb Pos.eqb]. rewrite !Cmod_sqrt.
      replace ((0 - 1) * (0 - 1) + (0 - 0) * (0 - 0)) with 1 by ring. replace ((2 - 1) * (2 - 1) + (0 - 0) * (0 - 0)) with 1 by ring.
      replace (R_sqrt.sqrt 1) with 1 by (symmetry; apply sqrt_1). rewrite pow1. lra.
Qed.
