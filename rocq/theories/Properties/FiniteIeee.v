(** C61: the numbers an event reports are finite in binary64, for every libm. *)
From Coq Require Import ZArith Reals Lra Lia Bool List Psatz String.
From Flocq Require Import Core BinarySingleNaN Mult_error.
From Verif.Base Require Import Result Arith FArith RArith.
From Verif.Model Require Import FastExp Config Nucleon Nucleus Event.
From Verif.Spec Require Import Grid Evolved Total Finite.
From Verif.Proof Require Import Basics RBasics GridP EventP DepositR ReducedP Ieee IeeeInt IeeeSum IeeeEcc.
From Verif.Properties Require Import Reduced.
Import ListNotations.
Local Open Scope R_scope.

Lemma cells_length N : length (cells N) = (Z.to_nat N * Z.to_nat N)%nat.
Proof.
  unfold cells. rewrite flat_map_concat_map.
  assert (H : forall l : list Z, length (concat (map (fun iy : Z => map (fun ix => (iy, ix)) (zupto N)) l)) = (length l * Z.to_nat N)%nat).
  { induction l as [|y l IH]; [reflexivity|]. cbn [map concat length]. rewrite app_length, IH, map_length, zupto_length. reflexivity. }
  rewrite H, zupto_length. reflexivity.
Qed.


Lemma exact_sum_cells (L : Libm) N (g : grid (FA L)) : square N g ->
  exact_sum g = Rsum (fun c => B2R (cell g (fst c) (snd c) : f64)) (cells N).
Proof. intros S. unfold exact_sum. rewrite <- (cells_row_major' _ _ S), Rsum_map. reflexivity. Qed.

Theorem C61_event :
  forall (L : Libm) (cfg : config (FA L)) (ev : event (FA L)) dbg nA nB nc ev',
  evolved cfg ev -> event_compute dbg ev nA nB nc = Ret ev' ->
  (ev_nsteps ev' <= 8192)%Z ->
  is_finite (ev_dxy ev' : f64) = true -> bpow radix2 (-400) <= B2R (ev_dxy ev' : f64) <= bpow radix2 200 ->
  regular_map (ev_TR ev') ->
  rounded (ev_mult ev') (B2R (ev_dxy ev' : f64) * B2R (ev_dxy ev' : f64) * exact_sum (ev_TR ev')) /\
  exists e2 e3 e4 e5 : f64, ev_ecc ev' = [(2, e2); (3, e3); (4, e4); (5, e5)]%Z /\
    fraction_like e2 /\ fraction_like e3 /\ fraction_like e4 /\ fraction_like e5.
Proof.
  intros L cfg ev dbg nA nB nc ev' He H HN Fd Bd HR. pose proof (evolved_ready _ _ He) as Hr.
  pose proof (event_compute_inv _ _ _ _ _ _ Hr H) as ((_ & _ & Edx & Ens & _) & _ & _ & _ & S & CT & EM & EX & EY & EE).
  rewrite <- Ens in HN. rewrite <- Edx in Fd, Bd |- *. cbv zeta in EM, EX, EY.
  set (N := ev_nsteps ev) in *. set (TR := ev_TR ev') in *.
  set (tc := fun c : Z * Z => cell TR (fst c) (snd c) : f64).
  assert (EQ : forall c, In c (cells N) -> rt (ev_mean ev) (ev_norm ev) (ev_TA ev') (ev_TB ev') c = tc c).
  { intros [iy ix] Hc. symmetry. apply CT. apply in_cells. exact Hc. }
  assert (Len : (Z.of_nat (length (cells N)) <= 2 ^ 26)%Z).
  { rewrite cells_length, Nat2Z.inj_mul. destruct (Z.le_gt_cases 0 N).
    - rewrite Z2Nat.id by lia. change (2 ^ 26)%Z with (8192 * 8192)%Z. apply Z.mul_le_mono_nonneg; lia.
    - replace (Z.to_nat N) with 0%nat by lia. cbn. lia. }
  assert (Idx : forall c, In c (cells N) -> (0 <= fst c <= 2 ^ 13)%Z /\ (0 <= snd c <= 2 ^ 13)%Z).
  { intros [iy ix] Hc. apply in_cells in Hc. unfold inside in Hc. cbn [fst snd]. lia. }
  assert (Cells : forall c, In c (cells N) -> is_finite (tc c) = true /\ 0 <= B2R (tc c) <= bpow radix2 200).
  { intros c Hc. apply HR. rewrite <- (cells_row_major' _ _ S). apply in_map_iff. exists c. auto. }
  rewrite (fold_left_ext_in _ (fun a c => f64_add a (tc c))) in EM by (intros a c Hc; rewrite EQ by exact Hc; reflexivity).
  rewrite (fold_left_ext_in (fun a c => nadd (FA L) a (rt _ _ _ _ c)) (fun a c => f64_add a (tc c))) in EX by (intros a c Hc; rewrite EQ by exact Hc; reflexivity).
  rewrite (fold_left_ext_in (fun a c => nadd (FA L) a (rt _ _ _ _ c)) (fun a c => f64_add a (tc c))) in EY by (intros a c Hc; rewrite EQ by exact Hc; reflexivity).
  rewrite (fold_left_ext_in (fun a c => nadd (FA L) a (nmul (FA L) (rt _ _ _ _ c) _)) (fun a c => f64_add a (f64_mul (tc c) (f64_ofZ (snd c))))) in EX by (intros a c Hc; rewrite EQ by exact Hc; reflexivity).
  rewrite (fold_left_ext_in (fun a c => nadd (FA L) a (nmul (FA L) (rt _ _ _ _ c) _)) (fun a c => f64_add a (f64_mul (tc c) (f64_ofZ (fst c))))) in EY by (intros a c Hc; rewrite EQ by exact Hc; reflexivity).
  pose proof (S_range tc (cells N) Len Cells) as SR. destruct (tot_ok tc (cells N) Len Cells) as [FT ET].
  rewrite (exact_sum_cells L N TR S). fold tc. change (fun c => B2R (cell TR (fst c) (snd c) : f64)) with (fun c => B2R (tc c)).
  split.
  - (* multiplicity *)
    rewrite EM. change (nmul (FA L)) with f64_mul. change (nlit (FA L)) with f64_lit.
    set (tot := fold_left (fun a c => f64_add a (tc c)) (cells N) (f64_lit 0 0)) in *.
    set (Sx := Rsum (fun c => B2R (tc c)) (cells N)) in *.
    change (num (FA L)) with f64 in *. set (d := ev_dxy ev : f64) in *.
    assert (d0 : 0 < B2R d) by (pose proof (bpow_gt_0 radix2 (-400)); lra).
    assert (D2 : bpow radix2 (-800) <= B2R d * B2R d <= bpow radix2 400).
    { change (-800)%Z with (-400 + -400)%Z. change 400%Z with (200 + 200)%Z. rewrite !bpow_plus.
      pose proof (bpow_gt_0 radix2 (-400)). split; apply Rmult_le_compat; lra. }
    destruct (mul_ok d d Fd Fd) as (E1 & F1 & _). { rewrite Rabs_pos_eq by nra. apply Rle_trans with (bpow radix2 400); [lra|apply bpow_le; lia]. }
    destruct (rnd_rel (B2R d * B2R d)) as (e1 & He1 & R1). { rewrite Rabs_pos_eq by nra. apply Rle_trans with (bpow radix2 (-800)); [apply bpow_le; lia|lra]. }
    rewrite R1 in E1. apply Rabs_le_inv in He1, ET. pose proof u53_small as [U0 U1].
    assert (T0 : 0 <= B2R tot <= bpow radix2 227).
    { split; [lra|]. change 227%Z with (1 + 226)%Z. rewrite bpow_plus. change (bpow radix2 1) with 2. lra. }
    set (dd := f64_mul d d) in *.
    assert (DD : 0 <= B2R dd <= bpow radix2 401).
    { rewrite E1. change 401%Z with (1 + 400)%Z. rewrite (bpow_plus radix2 1 400). change (bpow radix2 1) with 2. pose proof (bpow_gt_0 radix2 400). split; [apply Rmult_le_pos; nra|]. nra. }
    assert (P : 0 <= B2R dd * B2R tot <= bpow radix2 628).
    { split; [apply Rmult_le_pos; lra|]. change 628%Z with (401 + 227)%Z. rewrite bpow_plus. apply Rmult_le_compat; lra. }
    destruct (mul_ok dd tot F1 FT) as (E2 & F2 & _). { rewrite Rabs_pos_eq by lra. apply Rle_trans with (bpow radix2 628); [lra|apply bpow_le; lia]. }
    split; [exact F2|]. rewrite E2. split; [apply rnd_nonneg; lra|].
    destruct (rnd_err (B2R dd * B2R tot)) as (e2 & h & He2 & Hh & R2). rewrite R2, E1. apply Rabs_le_inv in He2.
    set (D := B2R d * B2R d) in *. set (dt := B2R tot - Sx) in *.
    assert (D0 : 0 < D) by (unfold D; nra).
    assert (Hh' : Rabs h <= bpow radix2 (-1000)) by (eapply Rle_trans; [exact Hh|apply bpow_le; lia]).
    replace (D * (1 + e1) * B2R tot * (1 + e2) + h - D * Sx) with (D * ((1 + e1) * (1 + e2) * (Sx + dt) - Sx) + h) by (unfold dt; ring).
    eapply Rle_trans; [apply Rabs_triang|]. apply Rplus_le_compat; [|exact Hh'].
    rewrite Rabs_mult, (Rabs_pos_eq D) by lra. replace (/ 16777216 * (D * Sx)) with (D * (/ 16777216 * Sx)) by ring.
    apply Rmult_le_compat_l; [lra|].
    assert (W : 1 - / 100000000000000 <= (1 + e1) * (1 + e2) <= 1 + / 100000000000000) by nra.
    set (w := (1 + e1) * (1 + e2)) in *. apply Rabs_le. nra.
  - (* eccentricities *)
    destruct (Rle_lt_dec (Rsum (fun c => B2R (tc c)) (cells N)) 0) as [Z|Pos].
    + exists f64_zero, f64_zero, f64_zero, f64_zero. split.
      * apply (C16_empty_ieee L cfg ev dbg nA nB nc ev' He H). fold TR. intros t Ht.
        destruct (HR t Ht) as [Ft Bt]. destruct tiny_v as [Fy By]. rewrite ltb_ok by auto. apply Rlt_bool_true.
        assert (B2R t <= 0); [|pose proof (bpow_gt_0 radix2 (-40)); lra].
        rewrite <- (cells_row_major' _ _ S) in Ht. apply in_map_iff in Ht. destruct Ht as (c & <- & Hc).
        apply Rle_trans with (2 := Z). change (B2R (tc c) <= Rsum (fun c => B2R (tc c)) (cells N)).
        apply (in_split) in Hc. destruct Hc as (l1 & l2 & El).
        assert (Q : forall l, (forall c, In c l -> In c (cells N)) -> 0 <= Rsum (fun c => B2R (tc c)) l).
        { intros l Hl. apply Rsum_nonneg. intros c0 Hc0. apply Cells, Hl, Hc0. }
        pose proof (Q l1) as Q1. pose proof (Q l2) as Q2. rewrite El in *. rewrite Rsum_app, Rsum_cons.
        specialize (Q1 ltac:(intros; apply in_or_app; auto)). specialize (Q2 ltac:(intros; apply in_or_app; right; simpl; auto)). lra.
      * assert (G : fraction_like f64_zero) by (split; [reflexivity|]; change (B2R f64_zero) with 0; lra). auto.
    + destruct (centre_ok tc (cells N) Len Cells snd ltac:(intros c Hc; apply Idx; exact Hc) Pos) as [F1 B1].
      destruct (centre_ok tc (cells N) Len Cells fst ltac:(intros c Hc; apply Idx; exact Hc) Pos) as [F2 B2].
      pose proof (obs_ok L (ev_ixcm ev') (ev_iycm ev')) as OK. rewrite EX in OK at 1 2. rewrite EY in OK at 1 2.
      specialize (OK F1 F2 B1 B2 tc (cells N) 0%Z (ecc_zero, ecc_zero, ecc_zero, ecc_zero)).
      change (fun (acc : _) (c : Z * Z) => if nltb (FA L) (cell TR (fst c) (snd c)) tiny then acc else _)
        with (fun acc (c : Z * Z) => if nltb (FA L) (tc c) tiny then acc else obs_cell (A:=FA L) (ev_ixcm ev') (ev_iycm ev') (tc c) (fst c) (snd c) acc) in EE.
      destruct (fold_left _ (cells N) _) as [[[a2 a3] a4] a5] eqn:EF in OK, EE.
      assert (OK' : quad_ok L (0 + Z.of_nat (length (cells N))) (a2, a3, a4, a5)).
      { apply OK; [|repeat split; apply acc_zero|lia]. intros c Hc. destruct (Idx c Hc). destruct (Cells c Hc). auto. }
      destruct OK' as (O2 & O3 & O4 & O5).
      exists (ecc_finish a2), (ecc_finish a3), (ecc_finish a4), (ecc_finish a5).
      split; [exact EE|]. repeat split; eapply acc_finish; eauto; lia.
Qed.
