(** C65 in binary64. *)
From Coq Require Import Reals Lra Lia ZArith List String.
From Flocq Require Import Core BinarySingleNaN.
From Verif.Base Require Import Result Arith RArith FArith Rng.
From Verif.Model Require Import FastExp Config Nucleon Nucleus Event Files CrossSection Output Collider.
From Verif.Spec Require Import History Collision Replay Distributions Grid Evolved Profile Finite Mean MeanRounded Accuracy Integral.
From Verif.Proof Require Import Basics RBasics GridP EventP DepositR ReducedP Ctor DiscSum.
From Verif.Properties Require Import ImpactIeee ThicknessIeee GridIeee FiniteIeee FiniteRun AccuracyIeee MeanIeee Replay Distributions Integral.
Import ListNotations.
Local Open Scope R_scope.

(** ** Moving the cell centre by 2^-38 of a step *)
Lemma shift_sq (v e dx dy DX DY : R) :
  0 < v -> 0 <= e -> Rabs (DX - dx) <= e -> Rabs (DY - dy) <= e -> e <= v / 274877906944 -> dx ^ 2 + dy ^ 2 <= (101 / 20 * v) ^ 2 ->
  Rabs (DX ^ 2 + DY ^ 2 - (dx ^ 2 + dy ^ 2)) <= v ^ 2 / 10000000000.
Proof.
  intros Hv He HX HY Hev HD. apply Rabs_def2x in HX, HY.
  assert (C : forall d o, d ^ 2 + o ^ 2 <= (101 / 20 * v) ^ 2 -> - (101 / 20 * v) <= d <= 101 / 20 * v).
  { intros d o H. pose proof (pow2_ge_0 o). apply Rabs_def2x. apply Rnot_lt_le. intros C. assert ((101 / 20 * v) ^ 2 < Rabs d ^ 2) by (simpl; rewrite !Rmult_1_r; apply Rmult_le_0_lt_compat; lra).
    rewrite RPow_abs, (Rabs_pos_eq (d ^ 2)) in H1 by apply pow2_ge_0. lra. }
  pose proof (C dx dy HD) as CX. pose proof (C dy dx ltac:(lra)) as CY.
  assert (S : forall d D, - e <= D - d <= e -> - (101 / 20 * v) <= d <= 101 / 20 * v -> Rabs (D ^ 2 - d ^ 2) <= v ^ 2 / 20000000000).
  { intros d D H1 H2. replace (D ^ 2 - d ^ 2) with ((D - d) * (D + d)) by ring. rewrite Rabs_mult.
    apply Rle_trans with (v / 274877906944 * (11 * v)); [|replace (v / 274877906944 * (11 * v)) with (v ^ 2 * (11 / 274877906944)) by field; unfold Rdiv at 2; apply Rmult_le_compat_l; [apply pow2_ge_0|lra]].
    apply Rmult_le_compat; try apply Rabs_pos; apply Rabs_le; lra. }
  pose proof (S dx DX HX CX) as SX. pose proof (S dy DY HY CY) as SY. apply Rabs_def2x in SX, SY. apply Rabs_le. lra.
Qed.

Lemma gauss_shift (v A B : R) : 0 < v -> A <= B + v ^ 2 / 10000000000 ->
  (1 - / 10000000000) * (exp (- B / (2 * v ^ 2)) / (2 * PI * v ^ 2)) <= exp (- A / (2 * v ^ 2)) / (2 * PI * v ^ 2).
Proof.
  intros Hv H. assert (V2 : 0 < v ^ 2) by (apply pow_lt; exact Hv). pose proof PI_RGT_0 as HP.
  unfold Rdiv at 1 3. rewrite <- Rmult_assoc. apply Rmult_le_compat_r.
  { apply Rlt_le, Rinv_0_lt_compat. apply Rmult_lt_0_compat; lra. }
  apply Rle_trans with (exp (- / 20000000000) * exp (- B / (2 * v ^ 2))).
  - apply Rmult_le_compat_r; [apply Rlt_le, exp_pos|]. pose proof (exp_ineq1_le (- / 20000000000)). lra.
  - rewrite <- exp_plus. apply exp_le. apply Rmult_le_reg_r with (2 * v ^ 2); [lra|]. unfold Rdiv at 2. rewrite Rmult_assoc, Rinv_l by lra.
    replace ((- / 20000000000 + - B / (2 * v ^ 2)) * (2 * v ^ 2)) with (- B - v ^ 2 / 10000000000) by (field; lra). lra.
Qed.

Section Shift.
Variables (v st x0 y0 X Y : R).
Hypothesis Hst : 0 < st <= v.
Hypothesis HX : Rabs (X - x0) <= bpow radix2 (-38) * st.
Hypothesis HY : Rabs (Y - y0) <= bpow radix2 (-38) * st.

Lemma b38 : bpow radix2 (-38) * st <= v / 274877906944.
Proof. change (bpow radix2 (-38)) with (/ 274877906944). unfold Rdiv. rewrite Rmult_comm. apply Rmult_le_compat_r; lra. Qed.
Lemma b38_pos : 0 <= bpow radix2 (-38) * st.
Proof. apply Rmult_le_pos; [apply bpow_ge_0|lra]. Qed.

Lemma b48 : 0 < bpow radix2 (-48) <= / 1000.
Proof. change (bpow radix2 (-48)) with (/ 281474976710656). lra. Qed.

Lemma sqrt_less z c : 0 <= c -> 0 <= z -> sqrt z < c -> z <= c ^ 2.
Proof. intros Hc Hz H. rewrite <- (pow2_sqrt z Hz). apply pow_incr. split; [apply sqrt_pos|lra]. Qed.

Lemma inner_shift (q : constituent RA) :
  dist x0 y0 q < 49 / 10 * v ->
  dist X Y q < inner_cut v /\ (1 - / 10000000000) * gauss2 (v ^ 2) (x0 - q_x q) (y0 - q_y q) <= gauss2 (v ^ 2) (X - q_x q) (Y - q_y q).
Proof.
  unfold dist. intros D. set (dx := x0 - q_x q) in *. set (dy := y0 - q_y q) in *. set (DX := X - q_x q). set (DY := Y - q_y q).
  pose proof (pow2_ge_0 dx). pose proof (pow2_ge_0 dy).
  assert (V2 : 0 < v ^ 2) by (apply pow_lt; lra).
  apply sqrt_less in D; try lra. replace ((49 / 10 * v) ^ 2) with (2401 / 100 * v ^ 2) in D by field.
  assert (S : Rabs (DX ^ 2 + DY ^ 2 - (dx ^ 2 + dy ^ 2)) <= v ^ 2 / 10000000000).
  { apply (shift_sq v (bpow radix2 (-38) * st)); try lra; try apply b38; try apply b38_pos.
    - replace (DX - dx) with (X - x0) by (unfold DX, dx; toR; ring). exact HX.
    - replace (DY - dy) with (Y - y0) by (unfold DY, dy; toR; ring). exact HY. }
  apply Rabs_def2x in S. split.
  - pose proof b48. apply Rlt_le_trans with (sqrt ((495 / 100 * v) ^ 2)).
    + apply sqrt_lt_1_alt. split; [pose proof (pow2_ge_0 DX); pose proof (pow2_ge_0 DY); lra|]. replace ((495 / 100 * v) ^ 2) with (245025 / 10000 * v ^ 2) by field. lra.
    + rewrite sqrt_pow2 by lra. unfold inner_cut. replace (5 * v * (1 - bpow radix2 (-48))) with (v * (5 - 5 * bpow radix2 (-48))) by ring.
      rewrite Rmult_comm. apply Rmult_le_compat_l; lra.
  - unfold gauss2. apply gauss_shift; lra.
Qed.

Lemma outer_shift (q : constituent RA) :
  dist X Y q < outer_cut v ->
  dist x0 y0 q < 51 / 10 * v /\ (1 - / 10000000000) * gauss2 (v ^ 2) (X - q_x q) (Y - q_y q) <= gauss2 (v ^ 2) (x0 - q_x q) (y0 - q_y q).
Proof.
  unfold dist. intros D. set (dx := x0 - q_x q) in *. set (dy := y0 - q_y q) in *. set (DX := X - q_x q) in *. set (DY := Y - q_y q) in *.
  pose proof (pow2_ge_0 DX). pose proof (pow2_ge_0 DY).
  assert (V2 : 0 < v ^ 2) by (apply pow_lt; lra). pose proof b48.
  assert (D5 : sqrt (DX ^ 2 + DY ^ 2) < 501 / 100 * v).
  { apply Rlt_le_trans with (1 := D). unfold outer_cut. replace (5 * v * (1 + bpow radix2 (-48))) with (v * (5 + 5 * bpow radix2 (-48))) by ring.
    rewrite (Rmult_comm (501 / 100)). apply Rmult_le_compat_l; lra. }
  apply sqrt_less in D5; try lra. replace ((501 / 100 * v) ^ 2) with (251001 / 10000 * v ^ 2) in D5 by field.
  assert (S : Rabs (dx ^ 2 + dy ^ 2 - (DX ^ 2 + DY ^ 2)) <= v ^ 2 / 10000000000).
  { apply (shift_sq v (bpow radix2 (-38) * st)); try lra; try apply b38; try apply b38_pos.
    - rewrite Rabs_minus_sym. replace (DX - dx) with (X - x0) by (unfold DX, dx; toR; ring). exact HX.
    - rewrite Rabs_minus_sym. replace (DY - dy) with (Y - y0) by (unfold DY, dy; toR; ring). exact HY. }
  apply Rabs_def2x in S. split.
  - rewrite <- (sqrt_pow2 (51 / 10 * v)) by lra. apply sqrt_lt_1_alt. split; [pose proof (pow2_ge_0 dx); pose proof (pow2_ge_0 dy); lra|].
    replace ((51 / 10 * v) ^ 2) with (2601 / 100 * v ^ 2) by field. lra.
  - unfold gauss2. apply gauss_shift; lra.
Qed.

Lemma gauss2_pos s2 dx dy : 0 < s2 -> 0 < gauss2 s2 dx dy.
Proof. intros H. unfold gauss2. pose proof PI_RGT_0. apply Rdiv_lt_0_compat; [apply exp_pos|]. apply Rmult_lt_0_compat; lra. Qed.

Lemma profile_shift (m : R) (qs : list (constituent RA)) : 0 < m -> (forall q, In q qs -> 0 <= q_fluct q) ->
  (1 - / 10000000000) * cut_profile (49 / 10 * v) v m qs x0 y0 <= cut_profile (inner_cut v) v m qs X Y /\
  (1 - / 10000000000) * cut_profile (outer_cut v) v m qs X Y <= cut_profile (51 / 10 * v) v m qs x0 y0.
Proof.
  intros Hm Hq. assert (V2 : 0 < v ^ 2) by (apply pow_lt; lra). unfold cut_profile. rewrite <- !Rsum_scale.
  assert (W : forall q, In q qs -> 0 <= q_fluct q / m) by (intros q H; apply Rmult_le_pos; [apply Hq, H|apply Rlt_le, Rinv_0_lt_compat, Hm]).
  split; apply Rsum_le; intros q Hi; specialize (W q Hi).
  - destruct (Rlt_dec (dist x0 y0 q) (49 / 10 * v)) as [D|D].
    + destruct (inner_shift q D) as [D' G]. destruct (Rlt_dec (dist X Y q) (inner_cut v)); [|contradiction].
      rewrite <- Rmult_assoc, (Rmult_comm _ (q_fluct q / m)), Rmult_assoc. apply Rmult_le_compat_l; assumption.
    + rewrite Rmult_0_r. destruct (Rlt_dec _ _); [|lra]. apply Rmult_le_pos; [exact W|]. apply Rlt_le, gauss2_pos, V2.
  - destruct (Rlt_dec (dist X Y q) (outer_cut v)) as [D|D].
    + destruct (outer_shift q D) as [D' G]. destruct (Rlt_dec (dist x0 y0 q) (51 / 10 * v)); [|contradiction].
      rewrite <- Rmult_assoc, (Rmult_comm _ (q_fluct q / m)), Rmult_assoc. apply Rmult_le_compat_l; assumption.
    + rewrite Rmult_0_r. destruct (Rlt_dec _ _); [|lra]. apply Rmult_le_pos; [exact W|]. apply Rlt_le, gauss2_pos, V2.
Qed.
End Shift.

Lemma filter_real {L : Libm} (ns : list (nucleon (FA L))) : filter n_part (map real_nucleon ns) = map real_nucleon (filter n_part ns).
Proof. induction ns as [|n ns IH]; [reflexivity|]. cbn [map filter real_nucleon n_part]. destruct (n_part n); cbn [map]; rewrite IH; reflexivity. Qed.

Lemma nucleus_shift {L : Libm} (cfg : config (FA L)) (ns : list (nucleon (FA L))) st half x0 y0 X Y :
  let v := B2R (constit_width cfg : f64) in let m := IZR (constit_number cfg) in
  0 < st <= v -> 0 < m -> contained half v (map real_nucleon ns) ->
  Rabs (X - x0) <= bpow radix2 (-38) * st -> Rabs (Y - y0) <= bpow radix2 (-38) * st ->
  let P cut := RBasics.Rsum (fun n => cut_profile cut v m (n_cons n) x0 y0) (filter n_part (map real_nucleon ns)) in
  (1 - / 10000000000) * P (49 / 10 * v) <= nucleus_profile inner_cut cfg ns X Y /\
  (1 - / 10000000000) * nucleus_profile outer_cut cfg ns X Y <= P (51 / 10 * v) /\ 0 <= nucleus_profile inner_cut cfg ns X Y.
Proof.
  intros v m Hst Hm HC HX HY P. unfold P, nucleus_profile, nucleon_profile. rewrite filter_real, !Rsum_map. fold v m. rewrite <- !Rsum_scale.
  assert (Q : forall n, In n (filter n_part ns) -> forall q, In q (map real_constituent (n_cons n)) -> 0 <= q_fluct q).
  { intros n Hn q Hq. apply filter_In in Hn. destruct Hn as [Hn Hp]. apply (HC (real_nucleon n) q); [apply in_map; exact Hn|exact Hp|exact Hq]. }
  split; [|split].
  - apply Rsum_le. intros n Hn. apply (profile_shift v st x0 y0 X Y Hst HX HY m _ Hm (Q n Hn)).
  - apply Rsum_le. intros n Hn. apply (profile_shift v st x0 y0 X Y Hst HX HY m _ Hm (Q n Hn)).
  - apply Rsum_nonneg. intros n Hn. apply Rsum_nonneg. intros q Hq. destruct (Rlt_dec _ _); [|lra].
    apply Rmult_le_pos; [apply Rmult_le_pos; [apply (Q n Hn q Hq)|apply Rlt_le, Rinv_0_lt_compat, Hm]|]. apply Rlt_le, gauss2_pos. apply pow_lt. lra.
Qed.

(** The error before the slack in [grid_error] is used up. *)
Definition inner_error (s : R) : R := disc_error s + 4 / 100000 * (1 + disc_error s).

Lemma integral_const st N c : (0 <= N <= 8192)%Z -> 0 <= c -> integral st N (fun _ _ => c) <= st ^ 2 * (bpow radix2 26 * c).
Proof.
  intros HN Hc. unfold integral. apply Rmult_le_compat_l; [apply pow2_ge_0|]. rewrite !Rsum_const. rewrite zupto_length, INR_IZR_INZ, Z2Nat.id by lia.
  rewrite <- Rmult_assoc. apply Rmult_le_compat_r; [exact Hc|]. rewrite <- mult_IZR. change (bpow radix2 26) with (IZR (2 ^ 26)). apply IZR_le. nia.
Qed.

Lemma compute_steps (L : Libm) (cfg : config (FA L)) ev dbg nA nB nc ev' : ordinary cfg -> evolved cfg ev -> event_compute dbg ev nA nB nc = Ret ev' ->
  (1 <= ev_nsteps ev' <= 8192)%Z.
Proof.
  intros Ho He H. pose proof (evolved_ready _ _ He) as Hr. pose proof (event_compute_inv _ _ _ _ _ _ Hr H) as (PE & _).
  destruct (evolved_params _ _ He) as (ev0 & E0 & P0). pose proof (ordinary_steps L cfg ev0 Ho E0) as HN.
  destruct (C12_ieee L cfg (ordinary_grid L cfg Ho)) as (ev1 & E1 & _ & _ & _ & N1 & _). assert (ev1 = ev0) by congruence. subst ev1.
  destruct P0 as (_ & _ & _ & Ps & _). destruct PE as (_ & _ & _ & Qs & _). rewrite <- Qs, <- Ps. lia.
Qed.

Lemma thickness_close (L : Libm) (cfg : config (FA L)) (ev : event (FA L)) dbg nA nB sp ev' :
  accurate_exp L -> ordinary cfg -> near_nucleus nA -> near_nucleus nB ->
  evolved cfg ev -> event_compute dbg ev nA nB (nucleon_common_of cfg sp) = Ret ev' ->
  let N := ev_nsteps ev' in let st := B2R (grid_step cfg : f64) in let v := B2R (constit_width cfg : f64) in
  let m := IZR (constit_number cfg) in
  st <= v -> forall nucl grd, (nucl, grd) = (nA, ev_TA ev') \/ (nucl, grd) = (nB, ev_TB ev') ->
  contained (IZR N * st / 2) v (map real_nucleon nucl) ->
  Rabs (integral st N (real_cell grd) - nucleus_weight m (map real_nucleon nucl)) <=
    inner_error (st / v) * nucleus_weight m (map real_nucleon nucl) + st ^ 2 * bpow radix2 (-774).
Proof.
  intros HL Ho HA HB He H N st v m Hsv nucl grd Hg HC.
  pose proof (compute_steps L cfg ev dbg nA nB _ ev' Ho He H) as HN. fold N in HN.
  destruct (C62_compute L cfg ev dbg nA nB sp ev' HL Ho HA HB He H) as (_ & _ & CP). fold N st in CP.
  destruct (or_grid _ Ho) as (_ & _ & [S0 _] & _). fold st in S0. destruct (or_number _ Ho) as [M1 _].
  assert (Hst : 0 < st <= v) by (pose proof (bpow_gt_0 radix2 (-400)); lra).
  assert (Hm : 0 < m) by (apply IZR_lt; lia).
  set (W := nucleus_weight m (map real_nucleon nucl)).
  set (P := fun (cut : R) (iy ix : Z) => RBasics.Rsum (fun n => cut_profile cut v m (n_cons n) ((IZR ix + / 2) * st - IZR N * st / 2) ((IZR iy + / 2) * st - IZR N * st / 2)) (filter n_part (map real_nucleon nucl))).
  pose proof (nucleus_integral v m st (49 / 10 * v) _ N Hst Hm ltac:(lra) HC) as NI. fold (P (49 / 10 * v)) in NI. fold W in NI.
  pose proof (nucleus_integral v m st (51 / 10 * v) _ N Hst Hm ltac:(lra) HC) as NO. fold (P (51 / 10 * v)) in NO. fold W in NO.
  set (u := bpow radix2 (-800)) in *. assert (U0 : 0 <= u) by apply bpow_ge_0.
  assert (B : forall iy ix, (0 <= iy < N)%Z -> (0 <= ix < N)%Z ->
    (1 - 35 / 1000000) * P (49 / 10 * v) iy ix + -1 * u <= real_cell grd iy ix <= (1 + 35 / 1000000) * P (51 / 10 * v) iy ix + 1 * u).
  { intros iy ix Hy Hx. destruct (CP iy ix (conj Hy Hx)) as (X & Y & BX & BY & TA & TB).
    assert (BT : between (3 / 100000) (nucleus_profile inner_cut cfg nucl X Y) (nucleus_profile outer_cut cfg nucl X Y) (cell grd iy ix)).
    { destruct Hg as [Hg|Hg]; injection Hg as -> ->; assumption. }
    replace ((IZR ix + / 2 - IZR N / 2) * st) with ((IZR ix + / 2) * st - IZR N * st / 2) in BX by field.
    replace ((IZR iy + / 2 - IZR N / 2) * st) with ((IZR iy + / 2) * st - IZR N * st / 2) in BY by field.
    destruct (nucleus_shift cfg nucl st _ _ _ X Y Hst Hm HC BX BY) as (S1 & S2 & S3). fold v m in S1, S2.
    fold (P (49 / 10 * v) iy ix) in S1. fold (P (51 / 10 * v) iy ix) in S2.
    destruct BT as (_ & B1 & B2). fold u in B1, B2. unfold real_cell.
    assert (P1 : 0 <= P (49 / 10 * v) iy ix).
    { apply Rsum_nonneg. intros n Hn. apply Rsum_nonneg. intros q Hq. destruct (Rlt_dec _ _); [|lra]. apply filter_In in Hn. destruct Hn as [Hn Hp].
      apply Rmult_le_pos; [apply Rmult_le_pos; [apply (HC n q Hn Hp Hq)|apply Rlt_le, Rinv_0_lt_compat, Hm]|]. apply Rlt_le, gauss2_pos. apply pow_lt. lra. }
    assert (P2 : 0 <= P (51 / 10 * v) iy ix).
    { apply Rsum_nonneg. intros n Hn. apply Rsum_nonneg. intros q Hq. destruct (Rlt_dec _ _); [|lra]. apply filter_In in Hn. destruct Hn as [Hn Hp].
      apply Rmult_le_pos; [apply Rmult_le_pos; [apply (HC n q Hn Hp Hq)|apply Rlt_le, Rinv_0_lt_compat, Hm]|]. apply Rlt_le, gauss2_pos. apply pow_lt. lra. }
    split; lra. }
  assert (LO : (1 - 35 / 1000000) * integral st N (P (49 / 10 * v)) + -1 * integral st N (fun _ _ => u) <= integral st N (real_cell grd)).
  { rewrite <- (integral_scale st N (1 - 35 / 1000000)), <- (integral_scale st N (-1)), <- integral_plus. apply integral_le. intros; apply B; auto. }
  assert (UP : integral st N (real_cell grd) <= (1 + 35 / 1000000) * integral st N (P (51 / 10 * v)) + 1 * integral st N (fun _ _ => u)).
  { rewrite <- (integral_scale st N (1 + 35 / 1000000)), <- (integral_scale st N 1), <- integral_plus. apply integral_le. intros; apply B; auto. }
  pose proof (integral_const st N u ltac:(lia) U0) as IU. unfold u in IU at 2. rewrite <- bpow_plus in IU. change (26 + -800)%Z with (-774)%Z in IU.
  pose proof (nucleus_weight_nonneg m _ v _ Hm HC) as W0. fold W in W0.
  destruct (disc_grid (st / v) (ratio_range st v Hst)) as (D0 & _ & _).
  assert (Z : 0 <= disc_error (st / v) * W) by (apply Rmult_le_pos; lra).
  apply Rabs_def2x in NI, NO. apply Rabs_le. unfold inner_error. lra.
Qed.

(** ** The thickness grids *)
Theorem C65_compute :
  forall (L : Libm) (cfg : config (FA L)) (ev : event (FA L)) dbg nA nB sp ev',
  accurate_exp L -> ordinary cfg -> near_nucleus nA -> near_nucleus nB ->
  evolved cfg ev -> event_compute dbg ev nA nB (nucleon_common_of cfg sp) = Ret ev' ->
  let N := ev_nsteps ev' in let st := B2R (grid_step cfg : f64) in let v := B2R (constit_width cfg : f64) in
  let m := IZR (constit_number cfg) in
  let WA := nucleus_weight m (map real_nucleon nA) in let WB := nucleus_weight m (map real_nucleon nB) in
  st <= v -> contained (IZR N * st / 2) v (map real_nucleon nA) -> contained (IZR N * st / 2) v (map real_nucleon nB) ->
  Rabs (integral st N (real_cell (ev_TA ev')) - WA) <= grid_error (st / v) * WA + st ^ 2 * bpow radix2 (-700) /\
  Rabs (integral st N (real_cell (ev_TB ev')) - WB) <= grid_error (st / v) * WB + st ^ 2 * bpow radix2 (-700).
Proof.
  intros L cfg ev dbg nA nB sp ev' HL Ho HA HB He H N st v m WA WB Hsv CA CB.
  destruct (or_grid _ Ho) as (_ & _ & [S0 _] & _). fold st in S0. destruct (or_number _ Ho) as [M1 _].
  assert (Hst : 0 < st <= v) by (pose proof (bpow_gt_0 radix2 (-400)); lra).
  assert (Hm : 0 < m) by (apply IZR_lt; lia).
  destruct (disc_grid (st / v) (ratio_range st v Hst)) as (D0 & D1 & _).
  assert (B7 : st ^ 2 * bpow radix2 (-774) <= st ^ 2 * bpow radix2 (-700)) by (apply Rmult_le_compat_l; [apply pow2_ge_0|apply bpow_le; lia]).
  split.
  - pose proof (thickness_close L cfg ev dbg nA nB sp ev' HL Ho HA HB He H Hsv nA _ (or_introl eq_refl) CA) as T. fold N st v m WA in T.
    pose proof (nucleus_weight_nonneg m _ v _ Hm CA) as W0. fold WA in W0.
    assert (inner_error (st / v) * WA <= grid_error (st / v) * WA) by (apply Rmult_le_compat_r; [exact W0|unfold inner_error; lra]). lra.
  - pose proof (thickness_close L cfg ev dbg nA nB sp ev' HL Ho HA HB He H Hsv nB _ (or_intror eq_refl) CB) as T. fold N st v m WB in T.
    pose proof (nucleus_weight_nonneg m _ v _ Hm CB) as W0. fold WB in W0.
    assert (inner_error (st / v) * WB <= grid_error (st / v) * WB) by (apply Rmult_le_compat_r; [exact W0|unfold inner_error; lra]). lra.
Qed.

Lemma near_light {L : Libm} (ns : list (nucleon (FA L))) : near_nucleus ns -> light_nucleus ns.
Proof. intros [H1 H2]. split; [exact H1|]. intros n Hn Hp. destruct (H2 n Hn Hp) as [H3 H4]. split; [exact H3|]. intros q Hq. apply (H4 q Hq). Qed.

(** ** The multiplicity *)
Theorem C65_multiplicity_compute :
  forall (L : Libm) (cfg : config (FA L)) (ev : event (FA L)) dbg nA nB sp ev',
  accurate_exp L -> accurate_pow L -> ordinary cfg -> near_nucleus nA -> near_nucleus nB ->
  evolved cfg ev -> event_compute dbg ev nA nB (nucleon_common_of cfg sp) = Ret ev' ->
  let N := ev_nsteps ev' in let st := B2R (grid_step cfg : f64) in let v := B2R (constit_width cfg : f64) in
  let m := IZR (constit_number cfg) in let p := B2R (reduced_thickness cfg : f64) in
  let W := B2R (normalization cfg : f64) * (nucleus_weight m (map real_nucleon nA) + nucleus_weight m (map real_nucleon nB)) / 2 in
  st <= v -> contained (IZR N * st / 2) v (map real_nucleon nA) -> contained (IZR N * st / 2) v (map real_nucleon nB) ->
  usable_exponent p -> p <= 1 ->
  is_finite (ev_mult ev' : f64) = true /\
  0 <= B2R (ev_mult ev' : f64) <= (1 + mean_error p) * (1 + grid_error (st / v)) * W + st ^ 2 * bpow radix2 (-100) /\
  (p = 1 -> Rabs (B2R (ev_mult ev' : f64) - W) <= grid_error (st / v) * W + st ^ 2 * bpow radix2 (-100)).
Proof.
  intros L cfg ev dbg nA nB sp ev' HL HP Ho HA HB He H N st v m p W Hsv CA CB Hp Hp1.
  pose proof (compute_steps L cfg ev dbg nA nB _ ev' Ho He H) as HN. fold N in HN.
  destruct (or_grid _ Ho) as (_ & _ & [S0 _] & _). fold st in S0. destruct (or_number _ Ho) as [M1 _].
  assert (Hst : 0 < st <= v) by (pose proof (bpow_gt_0 radix2 (-400)); lra).
  assert (Hm : 0 < m) by (apply IZR_lt; lia).
  destruct (disc_grid (st / v) (ratio_range st v Hst)) as (D0 & D1 & D2).
  pose proof (nucleus_weight_nonneg m _ v _ Hm CA) as WA0. pose proof (nucleus_weight_nonneg m _ v _ Hm CB) as WB0.
  pose proof (thickness_close L cfg ev dbg nA nB sp ev' HL Ho HA HB He H Hsv nA _ (or_introl eq_refl) CA) as TA. fold N st v m in TA.
  pose proof (thickness_close L cfg ev dbg nA nB sp ev' HL Ho HA HB He H Hsv nB _ (or_intror eq_refl) CB) as TB. fold N st v m in TB.
  destruct (C61_compute L cfg ev dbg nA nB sp ev' HL HP Ho (near_light _ HA) (near_light _ HB) He H) as (RA_ & RB_ & _ & (MF & MP & MR) & _).
  pose proof (C63_compute L cfg ev dbg nA nB sp ev' HL HP Ho (near_light _ HA) (near_light _ HB) He H Hp) as CM. fold N p in CM.
  destruct (C62_compute L cfg ev dbg nA nB sp ev' HL Ho HA HB He H) as (SA & SB & _). fold N in SA, SB.
  destruct (or_norm _ Ho) as (_ & NB0 & NB1). set (n := B2R (normalization cfg : f64)) in *.
  pose proof (evolved_ready _ _ He) as Hr. pose proof (event_compute_inv _ _ _ _ _ _ Hr H) as (PE & _ & _ & _ & SR & _).
  assert (EN : ev_nsteps ev = N) by (destruct PE as (_ & _ & _ & Qs & _); exact Qs). rewrite EN in SR.
  fold st in MR. rewrite (exact_sum_cells L N _ SR) in MR.
  set (WA := nucleus_weight m (map real_nucleon nA)) in *. set (WB := nucleus_weight m (map real_nucleon nB)) in *.
  set (IA := integral st N (real_cell (ev_TA ev'))) in *. set (IB := integral st N (real_cell (ev_TB ev'))) in *.
  assert (ES : st * st * RBasics.Rsum (fun c => B2R (cell (ev_TR ev') (fst c) (snd c) : f64)) (cells N) = integral st N (real_cell (ev_TR ev'))).
  { rewrite integral_cells, <- Rsum_scale. reflexivity. }
  rewrite ES in MR. clear ES. set (S := integral st N (real_cell (ev_TR ev'))) in *.
  assert (ME : 0 <= mean_error p <= 1).
  { pose proof (error_range p Hp) as E. pose proof (bpow_ge_0 radix2 (-48)). lra. }
  assert (T0 : 0 < threshold <= 1) by (rewrite threshold_v; lra).
  assert (NNA : forall iy ix, (0 <= iy < N)%Z -> (0 <= ix < N)%Z -> 0 <= real_cell (ev_TA ev') iy ix /\ 0 <= real_cell (ev_TB ev') iy ix).
  { intros iy ix Hy Hx. split.
    - apply RA_. rewrite <- (cells_row_major' _ _ SA). apply in_map_iff. exists (iy, ix). split; [reflexivity|apply in_cells; split; assumption].
    - apply RB_. rewrite <- (cells_row_major' _ _ SB). apply in_map_iff. exists (iy, ix). split; [reflexivity|apply in_cells; split; assumption]. }
  set (u := bpow radix2 (-140)) in *. assert (U0 : 0 <= u) by apply bpow_ge_0.
  pose proof (integral_const st N u ltac:(lia) U0) as IU. unfold u in IU at 2. rewrite <- bpow_plus in IU. change (26 + -140)%Z with (-114)%Z in IU.
  assert (B : forall iy ix, (0 <= iy < N)%Z -> (0 <= ix < N)%Z ->
    0 <= real_cell (ev_TR ev') iy ix <= (1 + mean_error p) * (n / 2) * (real_cell (ev_TA ev') iy ix + real_cell (ev_TB ev') iy ix) + 1 * u).
  { intros iy ix Hy Hx. destruct (CM iy ix (conj Hy Hx)) as (_ & C0 & C1). destruct (NNA iy ix Hy Hx) as [A0 B0]. unfold real_cell in *.
    destruct (mean_below threshold p _ _ (proj1 T0) Hp1 A0 B0) as [ML MU].
    fold n in C1. set (mm := mean_at threshold p _ _) in *. fold u in C1. apply Rabs_def2x in C1. split; [exact C0|].
    set (a := B2R (cell (ev_TA ev') iy ix : f64)) in *. set (b := B2R (cell (ev_TB ev') iy ix : f64)) in *.
    assert (n * mm <= n / 2 * (a + b)) by (replace (n / 2 * (a + b)) with (n * ((a + b) / 2)) by field; apply Rmult_le_compat_l; assumption).
    assert (mean_error p * (n * mm) <= mean_error p * (n / 2 * (a + b))) by (apply Rmult_le_compat_l; [apply ME|assumption]).
    replace ((1 + mean_error p) * (n / 2) * (a + b)) with (n / 2 * (a + b) + mean_error p * (n / 2 * (a + b))) by ring. lra. }
  assert (SU : S <= (1 + mean_error p) * (n / 2) * (IA + IB) + 1 * integral st N (fun _ _ => u)).
  { unfold S, IA, IB. rewrite <- integral_plus. rewrite <- (integral_scale st N ((1 + mean_error p) * (n / 2))), <- (integral_scale st N 1), <- integral_plus.
    apply integral_le. intros; apply B; auto. }
  assert (SL : 0 <= S).
  { unfold S. rewrite integral_cells. apply Rsum_nonneg. intros [iy ix] Hc. apply in_cells in Hc. destruct Hc. apply Rmult_le_pos; [apply Rle_0_sqr|]. apply B; auto. }
  apply Rabs_def2x in TA, TB, MR.
  set (ie := inner_error (st / v)) in *.
  assert (IE0 : 0 < ie /\ ie + 3 / 10000 * (1 + ie) <= grid_error (st / v)).
  { unfold ie, inner_error. split; [lra|]. assert (0 < disc_error (st / v) <= 75 / 1000) by lra. lra. }
  assert (IAB : IA + IB <= (1 + ie) * (WA + WB) + 2 * (st ^ 2 * bpow radix2 (-774))) by lra.
  assert (S2 : 0 < st ^ 2) by (apply pow_lt; lra).
  assert (AB : n * (st ^ 2 * bpow radix2 (-774)) <= st ^ 2 * bpow radix2 (-724)).
  { change (-724)%Z with (50 + -774)%Z. rewrite bpow_plus.
    replace (st ^ 2 * (bpow radix2 50 * bpow radix2 (-774))) with (bpow radix2 50 * (st ^ 2 * bpow radix2 (-774))) by ring.
    apply Rmult_le_compat_r; [apply Rmult_le_pos; [lra|apply bpow_ge_0]|exact NB1]. }
  assert (T1 : bpow radix2 (-1000) <= st ^ 2 * bpow radix2 (-200)).
  { replace (bpow radix2 (-1000)) with (bpow radix2 (-400) * bpow radix2 (-400) * bpow radix2 (-200)) by (rewrite <- !bpow_plus; reflexivity).
    apply Rmult_le_compat_r; [apply bpow_ge_0|]. replace (st ^ 2) with (st * st) by ring. apply Rmult_le_compat; try apply bpow_ge_0; exact S0. }
  assert (T2 : st ^ 2 * bpow radix2 (-724) <= st ^ 2 * bpow radix2 (-114)) by (apply Rmult_le_compat_l; [lra|apply bpow_le; lia]).
  assert (T3 : st ^ 2 * bpow radix2 (-200) <= st ^ 2 * bpow radix2 (-114)) by (apply Rmult_le_compat_l; [lra|apply bpow_le; lia]).
  assert (T4 : 16384 * (st ^ 2 * bpow radix2 (-114)) = st ^ 2 * bpow radix2 (-100)).
  { change (-100)%Z with (14 + -114)%Z. rewrite bpow_plus. change (bpow radix2 14) with 16384. ring. }
  assert (T5 : 0 <= st ^ 2 * bpow radix2 (-114)) by (apply Rmult_le_pos; [lra|apply bpow_ge_0]).
  assert (EW : W = n / 2 * (WA + WB)) by (unfold W; field).
  assert (W0 : 0 <= W) by (rewrite EW; apply Rmult_le_pos; lra).
  assert (NI : n / 2 * (IA + IB) <= (1 + ie) * W + st ^ 2 * bpow radix2 (-724)).
  { apply Rle_trans with (n / 2 * ((1 + ie) * (WA + WB) + 2 * (st ^ 2 * bpow radix2 (-774)))); [apply Rmult_le_compat_l; lra|]. rewrite EW. lra. }
  assert (IW : 0 <= (1 + ie) * W) by (apply Rmult_le_pos; lra).
  split; [exact MF|]. split.
  - split; [exact MP|].
    assert (SU2 : S <= (1 + mean_error p) * ((1 + ie) * W) + 3 * (st ^ 2 * bpow radix2 (-114))).
    { assert ((1 + mean_error p) * (n / 2) * (IA + IB) <= (1 + mean_error p) * ((1 + ie) * W + st ^ 2 * bpow radix2 (-724))) by (rewrite Rmult_assoc; apply Rmult_le_compat_l; lra).
      assert ((1 + mean_error p) * (st ^ 2 * bpow radix2 (-724)) <= 2 * (st ^ 2 * bpow radix2 (-114))) by (apply Rmult_le_compat; try lra; apply Rmult_le_pos; [lra|apply bpow_ge_0]). lra. }
    assert (IG : / 16777216 * ((1 + ie) * W) + (1 + ie) * W <= (1 + grid_error (st / v)) * W).
    { replace (/ 16777216 * ((1 + ie) * W) + (1 + ie) * W) with ((/ 16777216 * (1 + ie) + (1 + ie)) * W) by ring. apply Rmult_le_compat_r; [exact W0|lra]. }
    assert ((1 + mean_error p) * (/ 16777216 * ((1 + ie) * W) + (1 + ie) * W) <= (1 + mean_error p) * ((1 + grid_error (st / v)) * W)) by (apply Rmult_le_compat_l; lra).
    rewrite (Rmult_assoc (1 + mean_error p)). lra.
  - intros E1.
    assert (MV : mean_error p = bpow radix2 (-34)).
    { rewrite E1. unfold mean_error. rewrite Rabs_R1. destruct (Rlt_dec 1 threshold); [lra|]. field. }
    assert (MV1 : 0 < mean_error p <= / 1000000000) by (rewrite MV; change (bpow radix2 (-34)) with (/ 17179869184); lra).
    assert (SD : (1 - mean_error p) * (n / 2) * (IA + IB) + -1 * integral st N (fun _ _ => u) <= S).
    { unfold S, IA, IB. rewrite <- integral_plus. rewrite <- (integral_scale st N ((1 - mean_error p) * (n / 2))), <- (integral_scale st N (-1)), <- integral_plus.
      apply integral_le. intros iy ix Hy Hx. destruct (CM iy ix (conj Hy Hx)) as (_ & C0 & C1). destruct (NNA iy ix Hy Hx) as [A0 B0]. unfold real_cell in *.
      fold n u in C1. rewrite E1, (mean_at_one threshold _ _ (proj2 T0) A0 B0), <- E1 in C1. apply Rabs_def2x in C1.
      set (a := B2R (cell (ev_TA ev') iy ix : f64)) in *. set (b := B2R (cell (ev_TB ev') iy ix : f64)) in *.
      replace ((1 - mean_error p) * (n / 2) * (a + b)) with (n * ((a + b) / 2) - mean_error p * (n * ((a + b) / 2))) by field. lra. }
    assert (NL : (1 - ie) * W - st ^ 2 * bpow radix2 (-724) <= n / 2 * (IA + IB)).
    { apply Rle_trans with (n / 2 * ((1 - ie) * (WA + WB) - 2 * (st ^ 2 * bpow radix2 (-774)))); [rewrite EW; lra|apply Rmult_le_compat_l; lra]. }
    rewrite Rmult_assoc in SU, SD. set (Q := n / 2 * (IA + IB)) in *.
    assert (Q0 : 0 <= Q).
    { unfold Q. apply Rmult_le_pos; [lra|]. unfold IA, IB. rewrite <- integral_plus, integral_cells. apply Rsum_nonneg. intros [iy ix] Hc. apply in_cells in Hc. destruct Hc as [Hy Hx].
      apply Rmult_le_pos; [apply Rle_0_sqr|]. cbn [fst snd]. destruct (NNA iy ix Hy Hx). lra. }
    assert (QM : 0 <= mean_error p * Q <= / 1000000000 * Q) by (split; [apply Rmult_le_pos; lra|apply Rmult_le_compat_r; lra]).
    assert (GW : (ie + 3 / 10000 * (1 + ie)) * W <= grid_error (st / v) * W) by (apply Rmult_le_compat_r; lra).
    assert (IW2 : 0 <= ie * W) by (apply Rmult_le_pos; lra).
    apply Rabs_le. lra.
Qed.

(** ** In a run *)
Theorem C65_run :
  forall (L : Libm) (rg : Rng (FA L)) sv bd cfuel fuel sfuel e (cfg : config (FA L)) (s s' : sys rg),
  accurate_exp L -> accurate_pow L -> ordinary cfg ->
  let st := B2R (grid_step cfg : f64) in let v := B2R (constit_width cfg : f64) in
  let m := IZR (constit_number cfg) in let p := B2R (reduced_thickness cfg : f64) in
  st <= v -> usable_exponent p -> p <= 1 ->
  collide rg sv bd cfuel fuel sfuel e cfg s = (Ret tt, s') ->
  exists ds, run_delivered rg sv bd cfuel fuel sfuel e cfg s s' ds /\
  forall d, In d ds -> near_nucleus (d_A d) -> near_nucleus (d_B d) ->
    let N := ev_nsteps (d_event d) in
    let WA := nucleus_weight m (map real_nucleon (d_A d)) in let WB := nucleus_weight m (map real_nucleon (d_B d)) in
    let W := B2R (normalization cfg : f64) * (WA + WB) / 2 in
    contained (IZR N * st / 2) v (map real_nucleon (d_A d)) -> contained (IZR N * st / 2) v (map real_nucleon (d_B d)) ->
    Rabs (integral st N (real_cell (ev_TA (d_event d))) - WA) <= grid_error (st / v) * WA + st ^ 2 * bpow radix2 (-700) /\
    Rabs (integral st N (real_cell (ev_TB (d_event d))) - WB) <= grid_error (st / v) * WB + st ^ 2 * bpow radix2 (-700) /\
    is_finite (ev_mult (d_event d) : f64) = true /\
    0 <= B2R (ev_mult (d_event d) : f64) <= (1 + mean_error p) * (1 + grid_error (st / v)) * W + st ^ 2 * bpow radix2 (-100) /\
    (p = 1 -> Rabs (B2R (ev_mult (d_event d) : f64) - W) <= grid_error (st / v) * W + st ^ 2 * bpow radix2 (-100)).
Proof.
  intros L rg sv bd cfuel fuel sfuel e cfg s s' HL HP Ho st v m p Hsv Hp Hp1 H.
  destruct (C52_weights _ _ _ _ _ _ _ _ _ _ _ H) as (ds & D & _). exists ds. split; [exact D|].
  intros d Hd NA NB N WA WB W CA CB.
  destruct D as (co & nA & nB & ev0 & nst & gst & s1 & rs' & C & _ & EF & _).
  pose proof (collider_new_inv _ _ _ _ _ _ _ _ _ _ _ _ _ _ C) as Hc.
  destruct (ct_nc _ _ _ _ _ _ _ _ _ _ _ Hc) as (sp & Enc).
  assert (HE : event_compute (debug bd) ev0 (d_A d) (d_B d) (co_nc co) = Ret (d_event d)).
  { clear - EF Hd. induction EF as [|n ns rs x rs1 xs rs2 Hx _ IH]; [destruct Hd|].
    destruct Hd as [<-|Hd]; [|apply IH; exact Hd]. destruct Hx as (_ & a & b & _ & _ & _ & E). exact E. }
  rewrite Enc in HE.
  assert (He : evolved cfg ev0) by (constructor; apply (ct_event _ _ _ _ _ _ _ _ _ _ _ Hc)).
  destruct (C65_compute L cfg ev0 (debug bd) (d_A d) (d_B d) sp (d_event d) HL Ho NA NB He HE Hsv CA CB) as [TA TB].
  destruct (C65_multiplicity_compute L cfg ev0 (debug bd) (d_A d) (d_B d) sp (d_event d) HL HP Ho NA NB He HE Hsv CA CB Hp Hp1) as (M1 & M2 & M3).
  repeat (split; [assumption|]). exact M3.
Qed.

(** ** A case: one proton of weight 1 in each beam at (1, 1/2), constituent width 1, grid of
    half-width 8 and step 1/2, p = 1, norm 1: the multiplicity is 1 within 1%. *)
Definition wide_64 (L : Libm) : config (FA L) :=
  let l := f64_lit in
  @Config (FA L) ["p"; "p"]%string 1 false None false false (l 1 0)%Z (l 1 0)%Z (l 1 0)%Z (l 1 0)%Z 1 (l 0 0)%Z
    (l 64 (-1))%Z (l 1 0)%Z (l 0 0)%Z (l 1 0)%Z 1 (l 8 0)%Z (l 5 (-1))%Z.

Lemma eight_v : is_finite (f64_lit 8 0) = true /\ B2R (f64_lit 8 0) = 8.
Proof.
  split; [vm_compute; reflexivity|].
  rewrite (B2R_SF _ (SpecFloat.S754_finite false 4503599627370496 (-49))) by (vm_compute; reflexivity).
  cbn [SF2R cond_Zopp]. unfold F2R. cbn [Fnum Fexp]. change (bpow radix2 (-49)) with (/ 562949953421312). lra.
Qed.

Theorem C65_run_instance : forall (L : Libm) (sp : f64), accurate_exp L -> accurate_pow L ->
  exists ev ev', event_new (wide_64 L) = Ret ev /\
  event_compute false ev (one_proton L) (one_proton L) (nucleon_common_of (wide_64 L) sp) = Ret ev' /\
  ordinary (wide_64 L) /\ near_nucleus (one_proton L) /\
  contained (IZR (ev_nsteps ev') * B2R (grid_step (wide_64 L) : f64) / 2) (B2R (constit_width (wide_64 L) : f64)) (map real_nucleon (one_proton L)) /\
  Rabs (B2R (ev_mult ev' : f64) - 1) <= / 100.
Proof.
  intros L sp HL HP. destruct half_v as [Fh Vh]. destruct eight_v as [F8 V8]. pose proof B2R_one as V1.
  assert (Q1 : bpow radix2 (-400) <= / 2) by (change (/ 2) with (bpow radix2 (-1)); apply bpow_le; lia).
  assert (Q2 : 8 <= bpow radix2 200) by (change 8 with (bpow radix2 3); apply bpow_le; lia).
  assert (Q3 : bpow radix2 200 <= bpow radix2 400) by (apply bpow_le; lia).
  assert (Q4 : bpow radix2 (-20) <= / 4) by (change (/ 4) with (bpow radix2 (-2)); apply bpow_le; lia).
  assert (Q5 : 1 <= bpow radix2 50) by (change 1 with (bpow radix2 0); apply bpow_le; lia).
  assert (GM : B2R (grid_max (wide_64 L) : f64) = 8) by exact V8.
  assert (GS : B2R (grid_step (wide_64 L) : f64) = / 2) by exact Vh.
  assert (CW : B2R (constit_width (wide_64 L) : f64) = 1) by exact V1.
  assert (RT : B2R (reduced_thickness (wide_64 L) : f64) = 1) by exact V1.
  assert (NM : B2R (normalization (wide_64 L) : f64) = 1) by exact V1.
  assert (UG : usable_grid (grid_max (wide_64 L)) (grid_step (wide_64 L))).
  { unfold usable_grid. rewrite GM, GS. split; [exact F8|]. split; [exact Fh|]. split; [lra|]. split; [lra|]. rewrite p30. lra. }
  destruct (C12_ieee L (wide_64 L) UG) as (ev & E & _ & _ & _ & N1 & N2 & _). rewrite GM, GS in N2.
  replace (2 * 8 / / 2) with (IZR 32) in N2 by (simpl; lra). rewrite Zceil_IZR in N2.
  assert (He : evolved (wide_64 L) ev) by (constructor; exact E).
  destruct (C13_ieee L (wide_64 L) sp ev (one_proton L) (one_proton L) 1) as [(ev' & R) _]; auto.
  - split; [vm_compute; reflexivity|]. right. rewrite CW, Rabs_R1. split.
    + apply Rle_trans with (bpow radix2 0); [apply bpow_le; lia|]. change (bpow radix2 0) with 1. lra.
    + apply Rle_trans with (bpow radix2 0); [|apply bpow_le; lia]. change (bpow radix2 0) with 1. lra.
  - rewrite GM, GS, CW, p30, Rabs_R1. lra.
  - intros n Hn Hp.
    assert (Hn' : In n (one_proton L)) by (destruct Hn; assumption). clear Hn.
    unfold one_proton in Hn'. cbn [In] in Hn'. destruct Hn' as [Hn|[]].
    subst n. split; [cbn [n_cons]; congruence|]. intros q Hq. cbn [n_cons In] in Hq. destruct Hq as [<-|[]]. cbn [q_x q_y]. split.
    + split; [vm_compute; reflexivity|]. change (B2R (f64_lit 1 0 : num (FA L))) with (B2R (f64_lit 1 0)). rewrite B2R_one, Rabs_R1. lra.
    + split; [exact Fh|]. change (B2R (f64_lit 5 (-1) : num (FA L))) with (B2R (f64_lit 5 (-1))). rewrite Vh, Rabs_pos_eq by lra. lra.
  - assert (Ho : ordinary (wide_64 L)).
    { constructor; rewrite ?GM, ?GS, ?CW, ?RT.
      - split; [vm_compute; reflexivity|]. lra.
      - cbn. lia.
      - split; [vm_compute; reflexivity|]. rewrite Rabs_R1. lra.
      - split; [vm_compute; reflexivity|]. rewrite NM. lra.
      - split; [exact F8|]. split; [exact Fh|]. lra. }
    assert (HN : near_nucleus (one_proton L)) by (destruct (C62_instance L sp HL HP) as (_ & _ & _ & _ & _ & HN & _); exact HN).
    assert (EN : ev_nsteps ev' = ev_nsteps ev).
    { pose proof (event_compute_inv _ _ _ _ _ _ (evolved_ready _ _ He) R) as ((_ & _ & _ & Ens & _) & _). symmetry. exact Ens. }
    assert (HC : contained (IZR (ev_nsteps ev') * B2R (grid_step (wide_64 L) : f64) / 2) (B2R (constit_width (wide_64 L) : f64)) (map real_nucleon (one_proton L))).
    { rewrite EN, GS, CW. assert (NR : 31 <= IZR (ev_nsteps ev)) by (apply IZR_le; lia).
      intros n q Hn _ Hq. cbn [one_proton map In] in Hn. destruct Hn as [<-|[]]. cbn [real_nucleon n_cons map In] in Hq. destruct Hq as [<-|[]].
      unfold fits, real_constituent. cbn [q_x q_y q_fluct].
      change (B2R (f64_lit 1 0 : num (FA L))) with (B2R (f64_lit 1 0)). change (B2R (f64_lit 5 (-1) : num (FA L))) with (B2R (f64_lit 5 (-1))).
      rewrite V1, Vh, Rabs_R1, (Rabs_pos_eq (/ 2)) by lra. lra. }
    exists ev, ev'. split; [exact E|]. split; [exact R|]. split; [exact Ho|]. split; [exact HN|]. split; [exact HC|].
    assert (Hp : usable_exponent (B2R (reduced_thickness (wide_64 L) : f64))).
    { rewrite RT. right. rewrite Rabs_R1. change (bpow radix2 (-30)) with (/ 1073741824). lra. }
    destruct (C65_multiplicity_compute L (wide_64 L) ev false (one_proton L) (one_proton L) sp ev' HL HP Ho HN HN He R
      ltac:(rewrite GS, CW; lra) HC HC Hp ltac:(rewrite RT; lra)) as (_ & _ & M). specialize (M RT). rewrite GS, CW, NM in M.
    assert (W1 : nucleus_weight (IZR (constit_number (wide_64 L))) (map real_nucleon (one_proton L)) = 1).
    { unfold nucleus_weight, nucleon_weight, one_proton, RBasics.Rsum. cbn [map real_nucleon filter n_part n_cons fold_right real_constituent q_fluct].
      change (B2R (f64_lit 1 0 : num (FA L))) with (B2R (f64_lit 1 0)). rewrite V1. change (constit_number (wide_64 L)) with 1%Z. toR. lra. }
    rewrite W1 in M. replace (1 * (1 + 1) / 2) with 1 in M by field. eapply Rle_trans; [exact M|].
    assert (G : grid_error (/ 2 / 1) <= 7 / 1000) by (unfold grid_error; replace (/ 2 / 1) with (/ 2) by field; lra).
    assert (T : bpow radix2 (-100) <= / 1000) by (apply Rle_trans with (bpow radix2 (-10)); [apply bpow_le; lia|change (bpow radix2 (-10)) with (/ 1024); lra]).
    lra.
Qed.
