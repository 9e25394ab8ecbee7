(** C62: the thickness arrays of an event in binary64 are the documented sums of
    truncated Gaussians, up to a relative 3e-5. *)
From Coq Require Import ZArith Reals Lra Lia Bool List Psatz String.
From Flocq Require Import Core BinarySingleNaN Relative Mult_error.
From Verif.Base Require Import Result Arith FArith RArith Rng.
From Verif.Model Require Import FastExp Config Nucleon Nucleus Event Files CrossSection Output Collider.
From Verif.Spec Require Import History Collision Replay Distributions Grid Evolved Total Profile Finite Accuracy.
From Verif.Proof Require Import Basics RBasics GridP EventP DepositR ReducedP Ctor Ieee IeeeInt IeeeSum IeeeExp IeeeThick IeeeProfile IeeeBox.
From Verif.Properties Require Import ImpactIeee ThicknessIeee GridIeee Reduced Replay Distributions FiniteIeee FiniteRun.
Import ListNotations.
Local Open Scope R_scope.

Lemma sqrt_lt_iff D c : 0 <= D -> 0 < c -> sqrt D < c <-> D < c * c.
Proof.
  intros D0 c0. split; intros H.
  - rewrite <- (R_sqrt.sqrt_sqrt D D0). pose proof (sqrt_pos D). apply Rmult_le_0_lt_compat; lra.
  - rewrite <- (R_sqrt.sqrt_square c) by lra. apply sqrt_lt_1_alt. lra.
Qed.

Lemma profile_terms (L : Libm) (cfg : config (FA L)) (n : nucleon (FA L)) (x y : f64) (cut : R -> R) :
  ordinary cfg -> 0 < cut (B2R (constit_width cfg : f64)) ->
  nucleon_profile cut cfg n (B2R x) (B2R y)
  = exact_pref L cfg * Rsum (cut_term L cfg (cut (B2R (constit_width cfg : f64))) x y) (n_cons n).
Proof.
  intros Ho C0. destruct (or_width _ Ho) as [Fv Bv]. pose proof (or_number _ Ho) as Hm.
  destruct (V_range _ Bv) as [V0 V2]. pose proof pi_bounds as PB.
  assert (M0 : 1 <= IZR (constit_number cfg)) by (apply IZR_le; lia).
  unfold nucleon_profile, cut_profile. rewrite Rsum_map, <- Rsum_scale. apply Rsum_ext. intros q _.
  unfold cut_term, Profile.dist, real_constituent. cbn [q_x q_y q_fluct].
  set (V := B2R (constit_width cfg : f64)) in *. set (c := cut V) in *.
  set (dx := B2R x - B2R (q_x q : f64)). set (dy := B2R y - B2R (q_y q : f64)).
  assert (ED : sq_dist x y (q_x q) (q_y q) = dx ^ 2 + dy ^ 2) by (unfold sq_dist; fold dx dy; ring). rewrite ED.
  assert (D0 : 0 <= dx ^ 2 + dy ^ 2) by (apply Rplus_le_le_0_compat; apply pow2_ge_0).
  assert (I := sqrt_lt_iff _ c D0 C0).
  destruct (Rlt_dec (sqrt (dx ^ 2 + dy ^ 2)) c) as [H1|H1], (Rlt_dec (dx ^ 2 + dy ^ 2) (c * c)) as [H2|H2]; try tauto; [|ring].
  unfold Gq, gauss2, exact_pref. fold V. rewrite ED.
  replace (- (dx ^ 2 + dy ^ 2) / (2 * V ^ 2)) with (- ((dx ^ 2 + dy ^ 2) / (2 * (V * V)))) by (field; lra).
  set (g := exp _). field. lra.
Qed.

Lemma btw_between a lo hi t : btw a (bpow radix2 (-900)) lo hi t -> 0 <= a <= 3 / 100000 -> 0 <= lo -> 0 <= hi -> between (3 / 100000) lo hi t.
Proof.
  intros (F & _ & B) Ha L0 H0. split; [exact F|]. assert (bpow radix2 (-900) <= bpow radix2 (-800)) by (apply bpow_le; lia).
  split.
  - assert ((1 - 3 / 100000) * lo <= (1 - a) * lo) by (apply Rmult_le_compat_r; lra). lra.
  - assert ((1 + a) * hi <= (1 + 3 / 100000) * hi) by (apply Rmult_le_compat_r; lra). lra.
Qed.

Lemma sum_nonneg (L : Libm) (cfg : config (FA L)) c x y n : near_nucleon n -> 0 <= Rsum (cut_term L cfg c x y) (n_cons n).
Proof. intros [_ Hq]. apply Rsum_nonneg. intros q Iq. apply cut_term_range. apply Hq. exact Iq. Qed.

(** One nucleon, any point. *)
Theorem C62_thickness :
  forall (L : Libm) (cfg : config (FA L)) sp dbg (n : nucleon (FA L)) (x y t : f64),
  accurate_exp L -> ordinary cfg -> near_nucleon n -> near x -> near y ->
  thickness dbg (nucleon_common_of cfg sp) n x y = Ret t ->
  between (3 / 100000) (nucleon_profile inner_cut cfg n (B2R x) (B2R y)) (nucleon_profile outer_cut cfg n (B2R x) (B2R y)) t.
Proof.
  intros L cfg sp dbg n x y t HL Ho Nn Nx Ny H. destruct (or_width _ Ho) as [Fv Bv]. pose proof (or_number _ Ho) as Hm.
  destruct (cut_pos _ Bv) as (C & _ & _). pose proof (pref_pos L cfg Bv Hm) as P0.
  pose proof (thick_btw L HL cfg sp Fv Bv Hm dbg n x y t Nx Ny Nn H) as B.
  rewrite !profile_terms by (auto; lra). apply (btw_between (25 / 1000000)).
  - pose proof (sum_nonneg L cfg (inner_cut (B2R (constit_width cfg : f64))) x y n Nn) as S1. pose proof (sum_nonneg L cfg (outer_cut (B2R (constit_width cfg : f64))) x y n Nn) as S2.
    eapply btw_weaken; [exact B|lra|lra|apply bpow_le; lia| |]; (split; [|lra]); apply Rmult_le_pos; lra.
  - lra.
  - apply Rmult_le_pos; [lra|apply sum_nonneg; exact Nn].
  - apply Rmult_le_pos; [lra|apply sum_nonneg; exact Nn].
Qed.

Section Nuclear.
Variable L : Libm.
Hypothesis HL : accurate_exp L.
Variable cfg : config (FA L).
Variable sp : f64.
Hypothesis Ho : ordinary cfg.
Variables dxy xymax : f64.
Variable N : Z.
Hypothesis Fd : is_finite dxy = true.
Hypothesis Fx : is_finite xymax = true.
Let st := B2R dxy.
Hypothesis Bd : bpow radix2 (-400) <= st <= bpow radix2 200.
Hypothesis HN : (1 <= N <= 8192)%Z.
Hypothesis HX : Rabs (B2R xymax - IZR N * st / 2) <= bpow radix2 (-53) * (IZR N * st / 2).
Let c (i : Z) : f64 := cell_centre (A:=FA L) dxy xymax i.
Hypothesis HC : forall i, (0 <= i < N)%Z -> near (c i) /\ Rabs (B2R (c i) - ((IZR i + / 2) * st - IZR N * st / 2)) <= / 1000000 * st.
Let nc := nucleon_common_of cfg sp.
Let V := B2R (constit_width cfg : f64).
Let lo (iy ix : Z) (n : nucleon (FA L)) : R := exact_pref L cfg * Rsum (cut_term L cfg (inner_cut V) (c ix) (c iy)) (n_cons n).
Let hi (iy ix : Z) (n : nucleon (FA L)) : R := exact_pref L cfg * Rsum (cut_term L cfg (outer_cut V) (c ix) (c iy)) (n_cons n).

Let lohi iy ix n : near_nucleon n -> 0 <= lo iy ix n /\ 0 <= hi iy ix n.
Proof.
  intros Nn. destruct (or_width _ Ho) as [Fv Bv]. pose proof (pref_pos L cfg Bv (or_number _ Ho)) as P0.
  split; apply Rmult_le_pos; try lra; apply sum_nonneg; exact Nn.
Qed.

Lemma nuclear_btw dbg (ns : list (nucleon (FA L))) : forall k (g : grid (FA L)) l0 h0 j g' j',
  (forall n, In n ns -> n_part n = true -> near_nucleon n) ->
  (0 <= k)%Z -> (k + Z.of_nat (length ns) <= 2 ^ 20)%Z -> square N g ->
  (forall iy ix, inside N iy ix -> 0 <= l0 iy ix /\ 0 <= h0 iy ix /\ upto (cell g iy ix) (IZR k * bpow radix2 109) /\
     btw (25 / 1000000 + IZR (2 * k) * u53) (IZR (2 * k) * bpow radix2 (-1000)) (l0 iy ix) (h0 iy ix) (cell g iy ix)) ->
  rfold (fun acc n =>
    let '(g, k) := acc in
    if n_part n then
      letr g' := deposit (A:=FA L) dbg nc dxy xymax N n g in Ret (g', (k + 1)%Z)
    else Ret (g, k)) ns (g, j) = Ret (g', j') ->
  let K := (k + Z.of_nat (length ns))%Z in
  forall iy ix, inside N iy ix ->
     btw (25 / 1000000 + IZR (2 * K) * u53) (IZR (2 * K) * bpow radix2 (-1000))
       (l0 iy ix + Rsum (lo iy ix) (filter n_part ns)) (h0 iy ix + Rsum (hi iy ix) (filter n_part ns)) (cell g' iy ix).
Proof.
  destruct (or_width _ Ho) as [Fv Bv]. pose proof (or_number _ Ho) as Hm.
  induction ns as [|n ns IH]; intros k g l0 h0 j g' j' Hn Hk Hl Sq HG H K iy ix Hi.
  - cbn [rfold] in H. unfold K. cbn [length filter Rsum fold_right] in *. change (Z.of_nat 0) with 0%Z. rewrite !Z.add_0_r, !Rplus_0_r.
    replace g' with g by (exact (f_equal (fun r : result (grid (FA L) * Z) => match r with Ret w => fst w | _ => g' end) H)). apply HG. exact Hi.
  - cbn [rfold] in H. unfold K. cbn [length filter] in *.
    replace (k + Z.of_nat (Datatypes.S (length ns)))%Z with ((k + 1) + Z.of_nat (length ns))%Z by lia.
    pose proof u53_small as [U0 U1].
    assert (K2 : 0 <= IZR (2 * k) <= IZR (2 * (k + 1))) by (split; apply IZR_le; lia).
    assert (K3 : IZR (2 * (k + 1)) <= 134217728) by (apply IZR_le; lia).
    assert (WK : forall l h t, 0 <= l -> 0 <= h -> btw (25 / 1000000 + IZR (2 * k) * u53) (IZR (2 * k) * bpow radix2 (-1000)) l h t ->
      forall h', h <= h' -> btw (25 / 1000000 + IZR (2 * (k + 1)) * u53) (IZR (2 * (k + 1)) * bpow radix2 (-1000)) l h' t).
    { intros l h t Hl0 Hh0 B h' Hh'. eapply btw_weaken; [exact B| | | |lra|lra].
      - assert (0 <= IZR (2 * k) * u53) by (apply Rmult_le_pos; lra).
        assert (IZR (2 * k) * u53 <= IZR (2 * (k + 1)) * u53) by (apply Rmult_le_compat_r; lra). lra.
      - assert (IZR (2 * (k + 1)) * u53 <= 134217728 * / 1000000000000000) by (apply Rmult_le_compat; lra). lra.
      - apply Rmult_le_compat_r; [apply bpow_ge_0|]. lra. }
    destruct (n_part n) eqn:Ep.
    + assert (Nn : near_nucleon n) by (apply Hn; simpl; auto).
      destruct (deposit (A:=FA L) dbg nc dxy xymax N n g) as [g1| | |] eqn:Ed; cbn [rbind] in H; [|discriminate H|discriminate H|discriminate H].
      destruct (deposit_inv _ _ _ _ _ _ _ _ Sq Ed) as (S1 & x0 & x1 & y0 & y1 & Bx & HD).
      rewrite !Rsum_cons, <- !Rplus_assoc.
      apply (IH (k + 1)%Z g1 (fun iy ix => l0 iy ix + lo iy ix n) (fun iy ix => h0 iy ix + hi iy ix n) (j + 1)%Z g' j'); auto;
        [intros; apply Hn; simpl; auto|lia|lia|].
      clear iy ix Hi. intros iy ix Hi. destruct (HG iy ix Hi) as (L0 & H0 & U & B). destruct (lohi iy ix n Nn) as [P1 P2].
      split; [lra|]. split; [lra|].
      destruct (HD iy ix Hi) as [D1 D2]. destruct Hi as [Hiy Hix].
      destruct (HC ix Hix) as [Ncx Cx]. destruct (HC iy Hiy) as [Ncy Cy].
      assert (Dec : (y0 <= iy <= y1 /\ x0 <= ix <= x1)%Z \/ ~ (y0 <= iy <= y1 /\ x0 <= ix <= x1)%Z) by lia.
      destruct Dec as [In'|Out].
      * destruct (D1 In') as (t & Et & Ec). rewrite Ec. change (nadd (FA L)) with f64_add.
        assert (Ut : upto t (bpow radix2 109)).
        { apply (thick_upto L HL cfg sp Fv Bv ltac:(lia) dbg n _ _ t) with (2 := Et). destruct Nn as [N1 N2].
          split; [intros q Hq; apply N2; exact Hq|exact N1]. }
        split; [apply upto_add; auto; lia|].
        pose proof (thick_btw L HL cfg sp Fv Bv Hm dbg n _ _ t Ncx Ncy Nn Et) as Bt.
        apply acc_step; auto; try lra; try lia; [apply bpow_ge_0|].
        destruct U as [_ U], Ut as [_ Ut].
        assert (K4 : IZR k * bpow radix2 109 <= bpow radix2 20 * bpow radix2 109).
        { apply Rmult_le_compat_r; [apply bpow_ge_0|]. change (bpow radix2 20) with (IZR (2 ^ 20)). apply IZR_le. lia. }
        rewrite <- bpow_plus in K4. change (20 + 109)%Z with 129%Z in K4.
        assert (bpow radix2 109 <= bpow radix2 999) by (apply bpow_le; lia). assert (bpow radix2 129 <= bpow radix2 999) by (apply bpow_le; lia).
        change 1000%Z with (1 + 999)%Z. rewrite bpow_plus. change (bpow radix2 1) with 2. lra.
      * rewrite (D2 Out). split; [eapply upto_le; [exact U|]; apply Rmult_le_compat_r; [apply bpow_ge_0|apply IZR_le; lia]|].
        pose proof (outside_box L dxy xymax N Fx Bd HN HX cfg sp Fv Bv n x0 x1 y0 y1 iy ix (c ix) (c iy) Nn Bx (conj Hiy Hix) Out Cx Cy) as OB.
        assert (Z : lo iy ix n = 0).
        { unfold lo. rewrite (Rsum_ext _ (fun _ => 0)); [rewrite Rsum_const; ring|].
          intros q Hq. unfold cut_term. destruct (Rlt_dec _ _) as [Lt|]; [|reflexivity]. specialize (OB q Hq). fold V in OB. lra. }
        rewrite Z, Rplus_0_r. apply (WK _ (h0 iy ix)); auto. lra.
    + apply (IH (k + 1)%Z g l0 h0 j g' j'); auto; [intros; apply Hn; simpl; auto|lia|lia|].
      clear iy ix Hi. intros iy ix Hi. destruct (HG iy ix Hi) as (L0 & H0 & U & B). split; [exact L0|]. split; [exact H0|].
      split; [eapply upto_le; [exact U|]; apply Rmult_le_compat_r; [apply bpow_ge_0|apply IZR_le; lia]|].
      apply (WK _ (h0 iy ix)); auto. lra.
Qed.

Lemma nuclear_between dbg ns k0 g k : near_nucleus ns ->
  compute_nuclear_thickness (A:=FA L) dbg nc dxy xymax N ns k0 = Ret (g, k) ->
  forall iy ix, inside N iy ix ->
  between (3 / 100000) (nucleus_profile inner_cut cfg ns (B2R (c ix)) (B2R (c iy)))
    (nucleus_profile outer_cut cfg ns (B2R (c ix)) (B2R (c iy))) (cell g iy ix).
Proof.
  intros [Hs Hn] H iy ix Hi. destruct (or_width _ Ho) as [Fv Bv]. destruct (cut_pos _ Bv) as (CP & _ & _). pose proof u53_small as [U0 U1].
  pose proof (nuclear_btw dbg ns 0%Z (zeros N) (fun _ _ => 0) (fun _ _ => 0) k0 g k Hn ltac:(lia) ltac:(lia) (zeros_square N)) as B.
  cbv zeta in B. specialize (fun X => B X H iy ix Hi). rewrite Z.add_0_l, !Rplus_0_l in B.
  unfold nucleus_profile.
  rewrite (Rsum_ext (fun n => nucleon_profile inner_cut cfg n (B2R (c ix)) (B2R (c iy))) (lo iy ix)) by (intros n _; apply profile_terms; auto; lra).
  rewrite (Rsum_ext (fun n => nucleon_profile outer_cut cfg n (B2R (c ix)) (B2R (c iy))) (hi iy ix)) by (intros n _; apply profile_terms; auto; lra).
  set (m := Z.of_nat (length ns)) in *.
  assert (M2 : 0 <= IZR (2 * m) <= 2097152) by (split; apply IZR_le; lia).
  assert (KU : 0 <= IZR (2 * m) * u53 <= / 1000000).
  { split; [apply Rmult_le_pos; lra|]. apply Rle_trans with (2097152 * / 1000000000000000); [apply Rmult_le_compat; lra|lra]. }
  assert (NN : 0 <= Rsum (lo iy ix) (filter n_part ns) /\ 0 <= Rsum (hi iy ix) (filter n_part ns)).
  { split; apply Rsum_nonneg; intros n In'; apply filter_In in In'; destruct In' as [I1 I2]; apply lohi; apply Hn; auto. }
  apply (btw_between (26 / 1000000)); try apply NN; try lra.
  eapply btw_weaken; [apply B| | | |lra|lra]; try lra.
  - clear iy ix Hi B NN. intros iy ix Hi. split; [lra|]. split; [lra|]. rewrite zeros_cell by exact Hi. split.
    + split; [reflexivity|]. change (B2R (nlit (FA L) 0 0 : f64)) with 0. lra.
    + split; [reflexivity|]. change (B2R (nlit (FA L) 0 0 : f64)) with 0. change (IZR (2 * 0)) with 0. lra.
  - apply Rle_trans with (bpow radix2 21 * bpow radix2 (-1000)); [|rewrite <- bpow_plus; apply bpow_le; lia].
    apply Rmult_le_compat_r; [apply bpow_ge_0|]. change (bpow radix2 21) with 2097152. lra.
Qed.
End Nuclear.

(** Every cell of TA and TB: there is one point within 2^-38 of a grid step of
    the cell's centre at which both values are the documented profiles. *)
Theorem C62_compute :
  forall (L : Libm) (cfg : config (FA L)) (ev : event (FA L)) dbg nA nB sp ev',
  accurate_exp L -> ordinary cfg -> near_nucleus nA -> near_nucleus nB ->
  evolved cfg ev -> event_compute dbg ev nA nB (nucleon_common_of cfg sp) = Ret ev' ->
  let N := ev_nsteps ev' in let st := B2R (grid_step cfg : f64) in
  square N (ev_TA ev') /\ square N (ev_TB ev') /\
  forall iy ix, inside N iy ix -> exists X Y : R,
    Rabs (X - (IZR ix + / 2 - IZR N / 2) * st) <= bpow radix2 (-38) * st /\
    Rabs (Y - (IZR iy + / 2 - IZR N / 2) * st) <= bpow radix2 (-38) * st /\
    between (3 / 100000) (nucleus_profile inner_cut cfg nA X Y) (nucleus_profile outer_cut cfg nA X Y) (cell (ev_TA ev') iy ix) /\
    between (3 / 100000) (nucleus_profile inner_cut cfg nB X Y) (nucleus_profile outer_cut cfg nB X Y) (cell (ev_TB ev') iy ix).
Proof.
  intros L cfg ev dbg nA nB sp ev' HL Ho HA HB He H N st. pose proof (evolved_ready _ _ He) as Hr.
  pose proof (event_compute_inv _ _ _ _ _ _ Hr H) as (PE & (k & k' & EA & EB & _) & SA & SB & SR & CT & _).
  destruct (evolved_params _ _ He) as (ev0 & E0 & P0). pose proof (ordinary_steps L cfg ev0 Ho E0) as HN.
  pose proof (event_new_fields _ _ E0) as P1.
  destruct P1 as (M0 & N0 & D0). destruct P0 as (Pm & Pn & Pd & Ps & Px). destruct PE as (_ & _ & Qd & Qs & Qx).
  destruct (C12_ieee L cfg (ordinary_grid L cfg Ho)) as (ev1 & E1 & _ & _ & _ & N1 & _ & _ & D1 & FX & AX & _ & HC).
  assert (ev1 = ev0) by congruence. subst ev1. clear E1. fold st in AX, HC.
  assert (EN : ev_nsteps ev0 = N) by (unfold N; congruence). assert (EX : ev_xymax ev0 = ev_xymax ev) by congruence. assert (ED : ev_dxy ev0 = ev_dxy ev) by congruence.
  assert (ES : ev_nsteps ev = N) by congruence. assert (EG : ev_dxy ev = grid_step cfg) by congruence.
  rewrite EN in *. rewrite ED, EX in *. rewrite ES in *. rewrite EG in *. cbv zeta in HC.
  destruct (or_grid _ Ho) as (_ & FS & BS & _). fold st in BS.
  assert (st0 : 0 < st) by (pose proof (bpow_gt_0 radix2 (-400)); lra).
  assert (NR : 1 <= IZR N <= 8192) by (split; apply IZR_le; lia).
  assert (HC' : forall i, (0 <= i < N)%Z -> let c : f64 := cell_centre (A:=FA L) (grid_step cfg) (ev_xymax ev) i in
    near c /\ Rabs (B2R c - ((IZR i + / 2) * st - IZR N * st / 2)) <= bpow radix2 (-38) * st).
  { intros i Hi c. destruct (HC i Hi) as [Fc Bc]. fold c in Fc, Bc.
    assert (B : Rabs (B2R c - ((IZR i + / 2) * st - IZR N * st / 2)) <= bpow radix2 (-38) * st).
    { eapply Rle_trans; [exact Bc|]. change (-38)%Z with (-51 + 13)%Z. rewrite bpow_plus, Rmult_assoc. apply Rmult_le_compat_l; [apply bpow_ge_0|].
      change (bpow radix2 13) with 8192. apply Rmult_le_compat_r; lra. }
    split; [|exact B]. split; [exact Fc|]. apply Rabs_le_inv in B.
    assert (Ii : 0 <= IZR i <= 8191) by (split; apply IZR_le; lia).
    assert (bpow radix2 (-38) <= 1) by (change 1 with (bpow radix2 0); apply bpow_le; lia).
    assert (I1 : 0 <= IZR i * st <= 8191 * st) by (split; [apply Rmult_le_pos; lra|apply Rmult_le_compat_r; lra]).
    assert (I2 : 0 <= IZR N * st <= 8192 * st) by (split; [apply Rmult_le_pos; lra|apply Rmult_le_compat_r; lra]).
    assert (I3 : bpow radix2 (-38) * st <= 1 * st) by (apply Rmult_le_compat_r; lra).
    change 220%Z with (20 + 200)%Z. rewrite bpow_plus. change (bpow radix2 20) with 1048576.
    apply Rabs_le. assert (16384 * st <= 1048576 * bpow radix2 200) by (pose proof (bpow_gt_0 radix2 200); nra). lra. }
  assert (B38 : bpow radix2 (-38) <= / 1000000) by (change (bpow radix2 (-38)) with (/ 274877906944); lra).
  split; [exact SA|]. split; [exact SB|].
  intros iy ix Hi.
  exists (B2R (cell_centre (A:=FA L) (grid_step cfg) (ev_xymax ev) ix : f64)), (B2R (cell_centre (A:=FA L) (grid_step cfg) (ev_xymax ev) iy : f64)).
  destruct Hi as [Hy Hx].
  split; [replace ((IZR ix + / 2 - IZR N / 2) * st) with ((IZR ix + / 2) * st - IZR N * st / 2) by (unfold Rdiv; ring); apply HC'; exact Hx|].
  split; [replace ((IZR iy + / 2 - IZR N / 2) * st) with ((IZR iy + / 2) * st - IZR N * st / 2) by (unfold Rdiv; ring); apply HC'; exact Hy|].
  assert (HC2 : forall i, (0 <= i < N)%Z -> near (cell_centre (A:=FA L) (grid_step cfg) (ev_xymax ev) i) /\
    Rabs (B2R (cell_centre (A:=FA L) (grid_step cfg) (ev_xymax ev) i : f64) - ((IZR i + / 2) * st - IZR N * st / 2)) <= / 1000000 * st).
  { intros i Hi. destruct (HC' i Hi) as [A1 A2]. split; [exact A1|]. eapply Rle_trans; [exact A2|]. apply Rmult_le_compat_r; lra. }
  split.
  - apply (nuclear_between L HL cfg sp Ho (grid_step cfg) (ev_xymax ev) N FX BS ltac:(lia) AX HC2 dbg nA _ _ _ HA EA iy ix (conj Hy Hx)).
  - apply (nuclear_between L HL cfg sp Ho (grid_step cfg) (ev_xymax ev) N FX BS ltac:(lia) AX HC2 dbg nB _ _ _ HB EB iy ix (conj Hy Hx)).
Qed.

(** The two profiles enclose the documented one (Spec/Profile.v, cut at 5 v), and
    coincide with it when no constituent is at a distance within a relative 2^-48
    of 5 v. *)
Theorem C62_sandwich :
  forall (L : Libm) (cfg : config (FA L)) (n : nucleon (FA L)) (x y : R), ordinary cfg -> near_nucleon n ->
  let v := B2R (constit_width cfg : f64) in
  let documented := profile v (IZR (constit_number cfg)) (map real_constituent (n_cons n)) x y in
  nucleon_profile inner_cut cfg n x y <= documented <= nucleon_profile outer_cut cfg n x y /\
  ((forall q, In q (n_cons n) -> ~ (inner_cut v <= Profile.dist x y (real_constituent q) < outer_cut v)) ->
   nucleon_profile inner_cut cfg n x y = documented /\ nucleon_profile outer_cut cfg n x y = documented).
Proof.
  intros L cfg n x y Ho [_ Hn] v documented. destruct (or_width _ Ho) as [Fv Bv]. pose proof (or_number _ Ho) as Hm.
  destruct (V_range _ Bv) as [V0 V2]. pose proof pi_bounds as PB. fold v in V0, V2.
  assert (M0 : 1 <= IZR (constit_number cfg)) by (apply IZR_le; lia).
  assert (C5 : inner_cut v <= 5 * v <= outer_cut v).
  { unfold inner_cut, outer_cut. pose proof (bpow_gt_0 radix2 (-48)). nra. }
  unfold documented, nucleon_profile, cut_profile, profile. fold v. rewrite !Rsum_map.
  assert (T : forall q, In q (n_cons n) -> 0 <= q_fluct (real_constituent q) / IZR (constit_number cfg) *
                gauss2 (v ^ 2) (x - q_x (real_constituent q)) (y - q_y (real_constituent q))).
  { intros q Hq. destruct (Hn q Hq) as (_ & _ & [_ Bf]). unfold real_constituent. cbn [q_fluct q_x q_y].
    apply Rmult_le_pos; [apply Rmult_le_pos; [lra|apply Rlt_le, Rinv_0_lt_compat; lra]|].
    unfold gauss2. apply Rmult_le_pos; [apply Rlt_le, exp_pos|]. apply Rlt_le, Rinv_0_lt_compat.
    assert (0 < v ^ 2) by (apply pow_lt; lra). assert (0 < 2 * PI) by lra. apply Rmult_lt_0_compat; lra. }
  split.
  - split; apply Rsum_le; intros q Hq; specialize (T q Hq); repeat (destruct (Rlt_dec _ _)); lra.
  - intros Ha. split; apply Rsum_ext; intros q Hq; specialize (Ha q Hq); repeat (destruct (Rlt_dec _ _)); try reflexivity; exfalso; apply Ha; lra.
Qed.

(** Every event of every finished run whose nucleons are near. *)
Theorem C62_run :
  forall (L : Libm) (rg : Rng (FA L)) sv bd cfuel fuel sfuel e (cfg : config (FA L)) (s s' : sys rg),
  accurate_exp L -> ordinary cfg ->
  collide rg sv bd cfuel fuel sfuel e cfg s = (Ret tt, s') ->
  exists ds, run_delivered rg sv bd cfuel fuel sfuel e cfg s s' ds /\
  forall d, In d ds -> near_nucleus (d_A d) -> near_nucleus (d_B d) ->
    let N := ev_nsteps (d_event d) in let st := B2R (grid_step cfg : f64) in
    square N (ev_TA (d_event d)) /\ square N (ev_TB (d_event d)) /\
    forall iy ix, inside N iy ix -> exists X Y : R,
      Rabs (X - (IZR ix + / 2 - IZR N / 2) * st) <= bpow radix2 (-38) * st /\
      Rabs (Y - (IZR iy + / 2 - IZR N / 2) * st) <= bpow radix2 (-38) * st /\
      between (3 / 100000) (nucleus_profile inner_cut cfg (d_A d) X Y) (nucleus_profile outer_cut cfg (d_A d) X Y) (cell (ev_TA (d_event d)) iy ix) /\
      between (3 / 100000) (nucleus_profile inner_cut cfg (d_B d) X Y) (nucleus_profile outer_cut cfg (d_B d) X Y) (cell (ev_TB (d_event d)) iy ix).
Proof.
  intros L rg sv bd cfuel fuel sfuel e cfg s s' HL Ho H.
  destruct (C52_weights _ _ _ _ _ _ _ _ _ _ _ H) as (ds & D & _). exists ds. split; [exact D|].
  intros d Hd NA NB.
  destruct D as (co & nA & nB & ev0 & nst & gst & s1 & rs' & C & _ & EF & _).
  pose proof (collider_new_inv _ _ _ _ _ _ _ _ _ _ _ _ _ _ C) as Hc.
  destruct (ct_nc _ _ _ _ _ _ _ _ _ _ _ Hc) as (sp & Enc).
  assert (HE : event_compute (debug bd) ev0 (d_A d) (d_B d) (co_nc co) = Ret (d_event d)).
  { clear - EF Hd. induction EF as [|n ns rs x rs1 xs rs2 Hx _ IH]; [destruct Hd|].
    destruct Hd as [<-|Hd]; [|apply IH; exact Hd]. destruct Hx as (_ & a & b & _ & _ & _ & E). exact E. }
  rewrite Enc in HE.
  apply (C62_compute L cfg ev0 (debug bd) (d_A d) (d_B d) sp (d_event d) HL Ho NA NB); [|exact HE].
  constructor. apply (ct_event _ _ _ _ _ _ _ _ _ _ _ Hc).
Qed.

(** A case: the event of [C61_instance]; at the cell nearest to the proton the
    inner profile is positive. *)
Lemma near_lit (x : f64) : is_finite x = true -> 0 <= B2R x <= 1 -> near x.
Proof.
  intros F B. split; [exact F|]. rewrite Rabs_pos_eq by lra. apply Rle_trans with (bpow radix2 0); [apply B|apply bpow_le; lia].
Qed.

Theorem C62_instance : forall (L : Libm) (sp : f64), accurate_exp L -> accurate_pow L ->
  exists ev ev', event_new (width_049 L) = Ret ev /\
  event_compute false ev (one_proton L) (one_proton L) (nucleon_common_of (width_049 L) sp) = Ret ev' /\
  ordinary (width_049 L) /\ near_nucleus (one_proton L) /\
  0 < nucleus_profile inner_cut (width_049 L) (one_proton L) (3 / 4) (1 / 4).
Proof.
  intros L sp HL HP. destruct (C61_instance L sp HL HP) as (ev & ev' & E & R & Ho & _). exists ev, ev'.
  split; [exact E|]. split; [exact R|]. split; [exact Ho|]. destruct half_v as [Fh Vh]. pose proof B2R_one as V1.
  split.
  - split; [cbn; lia|]. intros n [<-|[]] _. split; [cbn; lia|]. intros q [<-|[]]. cbn [q_x q_y q_fluct].
    split; [apply near_lit; [vm_compute; reflexivity|change (0 <= B2R (f64_lit 1 0) <= 1); rewrite V1; lra]|].
    split; [apply near_lit; [vm_compute; reflexivity|change (0 <= B2R (f64_lit 5 (-1)) <= 1); rewrite Vh; lra]|].
    split; [vm_compute; reflexivity|]. change (0 <= B2R (f64_lit 1 0) <= bpow radix2 40). rewrite V1.
    assert (1 <= bpow radix2 40) by (change 1 with (bpow radix2 0); apply bpow_le; lia). lra.
  - unfold nucleus_profile, one_proton. cbn [filter n_part]. rewrite Rsum_cons. cbn [Rsum fold_right].
    unfold nucleon_profile, cut_profile. cbn [n_cons map]. rewrite Rsum_cons. cbn [Rsum fold_right].
    change (B2R (constit_width (width_049 L) : f64)) with (B2R (f64_lit 49 (-2))). 
    unfold real_constituent, Profile.dist. cbn [q_x q_y q_fluct].
    change (B2R (f64_lit 1 0 : num (FA L))) with (B2R (f64_lit 1 0)). change (B2R (f64_lit 5 (-1) : num (FA L))) with (B2R (f64_lit 5 (-1))).
    rewrite Vh, V1. destruct v049 as [_ V49].
    set (V := B2R (f64_lit 49 (-2))) in *. assert (VR : 48 / 100 <= V <= 50 / 100) by (rewrite V49; lra). clearbody V.
    assert (IC : 1 < inner_cut V).
    { unfold inner_cut. assert (bpow radix2 (-48) <= / 2) by (change (/ 2) with (bpow radix2 (-1)); apply bpow_le; lia). pose proof (bpow_gt_0 radix2 (-48)). nra. }
    destruct (Rlt_dec _ _) as [_|NL].
    + rewrite !Rplus_0_r. change (constit_number (width_049 L)) with 1%Z. unfold gauss2.
      apply Rmult_lt_0_compat; [lra|]. apply Rmult_lt_0_compat; [apply exp_pos|]. apply Rinv_0_lt_compat.
      pose proof pi_bounds. assert (0 < V ^ 2) by (apply pow_lt; lra). assert (0 < 2 * PI) by lra. apply Rmult_lt_0_compat; lra.
    + exfalso. apply NL. apply Rle_lt_trans with 1; [|exact IC]. apply Rle_trans with (sqrt 1); [apply sqrt_le_1_alt; lra|rewrite sqrt_1; lra].
Qed.
