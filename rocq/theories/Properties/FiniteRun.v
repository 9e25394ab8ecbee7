(** C61, from the nucleons and for whole runs. *)
From Coq Require Import ZArith Reals Lra Lia Bool List Psatz String.
From Flocq Require Import Core BinarySingleNaN Mult_error.
From Verif.Base Require Import Result Arith FArith RArith Rng.
From Verif.Model Require Import FastExp Config Nucleon Nucleus Event Files CrossSection Output Collider.
From Verif.Spec Require Import History Collision Replay Distributions Grid Evolved Total Finite.
From Verif.Proof Require Import Basics RBasics GridP EventP DepositR ReducedP Ctor Ieee IeeeInt IeeeSum IeeeEcc IeeeThick IeeeMean.
From Verif.Properties Require Import ImpactIeee ThicknessIeee GridIeee Reduced Replay Distributions FiniteIeee.
Import ListNotations.
Local Open Scope R_scope.

Lemma ordinary_grid (L : Libm) (cfg : config (FA L)) : ordinary cfg -> usable_grid (grid_max cfg) (grid_step cfg).
Proof.
  intros [_ _ _ _ (F1 & F2 & B1 & B2)]. split; [exact F1|]. split; [exact F2|].
  pose proof (bpow_gt_0 radix2 (-400)) as P.
  split; [|split].
  - split; [apply B2|]. eapply Rle_trans; [apply B2|]. apply Rle_trans with (bpow radix2 12 * bpow radix2 200).
    + change (bpow radix2 12) with 4096. lra.
    + rewrite <- bpow_plus. apply bpow_le. lia.
  - split; [apply B1|]. eapply Rle_trans; [apply B1|]. apply bpow_le. lia.
  - apply Rmult_le_reg_r with (B2R (grid_step cfg : f64)); [lra|]. unfold Rdiv. rewrite Rmult_assoc, Rinv_l, Rmult_1_r by lra.
    assert (8192 <= bpow radix2 30) by (change 8192 with (bpow radix2 13); apply bpow_le; lia).
    apply Rle_trans with (8192 * B2R (grid_step cfg : f64)); [lra|]. apply Rmult_le_compat_r; lra.
Qed.

Lemma ordinary_steps (L : Libm) (cfg : config (FA L)) ev : ordinary cfg -> event_new cfg = Ret ev -> (ev_nsteps ev <= 8192)%Z.
Proof.
  intros Ho He. destruct (C12_ieee L cfg (ordinary_grid L cfg Ho)) as (ev0 & E0 & _ & _ & _ & _ & HN & _).
  assert (ev0 = ev) by congruence. subst ev0. destruct (or_grid _ Ho) as (_ & _ & B1 & B2).
  pose proof (bpow_gt_0 radix2 (-400)) as P.
  assert (Zceil (2 * B2R (grid_max cfg : f64) / B2R (grid_step cfg : f64)) <= 8192)%Z; [|lia].
  apply Zceil_glb. apply Rmult_le_reg_r with (B2R (grid_step cfg : f64)); [lra|]. unfold Rdiv. rewrite Rmult_assoc, Rinv_l, Rmult_1_r by lra. lra.
Qed.

Lemma event_new_fields {A : Arith} (cfg : config A) ev : event_new cfg = Ret ev ->
  ev_mean ev = choose_mean (reduced_thickness cfg) /\ ev_norm ev = normalization cfg /\ ev_dxy ev = grid_step cfg.
Proof. unfold event_new. intros H. mstep H. mstep H. auto. Qed.

Lemma nuclear_light (L : Libm) (HL : accurate_exp L) (cfg : config (FA L)) sp dbg dxy xymax N ns k0 g k :
  ordinary cfg -> light_nucleus ns ->
  compute_nuclear_thickness dbg (nucleon_common_of cfg sp) dxy xymax N ns k0 = Ret (g, k) ->
  forall iy ix, inside N iy ix -> finite_upto (cell g iy ix) (bpow radix2 129).
Proof.
  intros Ho [HS HN] H iy ix Hi. destruct (or_width _ Ho) as [Fv Bv]. pose proof (or_number _ Ho) as Hm.
  pose proof (nuclear_upto L HL cfg sp Fv Bv ltac:(lia) dbg dxy xymax N ns 0%Z (zeros N) k0 g k) as U.
  eapply upto_le; [apply U|].
  - intros n H1 H2. destruct (HN n H1 H2) as [Q1 Q2]. split; [intros q Hq; apply Q2; exact Hq|exact Q1].
  - lia.
  - lia.
  - apply zeros_square.
  - intros y x Hy. rewrite zeros_cell by exact Hy. split; [reflexivity|]. change (B2R (nlit (FA L) 0 0 : f64)) with 0. lra.
  - exact H.
  - exact Hi.
  - change 129%Z with (20 + 109)%Z. rewrite bpow_plus. apply Rmult_le_compat_r; [apply bpow_ge_0|].
    change (bpow radix2 20) with (IZR (2 ^ 20)). apply IZR_le. lia.
Qed.

(** Every event computed from ordinary parameters and light nuclei: the arrays
    hold finite non-negative doubles, the multiplicity is the area times the sum
    of the reduced thickness, and the four eccentricities are fractions. *)
Theorem C61_compute :
  forall (L : Libm) (cfg : config (FA L)) (ev : event (FA L)) dbg nA nB sp ev',
  accurate_exp L -> accurate_pow L -> ordinary cfg -> light_nucleus nA -> light_nucleus nB ->
  evolved cfg ev -> event_compute dbg ev nA nB (nucleon_common_of cfg sp) = Ret ev' ->
  regular_map (ev_TA ev') /\ regular_map (ev_TB ev') /\ regular_map (ev_TR ev') /\
  rounded (ev_mult ev') (B2R (grid_step cfg : f64) * B2R (grid_step cfg : f64) * exact_sum (ev_TR ev')) /\
  exists e2 e3 e4 e5 : f64, ev_ecc ev' = [(2, e2); (3, e3); (4, e4); (5, e5)]%Z /\
    fraction_like e2 /\ fraction_like e3 /\ fraction_like e4 /\ fraction_like e5.
Proof.
  intros L cfg ev dbg nA nB sp ev' HL HP Ho HA HB He H. pose proof (evolved_ready _ _ He) as Hr.
  pose proof (event_compute_inv _ _ _ _ _ _ Hr H) as (PE & (k & k' & EA & EB & _) & SA & SB & SR & CT & _).
  destruct (evolved_params _ _ He) as (ev0 & E0 & P0). pose proof (ordinary_steps L cfg ev0 Ho E0) as HN.
  pose proof (event_new_fields _ _ E0) as P1.
  destruct P1 as (M0 & N0 & D0). destruct P0 as (Pm & Pn & Pd & Ps & Px). destruct PE as (_ & _ & Qd & Qs & _).
  pose proof (nuclear_light L HL cfg sp dbg _ _ _ nA _ _ _ Ho HA EA) as UA.
  pose proof (nuclear_light L HL cfg sp dbg _ _ _ nB _ _ _ Ho HB EB) as UB.
  assert (RM : forall (g : grid (FA L)) b, square (ev_nsteps ev) g -> (b <= 200)%Z -> (forall iy ix, inside (ev_nsteps ev) iy ix -> finite_upto (cell g iy ix) (bpow radix2 b)) -> regular_map g).
  { intros g b S Hb U t Ht. rewrite <- (cells_row_major' _ _ S) in Ht. apply in_map_iff in Ht. destruct Ht as ([iy ix] & <- & Hc).
    apply in_cells in Hc. destruct (U iy ix Hc) as [F B]. split; [exact F|]. split; [apply B|]. eapply Rle_trans; [apply B|]. apply bpow_le. lia. }
  assert (UR : forall iy ix, inside (ev_nsteps ev) iy ix -> finite_upto (cell (ev_TR ev') iy ix) (bpow radix2 198)).
  { intros iy ix Hi. rewrite (CT iy ix Hi). unfold rt. cbn [fst snd].
    rewrite <- Pm, <- Pn, M0, N0. destruct (or_p _ Ho) as [Fp Bp].
    apply (upto_mul _ _ 50 148); [exact (or_norm _ Ho)| |lia].
    apply (gen_mean_upto L HP); auto. }
  split; [apply (RM _ 129%Z); auto; lia|]. split; [apply (RM _ 129%Z); auto; lia|].
  assert (RR : regular_map (ev_TR ev')) by (apply (RM _ 198%Z); auto; lia).
  split; [exact RR|]. destruct (or_grid _ Ho) as (_ & FS & BS & _).
  assert (ED : ev_dxy ev' = grid_step cfg) by congruence.
  rewrite <- ED. apply (C61_event L cfg ev dbg nA nB _ ev' He H); auto.
  - rewrite <- Qs, <- Ps. exact HN.
  - rewrite ED. exact FS.
  - rewrite ED. exact BS.
Qed.

(** Every event of every finished run, provided the fluctuations that the
    generator can draw from gamma(k, 1/k) lie between 0 and 2^40. *)
Theorem C61_run :
  forall (L : Libm) (rg : Rng (FA L)) sv bd cfuel fuel sfuel e (cfg : config (FA L)) (s s' : sys rg),
  accurate_exp L -> accurate_pow L -> ordinary cfg ->
  (forall f, from_gamma rg (fluctuation cfg) (ndiv (FA L) (nlit (FA L) 1 0) (fluctuation cfg)) f -> finite_upto f (bpow radix2 40)) ->
  collide rg sv bd cfuel fuel sfuel e cfg s = (Ret tt, s') ->
  exists ds, run_delivered rg sv bd cfuel fuel sfuel e cfg s s' ds /\
  forall d, In d ds -> (Z.of_nat (length (d_A d)) <= 2 ^ 20)%Z -> (Z.of_nat (length (d_B d)) <= 2 ^ 20)%Z ->
    regular_map (ev_TR (d_event d)) /\
    rounded (ev_mult (d_event d)) (B2R (grid_step cfg : f64) * B2R (grid_step cfg : f64) * exact_sum (ev_TR (d_event d))) /\
    exists e2 e3 e4 e5 : f64, ev_ecc (d_event d) = [(2, e2); (3, e3); (4, e4); (5, e5)]%Z /\
      fraction_like e2 /\ fraction_like e3 /\ fraction_like e4 /\ fraction_like e5.
Proof.
  intros L rg sv bd cfuel fuel sfuel e cfg s s' HL HP Ho HG H.
  destruct (C52_weights _ _ _ _ _ _ _ _ _ _ _ H) as (ds & D & W). exists ds. split; [exact D|].
  intros d Hd LA LB. specialize (fun n => W d n Hd).
  destruct D as (co & nA & nB & ev0 & nst & gst & s1 & rs' & C & _ & EF & _).
  pose proof (collider_new_inv _ _ _ _ _ _ _ _ _ _ _ _ _ _ C) as Hc.
  destruct (ct_nc _ _ _ _ _ _ _ _ _ _ _ Hc) as (sp & Enc).
  assert (HE : event_compute (debug bd) ev0 (d_A d) (d_B d) (co_nc co) = Ret (d_event d)).
  { clear - EF Hd. induction EF as [|n ns rs x rs1 xs rs2 Hx _ IH]; [destruct Hd|].
    destruct Hd as [<-|Hd]; [|apply IH; exact Hd]. destruct Hx as (_ & a & b & _ & _ & _ & E). exact E. }
  rewrite Enc in HE.
  pose proof (or_number _ Ho) as Hm.
  assert (Em : to_size (constit_number cfg) = constit_number cfg) by (unfold to_size; apply Z.mod_small; unfold size_max; lia).
  assert (LN : forall l, (forall n, In n l -> In n (d_A d ++ d_B d)) -> (Z.of_nat (length l) <= 2 ^ 20)%Z -> light_nucleus l).
  { intros l Hl Hs. split; [exact Hs|]. intros n Hn Hp. destruct (W n (Hl n Hn) Hp) as [Wl Wf]. rewrite Em in Wl. split.
    - rewrite Wl, Z2Nat.id by lia. lia.
    - intros q Hq. apply HG, Wf, Hq. }
  destruct (C61_compute L cfg ev0 (debug bd) (d_A d) (d_B d) sp (d_event d) HL HP Ho) as (_ & _ & R); auto.
  - apply LN; [intros; apply in_or_app; auto|exact LA].
  - apply LN; [intros; apply in_or_app; auto|exact LB].
  - constructor. apply (ct_event _ _ _ _ _ _ _ _ _ _ _ Hc).
Qed.

(** A case: p = 0, width 0.49, grid of 4x4 cells, a proton whose constituent has
    weight 1 on both sides. *)
Definition one_proton (L : Libm) : list (nucleon (FA L)) :=
  [@Nucleon (FA L) (f64_lit 1 0) (f64_lit 5 (-1)) (f64_lit 0 0) true true
     [@Constituent (FA L) (f64_lit 1 0) (f64_lit 5 (-1)) (f64_lit 1 0)]].

Theorem C61_instance : forall (L : Libm) (sp : f64), accurate_exp L -> accurate_pow L ->
  exists ev ev', event_new (width_049 L) = Ret ev /\
  event_compute false ev (one_proton L) (one_proton L) (nucleon_common_of (width_049 L) sp) = Ret ev' /\
  ordinary (width_049 L) /\ light_nucleus (one_proton L) /\ regular_map (ev_TR ev').
Proof.
  intros L sp HL HP. pose proof (usable_grid_049 L) as UG. destruct half_v as [Fh Vh].
  destruct (C12_ieee L (width_049 L) UG) as (ev & E & _ & _ & _ & N1 & N2 & _).
  destruct (C13_ieee L (width_049 L) sp ev (one_proton L) (one_proton L) 1) as [(ev' & R) _]; auto.
  - exact usable_049.
  - constructor. exact E.
  - change (B2R (grid_max (width_049 L) : f64)) with (B2R (f64_lit 1 0)).
    change (B2R (grid_step (width_049 L) : f64)) with (B2R (f64_lit 5 (-1))). rewrite Vh, B2R_one.
    change (B2R (constit_width (width_049 L) : f64)) with (B2R (f64_lit 49 (-2))). rewrite (proj2 v049), p30.
    rewrite Rabs_pos_eq by lra. lra.
  - intros n Hn Hp.
    assert (Hn' : In n (one_proton L)) by (destruct Hn; assumption). clear Hn.
    unfold one_proton in Hn'. cbn [In] in Hn'. destruct Hn' as [Hn|[]].
    subst n. split; [cbn [n_cons]; congruence|]. intros q Hq. cbn [n_cons In] in Hq. destruct Hq as [<-|[]]. cbn [q_x q_y]. split.
    + split; [vm_compute; reflexivity|]. change (B2R (f64_lit 1 0 : num (FA L))) with (B2R (f64_lit 1 0)). rewrite B2R_one, Rabs_R1. lra.
    + split; [exact Fh|]. change (B2R (f64_lit 5 (-1) : num (FA L))) with (B2R (f64_lit 5 (-1))). rewrite Vh, Rabs_pos_eq by lra. lra.
  - assert (Ho : ordinary (width_049 L)).
    { assert (P0 : bpow radix2 (-20) <= / 4) by (change (/ 4) with (bpow radix2 (-2)); apply bpow_le; lia).
      assert (P1 : bpow radix2 (-400) <= / 2) by (change (/ 2) with (bpow radix2 (-1)); apply bpow_le; lia).
      assert (P2 : 1 <= bpow radix2 200) by (change 1 with (bpow radix2 0); apply bpow_le; lia).
      assert (P3 : 1 <= bpow radix2 50) by (change 1 with (bpow radix2 0); apply bpow_le; lia).
      constructor.
      - change (constit_width (width_049 L) : f64) with (f64_lit 49 (-2)). destruct v049 as [F V]. rewrite V. split; [exact F|]. lra.
      - cbn. lia.
      - change (reduced_thickness (width_049 L) : f64) with (f64_lit 0 0). split; [reflexivity|]. change (B2R (f64_lit 0 0)) with 0. rewrite Rabs_R0. lra.
      - change (normalization (width_049 L) : f64) with (f64_lit 1 0). split; [reflexivity|]. rewrite B2R_one. lra.
      - change (grid_max (width_049 L) : f64) with (f64_lit 1 0). change (grid_step (width_049 L) : f64) with (f64_lit 5 (-1)). rewrite Vh, B2R_one.
        split; [reflexivity|]. split; [exact Fh|]. lra. }
    assert (HN : light_nucleus (one_proton L)).
    { split; [cbn; lia|]. intros n Hn _. unfold one_proton in Hn. cbn [In] in Hn. destruct Hn as [<-|[]]. cbn [n_cons]. split; [cbn; lia|].
      intros q Hq. cbn [In] in Hq. destruct Hq as [<-|[]]. cbn [q_fluct]. split; [vm_compute; reflexivity|]. 
      change (B2R (f64_lit 1 0 : num (FA L))) with (B2R (f64_lit 1 0)). rewrite B2R_one.
      assert (1 <= bpow radix2 40) by (change 1 with (bpow radix2 0); apply bpow_le; lia). lra. }
    exists ev, ev'. split; [exact E|]. split; [exact R|]. split; [exact Ho|]. split; [exact HN|].
    apply (C61_compute L (width_049 L) ev false (one_proton L) (one_proton L) sp ev' HL HP Ho HN HN); [constructor; exact E|exact R].
Qed.
