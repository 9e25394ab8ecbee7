(** C63: the published reduced thickness is the documented generalized mean of the
    two thickness grids, in binary64 and for every libm with accurate pow. *)
From Coq Require Import ZArith Reals Lra Lia Bool List Psatz String.
From Flocq Require Import Core BinarySingleNaN Mult_error.
From Verif.Base Require Import Result Arith FArith RArith Rng.
From Verif.Model Require Import FastExp Config Nucleon Nucleus Event Files CrossSection Output Collider.
From Verif.Spec Require Import History Collision Replay Distributions Grid Evolved Total Finite Mean MeanRounded.
From Verif.Proof Require Import Basics RBasics GridP EventP DepositR ReducedP Ieee IeeeInt IeeeSum IeeeEcc IeeeThick IeeeMean IeeeMeanAcc Ctor.
From Verif.Properties Require Import Replay Distributions ImpactIeee GridIeee ThicknessIeee FiniteRun.
Import ListNotations.
Local Open Scope R_scope.

(** The mean of two doubles between 0 and 2^129, whichever of the three forms the
    constructor selected. *)
Theorem C63_mean :
  forall (L : Libm) (p a b : f64), accurate_pow L ->
  is_finite p = true -> usable_exponent (B2R p) ->
  finite_upto a (bpow radix2 129) -> finite_upto b (bpow radix2 129) ->
  close_to (mean_error (B2R p)) (bpow radix2 (-200)) (gen_mean (A:=FA L) (choose_mean (A:=FA L) p) a b)
    (mean_at threshold (B2R p) (B2R a) (B2R b)).
Proof.
  intros L p a b HP Fp Hp Ha Hb.
  assert (M0 : 0 <= mean_at threshold (B2R p) (B2R a) (B2R b)).
  { unfold mean_at, pow0. repeat (destruct (Rlt_dec _ _) || destruct (Req_EM_T _ _)); try apply sqrt_pos; try lra; apply Rlt_le, exp_pos. }
  apply close_weaken with (1 := mean_close L HP p a b Fp Hp Ha Hb); [exact M0| |lra].
  assert (0 <= mean_error (B2R p)); [|lra].
  unfold mean_error. destruct (Rlt_dec _ _); [apply bpow_ge_0|]. unfold Rdiv. apply Rmult_le_pos; [apply bpow_ge_0|].
  assert (H : 0 < threshold). { destruct tiny_v as [_ B]. fold threshold in B. pose proof (bpow_gt_0 radix2 (-40)). lra. }
  apply Rlt_le, Rinv_0_lt_compat. lra.
Qed.

Lemma scaled_close (n m : f64) v e : finite_upto n (bpow radix2 50) -> finite_upto m (bpow radix2 148) ->
  close_to (e / 2) (bpow radix2 (-200)) m v -> 0 <= v -> bpow radix2 (-48) <= e <= 1 ->
  close_to e (bpow radix2 (-140)) (f64_mul n m) (B2R n * v).
Proof.
  intros [Fn Bn] [Fm Bm] (_ & _ & E) Hv He.
  assert (P : 0 <= B2R n * B2R m <= bpow radix2 198).
  { split; [apply Rmult_le_pos; lra|]. change 198%Z with (50 + 148)%Z. rewrite bpow_plus. apply Rmult_le_compat; lra. }
  destruct (mul_ok n m Fn Fm) as (E1 & F1 & _). { rewrite Rabs_pos_eq by lra. eapply Rle_trans; [apply P|apply bpow_le; lia]. }
  split; [exact F1|]. rewrite E1. split; [apply rnd_nonneg; lra|].
  destruct (rnd_err (B2R n * B2R m)) as (e1 & h & He1 & Hh & R1). rewrite R1.
  pose proof u53_small as [U0 U1]. 
  set (d := B2R m - v) in *. set (N := B2R n) in *.
  replace (N * B2R m * (1 + e1) + h - N * v) with (N * (d + e1 * (v + d)) + h) by (unfold d; ring).
  eapply Rle_trans; [apply Rabs_triang|]. rewrite Rabs_mult, (Rabs_pos_eq N) by lra.
  set (b := bpow radix2 (-200)) in *. assert (b0 : 0 < b) by apply bpow_gt_0.
  assert (Q : Rabs (d + e1 * (v + d)) <= e * v + 2 * b).
  { eapply Rle_trans; [apply Rabs_triang|]. rewrite Rabs_mult.
    assert (Rabs (v + d) <= 2 * v + b).
    { eapply Rle_trans; [apply Rabs_triang|]. rewrite (Rabs_pos_eq v) by lra. assert (e / 2 * v <= 1 * v) by (apply Rmult_le_compat_r; lra). lra. }
    assert (Rabs e1 * Rabs (v + d) <= u53 * (2 * v + b)) by (apply Rmult_le_compat; try apply Rabs_pos; lra).
    assert (K : bpow radix2 (-48) = 32 * u53) by (change (-48)%Z with (5 + -53)%Z; rewrite bpow_plus; reflexivity).
    rewrite K in He. set (u := u53) in *.
    assert (32 * u * v <= e * v) by (apply Rmult_le_compat_r; lra).
    assert (u * b <= 1 * b) by (apply Rmult_le_compat_r; lra). assert (0 <= u * v) by (apply Rmult_le_pos; lra). lra. }
  apply Rle_trans with (N * (e * v + 2 * b) + bpow radix2 (-1075)).
  { apply Rplus_le_compat; [apply Rmult_le_compat_l; lra|exact Hh]. }
  assert (N * b <= bpow radix2 (-150)).
  { change (-150)%Z with (50 + -200)%Z. rewrite bpow_plus. fold b. apply Rmult_le_compat_r; lra. }
  assert (bpow radix2 (-1075) <= bpow radix2 (-150)) by (apply bpow_le; lia).
  assert (bpow radix2 (-140) = 1024 * bpow radix2 (-150)) by (change (-140)%Z with (10 + -150)%Z; rewrite bpow_plus; reflexivity).
  pose proof (bpow_gt_0 radix2 (-150)). nra.
Qed.

Lemma error_range p : usable_exponent p -> bpow radix2 (-48) <= mean_error p <= 1.
Proof.
  intros H. unfold mean_error, usable_exponent in *. change (bpow radix2 (-48)) with (/ 281474976710656). change (bpow radix2 (-34)) with (/ 17179869184).
  change (bpow radix2 (-30)) with (/ 1073741824) in H. destruct (Rlt_dec _ _); [lra|]. destruct H as [H|H]; [lra|].
  assert (I : / 4 <= / Rabs p <= 1073741824). { split; [apply Rinv_le; lra|]. rewrite <- (Rinv_inv 1073741824). apply Rinv_le; lra. }
  unfold Rdiv. lra.
Qed.

(** Every cell of the published grid of a computed event. *)
Theorem C63_compute :
  forall (L : Libm) (cfg : config (FA L)) (ev : event (FA L)) dbg nA nB sp ev',
  accurate_exp L -> accurate_pow L -> ordinary cfg -> light_nucleus nA -> light_nucleus nB ->
  evolved cfg ev -> event_compute dbg ev nA nB (nucleon_common_of cfg sp) = Ret ev' ->
  let p := B2R (reduced_thickness cfg : f64) in usable_exponent p ->
  forall iy ix, inside (ev_nsteps ev') iy ix ->
  close_to (mean_error p) (bpow radix2 (-140)) (cell (ev_TR ev') iy ix)
    (B2R (normalization cfg : f64) *
     mean_at threshold p (B2R (cell (ev_TA ev') iy ix : f64)) (B2R (cell (ev_TB ev') iy ix : f64))).
Proof.
  intros L cfg ev dbg nA nB sp ev' HL HP Ho HA HB He H p Hp iy ix Hi. pose proof (evolved_ready _ _ He) as Hr.
  pose proof (event_compute_inv _ _ _ _ _ _ Hr H) as (PE & (k & k' & EA & EB & _) & SA & SB & SR & CT & _).
  destruct (evolved_params _ _ He) as (ev0 & E0 & P0). pose proof (event_new_fields _ _ E0) as P1.
  destruct P1 as (M0 & N0 & D0). destruct P0 as (Pm & Pn & Pd & Ps & Px). destruct PE as (_ & _ & Qd & Qs & _).
  pose proof (nuclear_light L HL cfg sp dbg _ _ _ nA _ _ _ Ho HA EA) as UA.
  pose proof (nuclear_light L HL cfg sp dbg _ _ _ nB _ _ _ Ho HB EB) as UB.
  rewrite <- Qs in Hi. specialize (UA iy ix Hi). specialize (UB iy ix Hi).
  rewrite (CT iy ix Hi). unfold rt. cbn [fst snd]. rewrite <- Pm, <- Pn, M0, N0. destruct (or_p _ Ho) as [Fp Bp].
  change (nmul (FA L)) with f64_mul. apply scaled_close.
  - exact (or_norm _ Ho).
  - apply (gen_mean_upto L HP); auto.
  - apply (mean_close L HP); auto.
  - unfold mean_at, pow0. repeat (destruct (Rlt_dec _ _) || destruct (Req_EM_T _ _)); try apply sqrt_pos; try lra; apply Rlt_le, exp_pos.
  - apply error_range. exact Hp.
Qed.

(** Every event of every finished run. *)
Theorem C63_run :
  forall (L : Libm) (rg : Rng (FA L)) sv bd cfuel fuel sfuel e (cfg : config (FA L)) (s s' : sys rg),
  accurate_exp L -> accurate_pow L -> ordinary cfg ->
  (forall f, from_gamma rg (fluctuation cfg) (ndiv (FA L) (nlit (FA L) 1 0) (fluctuation cfg)) f -> finite_upto f (bpow radix2 40)) ->
  let p := B2R (reduced_thickness cfg : f64) in usable_exponent p ->
  collide rg sv bd cfuel fuel sfuel e cfg s = (Ret tt, s') ->
  exists ds, run_delivered rg sv bd cfuel fuel sfuel e cfg s s' ds /\
  forall d, In d ds -> (Z.of_nat (length (d_A d)) <= 2 ^ 20)%Z -> (Z.of_nat (length (d_B d)) <= 2 ^ 20)%Z ->
  forall iy ix, inside (ev_nsteps (d_event d)) iy ix ->
  close_to (mean_error p) (bpow radix2 (-140)) (cell (ev_TR (d_event d)) iy ix)
    (B2R (normalization cfg : f64) *
     mean_at threshold p (B2R (cell (ev_TA (d_event d)) iy ix : f64)) (B2R (cell (ev_TB (d_event d)) iy ix : f64))).
Proof.
  intros L rg sv bd cfuel fuel sfuel e cfg s s' HL HP Ho HG p Hp H.
  destruct (C52_weights _ _ _ _ _ _ _ _ _ _ _ H) as (ds & D & W). exists ds. split; [exact D|].
  intros d Hd LA LB. specialize (fun n => W d n Hd).
  destruct D as (co & nA & nB & ev0 & nst & gst & s1 & rs' & C & _ & EF & _).
  pose proof (collider_new_inv _ _ _ _ _ _ _ _ _ _ _ _ _ _ C) as Hc.
  destruct (ct_nc _ _ _ _ _ _ _ _ _ _ _ Hc) as (sp & Enc).
  assert (HE : event_compute (debug bd) ev0 (d_A d) (d_B d) (co_nc co) = Ret (d_event d)).
  { clear - EF Hd. induction EF as [|n ns rs x rs1 xs rs2 Hx _ IH]; [destruct Hd|].
    destruct Hd as [<-|Hd]; [|apply IH; exact Hd]. destruct Hx as (_ & a & b & _ & _ & _ & E). exact E. }
  rewrite Enc in HE.
  pose proof (or_number _ Ho) as Hm.
  assert (Em : to_size (constit_number cfg) = constit_number cfg) by (unfold to_size; apply Z.mod_small; unfold size_max; lia).
  assert (LN : forall l, (forall n, In n l -> In n (d_A d ++ d_B d)) -> (Z.of_nat (length l) <= 2 ^ 20)%Z -> light_nucleus l).
  { intros l Hl Hs. split; [exact Hs|]. intros n Hn Hq. destruct (W n (Hl n Hn) Hq) as [Wl Wf]. rewrite Em in Wl. split.
    - rewrite Wl, Z2Nat.id by lia. lia.
    - intros q Hq'. apply HG, Wf, Hq'. }
  apply (C63_compute L cfg ev0 (debug bd) (d_A d) (d_B d) sp (d_event d) HL HP Ho); auto.
  - apply LN; [intros; apply in_or_app; auto|exact LA].
  - apply LN; [intros; apply in_or_app; auto|exact LB].
  - constructor. apply (ct_event _ _ _ _ _ _ _ _ _ _ _ Hc).
Qed.

Lemma threshold_v : threshold = 4951760157141521 / 4951760157141521099596496896.
Proof.
  unfold threshold. rewrite (B2R_SF _ (SpecFloat.S754_finite false 4951760157141521 (-92))) by (vm_compute; reflexivity).
  cbn [SF2R cond_Zopp]. unfold F2R. cbn [Fnum Fexp]. change (bpow radix2 (-92)) with (/ 4951760157141521099596496896). lra.
Qed.

(** [mean_at threshold] is the documented mean of Spec/Mean.v, except where |p| or
    (for p < 0) a thickness lies in the interval, shorter than 10^-27, between the
    double and 10^-12. *)
Theorem C63_documented :
  threshold < eps12 < threshold + / 1000000000000000000000000000 /\
  forall p a b : R, let clear x := x < threshold \/ eps12 <= x in
  clear (Rabs p) -> clear a -> clear b -> mean_at threshold p a b = M_p p a b.
Proof.
  assert (T : threshold < eps12 < threshold + / 1000000000000000000000000000) by (rewrite threshold_v; unfold eps12; lra).
  split; [exact T|]. intros p a b clear Cp Ca Cb. unfold clear in *. unfold mean_at, M_p.
  repeat match goal with |- context [Rlt_dec ?x threshold] => destruct (Rlt_dec x threshold) end;
  repeat match goal with |- context [Rlt_dec ?x eps12] => destruct (Rlt_dec x eps12) end; try reflexivity; lra.
Qed.

(** Cases: the event of C61_instance (p = 0), and the mean of 1 and 4 for p = 1/2,
    which is 9/4. *)
Theorem C63_instance : forall (L : Libm) (sp : f64), accurate_exp L -> accurate_pow L ->
  (exists ev ev', event_new (width_049 L) = Ret ev /\
     event_compute false ev (one_proton L) (one_proton L) (nucleon_common_of (width_049 L) sp) = Ret ev' /\
     ordinary (width_049 L) /\ light_nucleus (one_proton L) /\
     usable_exponent (B2R (reduced_thickness (width_049 L) : f64)) /\ inside (ev_nsteps ev') 0 0) /\
  usable_exponent (B2R (f64_lit 5 (-1))) /\
  Rabs (B2R (gen_mean (A:=FA L) (choose_mean (A:=FA L) (f64_lit 5 (-1))) (f64_lit 1 0) (f64_lit 4 0)) - 9 / 4) <= / 1000000000.
Proof.
  intros L sp HL HP. destruct half_v as [Fh Vh].
  assert (T0 : 0 < threshold) by (rewrite threshold_v; lra).
  assert (UE : usable_exponent (/ 2)).
  { right. rewrite Rabs_pos_eq by lra. change (bpow radix2 (-30)) with (/ 1073741824). lra. }
  split; [|split].
  - destruct (C61_instance L sp HL HP) as (ev & ev' & E & R & Ho & HN & _). exists ev, ev'.
    split; [exact E|]. split; [exact R|]. split; [exact Ho|]. split; [exact HN|]. split.
    + left. change (B2R (reduced_thickness (width_049 L) : f64)) with 0. rewrite Rabs_R0. exact T0.
    + assert (Er : evolved (width_049 L) ev) by (constructor; exact E).
      pose proof (event_compute_inv _ _ _ _ _ _ (evolved_ready _ _ Er) R) as ((_ & _ & _ & Ens & _) & _).
      rewrite <- Ens. destruct (C12_ieee L (width_049 L) (usable_grid_049 L)) as (ev1 & E1 & _ & _ & _ & N1 & N2 & _).
      assert (ev1 = ev) by congruence. subst ev1. unfold inside. lia.
  - rewrite Vh. exact UE.
  - assert (V4 : B2R (f64_lit 4 0) = 4).
    { rewrite (B2R_SF _ (SpecFloat.S754_finite false 4503599627370496 (-50))) by (vm_compute; reflexivity). cbn [SF2R cond_Zopp]. unfold F2R. cbn [Fnum Fexp].
      change (bpow radix2 (-50)) with (/ 1125899906842624). lra. }
    assert (B129 : 4 <= bpow radix2 129) by (change 4 with (bpow radix2 2); apply bpow_le; lia).
    destruct (C63_mean L (f64_lit 5 (-1)) (f64_lit 1 0) (f64_lit 4 0) HP) as (_ & _ & E).
    + exact Fh.
    + rewrite Vh. exact UE.
    + split; [reflexivity|]. rewrite B2R_one. lra.
    + split; [reflexivity|]. rewrite V4. lra.
    + rewrite Vh, B2R_one, V4 in E.
      assert (TH : threshold < / 2) by (rewrite threshold_v; lra).
      assert (EM : mean_at threshold (/ 2) 1 4 = 9 / 4).
      { unfold mean_at. rewrite Rabs_pos_eq by lra. destruct (Rlt_dec (/ 2) threshold); [lra|]. destruct (Rlt_dec 0 (/ 2)); [|lra].
        unfold pow0. destruct (Req_EM_T 1 0); [lra|]. destruct (Req_EM_T 4 0); [lra|].
        rewrite !Rpower_sqrt by lra. replace (sqrt 1) with 1 by (symmetry; apply sqrt_1).
        replace (sqrt 4) with 2 by (symmetry; replace 4 with (2 * 2) by ring; apply R_sqrt.sqrt_square; lra).
        destruct (Req_EM_T ((1 + 2) / 2) 0); [lra|]. replace (1 / / 2) with (INR 2) by (simpl; field). rewrite Rpower_pow by lra. simpl. lra. }
      rewrite EM in E. eapply Rle_trans; [exact E|]. unfold mean_error. rewrite Rabs_pos_eq by lra.
      destruct (Rlt_dec (/ 2) threshold); [lra|]. change (bpow radix2 (-34)) with (/ 17179869184).
      assert (bpow radix2 (-200) <= bpow radix2 (-40)) by (apply bpow_le; lia). change (bpow radix2 (-40)) with (/ 1099511627776) in H. lra.
Qed.
