(** C05 in IEEE-754 binary64 arithmetic, for every libm. *)
From Coq Require Import ZArith Reals Lra Lia Bool Psatz.
From Flocq Require Import Core BinarySingleNaN.
From Verif.Base Require Import Result Arith FArith Rng.
From Verif.Model Require Import Random Config Nucleon Files Nucleus Event CrossSection Output Collider.
From Verif.Spec Require Import History Collision Runs Contract Demo.
From Verif.Proof Require Import Basics Pairs Sampling Ctor Collision EveryEvent Ieee.
From Verif.Properties Require Import Events.
Local Open Scope R_scope.

(** A finite, non-negative double of moderate magnitude: +0 or in [2^-500, 2^500]. *)
Definition moderate (x : f64) : Prop :=
  is_finite x = true /\ Bsign x = false /\
  (B2R x = 0 \/ bpow radix2 (-500) <= B2R x <= bpow radix2 500).

Lemma moderate_bounds x : moderate x -> rep (B2R x) /\ 0 <= B2R x <= bpow radix2 500.
Proof.
  intros (F & S & V). split; [apply rep_B2R|]. pose proof (bpow_gt_0 radix2 500). pose proof (bpow_gt_0 radix2 (-500)).
  destruct V as [->|V]; lra.
Qed.

Lemma sqrt_square_moderate x : moderate x -> rnd (sqrt (rnd (B2R x * B2R x))) = B2R x.
Proof.
  intros (F & S & [V|V]).
  - rewrite V, Rmult_0_l, rnd_0, sqrt_0. apply rnd_0.
  - apply Ieee.sqrt_square; [apply rep_B2R|exact V].
Qed.

(** Bits of a non-negative double are determined by its value. *)
Lemma same_bits (x y : f64) : is_finite x = true -> is_finite y = true -> Bsign x = Bsign y -> B2R x = B2R y -> x = y.
Proof. intros. apply B2R_Bsign_inj; assumption. Qed.

Lemma sample_b_ieee L (bmin bmax u : f64) :
  moderate bmin -> moderate bmax -> B2R bmin <= B2R bmax ->
  is_finite u = true -> 0 <= B2R u < 1 ->
  let b := sample_b (A:=FA L) bmin bmax u in
  is_finite b = true /\ Bsign b = false /\
  B2R bmin <= B2R b <= B2R bmax /\
  (bmin = bmax -> b = bmin).
Proof.
  intros Mn Mx Hle Fu Hu. cbv zeta. unfold sample_b. cbn [nadd nsub nmul nsqrt FA].
  destruct (moderate_bounds _ Mn) as (Rn & Bn). destruct (moderate_bounds _ Mx) as (Rx & Bx).
  pose proof (sqrt_square_moderate _ Mn) as Qn. pose proof (sqrt_square_moderate _ Mx) as Qx.
  pose proof Mn as (Fn & Sn & Vn). pose proof Mx as (Fx & Sx & Vx).
  assert (Big : forall r, 0 <= r <= bpow radix2 500 -> 0 <= r * r <= bpow radix2 1000).
  { intros r Hr. replace (bpow radix2 1000) with (bpow radix2 500 * bpow radix2 500) by (rewrite <- bpow_plus; reflexivity).
    split; [apply Rmult_le_pos; lra|]. apply Rmult_le_compat; lra. }
  assert (Habs : forall r, 0 <= r <= bpow radix2 1000 -> Rabs r <= bpow radix2 1000).
  { intros r Hr. rewrite Rabs_pos_eq; lra. }
  (* the two squares *)
  destruct (mul_ok bmin bmin Fn Fn (Habs _ (Big _ Bn))) as (Ep & Fp & Sp). rewrite Sn in Sp.
  destruct (mul_ok bmax bmax Fx Fx (Habs _ (Big _ Bx))) as (Eq & Fq & Sq). rewrite Sx in Sq.
  set (p := f64_mul bmin bmin) in *. set (q := f64_mul bmax bmax) in *. cbn [xorb] in Sp, Sq.
  assert (Rp : rep (B2R p)) by apply rep_B2R. assert (Rq : rep (B2R q)) by apply rep_B2R.
  assert (P0 : 0 <= B2R p) by (apply sign_nonneg; auto).
  assert (Pq : B2R p <= B2R q) by (rewrite Ep, Eq; apply rnd_le; apply Rmult_le_compat; lra).
  assert (Qb : B2R q <= bpow radix2 1000).
  { rewrite Eq. rewrite <- (rnd_id (bpow radix2 1000)) by (apply rep_bpow; lia). apply rnd_le. apply Big. exact Bx. }
  (* the difference *)
  destruct (sub_ok q p Fq Fp) as (Ed & Fd & Sd); [apply Habs; lra|].
  set (d := f64_sub q p) in *.
  assert (Sd' : Bsign d = false).
  { rewrite Sd, Sq. destruct (Rcompare_spec (B2R q - B2R p) 0); auto. lra. }
  assert (D0 : 0 <= B2R d) by (apply sign_nonneg; auto).
  assert (Dq : B2R d <= B2R q).
  { rewrite Ed. rewrite <- (rnd_id (B2R q)) at 2 by exact Rq. apply rnd_le. lra. }
  (* times u *)
  assert (DU : 0 <= B2R d * B2R u <= B2R d).
  { split; [apply Rmult_le_pos; lra|]. rewrite <- (Rmult_1_r (B2R d)) at 2. apply Rmult_le_compat_l; lra. }
  destruct (mul_ok d u Fd Fu) as (Et & Ft & St); [apply Habs; lra|].
  set (t := f64_mul d u) in *.
  assert (T0 : 0 <= B2R t) by (rewrite Et; apply rnd_nonneg; lra).
  assert (Td : B2R t <= B2R q - B2R p).
  { rewrite Et, Ed. apply shrink_le; auto; [apply rep_B2R|lra]. }
  (* plus *)
  destruct (add_ok p t Fp Ft) as (Es & Fs & Ss); [apply Habs; lra|].
  set (s := f64_add p t) in *.
  assert (Ss' : Bsign s = false).
  { rewrite Ss, Sp. destruct (Rcompare_spec (B2R p + B2R t) 0); auto. lra. }
  destruct (sqrt_ok s Fs Ss') as (Eb & Fb & Sb). set (b := f64_sqrt s) in *.
  split; [exact Fb|]. split; [exact Sb|]. split; [split|].
  - rewrite <- Qn, Eb, Es. apply rnd_le, sqrt_le_1_alt. rewrite <- Ep. rewrite <- (rnd_id (B2R p)) at 1 by exact Rp.
    apply rnd_le. lra.
  - rewrite <- Qx, Eb, Es. apply rnd_le, sqrt_le_1_alt. rewrite <- Eq. rewrite <- (rnd_id (B2R q)) by exact Rq.
    apply rnd_le. lra.
  - intros Z. assert (Epq : p = q) by (unfold p, q; rewrite Z; reflexivity).
    rewrite Epq in Td. assert (T00 : B2R t = 0) by lra.
    apply same_bits; auto; [congruence|].
    rewrite Eb, Es, T00, Rplus_0_r, (rnd_id (B2R p)) by exact Rp. rewrite Ep. exact Qn.
Qed.

(** In every run in binary64 arithmetic.  The effective upper end is --b-max, or
    if that is negative the (rounded) sum of the radii and the maximum
    nucleon-nucleon impact parameter. *)
Theorem C05_range_ieee : forall L : Libm,
  every_event_in (FA L) (fun rg bd sfuel cfg co nA nB ev0 d =>
    (forall e, is_finite (fst (canonical rg e) : f64) = true /\ 0 <= B2R (fst (canonical rg e) : f64) < 1) ->
    let bmax : f64 := if f64_ltb (b_max cfg) (f64_lit 0 0)
                      then f64_add (f64_add (radius nA) (radius nB)) (max_impact (co_nc co))
                      else b_max cfg in
    moderate (b_min cfg) -> moderate bmax -> B2R (b_min cfg : f64) <= B2R bmax ->
    let b : f64 := d_b d in
    is_finite b = true /\ Bsign b = false /\
    B2R (b_min cfg : f64) <= B2R b <= B2R bmax /\
    (b_min cfg = bmax -> b = b_min cfg)).
Proof.
  intros L. apply every_event_in_intro.
  intros rg sv bd cfuel sfuel e cfg s co nA nB ev0 nst gst s1 d _ Hc WA WB G Fin bmax Mn Mx Hle.
  destruct G as (sa & Hs & _).
  destruct (sd_canonical _ _ _ _ _ _ _ _ _ _ Hs) as (e0 & Ec).
  pose proof (Fin e0) as (Fu & U01). rewrite Ec in Fu, U01. cbn [fst] in Fu, U01.
  assert (Eb : d_b d = sample_b (A:=FA L) (b_min cfg) bmax (sa_u sa)).
  { rewrite (sd_b _ _ _ _ _ _ _ _ _ _ Hs), (ct_bmin _ _ _ _ _ _ _ _ _ _ _ Hc), (ct_bmax _ _ _ _ _ _ _ _ _ _ _ Hc). reflexivity. }
  cbv zeta. rewrite Eb. apply sample_b_ieee; auto.
Qed.

(** The demonstration run ([Demo.v]: b_min = 0, b_max = 1, two events) meets the hypotheses. *)
Lemma B2R_SF (x : f64) f : B2SF x = f -> B2R x = SF2R radix2 f.
Proof. intros <-. symmetry. apply SF2R_B2SF. Qed.
Lemma B2R_one : B2R (f64_lit 1 0) = 1.
Proof.
  rewrite (B2R_SF _ (SpecFloat.S754_finite false 4503599627370496 (-52))).
  - cbn [SF2R cond_Zopp]. unfold F2R. cbn [Fnum Fexp]. change (bpow radix2 (-52)) with (/ 4503599627370496). lra.
  - vm_compute. reflexivity.
Qed.
Lemma B2R_zero : B2R (f64_lit 0 0) = 0.
Proof. apply (B2R_SF _ (SpecFloat.S754_zero false)). vm_compute. reflexivity. Qed.

Lemma demo_canonical e : is_finite (fst (canonical demo_rng e) : f64) = true /\ 0 <= B2R (fst (canonical demo_rng e) : f64) < 1.
Proof.
  cbn [demo_rng toy canonical fst]. unfold demo_draw.
  assert (B : (e mod 5 < 5)%nat) by (apply Nat.mod_upper_bound; lia).
  assert (C : forall x : f64, is_finite x = true -> f64_ltb x (f64_lit 0 0) = false -> f64_ltb x (f64_lit 1 0) = true ->
              is_finite x = true /\ 0 <= B2R x < 1).
  { intros x F L0 L1. split; [exact F|]. rewrite ltb_ok in L0, L1 by (auto; vm_compute; reflexivity).
    rewrite B2R_one in L1. rewrite B2R_zero in L0.
    destruct (Rlt_bool_spec (B2R x) 0); [discriminate|]. destruct (Rlt_bool_spec (B2R x) 1); [lra|discriminate]. }
  destruct (e mod 5)%nat as [|[|[|[|[|]]]]]; [| | | | |lia]; apply C; vm_compute; reflexivity.
Qed.

Example C05_ieee_instance : exists s' co nA nB ev0 nst gst s1 ds,
  demo_run = (Ret tt, s') /\
  collider_new demo_rng demo_solver demo_build 10 demo_env demo_config demo_sys = (Ret (co, nA, nB, ev0, nst, gst), s1) /\
  length ds = 2%nat /\ delivered demo_rng (co_writers co) ds s1 s' /\
  forall d, In d ds -> 0 <= B2R (d_b d : f64) <= 1.
Proof.
  destruct demo_finishes as [s' H]. pose proof H as H0. unfold demo_run in H.
  destruct (C05_range_ieee demo_libm _ _ _ _ _ _ _ _ _ _ H) as (co & nA & nB & ev0 & nst & gst & s1 & ds & Hn & Hl & _ & Hd & _ & HP).
  exists s', co, nA, nB, ev0, nst, gst, s1, ds. split; [exact H0|]. split; [exact Hn|]. split; [exact Hl|]. split; [exact Hd|].
  intros d Hin. specialize (HP d Hin demo_canonical).
  change (b_max demo_config) with (f64_lit 1 0) in HP. change (b_min demo_config) with (f64_lit 0 0) in HP.
  replace (f64_ltb (f64_lit 1 0) (f64_lit 0 0)) with false in HP by (vm_compute; reflexivity).
  cbv zeta in HP. rewrite B2R_one in HP. rewrite B2R_zero in HP.
  apply HP; [| |lra].
  - split; [vm_compute; reflexivity|]. split; [vm_compute; reflexivity|]. left. apply B2R_zero.
  - split; [vm_compute; reflexivity|]. split; [vm_compute; reflexivity|]. right. rewrite B2R_one.
    change 1 with (bpow radix2 0). split; apply bpow_le; lia.
Qed.
