(** A world, a generator, a math library and parameters that meet the hypotheses
    of C68, and its run, which finishes. *)
From Coq Require Import ZArith Reals Lra Lia Bool List String Permutation.
From Flocq Require Import Core BinarySingleNaN.
From Verif.Base Require Import Result Arith FArith Rng.
From Verif.Model Require Import Config Nucleon Files CrossSection Collider.
From Verif.Spec Require Import Finite Distributions Safe Contract Demo Cache.
From Verif.Proof Require Import Ieee IeeeInt DecR SafeP.
From Verif.Properties Require Import Events ImpactIeee ThicknessIeee GridIeee.
Import ListNotations.
Local Open Scope R_scope.

Lemma demo_tame : tame_libm demo_libm.
Proof.
  assert (S1 : forall x : f64, sizedb x 1 = true -> sized x 1) by (intros x; apply (sizedb_ok x 1); lia).
  constructor.
  - intros x _. apply S1. vm_compute. reflexivity.
  - intros x _. apply S1. vm_compute. reflexivity.
  - intros x [F B]. split; [exact F|]. cbn [demo_libm m_cbrt]. lra.
  - intros x _ _. change (m_log demo_libm x) with (f64_lit (-1) 0). split; [vm_compute; reflexivity|].
    assert (V : B2R (f64_lit (-1) 0) = -1).
    { rewrite (B2R_SF _ (SpecFloat.S754_finite true 4503599627370496 (-52))) by (vm_compute; reflexivity).
      unfold SF2R, F2R. cbn [cond_Zopp Fnum Fexp Z.opp]. change (bpow radix2 (-52)) with (/ 4503599627370496). lra. }
    rewrite V. lra.
  - intros N _. eapply sized_le; [apply S1; vm_compute; reflexivity|lra].
Qed.

Lemma demo_positive e : 0 < B2R (fst (canonical demo_rng e) : f64).
Proof.
  cbn [demo_rng toy canonical fst]. unfold demo_draw.
  assert (B : (e mod 5 < 5)%nat) by (apply Nat.mod_upper_bound; lia).
  assert (C : forall x : f64, is_finite x = true -> f64_ltb (f64_lit 0 0) x = true -> 0 < B2R x).
  { intros x F L0. rewrite ltb_ok in L0 by (auto; vm_compute; reflexivity). rewrite B2R_zero in L0.
    destruct (Rlt_bool_spec 0 (B2R x)); [assumption|discriminate]. }
  destruct (e mod 5)%nat as [|[|[|[|[|]]]]]; [| | | | |lia]; apply C; vm_compute; reflexivity.
Qed.

Lemma demo_tame_rng : tame_rng demo_rng.
Proof.
  constructor.
  - apply demo_canonical.
  - intros n lo hi w e F1 F2 B. cbn [demo_rng toy pwl fst]. split; [exact F1|lra].
  - intros a b e H. cbn [demo_rng toy unif_int fst]. lia.
  - split; intros l; apply sort_by_perm.
  - intros l e. cbn [demo_rng toy shuffle fst]. apply Permutation_refl.
Qed.

Lemma demo_careful : careful demo_solver.
Proof. intros S f a b t n _ s u. discriminate. Qed.

Lemma demo_everyday : everyday demo_config.
Proof.
  pose proof (half_v) as [Fh Vh]. pose proof B2R_one as V1. pose proof B2R_zero as V0.
  assert (F1 : is_finite (f64_lit 1 0) = true) by (vm_compute; reflexivity).
  assert (F0 : is_finite (f64_lit 0 0) = true) by (vm_compute; reflexivity).
  assert (P20 : bpow radix2 (-20) = / 1048576) by reflexivity.
  assert (P4 : bpow radix2 (-400) <= bpow radix2 (-1)) by (apply bpow_le; lia). change (bpow radix2 (-1)) with (/ 2) in P4.
  assert (P5 : bpow radix2 (-500) <= bpow radix2 0) by (apply bpow_le; lia). change (bpow radix2 0) with 1 in P5.
  assert (P2 : bpow radix2 0 <= bpow radix2 200) by (apply bpow_le; lia). change (bpow radix2 0) with 1 in P2.
  assert (PN : bpow radix2 0 <= bpow radix2 50) by (apply bpow_le; lia). change (bpow radix2 0) with 1 in PN.
  constructor; [constructor| | | | | |]; unfold finite_upto, demo_config;
    cbn [constit_width constit_number reduced_thickness normalization grid_max grid_step nucleon_width number_events b_min b_max];
    change (nlit DA 5 (-1)) with (f64_lit 5 (-1)); change (nlit DA 1 0) with (f64_lit 1 0); change (nlit DA 0 0) with (f64_lit 0 0);
    rewrite ?Vh, ?V1, ?V0, ?P20; repeat split; auto; try lra; try lia.
  - rewrite Rabs_R0. lra.
  - unfold int_max. lia.
  - right. split; [reflexivity|]. split; [lra|]. right. exact P5.
Qed.

Lemma demo_near : near_constituents demo_rng demo_config.
Proof.
  intros x (st & e & _ & <-). cbn [demo_rng toy ndraw fst]. change (sized (f64_ofZ 0) 8192).
  destruct (ofZ_ok 0 ltac:(lia)) as [F V]. split; [exact F|]. rewrite V, Rabs_R0. lra.
Qed.

Lemma demo_cache : good_cache demo_env (s_fs demo_sys).
Proof. exists "/data"%string. split; [reflexivity|]. intros n H. discriminate. Qed.

(** The demonstration run (deuteron + proton, two events, text output) meets every
    hypothesis of C68_run, and returns. *)
Theorem C68_instance :
  tame_libm demo_libm /\ tame_rng demo_rng /\ careful demo_solver /\ everyday demo_config /\
  near_constituents demo_rng demo_config /\ no_zero_draw demo_rng demo_config /\
  good_cache demo_env (s_fs demo_sys) /\ good_projectiles (s_fs demo_sys) demo_config /\
  exists s', demo_run = (Ret tt, s').
Proof.
  split; [exact demo_tame|]. split; [exact demo_tame_rng|]. split; [exact demo_careful|]. split; [exact demo_everyday|].
  split; [exact demo_near|]. split; [intros _; apply demo_positive|]. split; [exact demo_cache|].
  split; [|exact demo_finishes].
  intros p Hp Hh. cbn [projectile demo_config In] in Hp. destruct Hp as [<-|[<-|[]]]; vm_compute in Hh; discriminate.
Qed.
