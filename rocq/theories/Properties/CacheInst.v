(** Concrete runs that meet the hypotheses of C38. *)
From Coq Require Import Ascii Reals Lra Psatz.
From Flocq Require Import Core BinarySingleNaN.
From Verif.Base Require Import Result Arith RArith FArith Rng.
From Verif.Model Require Import Random Config Nucleon Text Files CrossSection.
From Verif.Spec Require Import Contract Demo Decimal Cache.
From Verif.Proof Require Import Basics RBasics TextP FsP CacheP CacheRun CacheWrite Ieee DecR.
From Verif.Properties Require Import Cache RoundTrip WideSigma RealRun ImpactIeee.
Local Open Scope R_scope.

(** Real arithmetic: the solver answers 0, the parameter is pi. *)
Definition cache_sys : sys far_rng := @Sys RA far_rng 0%nat [("/data"%string, Dir); ("/data/trento"%string, Dir)] "" "".
Definition sigma_config (sg : R) : config RA :=
  @Config RA ["Pb"; "Pb"]%string 1 true None false false 0 1 (1/2) (1/2) 1 0 sg 1 0 0 0 1 (1/2).

Lemma cache_sys_fresh : world_no_cache real_env (s_fs cache_sys).
Proof. exists "/data"%string. repeat split. Qed.
Lemma sigma_compute sg e : compute_partonic far_rng mid_solver (sigma_config sg) e = (@Ret R PI, e).
Proof.
  unfold compute_partonic, analytic_partonic_cross_section, rethrow_domain. cbn [constit_number sigma_config].
  cbn [Z.ltb Z.compare Pos.compare Pos.compare_cont]. unfold toms748, mid_solver. erewrite bind_run by reflexivity.
  unfold ret. f_equal. f_equal. unfold sqr. cbn [num RA RA_with nadd nmul nexp nlit nofZ npi nucleon_width sigma_config]. rlits.
  replace (5 / 10 * (0 + 0)) with 0 by lra. rewrite exp_0. field.
Qed.
Lemma sigma_run sg : exists s1, partonic_cross_section far_rng mid_solver 1 real_env (sigma_config sg) cache_sys = (@Ret R PI, s1).
Proof.
  rewrite (partonic_no_file far_rng mid_solver 1 real_env (sigma_config sg) cache_sys "/data") by reflexivity.
  unfold computed. rewrite sigma_compute. eexists. reflexivity.
Qed.
Lemma pi_parameter : parameter_real PI.
Proof.
  pose proof PI2_1. pose proof PI_4. unfold parameter_real. rewrite pow10_300. split.
  - rewrite <- bpow_opp. apply Rle_trans with (bpow radix10 0); [apply bpow_le; lia|]. simpl. lra.
  - apply Rle_trans with (bpow radix10 1); [simpl; lra|apply bpow_le; lia].
Qed.

Example C38_instance_real : printable_real (sigma_config 6.4) /\ cache_holds real_env (s_fs cache_sys) [] /\
  exists s1, partonic_cross_section far_rng mid_solver 1 real_env (sigma_config 6.4) cache_sys = (@Ret R PI, s1) /\
    runs far_rng real_env (s_fs cache_sys) [(sigma_config 6.4, PI)] (s_fs s1).
Proof.
  split; [|split].
  - repeat split; cbn; lra.
  - left. split; [reflexivity|apply cache_sys_fresh].
  - destruct (sigma_run 6.4) as [s1 E]. exists s1. split; [exact E|].
    apply (runs_then far_rng real_env (s_fs cache_sys) [] (s_fs cache_sys) (sigma_config 6.4) mid_solver 1 cache_sys PI s1);
      [constructor|reflexivity|simpl; lia|exact E].
Qed.

(** sigma_NN = 120 is computed again by every run. *)
Example C38_wide_instance : exists s1,
  partonic_cross_section far_rng mid_solver 1 real_env (sigma_config 120) cache_sys = (@Ret R PI, s1) /\
  forall sv2 fuel2 (s2 : sys far_rng), s_fs s2 = s_fs s1 -> (1 < fuel2)%nat ->
    fst (partonic_cross_section far_rng sv2 fuel2 real_env (sigma_config 120) s2)
    = fst (compute_partonic far_rng sv2 (sigma_config 120) (s_eng s2)).
Proof.
  destruct (sigma_run 120) as [s1 E]. exists s1. split; [exact E|].
  apply (C38_wide_sigma_real far_rng mid_solver 1 real_env (sigma_config 120) cache_sys s1 PI);
    [apply cache_sys_fresh|reflexivity|cbn; lra..|apply pi_parameter|exact E].
Qed.

(** Binary64: the demonstration configuration. *)
Definition fresh_demo : sys demo_rng := @Sys DA demo_rng 0%nat [("/data"%string, Dir); ("/data/trento"%string, Dir)] "" "".
Definition demo_param : f64 := f64_mul (f64_mul (f64_mul (f64_lit 1 0) (f64_ofZ 4)) f64_pi) (f64_mul (f64_lit 5 (-1)) (f64_lit 5 (-1))).
Lemma demo_compute e : compute_partonic demo_rng demo_solver demo_config e = (Ret (demo_param : num DA), e).
Proof.
  unfold compute_partonic. cbn [constit_number demo_config]. cbn [Z.ltb Z.compare Pos.compare Pos.compare_cont].
  unfold analytic_partonic_cross_section, rethrow_domain, toms748, demo_solver. erewrite bind_run by reflexivity. unfold ret.
  assert (E : nexp DA (nmul DA (nlit DA 5 (-1)) (nadd DA (f64_lit 0 0) (f64_lit 0 0))) = f64_lit 1 0) by (apply B2SF_inj; vm_compute; reflexivity).
  rewrite E. reflexivity.
Qed.

Lemma bounds_by (lo hi x : f64) : is_finite lo = true -> is_finite hi = true -> is_finite x = true ->
  f64_ltb x lo = false -> f64_ltb x hi = true -> B2R lo <= B2R x < B2R hi.
Proof.
  intros Fl Fh Fx L1 L2. rewrite ltb_ok in L1, L2 by assumption.
  destruct (Rlt_bool_spec (B2R x) (B2R lo)); [discriminate L1|]. destruct (Rlt_bool_spec (B2R x) (B2R hi)); [lra|discriminate L2].
Qed.
Lemma B2R_eight : B2R (f64_lit 8 0) = 8.
Proof.
  rewrite (B2R_SF _ (SpecFloat.S754_finite false 4503599627370496 (-49))).
  - cbn [SF2R cond_Zopp]. unfold F2R. cbn [Fnum Fexp]. change (bpow radix2 (-49)) with (/ 562949953421312). lra.
  - vm_compute. reflexivity.
Qed.
Lemma printable_small x : is_finite x = true -> f64_ltb x (f64_lit 0 0) = false -> f64_ltb x (f64_lit 8 0) = true -> printable x.
Proof.
  intros F L1 L2. split; [exact F|].
  pose proof (bounds_by (f64_lit 0 0) (f64_lit 8 0) x ltac:(vm_compute; reflexivity) ltac:(vm_compute; reflexivity) F L1 L2) as B.
  rewrite B2R_zero, B2R_eight in B. lra.
Qed.

Example C38_instance_ieee : printable_ieee demo_libm demo_config /\ parameter_ieee demo_param /\
  cache_holds demo_env (s_fs fresh_demo) [] /\
  exists s1, partonic_cross_section demo_rng demo_solver 1 demo_env demo_config fresh_demo = (Ret (demo_param : num DA), s1).
Proof.
  split; [|split; [|split]].
  - split; [reflexivity|]. split; [|split]; apply printable_small; vm_compute; reflexivity.
  - assert (F : is_finite demo_param = true) by (vm_compute; reflexivity). split; [exact F|].
    pose proof (bounds_by (f64_lit 1 0) (f64_lit 8 0) demo_param ltac:(vm_compute; reflexivity) ltac:(vm_compute; reflexivity) F
      ltac:(vm_compute; reflexivity) ltac:(vm_compute; reflexivity)) as B.
    rewrite B2R_one, B2R_eight in B. rewrite pow10_300. split.
    + rewrite <- bpow_opp. apply Rle_trans with (bpow radix10 0); [apply bpow_le; lia|]. change (bpow radix10 0) with 1. lra.
    + apply Rle_trans with (bpow radix10 1); [change (bpow radix10 1) with 10; lra|apply bpow_le; lia].
  - left. split; [reflexivity|]. exists "/data"%string. repeat split.
  - rewrite (partonic_no_file demo_rng demo_solver 1 demo_env demo_config fresh_demo "/data") by reflexivity.
    unfold computed. rewrite demo_compute. eexists. reflexivity.
Qed.
