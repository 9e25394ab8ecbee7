(** Concrete cases that meet the hypotheses of C28-C33. *)
From Coq Require Import Reals Lra Permutation Sorted.
From Flocq Require Import Core BinarySingleNaN.
From Verif.Base Require Import Result Arith RArith FArith Rng.
From Verif.Model Require Import Random Config Nucleon Files Nucleus Collider.
From Verif.Spec Require Import Contract Draws Geometry.
From Verif.Proof Require Import Basics RBasics Sampling Ctor ShiftP RadiiP.
From Verif.Properties Require Import Nuclei LightNuclei.
Local Open Scope R_scope.

(** Lead, any minimum distance: C28-C30. *)
Example C30_instance : forall bd f fuel (d offset : R), 0 <= d -> exists (nu nu' : nucleus RA) e',
  nucleus_create (A:=RA) bd f "Pb" d = Ret nu /\ in_use bd f nu /\
  nu_kind nu = @KWoodsSaxon RA (Rlit 662 (-2)) (Rlit 546 (-3)) (d * d) /\
  length (nu_nucleons nu) = 208%nat /\ 0 <= Rlit 662 (-2) + 10 * Rlit 546 (-3) /\
  sample_nucleons (toy RA (fun _ => 1 / 2)) fuel nu offset 0%nat = (Ret nu', e').
Proof.
  intros bd f fuel d offset Hd.
  assert (OK : rng_ok (toy RA (fun _ => 1 / 2))) by (apply toy_ok; intros; lra).
  pose (nu := @woods_saxon RA 208 (Rlit 662 (-2)) (Rlit 546 (-3)) d).
  destruct (C29_terminates RA (toy RA (fun _ => 1 / 2)) (ok_sort_num _ OK) fuel nu _ _ _ offset 0%nat eq_refl)
    as (nu' & e' & E).
  exists nu, nu', e'. split; [reflexivity|]. split; [apply (in_use_created (A:=RA) _ _ "Pb" d); reflexivity|].
  split; [reflexivity|]. split; [reflexivity|]. split; [rlits; lra|exact E].
Qed.

(** Uranium: with all draws 0 the first proposal is always kept. *)
Example C31_instance : forall bd f fuel (d offset : R), 0 <= d -> exists (nu nu' : nucleus RA) rmax e',
  nucleus_create (A:=RA) bd f "U" d = Ret nu /\
  nu_kind nu = @KDeformed RA (Rlit 681 (-2)) (Rlit 600 (-3)) (Rlit 280 (-3)) (Rlit 93 (-3)) rmax (d * d) /\
  length (nu_nucleons nu) = 238%nat /\ 0 <= rmax /\
  sample_nucleons (toy RA (fun _ => 0)) (S fuel) nu offset 0%nat = (Ret nu', e').
Proof.
  intros bd f fuel d offset Hd. set (rg := toy RA (fun _ => 0)).
  assert (OK : rng_ok rg) by (apply toy_ok; intros; lra).
  eexists. pose (rmax := @deformed_rmax RA (Rlit 681 (-2)) (Rlit 600 (-3)) (Rlit 280 (-3)) (Rlit 93 (-3))).
  assert (Pt : forall e : engine rg, sample_deformed_point rg (S fuel) (Rlit 681 (-2)) (Rlit 600 (-3)) (Rlit 280 (-3)) (Rlit 93 (-3)) rmax e
       = (Ret (nmul RA rmax (ncbrt RA 0), cos_draw rg 0 e), S (S (S e)))).
  { intros e. cbn [sample_deformed_point].
    erewrite bind_run by apply draw_canonical_run.
    erewrite bind_run by apply cos_theta_run.
    erewrite bind_run by apply draw_canonical_run.
    match goal with |- (if ?b then _ else _) _ = _ => replace b with false end; [reflexivity|].
    symmetry. apply Rltb_false. change (drawn rg 0 (after rg 1 (after rg 1 e))) with 0.
    unfold deformed_dist. cbn [num RA RA_with nadd nsub nmul ndiv nlit nexp]. rlits.
    apply Rlt_le, Rdiv_lt_0_compat; [lra|]. match goal with |- 0 < 1 + exp ?x => pose proof (exp_pos x) end. lra. }
  assert (Rep : forall k (e : engine rg), exists raw e1,
     mrepeat k (sample_deformed_point rg (S fuel) (Rlit 681 (-2)) (Rlit 600 (-3)) (Rlit 280 (-3)) (Rlit 93 (-3)) rmax) e = (Ret raw, e1)).
  { induction k as [|k IH]; intros e; [exists [], e; reflexivity|].
    destruct (IH (S (S (S e)))) as (raw & e1 & E1). do 2 eexists. cbn [mrepeat]. unfold bind.
    rewrite Pt, E1. reflexivity. }
  destruct (Rep 238%nat (after rg 2 0%nat)) as (raw & e1 & E1).
  assert (Lr : length (sort_fst rg raw) = 238%nat).
  { rewrite <- (Permutation_length (ok_sort_fst _ OK raw)). eapply mrepeat_length; eauto. }
  destruct (place_all_deformed_run rg (d * d) offset
     (rotate_tilt_spin (cos_draw rg 0 0%nat) (sqrt (1 - cos_draw rg 0 0%nat * cos_draw rg 0 0%nat))
        (cos (phi_draw rg 0 1%nat)) (sin (phi_draw rg 0 1%nat))) (sort_fst rg raw) [] (repeat nucleon_zero 238) e1)
    as (new & ks & E & _).
  { rewrite Lr, repeat_length. reflexivity. }
  eexists. exists rmax. eexists. split; [reflexivity|]. split; [reflexivity|]. split; [reflexivity|]. split.
  { unfold rmax, deformed_rmax. cbn [num RA RA_with nadd nmul nlit nabs]. rlits.
    pose proof (Rabs_pos (280 / 1000)). pose proof (Rabs_pos (93 / 1000)). lra. }
  unfold sample_nucleons. cbn [nu_kind deformed nucleus_new nu_nucleons]. unfold sample_deformed.
  unfold bind at 1.
  erewrite bind_run by apply cos_theta_run.
  erewrite bind_run by apply phi_run.
  rewrite repeat_length. erewrite bind_run by exact E1.
  cbn [num RA RA_with nsqrt nsub nmul nlit ncos nsin]. rlits.
  change (after rg 1 0%nat) with 1%nat. rewrite E. reflexivity.
Qed.

(** A deuteron whose first proposal is kept. *)
Example C32_instance : forall bd f fuel (offset : R), exists (nu nu' : nucleus RA) (a b : R) e',
  nucleus_create (A:=RA) bd f "d" (0 : R) = Ret nu /\ nu_kind nu = @KDeuteron RA a b /\
  length (nu_nucleons nu) = 2%nat /\ 0 < a /\ a <= b /\
  let rg := toy RA (fun k => if Nat.even k then 1 / 2 else 0) in
  rng_ok rg /\ (forall k, 0 < drawn rg (2 * k) 0%nat) /\
  sample_nucleons rg (S fuel) nu offset 0%nat = (Ret nu', e').
Proof.
  intros bd f fuel offset. exists deuteron. eexists. exists (457 / 1000), (235 / 100). eexists.
  split; [reflexivity|]. split.
  { unfold deuteron, deuteron_of, nucleus_new. cbn [nu_kind]. cbn [num RA RA_with nfmin nfmax nlit]. rlits.
    rewrite Rmin_left, Rmax_right by lra. reflexivity. }
  split; [reflexivity|]. split; [lra|]. split; [lra|]. intros rg.
  assert (OK : rng_ok rg) by (apply toy_ok; intros k; destruct (Nat.even k); lra).
  assert (Af : forall k e, after rg k e = (k + e)%nat) by (induction k as [|k IH]; intros; [reflexivity|rewrite after_S, IH; reflexivity]).
  split; [exact OK|]. split.
  { intros k. unfold drawn. rewrite Af, Nat.add_0_r. cbn [canonical rg toy fst].
    replace (Nat.even (2 * k)) with true by (symmetry; rewrite Nat.even_mul; reflexivity). lra. }
  unfold sample_nucleons. cbn [nu_kind nu_nucleons deuteron deuteron_of nucleus_new]. unfold sample_deuteron.
  cbn [num RA RA_with nfmin nfmax nlit]. rlits. rewrite Rmin_left, Rmax_right by lra.
  unfold bind at 1 2. cbn [deuteron_radius].
  erewrite bind_run by apply draw_canonical_run.
  erewrite bind_run by apply draw_canonical_run.
  match goal with |- context [if ?b then deuteron_radius _ _ _ _ else _] => replace b with false end.
  - cbn [repeat]. unfold polar. reflexivity.
  - symmetry. apply Rltb_false. change (drawn rg 0 (after rg 1 0%nat)) with 0.
    change (drawn rg 0 0%nat) with (1 / 2). cbn [num RA RA_with nadd nsub nmul ndiv nexp nofZ npow nneg nlog].
    apply Rmult_le_pos; [|left; apply Rinv_0_lt_compat; lra].
    unfold Rpow. destruct (Req_EM_T _ 0); [destruct (Req_EM_T _ 0); lra|].
    unfold Rpower. left. apply exp_pos.
Qed.

(** Binary64 with a C library that has the required special values. *)
Example C32_zero_draw_instance : exists (L : Libm) (rg : Rng (FA L)) (nu : nucleus (FA L)) (e : engine rg),
  m_log L f64_zero = B754_infinity true /\ m_exp L (B754_infinity true) = f64_zero /\
  m_pow L f64_zero (f64_ofZ 2) = f64_zero /\
  nu_kind nu = nu_kind (@deuteron (FA L)) /\ length (nu_nucleons nu) = 2%nat /\
  drawn rg 0 e = f64_zero.
Proof.
  exists (Build_Libm (fun _ => f64_zero) (fun _ => B754_infinity true) (fun x => x) (fun _ _ => f64_zero)
            (fun x => x) (fun x => x) (fun x => x) (fun x => x) (fun x => x)).
  exists (toy (FA _) (fun _ => f64_zero)), deuteron, 0%nat. repeat split.
Qed.

(** A file with one configuration of two nucleons at (1,2,3) and (-1,-2,-3). *)
Example C33_instance : forall (offset : R), exists (nu nu' : nucleus RA) e',
  let data := [1; 2; 3; -1; -2; -3] in
  let rg := toy RA (fun _ => 1 / 2) in
  nucleus_create (A:=RA) (Build true false) [("he.hdf"%string, H5File [("pos"%string, ODataset (H5Dataset (A:=RA) [1; 2; 3]%Z data []))])] "he.hdf" (0 : R) = Ret nu /\
  (exists rmax, nu_kind nu = @KManual RA 1 2 data rmax) /\ length (nu_nucleons nu) = Z.to_nat 2 /\
  rng_ok rg /\ sample_nucleons rg 0 nu offset 0%nat = (Ret nu', e').
Proof.
  intros offset. do 3 eexists. intros data rg.
  split; [cbn; reflexivity|]. split; [eexists; reflexivity|]. split; [reflexivity|].
  split; [apply toy_ok; intros; lra|]. cbn. reflexivity.
Qed.
