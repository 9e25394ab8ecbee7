(** A concrete case of C59: variates 0 and 1/2, each with probability 1/2.  The
    hypotheses are met by Pb, U and d, and the probability that no nucleon of Pb is
    below the plane z = 0 is (3/4)^208. *)
From Coq Require Import Reals Lra Permutation.
From Verif.Base Require Import Result Arith RArith Rng.
From Verif.Model Require Import Random Config Nucleon Files Nucleus Collider.
From Verif.Spec Require Import Geometry Radii Law Glauber Attempts Species Positions.
From Verif.Proof Require Import Basics RBasics PositionsP.
From Verif.Properties Require Import Species Configured Positions.
Local Open Scope R_scope.

Definition half_shapes : shapes RA := {|
  sh_canonical := frac_part : num RA -> num RA; sh_normal := fun mu _ _ => mu; sh_gamma := fun _ _ _ => 1;
  sh_pwl := fun _ lo hi _ u => lo + (hi - lo) * frac_part u; sh_int := fun a _ _ => a;
  sh_shuffle := fun l _ => l; sh_sort := fun l => l; sh_sort_fst := fun l => l |}.
Lemma frac_small u : 0 <= u < 1 -> frac_part u = u.
Proof.
  intros H. unfold frac_part, Int_part. replace (up u) with 1%Z; [cbn; lra|]. apply tech_up; lra.
Qed.
Lemma half_mean h : canonical_mean half_shapes (equidistant 2) h = (h 0 + h (1 / 2)) / 2.
Proof.
  unfold canonical_mean, equidistant. cbn [seq fold_right sh_canonical half_shapes]. rewrite !frac_small by (cbn; lra).
  replace (INR 0 / INR 2) with 0 by (cbn; lra). replace (INR 1 / INR 2) with (1 / 2) by (cbn; lra). cbn [INR]. lra.
Qed.
Local Notation V := (canonical_mean half_shapes (equidistant 2)).
Lemma half_accept p : 0 <= p -> 1 / 2 <= accept V p <= 1.
Proof.
  intros H. unfold accept. rewrite half_mean. destruct (Rlt_dec p 0); [lra|]. destruct (Rlt_dec p (1 / 2)); lra.
Qed.

(** Not below the plane. *)
Definition not_below (p : vec) : R := if Rle_dec 0 (vz p) then 1 else 0.

Example C59_instance :
  averages (A:=RA) (equidistant 2) /\ linear (A:=RA) (equidistant 2) /\
  (forall l, Permutation l (sh_sort half_shapes l)) /\ (forall l, Permutation l (sh_sort_fst half_shapes l)) /\ (forall u, 0 <= sh_canonical half_shapes u < 1) /\
  (forall u, Rcbrt u ^ 3 = u) /\
  0 < over_deuteron V (457 / 1000) (235 / 100) (fun _ => 1) <= 1 /\
  (forall Rw a b2 b4 rmax, 0 < over_body V Rcbrt Rw a b2 b4 rmax (fun _ => 1) <= 1) /\
  forall bd f fuel seed (off : R), exists nu, in_use_as bd f "Pb" 0 nu /\
    mean_of (A:=RA) (equidistant 2) (sample_nucleons (ideal half_shapes seed) fuel nu off) (if_finished (fun nu' => Rprod not_below (positions off nu'))) ((3 / 4) ^ 208).
Proof.
  destruct (C59_variates 2 ltac:(lia)) as (HU & HL & _).
  split; [exact HU|]. split; [exact HL|]. split; [intros; apply Permutation_refl|]. split; [intros; apply Permutation_refl|].
  split. { intros u. pose proof (base_fp u). cbn. lra. }
  split. { assert (K : forall x, 0 < x -> Rpow x (1 / 3) ^ 3 = x).
    { intros x Hx. unfold Rpow. destruct (Req_EM_T x 0); [lra|]. rewrite <- Rpower_pow by apply exp_pos. rewrite Rpower_mult.
      replace (1 / 3 * INR 3) with 1 by (cbn; field). apply Rpower_1, Hx. }
    intros u. unfold Rcbrt. destruct (Rlt_dec u 0) as [N|P].
    - transitivity (- (Rpow (- u) (1 / 3) ^ 3)); [ring|]. rewrite K by lra. ring.
    - destruct (Req_dec u 0) as [->|N]; [|apply K; lra]. unfold Rpow. destruct (Req_EM_T 0 0); [|lra]. destruct (Req_EM_T (1 / 3) 0); [lra|]. ring. }
  assert (S1 : forall r, over_sphere V (fun _ => 1) r = 1) by (intros r; unfold over_sphere; rewrite !half_mean; lra).
  split.
  { unfold over_deuteron. rewrite half_mean, !S1.
    assert (W : forall u, 0 <= u -> 0 <= hulthen_weight (457 / 1000) (235 / 100) (- ln u / (2 * (457 / 1000))) u).
    { intros u Hu. unfold hulthen_weight, Rdiv. destruct (Req_dec u 0) as [->|N]; [rewrite Rinv_0, Rmult_0_r; lra|].
      apply Rmult_le_pos; [apply pow2_ge_0|apply Rlt_le, Rinv_0_lt_compat; lra]. }
    pose proof (half_accept _ (W 0 ltac:(lra))). pose proof (half_accept _ (W (1 / 2) ltac:(lra))). lra. }
  split.
  { intros Rw a b2 b4 rmax. unfold over_body. cbv zeta. rewrite !half_mean.
    assert (P : forall r c, 0 <= deformed_density Rw a b2 b4 r c).
    { intros r c. unfold deformed_density. apply Rlt_le, Rinv_0_lt_compat. pose proof (exp_pos ((r - Rw * (1 + b2 * Y20 c + b4 * Y40 c)) / a)). lra. }
    pose proof (half_accept _ (P (rmax * Rcbrt 0) (2 * 0 - 1))). pose proof (half_accept _ (P (rmax * Rcbrt 0) (2 * (1 / 2) - 1))).
    pose proof (half_accept _ (P (rmax * Rcbrt (1 / 2)) (2 * 0 - 1))). pose proof (half_accept _ (P (rmax * Rcbrt (1 / 2)) (2 * (1 / 2) - 1))). lra. }
  intros bd f fuel seed off. destruct (C27_table bd f "Pb"%string 0 208 (Spherical 6620 546) eq_refl) as (nu & C & _). exists nu.
  assert (I : in_use_as bd f "Pb" 0 nu) by (apply as_created; exact C). split; [exact I|].
  eapply (mo_ext (A:=RA) (equidistant 2) HU _ _ _ _ _ _ (fun _ => eq_refl) (fun _ => eq_refl)).
  2: { apply (C59_spherical half_shapes seed (equidistant 2) HU HL (fun l => Permutation_refl l) bd f "Pb"%string 0 208 6620 546 eq_refl ltac:(lra) fuel nu off not_below I). }
  f_equal. set (g := fun r => over_sphere V not_below r).
  transitivity ((g 0 + g (1 / 2 * (milli 6620 + 10 * milli 546))) / 2).
  - unfold equidistant. cbn [seq fold_right sh_pwl half_shapes]. rewrite !frac_small by (cbn; lra).
    replace (INR 0 / INR 2) with 0 by (cbn; lra). replace (INR 1 / INR 2) with (1 / 2) by (cbn; lra). fold g. cbn [INR].
    replace (0 + (milli 6620 + 10 * milli 546 - 0) * 0) with 0 by ring.
    replace (0 + (milli 6620 + 10 * milli 546 - 0) * (1 / 2)) with (1 / 2 * (milli 6620 + 10 * milli 546)) by ring. unfold g. lra.
  - assert (G : forall r, 0 <= r -> g r = if Rlt_dec 0 r then 1 / 2 else 1).
    { intros r Hr. unfold g, over_sphere. rewrite !half_mean. unfold not_below, sph, vz. cbn [snd].
      replace (r * (2 * (1 / 2) - 1)) with 0 by lra. destruct (Rle_dec 0 0); [|lra].
      destruct (Rlt_dec 0 r), (Rle_dec 0 (r * (2 * 0 - 1))); lra. }
    rewrite !G by (unfold milli; lra). destruct (Rlt_dec 0 0); [lra|]. destruct (Rlt_dec 0 (1 / 2 * (milli 6620 + 10 * milli 546))) as [_|N]; [lra|exfalso; apply N; unfold milli; lra].
Qed.
