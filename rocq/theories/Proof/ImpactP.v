(** Radii of created nuclei, the sampled impact parameter, centred samples. *)
From Coq Require Import Reals Lra Permutation Sorted.
From Verif.Base Require Import Result Arith RArith Rng.
From Verif.Model Require Import Random Config Nucleon Files Nucleus Event CrossSection Output Collider.
From Verif.Spec Require Import History Collision Runs Contract Draws Geometry.
From Verif.Proof Require Import Basics RBasics Pairs Sampling Ctor Collision EveryEvent ShiftP RadiiP.
Local Open Scope R_scope.

Lemma ln_01_neg : ln (1 / 100) < 0.
Proof. rewrite <- ln_1. apply ln_increasing; lra. Qed.

Lemma radius_nonneg bd f sp (dmin : R) nu : nucleus_create (A:=RA) bd f sp dmin = Ret nu -> 0 <= radius nu.
Proof.
  unfold nucleus_create. intros H.
  repeat match type of H with
  | (if String.eqb ?a ?b then _ else _) = _ =>
      destruct (String.eqb a b);
      [match type of H with Ret ?x = Ret nu => assert (E : x = nu) by congruence; rewrite <- E; clear E H end;
       unfold radius; cbn [nu_kind proton deuteron deuteron_of woods_saxon deformed nucleus_new];
       try unfold deformed_rmax; cbn [num RA RA_with nadd nsub nmul ndiv nneg nlit nlog nofZ nfmin nabs]; rlits|]
  end; try lra.
  - rewrite Rmin_left by lra. pose proof ln_01_neg. apply Rmult_le_pos; [lra|].
    left. apply Rinv_0_lt_compat. lra.
  - pose proof (Rabs_pos (162 / 1000)). pose proof (Rabs_pos (- (6 / 1000))). lra.
  - pose proof (Rabs_pos (162 / 1000)). pose proof (Rabs_pos (- (3 / 1000))). lra.
  - pose proof (Rabs_pos (- (131 / 1000))). pose proof (Rabs_pos (- (31 / 1000))). lra.
  - pose proof (Rabs_pos (280 / 1000)). pose proof (Rabs_pos (93 / 1000)). lra.
  - pose proof (Rabs_pos (265 / 1000)). pose proof (Rabs_pos (0 / 1000)). lra.
  - pose proof (Rabs_pos (280 / 1000)). pose proof (Rabs_pos (93 / 1000)). lra.
  - destruct (filename_is_hdf5 sp); [|discriminate]. destruct (with_hdf5 bd); [|discriminate].
    apply manual_create_inv in H. destruct H as (nm & ds & nc & nn & rsq & _ & _ & _ & _ & ->).
    unfold radius. cbn [nu_kind nucleus_new]. apply sqrt_pos.
Qed.

Lemma create_radius_nonneg bd f (cfg : config RA) i nu : create_nucleus bd f cfg i = Ret nu -> 0 <= radius nu.
Proof.
  unfold create_nucleus. destruct (nth_error (projectile cfg) i); [|discriminate]. apply radius_nonneg.
Qed.

(** sqrt(bmin^2 + (bmax^2 - bmin^2) u) between bmin and bmax. *)
Lemma sample_b_range (bmin bmax u : R) : 0 <= bmin -> bmin <= bmax -> 0 <= u <= 1 ->
  bmin <= sample_b (A:=RA) bmin bmax u <= bmax.
Proof.
  intros H0 H1 Hu. unfold sample_b. cbn [num RA RA_with nadd nsub nmul nsqrt].
  assert (Q : 0 <= bmax * bmax - bmin * bmin) by nra.
  assert (0 <= (bmax * bmax - bmin * bmin) * u <= bmax * bmax - bmin * bmin).
  { split; [apply Rmult_le_pos; lra|]. rewrite <- (Rmult_1_r (bmax * bmax - bmin * bmin)) at 2.
    apply Rmult_le_compat_l; lra. }
  split.
  - rewrite <- (sqrt_square bmin) at 1 by assumption. apply sqrt_le_1_alt. lra.
  - apply Rle_trans with (sqrt (bmax * bmax)); [apply sqrt_le_1_alt; lra|]. rewrite sqrt_square; lra.
Qed.

Lemma genuine_b (rg : Rng RA) bd sfuel co ev0 kA kB lA lB d :
  genuine rg bd sfuel co ev0 kA kB lA lB d -> rng_ok rg ->
  exists u, 0 <= u < 1 /\ d_b d = sample_b (A:=RA) (co_bmin co) (co_bmax co) u.
Proof.
  intros (sa & Hs & _) OK. destruct (sd_canonical _ _ _ _ _ _ _ _ _ _ Hs) as (e & He).
  exists (sa_u sa). split; [|apply (sd_b _ _ _ _ _ _ _ _ _ _ Hs)].
  pose proof (drawn_range rg OK 0 e) as D. change (0 <= fst (canonical rg e) < 1) in D. rewrite He in D. exact D.
Qed.

(** A nucleus sampled at any offset is the centred sample, shifted. *)
Lemma centred_sample (rg : Rng RA) fuel (nu nu1 : nucleus RA) (o : R) e e1 :
  nucleus_wf nu -> sample_nucleons rg fuel nu o e = (Ret nu1, e1) ->
  exists nu0, sample_nucleons rg fuel nu 0 e = (Ret nu0, e1) /\
    Forall2 (shifted o) (nu_nucleons nu0) (nu_nucleons nu1).
Proof.
  intros W H.
  destruct (sample_nucleons_shift rg o 0 fuel nu e W) as [S1 S2].
  rewrite H in S1, S2. cbn [fst snd] in S1, S2.
  destruct (sample_nucleons (A:=RA) rg fuel nu 0 e) as [r e2]. cbn [fst snd] in *. subst e2.
  destruct r as [nu2| | |]; try contradiction. exists nu2. split; auto.
  destruct S1 as (_ & _ & _ & S1). clear H. induction S1 as [|x y l l' S _ IH]; constructor; auto.
  revert S. unfold shifted. intros ->. cbn [n_x n_y n_z n_part n_cexist n_cons]. destruct x as [x y z p c q].
  cbn [n_x n_y n_z n_part n_cexist n_cons]. f_equal. toR. ring.
Qed.
