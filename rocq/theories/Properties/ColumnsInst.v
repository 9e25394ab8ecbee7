(** A finished run with an accurate math library meets the hypotheses of C71 (and
    of the whole-run theorems C61 - C65): two events of proton + proton, nine
    columns. *)
From Coq Require Import ZArith Reals Lra Lia Bool List String.
From Flocq Require Import Core BinarySingleNaN.
From Verif.Base Require Import Result Arith FArith Rng.
From Verif.Model Require Import Config Nucleon Event Files CrossSection Output Collider.
From Verif.Spec Require Import Decimal Table History Runs Replay Finite Distributions Safe Species Contract Demo Evolved Columns FineDemo.
From Verif.Proof Require Import Ieee IeeeInt TableP FineExp.
From Verif.Properties Require Import Events ImpactIeee ThicknessIeee Stdout FiniteInst Columns.
Import ListNotations.
Local Open Scope R_scope.

Definition the_pow : f64 -> f64 -> f64 := m_pow exact_libm.

Lemma fine_usual : usual_libm (fine_libm the_pow).
Proof.
  split; [apply fine_accurate|]. split; [exact (proj2 exact_accurate)|].
  change (m_log (fine_libm the_pow) (f64_lit 1 (-2))) with (f64_lit (-1) 0).
  assert (V : B2R (f64_lit (-1) 0) = -1).
  { rewrite (B2R_SF _ (SpecFloat.S754_finite true 4503599627370496 (-52))) by (vm_compute; reflexivity).
    unfold SF2R, F2R. cbn [cond_Zopp Fnum Fexp Z.opp]. change (bpow radix2 (-52)) with (/ 4503599627370496). lra. }
  rewrite V. split; [vm_compute; reflexivity|lra].
Qed.

Lemma fine_draws pow : usual_draws (fine_rng pow) (fine_config pow).
Proof.
  split; [exact demo_canonical|]. intros f (st & e & _ & <-). cbn [fine_rng toy gdraw fst].
  change (finite_upto (f64_ofZ 1) (bpow radix2 40)). destruct (ofZ_ok 1 ltac:(lia)) as [F V]. split; [exact F|]. rewrite V.
  assert (bpow radix2 0 <= bpow radix2 40) by (apply bpow_le; lia). change (bpow radix2 0) with 1 in H. lra.
Qed.

Lemma fine_everyday pow : everyday (fine_config pow).
Proof.
  pose proof (half_v) as [Fh Vh]. pose proof B2R_one as V1. pose proof B2R_zero as V0.
  assert (F1 : is_finite (f64_lit 1 0) = true) by (vm_compute; reflexivity).
  assert (F0 : is_finite (f64_lit 0 0) = true) by (vm_compute; reflexivity).
  assert (P20 : bpow radix2 (-20) = / 1048576) by reflexivity.
  assert (P4 : bpow radix2 (-400) <= bpow radix2 (-1)) by (apply bpow_le; lia). change (bpow radix2 (-1)) with (/ 2) in P4.
  assert (P5 : bpow radix2 (-500) <= bpow radix2 0) by (apply bpow_le; lia). change (bpow radix2 0) with 1 in P5.
  assert (P2 : bpow radix2 0 <= bpow radix2 200) by (apply bpow_le; lia). change (bpow radix2 0) with 1 in P2.
  assert (PN : bpow radix2 0 <= bpow radix2 50) by (apply bpow_le; lia). change (bpow radix2 0) with 1 in PN.
  constructor; [constructor| | | | | |]; unfold finite_upto, fine_config;
    cbn [constit_width constit_number reduced_thickness normalization grid_max grid_step nucleon_width number_events b_min b_max];
    change (nlit (XA pow) 5 (-1)) with (f64_lit 5 (-1)); change (nlit (XA pow) 1 0) with (f64_lit 1 0); change (nlit (XA pow) 0 0) with (f64_lit 0 0);
    rewrite ?Vh, ?V1, ?V0, ?P20; repeat split; auto; try lra; try lia.
  - rewrite Rabs_R0. lra.
  - unfold int_max. lia.
  - right. split; [reflexivity|]. split; [lra|]. right. exact P5.
Qed.

Lemma fine_named pow : named (fine_config pow).
Proof. intros p [<-|[<-|[]]] H; vm_compute in H; discriminate. Qed.

Lemma fine_printable pow : printable (fine_config pow).
Proof.
  split; [change (B2R (f64_lit 5 (-1)) <= 128)|change (B2R (f64_lit 1 0) <= 999)].
  - pose proof half_v as [_ V]. rewrite V. lra.
  - rewrite B2R_one. lra.
Qed.

Strategy expand [fine_run].
Lemma fine_finishes pow : exists s', fine_run pow = (Ret tt, s').
Proof.
  assert (H : finished (fst (fine_run pow)) = true) by (vm_cast_no_check (eq_refl true)).
  destruct (fine_run pow) as [[[]| | |] s']; simpl in H; try discriminate. eauto.
Qed.

Theorem C71_instance :
  usual_libm (fine_libm the_pow) /\ usual_draws (fine_rng the_pow) (fine_config the_pow) /\ everyday (fine_config the_pow) /\
  named (fine_config the_pow) /\ printable (fine_config the_pow) /\ quiet (fine_config the_pow) = false /\
  exists s' ds, fine_run the_pow = (Ret tt, s') /\ length ds = 2%nat /\
    Forall2 (record_line (A:=XA the_pow) valF) ds (lines (s_out s')) /\
    (forall l, In l (lines (s_out s')) -> length (fields l) = 9%nat).
Proof.
  split; [exact fine_usual|]. split; [apply fine_draws|]. split; [apply fine_everyday|]. split; [apply fine_named|].
  split; [apply fine_printable|]. split; [reflexivity|].
  destruct (fine_finishes the_pow) as [s' H]. exists s'. pose proof H as H1. unfold fine_run in H1.
  destruct (C71_table _ _ _ _ _ _ _ _ _ _ _ fine_usual (fine_draws the_pow) (fine_everyday the_pow) (fine_named the_pow) (fine_printable the_pow) eq_refl H1)
    as (ds & text & _ & O & N & _ & F & W).
  exists ds. split; [exact H|]. split; [exact N|].
  assert (O' : s_out s' = text) by exact O. rewrite O'. split; [exact F|exact W].
Qed.
