(** C54: two processes with the same configuration that both missed. *)
From Coq Require Import Ascii Reals Lra.
From Verif.Base Require Import Result Arith RArith FArith Rng.
From Verif.Model Require Import Random Config Nucleon Text Files CrossSection CacheSteps.
From Verif.Spec Require Import Contract Demo Decimal Cache Concurrent.
From Verif.Proof Require Import Basics TextP FsP CacheP CacheRun CacheWrite StepsP StepsQ.
From Verif.Properties Require Import Cache RoundTrip RealRun CacheInst Concurrent.
Local Open Scope string_scope.

Definition shared_fs : fs RA :=
  [("/data", Dir); ("/data/trento", Dir); ("/data/trento/cross_section.cache", File (ex_line1 ++ newline))].
Definition job : proc far_rng := @Proc RA far_rng (sigma_config 6.4) mid_solver 0%nat AtStart.

Lemma shared_holds : cache_holds real_env shared_fs [ex_first].
Proof.
  right. split; [discriminate|]. exists (ex_line1 ++ newline). split; [exists "/data"; repeat split|].
  right. exists ex_line1, newline. split; [|split; [apply nl_gap|reflexivity]].
  rewrite <- (app_nil_r_s ex_line1). apply cache_last; [apply ex_first_ok|apply ex_line1_ok|reflexivity].
Qed.

Example C54_instance : exists (w : world far_rng),
  cache_holds real_env shared_fs [ex_first] /\ reachable far_rng real_env shared_fs w /\ fitting_real w /\
  (exists P Q, proc_at w 0 P /\ proc_at w 1 Q /\ p_cfg P = p_cfg Q /\ wrote P PI /\ wrote Q PI) /\
  cache_state real_env (snd w) (Some (ex_line1 ++ newline ++ line_for (sigma_config 6.4) PI ++ line_for (sigma_config 6.4) PI)).
Proof.
  destruct (C54_twice RA far_rng real_env shared_fs [ex_first] (ex_line1 ++ newline) job job PI 0%nat PI 0%nat) as (f1 & S & H).
  - exists "/data". repeat split.
  - apply cache_last; [apply ex_first_ok|apply ex_line1_ok|reflexivity].
  - assert (N : ~ entry_for (p_cfg job) ex_first) by (intros [E _]; discriminate E).
    intros x [<-|[]]. split; exact N.
  - reflexivity.
  - reflexivity.
  - apply sigma_compute.
  - apply sigma_compute.
  - eexists. split; [exact shared_holds|]. split; [exact H|]. split; [|split].
    + assert (K : forall st, printable_real (p_cfg (at_stage job st)) /\
        forall sp en, compute_partonic far_rng (p_solver (at_stage job st)) (p_cfg (at_stage job st)) (p_eng (at_stage job st)) = (Ret sp, en) -> parameter_real sp).
      { intros st. split; [apply C38_instance_real|]. intros sp en E. cbn [at_stage p_solver p_cfg p_eng job] in E. rewrite sigma_compute in E.
        assert (sp = PI) by congruence. subst sp. exact pi_parameter. }
      intros [|[|i]] P Hi; unfold proc_at in Hi; cbn in Hi; [| |destruct i; discriminate Hi]; assert (E : forall X Y : proc far_rng, Some X = Some Y -> Y = X) by congruence; rewrite (E _ _ Hi); apply K.
    + exists (at_stage job (@Returned RA far_rng false PI 0%nat)), (at_stage job (@Returned RA far_rng false PI 0%nat)).
      split; [reflexivity|]. split; [reflexivity|]. split; [reflexivity|]. split; exists (0%nat : engine far_rng); reflexivity.
    + cbn [snd]. change (p_cfg job) with (sigma_config 6.4) in S. rewrite app_assoc_s in S. exact S.
Qed.
