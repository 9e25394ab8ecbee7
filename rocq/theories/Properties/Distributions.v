(** C52: the distributions the constituents of an event are drawn from. *)
From Coq Require Import Reals Lra.
From Verif.Base Require Import Result Arith RArith Rng.
From Verif.Model Require Import FastExp Config Nucleon Nucleus Event Files CrossSection Output Collider.
From Verif.Spec Require Import History Collision Replay Constituents Distributions Demo.
From Verif.Proof Require Import Basics RBasics Pairs Sampling ConstituentsP Ctor Collision DistP.
From Verif.Properties Require Import Events Constituents Replay.
Local Open Scope R_scope.

Lemma run_made {A : Arith} (R : Rng A) sv bd cfuel fuel sfuel e cfg (s s' : sys R) ds :
  run_delivered R sv bd cfuel fuel sfuel e cfg s s' ds ->
  exists sp, let nc := nucleon_common_of cfg sp in
  forall d n, In d ds -> In n (d_A d ++ d_B d) ->
  made R (nofZ A 0) (nc_sampling_width nc) (fluctuation cfg) (ndiv A (nlit A 1 0) (fluctuation cfg)) nc n.
Proof.
  intros (co & nA & nB & ev0 & nst & gst & s1 & rs' & C & _ & F & _).
  pose proof (collider_new_inv _ _ _ _ _ _ _ _ _ _ _ _ _ _ C) as Hc.
  destruct (ct_nc _ _ _ _ _ _ _ _ _ _ _ Hc) as (sp & Enc). exists sp. cbv zeta. rewrite <- Enc. intros d n Hd Hn.
  assert (WA : nucleus_wf nA) by (eapply create_nucleus_wf, ct_A; eauto).
  assert (WB : nucleus_wf nB) by (eapply create_nucleus_wf, ct_B; eauto).
  destruct (events_made R (nofZ A 0) (nc_sampling_width (co_nc co)) (fluctuation cfg) (ndiv A (nlit A 1 0) (fluctuation cfg))
     _ _ _ _ _ _ _ _ _ _ _ WA WB F) with (d := d) as [MA MB]; [|exact Hd|].
  - split; cbn [rs_norm rs_gamma].
    + rewrite (ct_norm _ _ _ _ _ _ _ _ _ _ _ Hc). apply normal_new.
    + rewrite (ct_gamma _ _ _ _ _ _ _ _ _ _ _ Hc). apply gamma_new.
  - rewrite Forall_forall in MA, MB. apply in_app_or in Hn. destruct Hn; auto.
Qed.

(** In every arithmetic: each constituent of each participant of each event has a
    weight drawn from gamma(k, 1/k), k being --fluctuation. *)
Theorem C52_weights : forall (A : Arith) (R : Rng A) sv bd cfuel fuel sfuel e cfg (s s' : sys R),
  collide R sv bd cfuel fuel sfuel e cfg s = (Ret tt, s') ->
  exists ds, run_delivered R sv bd cfuel fuel sfuel e cfg s s' ds /\
  forall d n, In d ds -> In n (d_A d ++ d_B d) -> n_part n = true ->
    length (n_cons n) = Z.to_nat (to_size (constit_number cfg)) /\
    forall q, In q (n_cons n) -> from_gamma R (fluctuation cfg) (ndiv A (nlit A 1 0) (fluctuation cfg)) (q_fluct q).
Proof.
  intros A R sv bd cfuel fuel sfuel e cfg s s' H. destruct (C51_replay _ _ _ _ _ _ _ _ _ _ _ H) as (ds & D).
  exists ds. split; [exact D|]. destruct (run_made _ _ _ _ _ _ _ _ _ _ _ D) as (sp & G). intros d n Hd Hn Hp.
  destruct (G d n Hd Hn) as [M1 M2]. destruct (M2 (M1 Hp)) as (dr & L & C & F). cbn [nucleon_common_of nc_number] in L.
  rewrite C. split; [unfold placed; rewrite map_length; exact L|]. intros q Hq. unfold placed in Hq.
  apply in_map_iff in Hq. destruct Hq as (x & <- & Hx). rewrite Forall_forall in F. apply (F x Hx).
Qed.

(** Exact arithmetic, positions too: each participant of each event has m
    constituents; their x and y are the nucleon's plus values drawn from
    normal(0, r), recentred, where the width v of a constituent and the spread
    r^2 (1 - 1/m) of the recentred values add up to the nucleon width. *)
Theorem C52_constituents : forall (rg : Rng RA) sv bd cfuel fuel sfuel e (cfg : config RA) (s s' : sys rg),
  let m := constit_number cfg in let w : R := nucleon_width cfg in let v : R := constit_width cfg in
  let k : R := fluctuation cfg in
  (1 <= m <= int_max)%Z ->
  collide rg sv bd cfuel fuel sfuel e cfg s = (Ret tt, s') ->
  exists ds (r : R), run_delivered rg sv bd cfuel fuel sfuel e cfg s s' ds /\
  (m = 1%Z \/ w - v < 1 / 1000000 -> r = 0) /\
  ((1 < m)%Z -> 0 <= v -> 1 / 1000000 <= w - v -> 0 <= r /\ v^2 + r^2 * (1 - 1 / IZR m) = w^2) /\
  forall d n, In d ds -> In n (d_A d ++ d_B d) -> n_part n = true ->
    exists draws : list (R * R * R), Z.of_nat (length draws) = m /\
      (forall x y f, In (x, y, f) draws ->
         from_normal rg 0 r x /\ from_normal rg 0 r y /\ from_gamma rg k (1 / k) f) /\
      n_cons n = map (fun d => @Constituent RA (n_x n + (fst (fst d) - mean (map (fun d => fst (fst d)) draws)))
                                  (n_y n + (snd (fst d) - mean (map (fun d => snd (fst d)) draws))) (snd d)) draws.
Proof.
  intros rg sv bd cfuel fuel sfuel e cfg s s' m w v k Hm H. destruct (C51_replay _ _ _ _ _ _ _ _ _ _ _ H) as (ds & D).
  exists ds, (calc_sampling_width (A:=RA) w v m). split; [exact D|]. split; [|split].
  - intros Hd. rewrite C23_degenerate; [cbn [nlit RA RA_with]; apply Rlit_0|]. destruct Hd as [Hd|Hd]; [left; exact Hd|right].
    cbn [nltb nsub nlit RA RA_with]. rlits. destruct (Rltb_spec (w - v) (1 / 1000000)); [reflexivity|contradiction].
  - intros H1 H2 H3. apply (C23_sampling_width w v m H1 H2 H3).
  - destruct (run_made _ _ _ _ _ _ _ _ _ _ _ D) as (sp & G). intros d n Hd Hn Hp.
    destruct (G d n Hd Hn) as [M1 M2]. destruct (M2 (M1 Hp)) as (dr & L & C & F). cbn [nucleon_common_of nc_number nc_sampling_width] in L, C, F.
    fold m in L, C, F. assert (S : to_size m = m) by (unfold to_size; apply Z.mod_small; unfold int_max in Hm; lia).
    rewrite S in L, C. exists dr. split; [change (Z.of_nat (@length (num RA * num RA * num RA) dr) = m); rewrite L; lia|]. split.
    + intros x y f Hx. rewrite Forall_forall in F. specialize (F _ Hx). unfold proper_draw, d_x, d_y, d_f in F. cbn [fst snd] in F.
      cbn [nofZ ndiv nlit RA RA_with] in F. rewrite (Rlit_0 1) in F. exact F.
    + rewrite C. etransitivity; [apply placed_R; [exact L|lia]|]. reflexivity.
Qed.

(** *** Fluctuations of the weight *)

(** Uncorrelated values with the mean and variance of gamma(alpha, beta). *)
Definition gamma_moments {W} (E : (W -> R) -> R) (m : nat) (f : nat -> W -> R) (alpha beta : R) : Prop :=
  (forall i, (i < m)%nat -> E (f i) = alpha * beta) /\
  forall i j, (i < m)%nat -> (j < m)%nat ->
    E (fun w => (f i w - alpha * beta) * (f j w - alpha * beta)) = if Nat.eqb i j then alpha * beta^2 else 0.

(** The weight of a nucleon, i.e. the mean of its constituents' weights, has mean
    1 and variance 1/(k m): fluctuations shrink with k and with m. *)
Theorem C52_moments : forall (W : Type) (E : (W -> R) -> R) (m : nat) (f : nat -> W -> R) (k : R),
  expectation E -> (0 < m)%nat -> 0 < k -> gamma_moments E m f k (1 / k) ->
  let weight w := Rsum (fun i => f i w) (seq 0 m) / INR m in
  E weight = 1 /\ E (fun w => (weight w - 1)^2) = 1 / (k * INR m).
Proof.
  intros W E m f k HE Hm Hk [G1 G2] weight. assert (M : 0 < INR m) by (apply lt_0_INR; lia).
  replace (k * (1 / k)) with 1 in * by (field; lra).
  assert (E0 : E weight = 1).
  { unfold weight. rewrite (E_ext _ HE _ (fun w => / INR m * Rsum (fun i => f i w) (seq 0 m))) by (intros; field; lra).
    rewrite (E_scale _ HE), (E_sum W E HE (fun i w => f i w)).
    rewrite (Rsum_ext _ (fun _ => 1)) by (intros i Hi; apply in_seq in Hi; apply G1; lia).
    rewrite Rsum_const, seq_length. field. lra. }
  split; [exact E0|].
  assert (D : forall w, weight w - 1 = / INR m * Rsum (fun i => f i w - 1) (seq 0 m)).
  { intros w. unfold weight. replace (Rsum (fun i => f i w) (seq 0 m)) with (Rsum (fun i => (f i w - 1) + 1) (seq 0 m))
      by (apply Rsum_ext; intros; ring).
    rewrite Rsum_plus, Rsum_const, seq_length. field. lra. }
  rewrite (E_ext _ HE _ (fun w => / (INR m * INR m) * Rsum (fun i => Rsum (fun j => (f i w - 1) * (f j w - 1)) (seq 0 m)) (seq 0 m))).
  2:{ intros w. rewrite D. rewrite (Rsum_ext (fun i => Rsum (fun j => (f i w - 1) * (f j w - 1)) (seq 0 m)) (fun i => Rsum (fun j => f j w - 1) (seq 0 m) * (f i w - 1)))
        by (intros i _; rewrite Rsum_scale; ring).
      rewrite Rsum_scale. field. lra. }
  rewrite (E_scale _ HE), (E_sum W E HE (fun i w => Rsum (fun j => (f i w - 1) * (f j w - 1)) (seq 0 m))).
  rewrite (Rsum_ext _ (fun _ => k * (1 / k)^2)).
  - rewrite Rsum_const, seq_length. field. lra.
  - intros i Hi. apply in_seq in Hi. rewrite (E_sum W E HE (fun j w => (f i w - 1) * (f j w - 1))).
    rewrite (Rsum_ext _ (fun j => if Nat.eqb i j then k * (1 / k)^2 else 0)).
    + apply Rsum_delta. lia.
    + intros j Hj. apply in_seq in Hj. apply G2; lia.
Qed.

(** ** Instances *)
(** Two values, each 1 + 1/sqrt k or 1 - 1/sqrt k with probability 1/2 (k = 4). *)
Example C52_moments_instance :
  let f (i : nat) (ab : bool * bool) := 1 + (if Nat.eqb i 0 then sgn (fst ab) else sgn (snd ab)) / 2 in
  gamma_moments average4 2 f 4 (1 / 4) /\ average4 (fun w => (Rsum (fun i => f i w) (seq 0 2) / INR 2 - 1)^2) = 1 / 8.
Proof.
  intros f. assert (G : gamma_moments average4 2 f 4 (1 / 4)).
  { split; [intros [|[|i]] Hi; try lia|intros [|[|i]] [|[|j]] Hi Hj; try lia]; unfold average4, f, sgn; cbn [Nat.eqb fst snd]; field. }
  split; [exact G|]. destruct (C52_moments _ _ 2 f 4 average4_ok ltac:(lia) ltac:(lra) G) as [_ V]. rewrite V. simpl. field.
Qed.
Example C52_weights_instance : exists s' ds, demo_run = (Ret tt, s') /\
  run_delivered demo_rng demo_solver demo_build 10 10 10 demo_env demo_config demo_sys s' ds.
Proof.
  destruct demo_finishes as [s' H]. pose proof H as H0. unfold demo_run in H. apply C52_weights in H. destruct H as (ds & H & _). eauto.
Qed.
From Verif.Properties Require Import RealRun.
Example C52_constituents_instance : forall bd, exists s' ds (r : R),
  (1 <= constit_number (real_config ["p"; "p"]%string 0) <= int_max)%Z /\
  collide far_rng mid_solver bd 1 1 1 real_env (real_config ["p"; "p"]%string 0) real_sys = (Ret tt, s') /\
  run_delivered far_rng mid_solver bd 1 1 1 real_env (real_config ["p"; "p"]%string 0) real_sys s' ds.
Proof.
  intros bd. destruct (pp_run_finishes bd) as (s' & H).
  assert (Hm : (1 <= constit_number (real_config ["p"; "p"]%string 0) <= int_max)%Z) by (cbn; unfold int_max; lia).
  destruct (C52_constituents _ _ _ _ _ _ _ _ _ _ Hm H) as (ds & r & D & _). exists s', ds, r. auto.
Qed.
