(** The hypotheses of C40_trial, C40_estimate and C40_fit are met: two
    constituents as wide as the nucleon, every impact parameter 0. *)
From Coq Require Import Reals Lra Permutation.
From Verif.Base Require Import Result Arith RArith Rng.
From Verif.Model Require Import Random Config Nucleon CrossSection.
From Verif.Spec Require Import Contract Cyclic Profile MonteCarlo.
From Verif.Proof Require Import Basics RBasics CyclicP MonteCarloP.
From Verif.Properties Require Import CyclicNormal MonteCarlo Trial.
Local Open Scope R_scope.

Definition still : Rng RA := toy RA (fun _ => 0).
Definition two_config : config RA :=
  @Config RA [] 1 true None false false 0 1 1 1 2 0 6 1 0 0 0 1 1.

Lemma still_shuffles : shuffles still.
Proof. intros l e. cbn. apply Permutation_refl. Qed.

(** A root finder that returns the bracket it is given if the ends straddle 0. *)
Definition ends_solver : Solver RA := MkSolver RA (fun S f lo hi _ _ =>
  let* fl := f lo in let* fh := f hi in
  if Rle_dec fl 0 then if Rle_dec 0 fh then if Rle_dec lo hi then ret (lo, hi)
  else throw (DomainError "") else throw (DomainError "") else throw (DomainError "")).

Lemma ends_straddles : straddles (fun _ => 0) (fun _ => 0) ends_solver.
Proof.
  intros S f lo hi bits it s s' lo' hi' H. cbn [toms748 ends_solver] in H.
  mstep H. mstep H. destruct (Rle_dec x 0) as [L1|]; [|discriminate H]. destruct (Rle_dec 0 x0) as [L2|]; [|discriminate H].
  destruct (Rle_dec lo hi) as [L3|]; [|discriminate H]. apply pair_Ret_inj in H. destruct H as [H ->]. injection H as <- <-.
  split; [lra|]. split; [lra|]. do 6 eexists. split; [exact E|]. split; [exact E0|]. left. lra.
Qed.

(** ** Constant trials *)
Definition nought (c : cyclic (A:=RA)) : Prop := forall x, In x (cy_cache c) -> x = 0.

Lemma draw_nought c e x c' e' : nought c -> cyclic_draw still c e = (Ret (x, c'), e') -> x = 0 /\ nought c'.
Proof.
  intros N H. unfold cyclic_draw in H. cbn [still toy shuffle] in H.
  assert (N' : forall c1, cy_cache c1 = cy_cache c -> forall e1,
     match nth_error (cy_cache (if Nat.eqb (cy_iter c1) (length (cy_cache c1)) then Cyclic (cy_cache c1) (cy_nloops c1) (cy_loop c1 + 1) 0 else c1))
                     (cy_iter (if Nat.eqb (cy_iter c1) (length (cy_cache c1)) then Cyclic (cy_cache c1) (cy_nloops c1) (cy_loop c1 + 1) 0 else c1)) with
     | Some x => (Ret (x, Cyclic (cy_cache (if Nat.eqb (cy_iter c1) (length (cy_cache c1)) then Cyclic (cy_cache c1) (cy_nloops c1) (cy_loop c1 + 1) 0 else c1))
                           (cy_nloops (if Nat.eqb (cy_iter c1) (length (cy_cache c1)) then Cyclic (cy_cache c1) (cy_nloops c1) (cy_loop c1 + 1) 0 else c1))
                           (cy_loop (if Nat.eqb (cy_iter c1) (length (cy_cache c1)) then Cyclic (cy_cache c1) (cy_nloops c1) (cy_loop c1 + 1) 0 else c1))
                           (S (cy_iter (if Nat.eqb (cy_iter c1) (length (cy_cache c1)) then Cyclic (cy_cache c1) (cy_nloops c1) (cy_loop c1 + 1) 0 else c1)))), e1)
     | None => (UB UbDerefEnd, e1) end = (Ret (x, c'), e') -> x = 0 /\ nought c').
  { intros c1 Ec e1 K. set (c2 := if Nat.eqb (cy_iter c1) (length (cy_cache c1)) then _ else _) in K.
    assert (E2 : cy_cache c2 = cy_cache c) by (unfold c2; destruct (Nat.eqb _ _); exact Ec).
    destruct (nth_error (cy_cache c2) (cy_iter c2)) as [y|] eqn:Ny; [|discriminate K].
    apply pair_Ret_inj in K. destruct K as [K ->]. injection K as <- <-. rewrite E2 in *. split.
    - apply N. eapply nth_error_In. exact Ny.
    - exact N. }
  destruct (cy_nloops c <? cy_loop c)%Z; eapply N'; try exact H; reflexivity.
Qed.

Lemma draws_nought k : forall c e xs c' e', nought c -> draws still k c e = (Ret (xs, c'), e') ->
  xs = repeat 0 k /\ nought c'.
Proof.
  induction k as [|k IH]; intros c e xs c' e' N H; cbn [draws] in H.
  - apply pair_Ret_inj in H. destruct H as [H ->]. injection H as <- <-. auto.
  - mstep H. destruct x as [x c1]. mstep H. destruct x0 as [ys c2]. apply pair_Ret_inj in H. destruct H as [H ->]. injection H as <- ->.
    destruct (draw_nought _ _ _ _ _ N E) as [-> N1]. destruct (IH _ _ _ _ _ N1 E0) as [-> N2]. auto.
Qed.

Lemma trial_nought sp c e x c' e' : nought c -> trial (fun _ => 0) (fun _ => 0) still two_config sp c e x c' e' ->
  x = exp (- (sp / (4 * PI))) /\ nought c'.
Proof.
  intros N (u & e1 & zA & zB & c1 & e2 & U & DA & DB & _ & _ & ->).
  cbn [constit_number two_config] in DA, DB. change (Z.to_nat 2) with 2%nat in *. 
  destruct (draws_nought _ _ _ _ _ _ N DA) as [-> N1]. destruct (draws_nought _ _ _ _ _ _ N1 DB) as [-> N2]. split; [|exact N2].
  assert (u = 0) by (cbn [still toy canonical] in U; congruence). subst u. f_equal. f_equal.
  cbn [constit_width constit_number nucleon_width two_config]. rewrite sqrt_0.
  cbn [repeat Nat.mul Nat.add points]. unfold T_points, gauss2. cbn [Rsum fold_right fst snd]. pose proof PI_RGT_0.
  replace (- ((6 * 1 * 0 + 0 - (0 + 0)) ^ 2 + (0 + 0 - (0 + 0)) ^ 2) / (2 * (2 * 1 ^ 2))) with 0 by field.
  rewrite exp_0. field. lra.
Qed.

Lemma trials_nought sp c e xs c' e' : trials (fun _ => 0) (fun _ => 0) still two_config sp c e xs c' e' -> nought c ->
  xs = repeat (exp (- (sp / (4 * PI)))) (length xs).
Proof.
  intros T. induction T as [|c e x c1 e1 xs c2 e2 T1 T IH]; intros N; [reflexivity|].
  destruct (trial_nought _ _ _ _ _ _ N T1) as [-> N1]. cbn [length repeat]. rewrite <- (IH N1). reflexivity.
Qed.

Lemma new_nought e c e0 : cyclic_new still 0 0 1000000 10 e = (Ret c, e0) -> nought c.
Proof.
  intros H. rewrite cyclic_new_run in H. apply pair_Ret_inj in H. destruct H as [<- _]. intros x Hx. cbn [cy_cache shuffled] in Hx.
  apply (Permutation_in _ (Permutation_sym (shuffled_perm still still_shuffles _ e 0))) in Hx.
  unfold quantiles in Hx. apply in_map_iff in Hx. destruct Hx as (i & <- & _). unfold quantile. cbn [num RA RA_with nadd nmul]. ring.
Qed.

Lemma Rsum_repeat (x : R) (N n : nat) : (n <= N)%nat -> Rsum (fun y : R => y) (firstn n (repeat x N)) = INR n * x.
Proof.
  revert N. induction n as [|n IH]; intros N H; [cbn [firstn Rsum fold_right INR]; ring|].
  destruct N as [|N]; [lia|]. cbn [repeat firstn]. rewrite S_INR. unfold Rsum in *. cbn [fold_right]. rewrite IH by lia. ring.
Qed.

Lemma still_sampling : mc_sampling_width (mc_new two_config) = 0.
Proof.
  cbn [mc_new mc_sampling_width]. unfold calc_sampling_width. cbn [constit_number nucleon_width constit_width two_config].
  cbn [Z.eqb]. destruct (Pos.eqb 2 1) eqn:C; [discriminate C|].
  assert (W : nltb RA (nsub RA 1 1) (nlit RA 1 (-6)) = true).
  { cbn [num RA RA_with nltb nsub nlit]. apply Rltb_true. rlits. lra. }
  cbn [num RA RA_with] in *. rewrite W. cbn [orb nlit]. apply Rlit_0.
Qed.

Lemma mc_still sp e : 0 <= sp -> exists est e', mc_cross_section still (mc_new two_config) sp e = (Ret est, e').
Proof.
  intros Hsp. destruct (mc_cross_section still (mc_new two_config) sp e) as [r e'] eqn:H.
  assert (D : (exists est, r = Ret est) \/ forall est, r <> Ret est).
  { destruct r; [left; eauto|right; discriminate|right; discriminate|right; discriminate]. }
  destruct D as [(est & ->)|D]; [eauto|exfalso].
  destruct (C40_fails RA still (mc_new two_config) sp e still_shuffles r e' H D) as (_ & c & e0 & xs & c' & N & S & L & F).
  change (nlit RA 0 0) with (Rlit 0 0) in N. rewrite Rlit_0, still_sampling in N.
  pose proof (new_nought _ _ _ N) as Nc.
  assert (T : trials (fun _ => 0) (fun _ => 0) still two_config sp c e0 xs c' e').
  { eapply samples_trials; [|split|exact S]; cbn; [lra|lia|unfold int_max; lia]. }
  pose proof (trials_nought _ _ _ _ _ _ T Nc) as X. set (x := exp (- (sp / (4 * PI)))) in X. clear S T.
  specialize (F (Z.to_nat 1000000)). destruct F as [F|F]; [lia| |lia].
  apply F. clear F. intros i j Hij Hi. unfold near. apply Rltb_true.
  assert (EV : forall n, (Z.of_nat n < 10000000)%Z -> estimate (A:=RA) (mc_new two_config) xs n = PI * 36 * (1 - INR (Datatypes.S n) * x / INR n)).
  { intros n Hn. etransitivity; [apply (estimate_R (fun _ => 0) (fun _ => 0))|].
    assert (Q : @Rsum R (fun y => y) (@firstn (num (RA_with (fun _ => 0) (fun _ => 0))) (Datatypes.S n) xs) = INR (Datatypes.S n) * x).
    { rewrite X. apply Rsum_repeat. assert (L' : (Z.of_nat (@length R xs) = 10000000)%Z) by exact L. lia. }
    rewrite Q.
    cbn [mc_new mc_max_impact]. unfold max_impact_widths. cbn [RA RA_with nmul nlit num nucleon_width two_config]. rewrite (Rlit_0 6). ring. }
  assert (Hj : (Z.of_nat j < 10000000)%Z) by lia. assert (Hi' : (Z.of_nat i < 10000000)%Z) by lia.
  rewrite (EV i Hi'), (EV j Hj). cbn [num RA RA_with nabs nsub nlit]. rewrite Rlit_m3, !S_INR. clear EV.
  assert (J : 1000000 <= INR j) by (rewrite INR_IZR_INZ; apply IZR_le; lia).
  assert (IJ : INR j < INR i) by (apply lt_INR; lia).
  assert (X0 : 0 < x) by apply exp_pos. pose proof PI_RGT_0. pose proof PI_4.
  assert (X1 : x <= 1).
  { unfold x. rewrite <- exp_0. apply exp_le_le. assert (0 <= sp / (4 * PI)); [|lra].
    apply Rmult_le_pos; [exact Hsp|left; apply Rinv_0_lt_compat; lra]. }
  replace (PI * 36 * (1 - (INR i + 1) * x / INR i) - PI * 36 * (1 - (INR j + 1) * x / INR j))
    with (PI * 36 * x * (/ INR j - / INR i)) by (field; lra).
  assert (I1 : 0 < / INR i) by (apply Rinv_0_lt_compat; lra).
  assert (I2 : / INR i < / INR j) by (apply Rinv_lt_contravar; [apply Rmult_lt_0_compat; lra|exact IJ]).
  assert (I3 : / INR j <= / 1000000) by (apply Rinv_le_contravar; lra).
  assert (K : 0 < PI * 36 * x <= 144) by (split; nra).
  rewrite Rabs_pos_eq by (apply Rmult_le_pos; lra). nra.
Qed.

(** Its estimate: 36 pi (1 - x (n+1)/n) with x = exp(-sp/(4 pi)). *)
Lemma mc_still_value sp e est e' : mc_cross_section still (mc_new two_config) sp e = (@Ret R est, e') ->
  exists n, (1 <= n)%nat /\ est = PI * 36 * (1 - (INR n + 1) / INR n * exp (- (sp / (4 * PI)))).
Proof.
  intros H. destruct (C40_estimate (fun _ => 0) (fun _ => 0) still two_config sp e est e' still_shuffles) as
    (r & c & e0 & xs & c' & n & R0 & _ & N & T & L & Hn & E); [cbn; lra|cbn; unfold int_max; lia|exact H|].
  assert (r = 0) by (apply R0; right; cbn; lra). subst r.
  pose proof (trials_nought _ _ _ _ _ _ T (new_nought _ _ _ N)) as X. exists n. split; [lia|].
  rewrite E. assert (Q : Rsum (fun y : R => y) xs = INR (S n) * exp (- (sp / (4 * PI)))).
  { rewrite X, L. rewrite <- (firstn_all (repeat _ (S n))). rewrite Rsum_repeat; rewrite repeat_length; [reflexivity|apply le_n]. }
  rewrite Q, S_INR. cbn [nucleon_width two_config]. assert (0 < INR n) by (apply lt_0_INR; lia). field. lra.
Qed.

(** C40_fit applies: a run of the fit that returns. *)
Example C40_fit_instance : forall e, exists (sp : R) (e' : engine still),
  straddles (fun _ => 0) (fun _ => 0) ends_solver /\ (1 < constit_number two_config)%Z /\ 0 < constit_width two_config /\
  compute_partonic still ends_solver two_config e = (@Ret (num RA) sp, e').
Proof.
  intros e. unfold compute_partonic. cbn [constit_number two_config Z.ltb Z.compare Pos.compare Pos.compare_cont].
  unfold numeric_partonic_cross_section, rethrow_domain, ends_solver, toms748.
  assert (K : forall t, 0 <= nmul RA (nexp RA t) (nmul RA (nmul RA (nofZ RA 4) (npi RA)) (sqr (constit_width two_config)))
     /\ nmul RA (nexp RA t) (nmul RA (nmul RA (nofZ RA 4) (npi RA)) (sqr (constit_width two_config))) / (4 * PI) = exp t).
  { intros t. unfold sqr. cbn [num RA RA_with nmul nexp nofZ npi constit_width two_config]. pose proof PI_RGT_0. pose proof (exp_pos t).
    split; [apply Rmult_le_pos; lra|field; lra]. }
  pose proof PI_RGT_0 as PP.
  assert (N1 : forall n, (1 <= n)%nat -> 1 <= (INR n + 1) / INR n <= 2).
  { intros n Hn. apply le_INR in Hn. cbn [INR] in Hn. 
    assert (I : 0 < / INR n <= 1) by (split; [apply Rinv_0_lt_compat; lra|rewrite <- Rinv_1; apply Rinv_le_contravar; lra]).
    replace ((INR n + 1) / INR n) with (1 + / INR n) by (field; lra). lra. }
  destruct (K (nneg RA (nlit RA 10 0))) as [K1 K2]. destruct (K (nlit RA 20 0)) as [K3 K4].
  destruct (mc_still _ e K1) as (e1 & s1 & M1). destruct (mc_still _ s1 K3) as (e2 & s2 & M2).
  destruct (mc_still_value _ _ _ _ M1) as (n1 & P1 & V1). destruct (mc_still_value _ _ _ _ M2) as (n2 & P2 & V2).
  apply N1 in P1. apply N1 in P2. rewrite K2 in V1. rewrite K4 in V2. clear K K1 K2 K3 K4 N1.
  assert (B1 : nsub RA e1 (cross_section two_config) <= 0).
  { cbn [num RA RA_with nsub cross_section two_config]. rewrite V1.
    cbn [RA RA_with nneg nlit num]. rewrite Rlit_0. set (t := exp (- (10))).
    pose proof (exp_ineq1 (- t)) as Q. 
    assert (T : 0 < t <= / 36).
    { unfold t. split; [apply exp_pos|]. rewrite exp_Ropp. apply Rinv_le_contravar; [lra|].
      replace 10 with (5 + 5) by ring. rewrite exp_plus. pose proof (exp_ineq1 5 ltac:(lra)). pose proof (Rmult_le_compat 6 (exp 5) 6 (exp 5)). lra. }
    specialize (Q ltac:(lra)). pose proof PI_4. set (x := exp (- t)) in *. set (a := (INR n1 + 1) / INR n1) in *.
    assert (x <= a * x) by nra. assert (36 * (1 - a * x) <= 1) by lra. nra. }
  assert (B2 : 0 <= nsub RA e2 (cross_section two_config)).
  { cbn [num RA RA_with nsub cross_section two_config]. rewrite V2.
    cbn [RA RA_with nneg nlit num]. rewrite Rlit_0. set (t := exp 20).
    assert (T : 10 <= t) by (unfold t; pose proof (exp_ineq1 20 ltac:(lra)); lra).
    assert (X : exp (- t) <= / 10).
    { rewrite exp_Ropp. apply Rinv_le_contravar; [lra|]. pose proof (exp_ineq1 t ltac:(lra)). lra. }
    pose proof (exp_pos (- t)). set (x := exp (- t)) in *. set (a := (INR n2 + 1) / INR n2) in *.
    assert (3 < PI) by (pose proof PI2_3_2; lra). assert (0 <= a * x <= / 5) by (split; nra). nra. }
  set (f := fun p : num RA => let* est := mc_cross_section still (mc_new two_config) (nmul RA (nexp RA p) (nmul RA (nmul RA (nofZ RA 4) (npi RA)) (sqr (constit_width two_config)))) in
               ret (nsub RA est (cross_section two_config))).
  assert (F1 : f (nneg RA (nlit RA 10 0)) e = (Ret (nsub RA e1 (cross_section two_config)), s1)) by (unfold f; rewrite (bind_run _ _ _ _ _ M1); reflexivity).
  assert (F2 : f (nlit RA 20 0) s1 = (Ret (nsub RA e2 (cross_section two_config)), s2)) by (unfold f; rewrite (bind_run _ _ _ _ _ M2); reflexivity).
  do 2 eexists. split; [exact ends_straddles|]. split; [cbn; lia|]. split; [cbn; lra|].
  erewrite bind_run with (x := (nneg RA (nlit RA 10 0), nlit RA 20 0)) (s1 := s2); [reflexivity|].
  rewrite (bind_run _ _ _ _ _ F1), (bind_run _ _ _ _ _ F2).
  destruct (Rle_dec _ 0); [|contradiction]. destruct (Rle_dec 0 _); [|contradiction].
  destruct (Rle_dec _ _) as [|C]; [reflexivity|]. exfalso. apply C. cbn [RA RA_with nneg nlit num]. rewrite !Rlit_0. lra.
Qed.
