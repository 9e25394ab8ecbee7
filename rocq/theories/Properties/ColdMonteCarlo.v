(** C40, C09: runs of the Monte-Carlo estimator computed to the end, and two
    computations of the parameter for the same configuration that differ. *)
From Coq Require Import Permutation.
From Flocq Require Import Core BinarySingleNaN.
From Verif.Base Require Import Result Arith FArith Rng.
From Verif.Model Require Import Random Config Nucleon Text Files CrossSection.
From Verif.Spec Require Import Contract Cyclic MonteCarlo Repro Cache.
From Verif.Proof Require Import Basics CyclicP MonteCarloP CacheRun.
From Verif.Properties Require Import CyclicNormal MonteCarlo.

(** ** A generator that always returns the same number *)
Section Flat.
Variables (A : Arith) (R : Rng A) (e : engine R) (u q : num A).
Hypothesis Hs : shuffles R.
Hypothesis Hc : canonical R e = (u, e).
Hypothesis He : forall l, snd (shuffle R l e) = e.

Definition flat (c : cyclic (A:=A)) : Prop := usable c /\ forall x, In x (cy_cache c) -> x = q.

Lemma draw_flat c : flat c -> exists c', cyclic_draw R c e = (Ret (q, c'), e) /\ flat c'.
Proof.
  intros [[H1 H2] H3]. destruct (draw_any R Hs c e H1 H2) as (x & c' & e' & E & I & P & L).
  assert (x = q).
  { apply H3. exact I. }
  assert (e' = e).
  { clear I P L. unfold cyclic_draw in E. destruct (cy_nloops c <? cy_loop c)%Z.
    - pose proof (He (cy_cache c)) as HE. destruct (shuffle R (cy_cache c) e) as [l' e2]. cbn [snd] in HE. subst e2.
      destruct (nth_error _ _) in E; congruence.
    - destruct (nth_error _ _) in E; congruence. }
  subst. exists c'. split; [exact E|]. split; [split; [|exact L]|].
  - intros Z. rewrite Z in P. apply Permutation_sym, Permutation_nil in P. contradiction.
  - intros y Hy. apply H3. eapply Permutation_in; [apply Permutation_sym; exact P|exact Hy].
Qed.
Lemma mc_draw_flat k : forall c, flat c -> exists c', mc_draw R k c e = (Ret (repeat (q, q) k, c'), e) /\ flat c'.
Proof.
  induction k as [|k IH]; intros c H; [exists c; auto|].
  destruct (draw_flat c H) as (c1 & E1 & F1). destruct (draw_flat c1 F1) as (c2 & E2 & F2).
  destruct (IH c2 F2) as (c3 & E3 & F3). exists c3. split; [|exact F3].
  simpl. rewrite (bind_run _ _ _ _ _ E1), (bind_run _ _ _ _ _ E2), (bind_run _ _ _ _ _ E3). reflexivity.
Qed.

Definition flat_miss (m : mc A) (sp : num A) : num A :=
  let qs := repeat (q, q) (Z.to_nat (mc_number m)) in
  nexp A (nmul A (ndiv A (nmul A (nneg A sp) (mc_prefactor m)) (nmul A (nlit A 2 0) (nofZ A (mc_number m))))
    (mc_overlap m (nmul A (mc_max_impact m) (nsqrt A u)) qs qs)).

Lemma mc_sample_flat m sp c : flat c -> exists c', mc_sample R m sp c e = (Ret (flat_miss m sp, c'), e) /\ flat c'.
Proof.
  intros H. unfold mc_sample, draw_canonical, act. unfold bind at 1. rewrite Hc.
  destruct (mc_draw_flat (Z.to_nat (mc_number m)) c H) as (c1 & E1 & F1).
  destruct (mc_draw_flat (Z.to_nat (mc_number m)) c1 F1) as (c2 & E2 & F2).
  exists c2. split; [|exact F2]. rewrite (bind_run _ _ _ _ _ E1), (bind_run _ _ _ _ _ E2). reflexivity.
Qed.

Lemma quantile_flat mean sd n i j : (forall z z', nerfinv A z = nerfinv A z') -> quantile A mean sd n i = quantile A mean sd n j.
Proof. intros H. unfold quantile. do 3 f_equal. apply H. Qed.

(** The loop with constant samples [x]. *)
Fixpoint flat_loop (tol : num A) (m : mc A) (x : num A) (fuel : nat) (n : Z) (ref sum : num A) (pass : Z) : option (num A) :=
  match fuel with
  | O => None
  | S fuel' =>
      let sum' := nadd A sum x in
      let est := mc_estimate m n sum' in
      let close := nltb A (nabs A (nsub A est ref)) tol in
      let pass' := if close then (pass + 1)%Z else 0%Z in
      let ref' := if close then ref else est in
      if (mc_n_pass <? pass')%Z then Some est else flat_loop tol m x fuel' (n + 1) ref' sum' pass'
  end.
Lemma mc_loop_flat m sp fuel rest est : forall n c ref sum pass, flat c ->
  flat_loop mc_tolerance m (flat_miss m sp) fuel n ref sum pass = Some est ->
  mc_loop R m sp (fuel + rest) n c ref sum pass e = (Ret est, e).
Proof.
  induction fuel as [|fuel IH]; intros n c ref sum pass H L; [discriminate|].
  cbn [Nat.add mc_loop]. destruct (mc_sample_flat m sp c H) as (c1 & E1 & F1).
  rewrite (bind_run _ _ _ _ _ E1). cbn [flat_loop] in L. cbv beta iota zeta in L |- *.
  destruct (mc_n_pass <? _)%Z; [injection L as <-; reflexivity|]. apply IH; assumption.
Qed.

Lemma mc_flat m sp fuel est : (Z.of_nat fuel <= mc_n_max)%Z ->
  (forall i, (1 <= i <= mc_cache_size)%Z -> quantile A (nlit A 0 0) (mc_sampling_width m) mc_cache_size i = q) ->
  flat_loop mc_tolerance m (flat_miss m sp) fuel 0 (nlit A 0 0) (nlit A 0 0) 0 = Some est ->
  mc_cross_section R m sp e = (Ret est, e).
Proof.
  intros Hf Hq L. unfold mc_cross_section. rewrite (bind_run _ _ _ _ _ (cyclic_new_run R _ _ _ _ e)).
  assert (Q : forall v, snd (shuffled R (quantiles A (nlit A 0 0) (mc_sampling_width m) mc_cache_size) e v) = e).
  { induction v as [|v IH]; [apply He|]. simpl. destruct (shuffled R _ e v) as [l' e']. cbn [snd] in IH. subst e'. apply He. }
  rewrite (Q 0%nat). replace (Z.to_nat mc_n_max) with (fuel + (Z.to_nat mc_n_max - fuel))%nat by lia.
  apply mc_loop_flat; [|exact L]. split; [apply new_usable; [exact Hs|unfold mc_cache_size; lia]|].
  cbn [cy_cache]. intros x Hx.
  apply (Permutation_in x (Permutation_sym (shuffled_perm R Hs _ e 0))) in Hx.
  unfold quantiles in Hx. apply in_map_iff in Hx. destruct Hx as (i & <- & Hi). apply Hq.
  apply in_zrange in Hi. lia.
Qed.
End Flat.

(** ** Two computations *)
Local Open Scope string_scope.
Definition step_exp (x : f64) : f64 :=
  if f64_ltb x (f64_lit (-1) 0) then f64_lit 0 0 else if f64_ltb (f64_lit 0 0) x then f64_add (f64_lit 1 0) x else f64_lit 1 0.
Definition mc_libm : Libm := {|
  m_exp := step_exp; m_log := fun x => x; m_log10 := fun _ => f64_lit 5 (-1); m_pow := fun x _ => x;
  m_cos := fun _ => f64_lit 6 (-1); m_sin := fun _ => f64_lit 8 (-1); m_cbrt := fun x => x;
  m_expint := fun x => x; m_erfinv := fun _ => f64_lit 0 0 |}.
Definition MA : Arith := FA mc_libm.

(** The engine state is the number it draws. *)
Definition const_rng : Rng MA :=
  MkRng MA f64 (fun _ => f64_lit 5 (-1)) (fun e => (e, e))
    unit (fun _ _ => tt) (fun n e => (f64_lit 0 0, n, e))
    unit (fun _ _ => tt) (fun g e => (f64_lit 1 0, g, e))
    (fun _ lo _ _ e => (lo, e)) (fun a _ e => (a, e))
    (fun l e => (l, e)) (fun l => l) (fun l => l).

(** A solver that evaluates the function at the upper end of the bracket and
    answers 1 or 2 according to its sign. *)
Definition sign_solver : Solver MA :=
  MkSolver MA (fun S f lo hi _ _ =>
    let* y := f hi in
    let r := if nltb MA y (nlit MA 0 0) then nlit MA 1 0 else nlit MA 2 0 in ret (r, r)).

Definition mc_config : config MA := {|
  projectile := ["p"; "p"]; number_events := 1; quiet := false; output := None;
  no_header := false; ncoll := false;
  reduced_thickness := nlit MA 0 0; fluctuation := nlit MA 1 0;
  nucleon_width := nlit MA 5 (-2); constit_width := nlit MA 2 (-2); constit_number := 2;
  nucleon_min_dist := nlit MA 0 0; cross_section := nlit MA 1 (-1);
  normalization := nlit MA 1 0; b_min := nlit MA 0 0; b_max := nlit MA 1 0;
  random_seed := 8; grid_max := nlit MA 1 0; grid_step := nlit MA 5 (-1)
|}.
Definition mc_env : env := Env (Some "/data") None.
Definition mc_q : f64 := quantile MA (nlit MA 0 0) (mc_sampling_width (mc_new mc_config)) 1000000 1.
Definition mc_sp : f64 := nmul MA (nexp MA (nlit MA 20 0)) (nmul MA (nmul MA (nofZ MA 4) (npi MA)) (sqr (constit_width mc_config))).
Definition mc_result (fuel : nat) (u : f64) : option f64 :=
  flat_loop MA mc_tolerance (mc_new mc_config) (flat_miss MA u mc_q (mc_new mc_config) mc_sp) fuel 0 (nlit MA 0 0) (nlit MA 0 0) 0.
Definition steps : nat := Z.to_nat 11500.
Definition u_near : f64 := f64_lit 0 0.
Definition u_far : f64 := f64_lit 81 (-2).

Lemma const_shuffles : shuffles const_rng.
Proof. intros l e. apply Permutation_refl. Qed.
Lemma mc_estimates fuel u est : (Z.of_nat fuel <= mc_n_max)%Z -> mc_result fuel u = Some est ->
  mc_cross_section const_rng (mc_new mc_config) mc_sp u = (Ret est, u).
Proof.
  intros Hf H. 
  refine (mc_flat MA const_rng u u mc_q const_shuffles eq_refl (fun _ => eq_refl) (mc_new mc_config) mc_sp fuel est Hf _ H).
  intros i _. apply quantile_flat. intros z z'. reflexivity.
Qed.
Lemma few_steps : (Z.of_nat steps <= mc_n_max)%Z.
Proof. unfold steps. rewrite Z2Nat.id; unfold mc_n_max; lia. Qed.

(** The sign of the estimate minus sigma_NN. *)
Definition too_small (est : f64) : bool := nltb MA (nsub MA est (cross_section mc_config)) (nlit MA 0 0).
Definition sign_is (b : bool) (fuel : nat) (u : f64) : bool :=
  match mc_result fuel u with Some est => Bool.eqb (too_small est) b | None => false end.
Lemma sign_inv b fuel u : sign_is b fuel u = true -> exists est, mc_result fuel u = Some est /\ too_small est = b.
Proof.
  unfold sign_is. destruct (mc_result fuel u) as [x|]; intros H; [|discriminate H].
  exists x. split; [reflexivity|]. apply Bool.eqb_prop. exact H.
Qed.
Lemma near_big : sign_is false steps u_near = true. Proof. vm_cast_no_check (eq_refl true). Qed.
Lemma far_small : sign_is true steps u_far = true. Proof. vm_cast_no_check (eq_refl true). Qed.

(** Both estimates settle. *)
Example C40_instance : exists x y,
  mc_cross_section const_rng (mc_new mc_config) mc_sp u_near = (Ret x, u_near) /\
  mc_cross_section const_rng (mc_new mc_config) mc_sp u_far = (Ret y, u_far).
Proof.
  destruct (sign_inv _ _ _ near_big) as (x & E1 & _). destruct (sign_inv _ _ _ far_small) as (y & E2 & _).
  exists x, y. exact (conj (mc_estimates steps _ x few_steps E1) (mc_estimates steps _ y few_steps E2)).
Qed.

Definition mc_answer (p : f64) : f64 :=
  nmul MA (nexp MA (nmul MA (nlit MA 5 (-1)) (nadd MA p p))) (nmul MA (nmul MA (nofZ MA 4) (npi MA)) (sqr (constit_width mc_config))).

Lemma fit_run fuel u est : (Z.of_nat fuel <= mc_n_max)%Z -> mc_result fuel u = Some est ->
  compute_partonic const_rng sign_solver mc_config u
  = (Ret (mc_answer (if too_small est then nlit MA 1 0 else nlit MA 2 0)), u).
Proof.
  intros Hf H. unfold compute_partonic. change (1 <? constit_number mc_config)%Z with true.
  unfold numeric_partonic_cross_section, rethrow_domain, sign_solver, toms748. cbv zeta.
  pose proof (mc_estimates fuel u est Hf H) as E. unfold bind.
  unfold mc_sp in E. rewrite E. reflexivity.
Qed.

Lemma File_inj {A} (a b : string) : Some (File (A:=A) a) = Some (File b) -> a = b.
Proof. congruence. Qed.

Definition mc_sys (u : f64) : sys const_rng := @Sys MA const_rng u [("/data", Dir); ("/data/trento", Dir)] "" "".

(** Substructure, no cache entry: for the same configuration (same seed) and the
    same files, the parameter used and the line written to the cache depend on
    the initial state of the generator, which the seed does not determine. *)
Theorem C09_cold_parameter : forall fuel, exists u u' sp sp' s1 s1',
  (0 < random_seed mc_config)%Z /\ same_world (mc_sys u) (mc_sys u') /\
  partonic_cross_section const_rng sign_solver fuel mc_env mc_config (mc_sys u) = (Ret sp, s1) /\
  partonic_cross_section const_rng sign_solver fuel mc_env mc_config (mc_sys u') = (Ret sp', s1') /\
  nltb MA sp' sp = true /\ s_fs s1' <> s_fs s1.
Proof.
  intros fuel. exists u_near, u_far.
  destruct (sign_inv _ _ _ near_big) as (x & E1 & N). destruct (sign_inv _ _ _ far_small) as (y & E2 & F).
  apply (fit_run steps _ _ few_steps) in E1, E2. rewrite N in E1. rewrite F in E2. clear N F x y.
  do 4 eexists. split; [reflexivity|]. split; [split; [reflexivity|split; reflexivity]|].
  rewrite (partonic_no_file const_rng sign_solver fuel mc_env mc_config (mc_sys u_near) "/data" eq_refl eq_refl eq_refl).
  rewrite (partonic_no_file const_rng sign_solver fuel mc_env mc_config (mc_sys u_far) "/data" eq_refl eq_refl eq_refl).
  unfold computed. cbn [mc_sys s_eng s_fs s_out s_err]. rewrite E1, E2.
  split; [reflexivity|]. split; [reflexivity|]. split; [vm_cast_no_check (eq_refl true)|].
  unfold set_fs. cbn [s_fs]. intros H.
  apply (f_equal (fun f => fs_lookup f (cache_file "/data"))) in H. rewrite !FsP.fs_set_eq in H by (apply FsP.join_not_empty; discriminate). apply File_inj in H.
  revert H. apply String.eqb_neq. vm_cast_no_check (eq_refl false).
Qed.
