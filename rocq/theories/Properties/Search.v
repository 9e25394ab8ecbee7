(** C08: the search for a collision. *)
From Coq Require Import Reals Lra.
From Flocq Require Import Core BinarySingleNaN.
From Verif.Base Require Import Result Arith RArith FArith Rng.
From Verif.Model Require Import FastExp Config Nucleon Nucleus Event Files CrossSection Output Collider.
From Verif.Spec Require Import History Collision Runs.
From Verif.Proof Require Import Basics RBasics Pairs Sampling Ctor Collision EveryEvent.
From Verif.Properties Require Import Events Impact RealRun.

(** ** Never without a hit *)
Section Hit.
Context {A : Arith} (R : Rng A).

Lemma history_true_call nc ps As Bs s hs As' Bs' s' :
  history R nc ps As Bs s hs As' Bs' s' -> In true hs ->
  exists a0 b0 r a b r' a' b', participate R nc a0 b0 r = (Ret (true, a, b), r') /\
    In a' As' /\ In b' Bs' /\ same_pos a a' /\ same_pos b b' /\ n_part a' = true /\ n_part b' = true.
Proof.
  induction 1 as [|i j ps As Bs s a b h a' b' s1 hs As' Bs' s' Ea Eb P H IH]; [intros []|].
  intros [->|Hin]; [|apply IH; exact Hin].
  destruct (participate_effects _ _ _ _ _ _ _ _ _ P) as (_ & _ & Na & Nb & _). rewrite orb_true_r in Na, Nb.
  destruct (history_pos _ _ _ _ _ _ _ _ _ _ H) as [FA FB].
  pose proof (upd_nth_same As i a' a Ea) as Ea'. pose proof (upd_nth_same Bs j b' b Eb) as Eb'.
  destruct (history_part_A _ _ _ _ _ _ _ _ _ _ _ a' H Ea') as (a2 & Ea2 & Pa2).
  destruct (history_part_B _ _ _ _ _ _ _ _ _ _ _ b' H Eb') as (b2 & Eb2 & Pb2).
  exists a, b, s, a', b', s1, a2, b2. split; [exact P|].
  split; [eapply nth_error_In; eauto|]. split; [eapply nth_error_In; eauto|].
  split; [exact (Forall2_nth same_pos _ _ _ _ _ FA Ea' Ea2)|]. split; [exact (Forall2_nth same_pos _ _ _ _ _ FB Eb' Eb2)|].
  split; [apply Pa2; auto|apply Pb2; auto].
Qed.
End Hit.

(** Every event that is output comes from a call of participate() that answered
    yes, on two nucleons that the event has as participants at these positions. *)
Theorem C08_no_fabrication :
  every_event (fun A R bd sfuel cfg co nA nB ev0 d =>
    exists a0 b0 r a b r' a' b',
      participate R (co_nc co) a0 b0 r = (Ret (true, a, b), r') /\
      In a' (d_A d) /\ In b' (d_B d) /\ same_pos a a' /\ same_pos b b' /\
      n_part a' = true /\ n_part b' = true).
Proof.
  intros A. apply every_event_in_intro.
  intros R sv bd cfuel sfuel e cfg s co nA nB ev0 nst gst s1 d _ Hc WA WB G.
  destruct (genuine_history _ _ _ _ _ _ _ _ _ _ G) as (As & Bs & s0 & hs & s2 & _ & _ & _ & _ & HH & Ht & _).
  eapply history_true_call; eauto.
Qed.

(** ** A search that never succeeds produces no output *)
Section Stuck.
Context {A : Arith} (R : Rng A) (sv : Solver A) (bd : build).

(** The same failure at another type. *)
Definition failure {X Y} (r : result X) : result Y :=
  match r with Ret _ => OutOfFuel | Throw e => Throw e | UB u => UB u | OutOfFuel => OutOfFuel end.

Lemma collide_first cfuel fuel sfuel e cfg s co nA nB ev nst gst s1 r rs :
  collider_new R sv bd cfuel e cfg s = (Ret (co, nA, nB, ev, nst, gst), s1) ->
  (1 <= number_events cfg)%Z ->
  sample_collision R fuel sfuel co nA nB (MkRstate (s_eng s1) nst gst) = (r, rs) ->
  (forall v, r <> Ret v) ->
  exists s', collide R sv bd cfuel fuel sfuel e cfg s = (failure r, s') /\
    s_fs s' = s_fs s1 /\ s_out s' = s_out s1 /\ s_err s' = s_err s1.
Proof.
  intros Hn Hev Hs Hr. pose proof (collider_new_inv _ _ _ _ _ _ _ _ _ _ _ _ _ _ Hn) as Hc.
  unfold collide. erewrite bind_run by exact Hn.
  unfold run_events. rewrite (ct_nevents _ _ _ _ _ _ _ _ _ _ _ Hc).
  unfold zupto. rewrite zrange_cons by lia. cbn [mfold]. unfold one_event.
  unfold bind at 1 2. unfold in_rstate at 1. cbn [ru_sys ru_norm ru_gamma]. rewrite Hs.
  destruct r as [v|x|u|]; [exfalso; apply (Hr v); reflexivity|..]; cbn [failure]; eexists; (split; [reflexivity|]); cbn; auto.
Qed.
End Stuck.

(** ** Two protons farther apart than the interaction range *)
Section PP.
Local Open Scope R_scope.
Context (rg : Rng RA).
Hypothesis canon : forall e, 0 <= fst (canonical rg e) < 1.

Definition single_proton (nu : nucleus RA) : Prop := nu_kind nu = KProton /\ length (nu_nucleons nu) = 1%nat.

Lemma sample_single fuel nu (o : R) e : single_proton nu ->
  exists n : nucleon RA, sample_nucleons rg fuel nu o e = (Ret (@Nucleus RA KProton [n] o), e) /\
    n_x n = o /\ n_y n = 0 /\ n_part n = false.
Proof.
  intros [K L]. destruct (nu_nucleons nu) as [|n [|]] eqn:E; try discriminate.
  unfold sample_nucleons. rewrite K, E. unfold sample_proton. erewrite bind_run by reflexivity.
  eexists. split; [reflexivity|]. cbn [set_nucleon_position set_position n_x n_y n_part]. cbn [num RA RA_with nadd nlit]. rlits. repeat split; lra.
Qed.

Lemma sample_b_above (bmin bmax u m : R) : 0 <= m -> m < bmin -> m <= bmax -> 0 <= u < 1 ->
  m < sample_b (A:=RA) bmin bmax u.
Proof.
  intros H0 H1 H2 Hu. unfold sample_b. cbn [num RA RA_with nadd nsub nmul nsqrt].
  assert (m * m < bmin * bmin + (bmax * bmax - bmin * bmin) * u).
  { replace (bmin * bmin + (bmax * bmax - bmin * bmin) * u) with (bmin * bmin * (1 - u) + bmax * bmax * u) by ring.
    assert (m * m < bmin * bmin) by nra. assert (m * m <= bmax * bmax) by nra.
    assert (m * m * (1 - u) < bmin * bmin * (1 - u)) by (apply Rmult_lt_compat_r; lra).
    assert (m * m * u <= bmax * bmax * u) by (apply Rmult_le_compat_r; lra). lra. }
  rewrite <- (sqrt_square m) by assumption. apply sqrt_lt_1_alt. split; [nra|assumption].
Qed.

Lemma pp_never fuel sfuel (co : collider RA) cfg sp nA nB n s :
  co_nc co = nucleon_common_of cfg sp -> 0 <= nucleon_width cfg ->
  6 * nucleon_width cfg < co_bmin co -> 6 * nucleon_width cfg <= co_bmax co ->
  single_proton nA -> single_proton nB ->
  exists s', collision_loop rg fuel sfuel co nA nB n s = (OutOfFuel, s').
Proof.
  intros Enc Hw Hmin Hmax. revert nA nB n s.
  induction fuel as [|fuel IH]; intros nA nB n s PA PB; cbn [collision_loop]; [unfold out_of_fuel; eauto|].
  pose proof (canon (rs_eng s)) as U.
  destruct (canonical rg (rs_eng s)) as [u e] eqn:Ec. cbn [fst] in U.
  erewrite bind_run by (unfold on_eng, draw_canonical, act; rewrite Ec; reflexivity).
  set (b := sample_b (co_bmin co) (co_bmax co) u).
  destruct (sample_single sfuel nA (nmul RA (co_asym co) b) e PA) as (a1 & EA & XA & YA & Pa).
  erewrite bind_run by (unfold on_eng; cbn [rs_eng]; rewrite EA; reflexivity).
  destruct (sample_single sfuel nB (nmul RA (nsub RA (co_asym co) (nlit RA 1 0)) b) e PB) as (b1 & EB & XB & YB & Pb).
  erewrite bind_run by (unfold on_eng; cbn [rs_eng]; rewrite EB; reflexivity).
  assert (B : 6 * nucleon_width cfg < b) by (apply sample_b_above; auto; lra).
  assert (Far : participate rg (co_nc co) a1 b1 (MkRstate e (rs_norm s) (rs_gamma s)) = (Ret (false, a1, b1), MkRstate e (rs_norm s) (rs_gamma s))).
  { unfold participate. rewrite Pa. cbn [andb].
    match goal with |- context [if ?c then _ else _] => assert (C : c = true) end; [|rewrite C; reflexivity].
    rewrite Enc, XA, XB, YA, YB. unfold nucleon_common_of, nc_max_impact_sq, sqr, max_impact_widths.
    cbn [num RA RA_with nltb nadd nsub nmul nlit]. rlits. apply Rltb_true.
    assert (X : 6 * nucleon_width cfg * (6 * nucleon_width cfg) < b * b) by nra.
    replace (co_asym co * b - (co_asym co - 1) * b) with (b : R) by (toR; ring). lra. }
  cbn [nu_nucleons rs_norm rs_gamma]. cbn [pair_loop pair_row].
  erewrite bind_run.
  2:{ erewrite bind_run.
      2:{ erewrite bind_run by exact Far. cbn [andb orb]. erewrite bind_run by reflexivity. reflexivity. }
      cbv beta iota. erewrite bind_run by reflexivity. reflexivity. }
  cbv beta iota. apply IH; split; reflexivity.
Qed.
End PP.

Theorem C08_proton_hang :
  forall (rg : Rng RA) (sv : Solver RA) bd cfuel fuel sfuel e (cfg : config RA) s co nA nB ev nst gst s1,
    (forall e, (0 <= fst (canonical rg e) < 1)%R) ->
    projectile cfg = ["p"; "p"]%string -> (1 <= number_events cfg)%Z ->
    (0 <= nucleon_width cfg)%R -> (6 * nucleon_width cfg < b_min cfg)%R ->
    (b_max cfg < 0 \/ 6 * nucleon_width cfg <= b_max cfg)%R ->
    collider_new rg sv bd cfuel e cfg s = (Ret (co, nA, nB, ev, nst, gst), s1) ->
    exists s', collide rg sv bd cfuel fuel sfuel e cfg s = (OutOfFuel, s') /\
      s_fs s' = s_fs s1 /\ s_out s' = s_out s /\ s_err s' = s_err s.
Proof.
  intros rg sv bd cfuel fuel sfuel e cfg s co nA nB ev nst gst s1 Hc0 Hp Hn Hw Hmin Hmax Hnew.
  pose proof (collider_new_inv _ _ _ _ _ _ _ _ _ _ _ _ _ _ Hnew) as Hc.
  assert (EA : nA = proton /\ nB = proton).
  { pose proof (ct_A _ _ _ _ _ _ _ _ _ _ _ Hc) as HA. pose proof (ct_B _ _ _ _ _ _ _ _ _ _ _ Hc) as HB.
    unfold create_nucleus in HA, HB. rewrite Hp in HA, HB. cbn in HA, HB. split; congruence. }
  destruct EA as [-> ->].
  destruct (ct_nc _ _ _ _ _ _ _ _ _ _ _ Hc) as (sp & Enc).
  assert (Emax : (6 * nucleon_width cfg <= co_bmax co)%R).
  { rewrite (effective_bmax_ok _ _ _ _ _ _ _ _ _ _ _ Hc Hw). unfold effective_bmax. unfold radius at 1 2. cbn [nu_kind proton nucleus_new].
    cbn [nlit RA RA_with]. rlits. destruct (Rlt_dec (b_max cfg) 0); lra. }
  rewrite <- (ct_out _ _ _ _ _ _ _ _ _ _ _ Hc), <- (ct_err _ _ _ _ _ _ _ _ _ _ _ Hc).
  destruct (pp_never rg Hc0 fuel sfuel co cfg sp (proton (A:=RA)) (proton (A:=RA)) 0 (MkRstate (s_eng s1) nst gst)) as (rs & E); auto.
  - rewrite (ct_bmin _ _ _ _ _ _ _ _ _ _ _ Hc). exact Hmin.
  - split; reflexivity.
  - split; reflexivity.
  - apply (collide_first rg sv bd cfuel fuel sfuel e cfg s _ _ _ _ _ _ _ OutOfFuel rs Hnew Hn E). discriminate.
Qed.

(** The configuration of [RealRun.v] with b = 4 (nucleon width 1/2, so the range
    is 3) gets past the constructor and then searches forever. *)
Example C08_proton_hang_instance : forall fuel sfuel, exists s',
  collide far_rng mid_solver (Build true false) 1 fuel sfuel real_env (real_config ["p"; "p"]%string 4%R) real_sys = (OutOfFuel, s') /\
  s_out s' = ""%string.
Proof.
  intros fuel sfuel.
  destruct (real_ctor (Build true false) ["p"; "p"]%string 4%R proton proton eq_refl eq_refl) as (co & ev & nst & gst & s1 & Hn & _).
  destruct (C08_proton_hang far_rng mid_solver (Build true false) 1 fuel sfuel real_env (real_config ["p"; "p"]%string 4%R) real_sys co proton proton ev nst gst s1) as (s' & E & _ & O & _); auto.
  - intros e. cbn. lra.
  - cbn. lia.
  - cbn. lra.
  - cbn. lra.
  - right. cbn. lra.
  - exists s'. split; auto.
Qed.

(** ** Nucleons without constituents *)
Section NoConstituents.
Context (L : Libm).
Hypothesis exp_nan : m_exp L f64_nan = f64_nan.   (* C23 F.10.3.1 *)

Definition inf_or_nan (x : f64) : Prop := is_finite x = false.

Lemma div_zero_inf (x : f64) s : inf_or_nan x \/ (exists s m e B, x = B754_finite s m e B) -> inf_or_nan (f64_div x (B754_zero s)).
Proof. intros [H|(s' & m & e & B & ->)]; [|reflexivity]. destruct x; try discriminate; reflexivity. Qed.

Lemma mul_inf_l (x y : f64) : inf_or_nan y -> inf_or_nan (f64_mul x y).
Proof. destruct y; try discriminate; destruct x; reflexivity. Qed.

Lemma inf_mul_zero (x : f64) s : inf_or_nan x -> f64_mul x (B754_zero s) = f64_nan.
Proof. destruct x; try discriminate; reflexivity. Qed.

(** 1/(2 pi) / w^2 / 0 is infinite or NaN. *)
Lemma prefactor_inf (v : f64) : inf_or_nan (f64_div (f64_div f64_one_div_two_pi v) (f64_ofZ 0)) \/
  (exists s, f64_div f64_one_div_two_pi v = B754_zero s).
Proof.
  change (f64_ofZ 0) with (B754_zero false : f64).
  destruct (f64_div f64_one_div_two_pi v) as [s|s| |s m e B] eqn:E; [right; eauto|left; reflexivity|left; reflexivity|left; reflexivity].
Qed.

Lemma zero_div_zero s s' : inf_or_nan (f64_div (B754_zero s) (B754_zero s')). Proof. reflexivity. Qed.

Lemma no_constituents_prob cfg sp : to_size (constit_number cfg) = 0%Z ->
  one_minus_prob (A:=FA L) (nucleon_common_of cfg sp) [] [] = f64_nan.
Proof.
  intros H0. unfold one_minus_prob, nucleon_common_of, nc_sigma_partonic, nc_prefactor, nc_number, overlap.
  rewrite H0. cbn [fold_left]. cbn [FA nexp nmul ndiv nneg nlit nofZ none_div_two_pi].
  replace (f64_lit 0 0) with (B754_zero false : f64) by (vm_compute; reflexivity).
  set (pf := f64_div (f64_div f64_one_div_two_pi _) (f64_ofZ 0)).
  assert (I : inf_or_nan pf).
  { unfold pf. destruct (prefactor_inf (sqr (A:=FA L) (constit_width cfg))) as [I|[s I]]; [exact I|].
    cbn [num FA] in *. rewrite I. reflexivity. }
  replace (f64_mul (f64_lit 2 0) (f64_ofZ 0)) with (B754_zero false : f64) by (vm_compute; reflexivity).
  rewrite inf_mul_zero; [exact exp_nan|]. apply div_zero_inf. left. apply mul_inf_l. exact I.
Qed.

Context (R : Rng (FA L)).

Lemma empty_never_hits nc a b s h a' b' s' cfg sp : nc = nucleon_common_of cfg sp -> to_size (constit_number cfg) = 0%Z ->
  (n_cexist a = true -> n_cons a = []) -> (n_cexist b = true -> n_cons b = []) ->
  n_part a = false ->
  participate R nc a b s = (Ret (h, a', b'), s') ->
  h = false /\ n_part a' = false /\ (n_cexist a' = true -> n_cons a' = []) /\ (n_cexist b' = true -> n_cons b' = []).
Proof.
  intros -> H0 Ca Cb Pa P.
  assert (S : forall n s n1 s1, (n_cexist n = true -> n_cons n = []) ->
              sample_constituent_positions R (nucleon_common_of cfg sp) n s = (Ret n1, s1) -> n_cons n1 = [] /\ n_part n1 = n_part n).
  { intros n r n1 r1 Hn E. pose proof (sample_cons_spec _ _ _ _ _ _ E) as (_ & Q & _).
    split; [|exact Q]. unfold sample_constituent_positions in E. destruct (n_cexist n) eqn:C.
    - mstep E. auto.
    - unfold nc_number, nucleon_common_of in E. rewrite H0 in E. cbn [Z.ltb Z.compare cons_max_size Z.to_nat sample_local] in E.
      mstep E. destruct x as [[qs xs] ys]. unfold ret in E0. apply pair_Ret_inj in E0. destruct E0 as [Ex _]. inversion Ex; subst. mstep E. reflexivity. }
  apply participate_inv in P. destruct P as [Ha|Hn Hr|a1 b1 s1 s2 u e Hn Hr H1 H2 Hu h].
  - congruence.
  - repeat split; auto.
  - apply S in H1; auto. apply S in H2; auto. destruct H1 as [E1 Q1]. destruct H2 as [E2 Q2].
    assert (h = false). { unfold h. rewrite E1, E2, no_constituents_prob by exact H0. reflexivity. }
    rewrite H. repeat split; auto; congruence.
Qed.

Lemma empty_history nc cfg sp ps As Bs s hs As' Bs' s' :
  nc = nucleon_common_of cfg sp -> to_size (constit_number cfg) = 0%Z ->
  history R nc ps As Bs s hs As' Bs' s' ->
  Forall (fun n => n_part n = false /\ (n_cexist n = true -> n_cons n = [])) As ->
  Forall (fun n => n_cexist n = true -> n_cons n = []) Bs ->
  ~ In true hs.
Proof.
  intros Enc H0. induction 1 as [|i j ps As Bs s a b h a' b' s1 hs As' Bs' s' Ea Eb P H IH]; intros FA FB; [intros []|].
  rewrite Forall_forall in FA, FB.
  pose proof (FA a (nth_error_In _ _ Ea)) as [Pa Ca]. pose proof (FB b (nth_error_In _ _ Eb)) as Cb.
  destruct (empty_never_hits nc a b s h a' b' s1 cfg sp Enc H0 Ca Cb Pa P) as (-> & Pa' & Ca' & Cb').
  intros [X|X]; [discriminate|]. revert X. apply IH.
  - apply Forall_upd; [apply Forall_forall; exact FA|auto].
  - apply Forall_upd; [apply Forall_forall; exact FB|auto].
Qed.
End NoConstituents.

(** With --constit-number 0 (in binary64 arithmetic: the probability is NaN) no
    event is ever output, whatever the projectiles and the random numbers: the
    run does not finish unless zero events were asked for. *)
Theorem C08_no_constituents :
  forall (L : Libm) (R : Rng (FA L)) sv bd cfuel fuel sfuel e cfg s co nA nB ev nst gst s1,
    m_exp L f64_nan = f64_nan -> constit_number cfg = 0%Z -> (1 <= number_events cfg)%Z ->
    collider_new R sv bd cfuel e cfg s = (Ret (co, nA, nB, ev, nst, gst), s1) ->
    exists r s', collide R sv bd cfuel fuel sfuel e cfg s = (r, s') /\ r <> Ret tt /\
      s_fs s' = s_fs s1 /\ s_out s' = s_out s /\ s_err s' = s_err s.
Proof.
  intros L R sv bd cfuel fuel sfuel e cfg s co nA nB ev nst gst s1 Hexp Hm Hn Hnew.
  pose proof (collider_new_inv _ _ _ _ _ _ _ _ _ _ _ _ _ _ Hnew) as Hc.
  assert (WA : nucleus_wf nA) by (eapply create_nucleus_wf, ct_A; eauto).
  assert (WB : nucleus_wf nB) by (eapply create_nucleus_wf, ct_B; eauto).
  destruct (ct_nc _ _ _ _ _ _ _ _ _ _ _ Hc) as (sp & Enc).
  rewrite <- (ct_out _ _ _ _ _ _ _ _ _ _ _ Hc), <- (ct_err _ _ _ _ _ _ _ _ _ _ _ Hc).
  destruct (sample_collision R fuel sfuel co nA nB (MkRstate (s_eng s1) nst gst)) as [r rs] eqn:E.
  assert (NR : forall v, r <> Ret v).
  { intros v ->. destruct v as [[[b nc'] nA'] nB'].
    destruct (collision_loop_sampled _ _ _ _ _ _ _ _ _ _ _ _ _ WA WB E) as (sa & Hs & W1 & W2 & _).
    pose proof (sample_nucleons_reset _ _ _ _ _ _ _ W1 (sd_A _ _ _ _ _ _ _ _ _ _ Hs)) as (_ & _ & _ & FA1).
    pose proof (sample_nucleons_reset _ _ _ _ _ _ _ W2 (sd_B _ _ _ _ _ _ _ _ _ _ Hs)) as (_ & _ & _ & FB1).
    apply (empty_history L Hexp R _ cfg sp _ _ _ _ _ _ _ _ Enc ltac:(rewrite Hm; reflexivity) (sd_history _ _ _ _ _ _ _ _ _ _ Hs)).
    - eapply Forall_impl; [|exact FA1]. intros n [P1 P2]. split; [exact P1|congruence].
    - eapply Forall_impl; [|exact FB1]. intros n [P1 P2]. congruence.
    - apply (sd_hit _ _ _ _ _ _ _ _ _ _ Hs). }
  destruct (collide_first R sv bd cfuel fuel sfuel e cfg s co nA nB ev nst gst s1 r rs Hnew Hn E NR) as (s' & Ec & F).
  exists (failure r), s'. split; [exact Ec|]. split; [|exact F].
  destruct r; cbn; congruence.
Qed.

(** The demonstration configuration of [Demo.v] with no constituents constructs,
    and never finishes. *)
From Verif.Spec Require Import Contract Demo.
Definition empty_config : config DA := {|
  projectile := ["d"; "p"]%string; number_events := 2; quiet := false; output := Some "out"%string;
  no_header := false; ncoll := true;
  reduced_thickness := nlit DA 0 0; fluctuation := nlit DA 1 0;
  nucleon_width := nlit DA 5 (-1); constit_width := nlit DA 5 (-1); constit_number := 0;
  nucleon_min_dist := nlit DA 0 0; cross_section := nlit DA 64 (-1);
  normalization := nlit DA 1 0; b_min := nlit DA 0 0; b_max := nlit DA 1 0;
  random_seed := 42; grid_max := nlit DA 1 0; grid_step := nlit DA 5 (-1)
|}.
Definition returned {X} (r : result X) : bool := match r with Ret _ => true | _ => false end.

Example C08_no_constituents_instance : forall fuel sfuel, exists r s',
  collide demo_rng demo_solver demo_build 10 fuel sfuel demo_env empty_config demo_sys = (r, s') /\
  r <> Ret tt /\ s_out s' = ""%string.
Proof.
  intros fuel sfuel.
  assert (H : returned (fst (collider_new demo_rng demo_solver demo_build 10 demo_env empty_config demo_sys)) = true)
    by (vm_cast_no_check (eq_refl true)).
  destruct (collider_new demo_rng demo_solver demo_build 10 demo_env empty_config demo_sys) as [r s1] eqn:E.
  destruct r as [[[[[[co nA] nB] ev] nst] gst]| | |]; cbn [fst returned] in H; [|discriminate H..].
  assert (X : m_exp demo_libm f64_nan = f64_nan) by (vm_compute; reflexivity).
  destruct (C08_no_constituents demo_libm demo_rng demo_solver demo_build 10 fuel sfuel demo_env empty_config demo_sys
              co nA nB ev nst gst s1 X eq_refl ltac:(cbn; lia) E) as (r & s' & Ec & Hr & _ & O & _).
  exists r, s'. split; [exact Ec|]. split; [exact Hr|exact O].
Qed.
