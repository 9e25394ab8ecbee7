(** A complete run in real arithmetic, used as the concrete case that meets the
    hypotheses of the theorems about finished runs in [RA], and (with lead) as
    the counterexample of C07. *)
From Coq Require Import Reals Lra Permutation Sorted.
From Flocq Require Import Core.
From Verif.Base Require Import Result Arith RArith Rng.
From Verif.Model Require Import Random FastExp Config Nucleon Text Files Nucleus Event CrossSection Output Collider.
From Verif.Spec Require Import History Collision Runs Contract Draws Geometry Radii Evolved.
From Verif.Proof Require Import Basics RBasics Pairs Sampling Ctor Collision EveryEvent GridP EventP NucleonP DepositR ShiftP RadiiP ManualP ImpactP.
From Verif.Properties Require Import Events GridProps Nuclei LightNuclei Impact.
Local Open Scope R_scope.

(** ** A pass over all pairs returns *)
Section Returns.
Context {A : Arith} (R : Rng A).

Lemma pair_row_returns co a bs n c s : (nc_number (co_nc co) <= cons_max_size)%Z ->
  exists r s', pair_row R co a bs n c s = (Ret r, s').
Proof.
  intros Hm. revert a n c s. induction bs as [|b bs IH]; intros a n c s; cbn [pair_row].
  - unfold ret. eauto.
  - destruct (participate_returns R (co_nc co) a b s Hm) as (h & a' & b' & s' & E).
    erewrite bind_run by exact E.
    edestruct (IH a') as ([[[a2 bs2] n2] c2] & s2 & E2). erewrite bind_run by exact E2. unfold ret. eauto.
Qed.

Lemma pair_loop_returns co As Bs n c s : (nc_number (co_nc co) <= cons_max_size)%Z ->
  exists r s', pair_loop R co As Bs n c s = (Ret r, s').
Proof.
  intros Hm. revert Bs n c s. induction As as [|a As IH]; intros Bs n c s; cbn [pair_loop].
  - unfold ret. eauto.
  - destruct (pair_row_returns co a Bs n c s Hm) as ([[[a1 bs1] n1] c1] & s1 & E). erewrite bind_run by exact E.
    edestruct (IH bs1) as ([[[a2 bs2] n2] c2] & s2 & E2). erewrite bind_run by exact E2. unfold ret. eauto.
Qed.
End Returns.

(** ** The generator: canonical draws 1/2, radial draws at the upper end *)
Definition far_rng : Rng RA :=
  MkRng RA nat (fun z => Z.to_nat z) (fun e => (1 / 2, S e))
    unit (fun _ _ => tt) (fun n e => (0, n, S e))
    unit (fun _ _ => tt) (fun g e => (1, g, S e))
    (fun _ lo hi _ e => (hi, S e)) (fun a _ e => (a, S e)) (fun l e => (l, S e))
    (sort_by Rltb) (sort_by (fun p q => Rltb (fst p) (fst q))).

Lemma far_ok : rng_ok far_rng.
Proof.
  constructor; intros; cbn; auto using sort_by_perm.
  - split; [apply Rltb_false|apply Rltb_true]; lra.
  - split; [exact H|apply Rltb_false; lra].
  - lia.
  - apply Rltb_false; lra.
  - apply (sort_by_sorted Rltb (fun x => x)). reflexivity.
  - apply (sort_by_sorted (fun p q : R * R => Rltb (fst p) (fst q)) fst). reflexivity.
Qed.

Definition mid_solver : Solver RA := MkSolver RA (fun S f lo hi _ _ => ret (0, 0)).

(** p+p, Pb+p, ...: one event, no outputs, fixed impact parameter [b]. *)
Definition real_config (ps : list string) (b : R) : config RA :=
  @Config RA ps 1 true None false false 0 1 (1/2) (1/2) 1 0 (64/10) 1 b b 0 1 (1/2).
Definition real_env : env := Env (Some "/data"%string) None.
Definition real_sys : sys far_rng := @Sys RA far_rng 0%nat [("/data"%string, Dir)] "" "".

(** ** The constructor *)
Lemma real_compute ps b e :
  compute_partonic far_rng mid_solver (real_config ps b) e = (@Ret R PI, e).
Proof.
  unfold compute_partonic, analytic_partonic_cross_section, rethrow_domain. cbn [constit_number real_config].
  cbn [Z.ltb Z.compare Pos.compare Pos.compare_cont]. unfold toms748, mid_solver. erewrite bind_run by reflexivity.
  unfold ret. f_equal. f_equal. unfold sqr. cbn [num RA RA_with nadd nmul nexp nlit nofZ npi nucleon_width real_config]. rlits.
  replace (5 / 10 * (0 + 0)) with 0 by lra. rewrite exp_0. field.
Qed.

Lemma real_partonic ps b : exists s',
  partonic_cross_section far_rng mid_solver 1 real_env (real_config ps b) real_sys = (@Ret R PI, s').
Proof.
  unfold partonic_cross_section. cbn [xdg_data_home real_env get_data_home lift].
  erewrite bind_run by reflexivity.
  erewrite bind_run by reflexivity.
  erewrite bind_run by reflexivity.
  erewrite bind_run by reflexivity. cbv iota.
  erewrite bind_run by reflexivity.
  erewrite bind_run.
  2:{ unfold in_eng. rewrite real_compute. reflexivity. }
  erewrite bind_run by reflexivity. eexists. reflexivity.
Qed.

Lemma real_width : output_width (A:=RA) 1 = Ret 0%Z.
Proof.
  unfold output_width, to_int. cbn [ntrunc nceil nlog10 nofZ RA RA_with].
  rewrite ln_1. unfold Rdiv. rewrite Rmult_0_l, Ztrunc_IZR, (Zceil_IZR 0). reflexivity.
Qed.

(** The constructor returns; its members. *)
Lemma real_ctor bd ps b nA nB :
  create_nucleus bd (s_fs real_sys) (real_config ps b) 0 = Ret nA ->
  create_nucleus bd (s_fs real_sys) (real_config ps b) 1 = Ret nB ->
  exists co ev nst gst s1,
    collider_new far_rng mid_solver bd 1 real_env (real_config ps b) real_sys = (Ret (co, nA, nB, ev, nst, gst), s1) /\
    event_new (real_config ps b) = Ret ev /\ ev_nsteps ev = 4%Z /\
    co_nc co = nucleon_common_of (real_config ps b) PI /\ co_writers co = [].
Proof.
  intros HA HB. destruct (real_partonic ps b) as (s1 & Hp).
  destruct (C12_geometry (real_config ps b)) as (ev & E & N & _); [cbn; lra..|].
  do 5 eexists. split.
  - unfold collider_new. erewrite bind_run by reflexivity. unfold lift.
    rewrite HA, HB. erewrite bind_run by reflexivity. erewrite bind_run by reflexivity.
    erewrite bind_run by exact Hp. rewrite E. erewrite bind_run by reflexivity.
    erewrite bind_run.
    2:{ unfold output_new. cbn [number_events real_config]. rewrite real_width. unfold lift.
        erewrite bind_run by reflexivity. cbn [quiet output real_config]. erewrite bind_run by reflexivity. reflexivity. }
    erewrite bind_run by reflexivity. reflexivity.
  - split; [exact E|]. split.
    + rewrite N. cbn. replace (2 * 1 / (1 / 2)) with (IZR 4) by (simpl; field). apply Zceil_IZR.
    + split; reflexivity.
Qed.

(** ** Nucleons not too far from the grid: compute returns *)
Definition nearish (n : nucleon RA) : Prop :=
  n_part n = true -> n_cons n <> [] /\ forall q, In q (n_cons n) -> -1000 <= q_x q <= 1000 /\ -1000 <= q_y q <= 1000.

Lemma nearish_computes : forall dbg ps b sp ev nA nB, (forall n, In n nA \/ In n nB -> nearish n) ->
  event_new (real_config ps b) = Ret ev -> ev_nsteps ev = 4%Z ->
  exists ev', event_compute dbg ev nA nB (nucleon_common_of (real_config ps b) sp) = Ret ev'.
Proof.
  intros dbg ps b sp ev nA nB Hnear E N.
  assert (He : evolved (real_config ps b) ev) by (constructor; exact E).
  apply C13_compute_returns_R; auto; [cbn; lra..|].
  intros n Hn Hp. split; [apply (Hnear n Hn Hp)|].
  intros b0 b1 b2 b3 x Hb Hi.
  assert (B : -2000 <= x <= 2000).
  { destruct (Hnear n Hn Hp) as [_ Q].
    apply boundary_R in Hb. rewrite radius_sq_R in Hb. cbn [constit_width real_config] in Hb.
    rewrite (Rabs_right (1 / 2)) in Hb by lra.
    destruct Hb as (_ & _ & (q0 & I0 & E0) & (q1 & I1 & E1) & (q2 & I2 & E2) & (q3 & I3 & E3)).
    pose proof (Q _ I0) as [Q0 _]. pose proof (Q _ I1) as [Q1 _]. pose proof (Q _ I2) as [_ Q2]. pose proof (Q _ I3) as [_ Q3].
    destruct Hi as [<-|[<-|[<-|[<-|[]]]]]; lra. }
  assert (X : ev_xymax ev = 1).
  { revert N. unfold event_new in E. mstep E. mstep E. cbn [ev_nsteps ev_xymax]. intros ->.
    cbn [grid_step real_config nmul nlit nofZ RA RA_with]. rlits. toR. lra. }
  rewrite X. cbn [grid_step real_config]. lra.
Qed.

(** With all normal draws 0 the single constituent sits at the nucleon. *)
Lemma far_constituent ps b sp n s n1 s1 : n_cexist n = false ->
  sample_constituent_positions far_rng (nucleon_common_of (real_config ps b) sp) n s = (Ret n1, s1) ->
  n_cons n1 = [@Constituent RA (n_x n) (n_y n) 1].
Proof.
  intros Hc H. unfold sample_constituent_positions in H. rewrite Hc in H.
  cbn [nc_number nucleon_common_of constit_number real_config] in H.
  change (cons_max_size <? to_size 1)%Z with false in H. cbv iota in H.
  change (Z.to_nat (to_size 1)) with 1%nat in H. cbn in H.
  apply pair_Ret_inj in H. destruct H as [<- _]. cbn [n_cons].
  f_equal. f_equal; rlits; toR; field.
Qed.

Lemma far_constituents_near ps b sp l l' :
  Forall is_reset l -> Forall2 (came_from far_rng (nucleon_common_of (real_config ps b) sp)) l l' ->
  (forall n, In n l -> -1000 <= n_x n <= 1000 /\ -1000 <= n_y n <= 1000) ->
  forall n, In n l' -> nearish n.
Proof.
  intros Hr H. induction H as [|x y l l' C F IH]; intros Hb n Hn; [destruct Hn|destruct Hn as [<-|Hn]].
  - clear IH. intros Hp. inversion Hr as [|? ? (R1 & R2) Hr']; subst.
    destruct C as (P & [(C1 & C2 & C3)|(C1 & s & s1 & n1 & C2 & C3)]); [congruence|].
    rewrite C3, (far_constituent _ _ _ _ _ _ _ R2 C2). split; [discriminate|].
    intros q [<-|[]]. cbn [q_x q_y]. apply Hb. left. reflexivity.
  - inversion Hr; subst. apply IH; auto. intros m Hm. apply Hb. right. exact Hm.
Qed.

(** ** One event *)

(** Nucleons at the same transverse place collide with the draw 1/2. *)
Lemma far_hit ps b a c s h a' c' s' :
  n_part a = false -> n_cexist a = false -> n_cexist c = false -> n_x a = n_x c -> n_y a = n_y c ->
  participate far_rng (nucleon_common_of (real_config ps b) PI) a c s = (Ret (h, a', c'), s') -> h = true.
Proof.
  intros Pa Ca Cc X Y H. apply participate_inv in H. destruct H as [Ha Hb Hn|Hn Hr|a1 b1 s1 s2 u e Hn Hr H1 H2 Hu h].
  - congruence.
  - exfalso. apply Hr. unfold in_range. apply Rltb_false.
    cbn [nc_max_impact_sq nucleon_common_of nucleon_width real_config]. unfold sqr, max_impact_widths.
    rewrite X, Y. cbn [num RA RA_with nadd nsub nmul nlit]. rlits. lra.
  - apply Rltb_true. rewrite (far_constituent _ _ _ _ _ _ _ Ca H1), (far_constituent _ _ _ _ _ _ _ Cc H2).
    rewrite C24_probability; [|cbn; lra|cbn; lia].
    assert (u = 1 / 2) by (cbn in Hu; congruence). subst u.
    unfold T_AB. cbn [RBasics.Rsum fold_right q_x q_y constit_number constit_width real_config].
    rewrite X, Y. unfold Profile.gauss2.
    replace (_ ^ 2 + _ ^ 2) with 0 by (simpl; ring). replace (- 0 / _) with 0 by (unfold Rdiv; ring). rewrite exp_0.
    pose proof PI_RGT_0. match goal with |- exp ?x < _ => replace x with (- (1)) by (field; lra) end.
    rewrite exp_Ropp. replace (1 / 2) with (/ 2) by lra.
    apply Rinv_lt_contravar; [pose proof (exp_pos 1); lra|]. pose proof (exp_ineq1 1 ltac:(lra)). lra.
Qed.

(** Sampling [nu] about (offset, 0, 0) puts the first nucleon at (x0, 0) and
    none too far away. *)
Definition lands (nu : nucleus RA) (offset x0 : R) : Prop :=
  forall e, exists nu1 e' n0 rest,
    sample_nucleons far_rng 1 nu offset e = (Ret nu1, e') /\
    nu_nucleons nu1 = n0 :: rest /\ n_x n0 = x0 /\ n_y n0 = 0 /\
    (forall n, In n (nu_nucleons nu1) -> -1000 <= n_x n <= 1000 /\ -1000 <= n_y n <= 1000).

Lemma real_run_finishes bd ps b nA nB x0 :
  create_nucleus bd (s_fs real_sys) (real_config ps b) 0 = Ret nA ->
  create_nucleus bd (s_fs real_sys) (real_config ps b) 1 = Ret nB ->
  0 <= b ->
  lands nA (share (radius nA) (radius nB) * b) x0 ->
  lands nB ((share (radius nA) (radius nB) - 1) * b) x0 ->
  exists s', collide far_rng mid_solver bd 1 1 1 real_env (real_config ps b) real_sys = (Ret tt, s').
Proof.
  intros HA HB Hb LA LB.
  destruct (real_ctor bd ps b nA nB HA HB) as (co & ev & nst & gst & s1 & Hn & E & N & Hnc & Hws).
  unfold collide. erewrite bind_run by exact Hn.
  pose proof (collider_new_inv _ _ _ _ _ _ _ _ _ _ _ _ _ _ Hn) as Hc.
  assert (WA : nucleus_wf nA) by (eapply create_nucleus_wf, ct_A; eauto).
  assert (WB : nucleus_wf nB) by (eapply create_nucleus_wf, ct_B; eauto).
  assert (Bm : co_bmax co = b).
  { rewrite (ct_bmax _ _ _ _ _ _ _ _ _ _ _ Hc). unfold determine_bmax. cbn [b_max real_config nltb nlit RA RA_with]. rlits.
    destruct (Rltb_spec b 0); [lra|reflexivity]. }
  assert (Bmi : co_bmin co = b) by (rewrite (ct_bmin _ _ _ _ _ _ _ _ _ _ _ Hc); reflexivity).
  assert (Sb : sample_b (A:=RA) (co_bmin co) (co_bmax co) (1 / 2) = b).
  { rewrite Bm, Bmi. pose proof (sample_b_range b b (1 / 2) Hb ltac:(lra)) as X. 
    assert (b <= sample_b (A:=RA) b b (1 / 2) <= b) by (apply X; lra). lra. }
  assert (As : co_asym co = share (radius nA) (radius nB)) by (rewrite (ct_asym _ _ _ _ _ _ _ _ _ _ _ Hc); apply determine_asym_R).
  unfold run_events. rewrite (ct_nevents _ _ _ _ _ _ _ _ _ _ _ Hc). change (zupto (number_events (real_config ps b))) with [0%Z].
  cbn [mfold].
  assert (G : exists r s2, one_event far_rng bd 1 1 co (nA, nB, ev) 0 (Run s1 nst gst) = (Ret r, s2)).
  { unfold one_event.
    destruct (LA (S (s_eng s1))) as (nA1 & e1 & a0 & Arest & EA & NA & XA & YA & BA).
    destruct (LB e1) as (nB1 & e2 & b0 & Brest & EB & NB & XB & YB & BB).
    pose proof (sample_nucleons_reset _ _ _ _ _ _ _ WA EA) as (_ & _ & _ & RsA).
    pose proof (sample_nucleons_reset _ _ _ _ _ _ _ WB EB) as (_ & _ & _ & RsB).
    destruct (pair_loop_returns far_rng co (nu_nucleons nA1) (nu_nucleons nB1) 0 false
       (@MkRstate RA far_rng e2 nst gst)) as ([[[As' Bs'] n'] c'] & rs & EP).
    { rewrite Hnc. vm_compute. discriminate. }
    pose proof (pair_loop_history _ _ _ _ _ _ _ _ _ _ _ _ EP) as (hs & HH & _ & Hcol).
    assert (c' = true).
    { rewrite NA, NB in HH. cbn [length all_pairs seq flat_map map app] in HH. unfold all_pairs in HH.
      cbn [length all_pairs seq flat_map map app] in HH.
      inversion HH as [|? ? ? ? ? ? a b' h ? ? ? hs' ? ? ? Ea Eb P]; subst.
      cbn [nth_error] in Ea, Eb. assert (a = a0) by congruence. assert (b' = b0) by congruence. subst a b'.
      rewrite Hnc in P.
      assert (h = true).
      { eapply far_hit; [| | | | |exact P].
        - rewrite NA in RsA. inversion RsA as [|? ? Q]; subst. apply Q.
        - rewrite NA in RsA. inversion RsA as [|? ? Q]; subst. apply Q.
        - rewrite NB in RsB. inversion RsB as [|? ? Q]; subst. apply Q.
        - congruence.
        - congruence. }
      subst h. cbn [existsb orb]. reflexivity. }
    subst c'. rewrite H in EP.
    destruct (pass_came_from far_rng _ _ _ _ _ _ _ _ RsA RsB HH) as [CA CB].
    rewrite Hnc in CA, CB.
    pose proof (far_constituents_near _ _ _ _ _ RsA CA BA) as FA.
    pose proof (far_constituents_near _ _ _ _ _ RsB CB BB) as FB.
    erewrite bind_run.
    2:{ unfold in_rstate. unfold sample_collision. cbn [collision_loop].
        cbn [ru_sys ru_norm ru_gamma].
        assert (EC : collision_loop far_rng 1 1 co nA nB 0 (@MkRstate RA far_rng (s_eng s1) nst gst)
                 = (Ret (sample_b (A:=RA) (co_bmin co) (co_bmax co) (1/2), n', with_nucleons nA1 As', with_nucleons nB1 Bs'), rs)).
        { cbn [collision_loop]. erewrite bind_run by reflexivity. rewrite Sb, As.
          erewrite bind_run.
          2:{ unfold on_eng. cbn [rs_eng]. change (nmul RA) with Rmult. rewrite EA. reflexivity. }
          erewrite bind_run.
          2:{ unfold on_eng. cbn [rs_eng]. cbn [nmul nsub nlit RA RA_with]. rlits. rewrite EB. reflexivity. }
          cbn [rs_norm rs_gamma]. erewrite bind_run by exact EP. reflexivity. }
        cbn [collision_loop] in EC. rewrite EC. reflexivity. }
    cbn [ru_sys ru_norm ru_gamma].
    destruct (nearish_computes (debug bd) ps b PI ev As' Bs') as (ev' & Ev).
    { intros n [Hi|Hi]; auto. }
    { exact E. }
    { exact N. }
    erewrite bind_run.
    2:{ unfold lift. cbn [nu_nucleons with_nucleons]. rewrite Hnc, Ev. reflexivity. }
    rewrite Hws. erewrite bind_run by reflexivity. unfold ret. eauto. }
  destruct G as (r & s2 & G). rewrite (bind_run _ _ _ _ _ G). unfold ret. eauto.
Qed.

(** ** p+p *)
Lemma lands_proton offset : -1000 <= offset <= 1000 -> lands (@proton RA) offset offset.
Proof.
  intros Ho e. do 4 eexists. split; [reflexivity|]. split; [reflexivity|].
  cbn [n_x n_y set_nucleon_position set_position]. 
  assert (X : nadd RA (nlit RA 0 0) offset = offset) by (toR; rlits; lra).
  split; [exact X|]. split; [cbn; rlits; reflexivity|].
  intros n [<-|[]]. unfold set_nucleon_position, set_position. cbn [n_x n_y]. rewrite X. cbn [nlit RA RA_with]. rlits. lra.
Qed.

Example pp_run_finishes : forall bd, exists s',
  collide far_rng mid_solver bd 1 1 1 real_env (real_config ["p"; "p"]%string 0) real_sys = (Ret tt, s').
Proof.
  intros bd. eapply (real_run_finishes bd _ 0 proton proton 0); try reflexivity; try lra;
  rewrite Rmult_0_r; apply lands_proton; lra.
Qed.

(** ** Pb+p *)
Definition lead : nucleus RA := @woods_saxon RA 208 (Rlit 662 (-2)) (Rlit 546 (-3)) 0.

Lemma mrepeat_const {S X} k (m : M S X) x s l s' :
  (forall s, exists s1, m s = (Ret x, s1)) -> mrepeat k m s = (Ret l, s') -> Forall (eq x) l.
Proof.
  intros Hm. revert s l s'. induction k as [|k IH]; intros s l s' H; cbn [mrepeat] in H.
  - unfold ret in H. apply pair_Ret_inj in H. destruct H as [<- _]. constructor.
  - destruct (Hm s) as (s1 & E). rewrite (bind_run _ _ _ _ _ E) in H. mstep H. mstep H. constructor; eauto.
Qed.

Lemma lands_lead offset : -900 <= offset <= 900 -> lands lead offset (offset - 1208 / 100).
Proof.
  intros Ho e.
  destruct (C29_terminates RA far_rng (ok_sort_num _ far_ok) 1 lead _ _ _ offset e eq_refl) as (nu' & e' & E).
  assert (R0 : 0 <= Rlit 662 (-2) + 10 * Rlit 546 (-3)) by (rlits; lra).
  destruct (C30_woods_saxon far_rng far_ok 1 lead nu' (Rlit 662 (-2)) (Rlit 546 (-3)) 0 offset e e' eq_refl ltac:(lra) R0 E)
    as (raw & radii & tries & e0 & Hraw & Hp & _ & L1 & L2 & L3 & _ & Hi).
  assert (Hc : Forall (eq (1208 / 100)) radii).
  { apply (Permutation_Forall Hp). eapply (mrepeat_const _ _ _ _ _ _); [|exact Hraw].
    intros s. unfold woods_saxon_draw. cbn [pwl far_rng]. eexists. f_equal. f_equal.
    rlits. lra. }
  assert (All : forall n, In n (nu_nucleons nu') -> n_x n = offset - 1208 / 100 /\ n_y n = 0).
  { intros n Hn. apply In_nth_error in Hn. destruct Hn as (i & Hn).
    assert (Li : (i < length (nu_nucleons nu'))%nat) by (apply nth_error_Some; congruence).
    destruct (nth_error radii i) as [r|] eqn:Er; [|apply nth_error_None in Er; lia].
    destruct (nth_error tries i) as [k|] eqn:Ek; [|apply nth_error_None in Ek; lia].
    destruct (Hi i n r k Hn Er Ek) as (_ & _ & (S1 & S2 & _) & _).
    rewrite Forall_forall in Hc. specialize (Hc r (nth_error_In _ _ Er)). subst r.
    assert (C0 : forall j, cos_draw far_rng j e0 = 0).
    { intros j. unfold cos_draw, drawn. cbn [canonical far_rng fst]. cbn [nsub nmul nofZ RA RA_with]. lra. }
    assert (P0 : forall j, phi_draw far_rng j e0 = PI).
    { intros j. unfold phi_draw, drawn. cbn [canonical far_rng fst]. cbn [nmul ntwo_pi RA RA_with]. lra. }
    rewrite C0, P0 in S1, S2. unfold sph, vx, vy in S1, S2. cbn [fst snd] in S1, S2.
    rewrite cos_PI in S1. rewrite sin_PI in S2.
    replace (1 - 0 * 0) with 1 in * by lra. rewrite sqrt_1 in *.
    rewrite S1, S2. split; lra. }
  destruct (nu_nucleons nu') as [|n0 rest] eqn:En.
  { exfalso. clear - L3. vm_compute in L3. discriminate. }
  exists nu', e', n0, rest. destruct (All n0 (or_introl eq_refl)) as [X Y].
  split; [exact E|]. split; [exact En|]. split; [exact X|]. split; [exact Y|].
  rewrite En. intros n Hn. destruct (All n Hn) as [-> ->]. lra.
Qed.

Lemma lead_radius : radius lead = 8258 / 1000.
Proof. unfold radius, lead. cbn [nu_kind woods_saxon nucleus_new nadd nmul nlit RA RA_with]. rlits. toR. lra. Qed.
Lemma proton_radius : radius (@proton RA) = 0.
Proof. unfold radius. cbn. rlits. reflexivity. Qed.

Example pbp_run_finishes : forall bd, exists s',
  collide far_rng mid_solver bd 1 1 1 real_env (real_config ["Pb"; "p"]%string (1208 / 100)) real_sys = (Ret tt, s').
Proof.
  intros bd.
  assert (S1 : share (radius lead) (radius (@proton RA)) = 1).
  { rewrite lead_radius, proton_radius. unfold share. destruct (Rlt_dec _ _); [lra|]. field. }
  eapply (real_run_finishes bd _ (1208 / 100) lead proton 0); try reflexivity; try lra; rewrite S1.
  - replace 0 with (1 * (1208 / 100) - 1208 / 100) at 1 by lra. apply lands_lead. lra.
  - replace ((1 - 1) * (1208 / 100)) with 0 by lra. apply lands_proton. lra.
Qed.

(** C07, the negative half: with Pb+p there is a finished run, with draws the
    standard library may produce, whose event has an impact parameter above the
    range used by default (so that the default range misses real collisions). *)
Theorem C07_woods_saxon_not_covered : exists (rg : Rng RA) sv bd cfuel fuel sfuel e cfg s s',
  rng_ok rg /\ collide rg sv bd cfuel fuel sfuel e cfg s = (Ret tt, s') /\
  projectile cfg = ["Pb"; "p"]%string /\ nucleon_width cfg = 1 / 2 /\
  exists co nA nB ev0 nst gst s1 d,
    collider_new rg sv bd cfuel e cfg s = (Ret (co, nA, nB, ev0, nst, gst), s1) /\
    delivered rg (co_writers co) [d] s1 s' /\
    radius nA + radius nB + 6 * nucleon_width cfg + 4 / 5 < d_b d.
Proof.
  destruct (pbp_run_finishes (Build false false)) as (s' & H).
  exists far_rng, mid_solver, (Build false false), 1%nat, 1%nat, 1%nat, real_env,
    (real_config ["Pb"; "p"]%string (1208 / 100)), real_sys, s'.
  split; [exact far_ok|]. split; [exact H|]. split; [reflexivity|]. split; [reflexivity|].
  apply C05_range_real in H.
  destruct H as (co & nA & nB & ev0 & nst & gst & s1 & ds & Hn & Len & _ & Hd & _ & Hp).
  change (Z.to_nat (number_events (real_config ["Pb"; "p"]%string (1208 / 100)))) with 1%nat in Len.
  destruct ds as [|d [|? ?]]; try discriminate.
  exists co, nA, nB, ev0, nst, gst, s1, d. split; [exact Hn|]. split; [exact Hd|].
  specialize (Hp d (or_introl eq_refl) far_ok). cbn [nucleon_width b_min b_max real_config] in Hp.
  pose proof (collider_new_inv _ _ _ _ _ _ _ _ _ _ _ _ _ _ Hn) as Hc.
  pose proof (ct_A _ _ _ _ _ _ _ _ _ _ _ Hc) as HA. pose proof (ct_B _ _ _ _ _ _ _ _ _ _ _ Hc) as HB.
  assert (EA : nA = lead) by (unfold create_nucleus in HA; cbn in HA; unfold lead; cbn; congruence).
  assert (EB : nB = proton) by (unfold create_nucleus in HB; cbn in HB; congruence).
  subst nA nB. rewrite lead_radius, proton_radius. cbn [nucleon_width real_config].
  destruct Hp as [_ Hp]; [lra|lra| |].
  - unfold effective_bmax. cbn [b_max real_config]. destruct (Rlt_dec _ _); lra.
  - rewrite (Hp eq_refl). lra.
Qed.

(** The p+p run meets the hypotheses of C05, C06 and C07. *)
Example C07_instance : exists s' co ev0 nst gst s1 d,
  collider_new far_rng mid_solver (Build false false) 1 real_env (real_config ["p"; "p"]%string 0) real_sys
    = (Ret (co, proton, proton, ev0, nst, gst), s1) /\
  delivered far_rng (co_writers co) [d] s1 s' /\ radius_covers proton /\ d_b d <= 3.
Proof.
  destruct (pp_run_finishes (Build false false)) as (s' & H). exists s'. apply C07_default_range in H.
  destruct H as (co & nA & nB & ev0 & nst & gst & s1 & ds & Hn & Len & _ & Hd & Hev & Hp).
  change (Z.to_nat (number_events (real_config ["p"; "p"]%string 0))) with 1%nat in Len.
  destruct ds as [|d [|? ?]]; try discriminate.
  pose proof (collider_new_inv _ _ _ _ _ _ _ _ _ _ _ _ _ _ Hn) as Hc.
  pose proof (ct_A _ _ _ _ _ _ _ _ _ _ _ Hc) as HA. pose proof (ct_B _ _ _ _ _ _ _ _ _ _ _ Hc) as HB.
  assert (EA : nA = proton) by (unfold create_nucleus in HA; cbn in HA; congruence).
  assert (EB : nB = proton) by (unfold create_nucleus in HB; cbn in HB; congruence). subst nA nB.
  exists co, ev0, nst, gst, s1, d. split; [exact Hn|]. split; [exact Hd|]. split; [exact I|].
  destruct (Hp d (or_introl eq_refl) far_ok ltac:(cbn; lra) I I) as [Hp1 _]. clear Hp. rewrite proton_radius in Hp1.
  cbn [nucleon_width real_config] in Hp1. lra.
Qed.
