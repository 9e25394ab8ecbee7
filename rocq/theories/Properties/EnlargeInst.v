(** Concrete runs that meet the hypotheses of C72. *)
From Coq Require Import Reals Lra ZArith Lia List String.
From Flocq Require Import Core.
From Verif.Base Require Import Result Arith RArith Rng.
From Verif.Model Require Import FastExp Config Nucleon Nucleus Event Text Files CrossSection Output Collider.
From Verif.Spec Require Import History Collision Contract Replay Grid Evolved Mean Total Ecc Entropy Demo Enlarge.
From Verif.Proof Require Import Basics RBasics Pairs Sampling Ctor Collision EveryEvent GridP EventP FreshP NucleonP DepositR
  MeanP EccP SymP ReducedP Writers.
From Verif.Properties Require Import Events GridProps Reduced Replay RealRun Entropy EntropyInst Enlarge.
Import ListNotations.
Local Open Scope R_scope.

(** The p+p run at b = 0 of RealRun.v, on another grid and not quiet. *)
Definition on_grid (gmax : R) : config RA := with_output (with_profile pp 0 1 gmax (1 / 2)) 1 false None false.

Lemma regrid_ctor gmax ev2 co nA nB ev nst gst s1 :
  collider_new far_rng mid_solver (Build false false) 1 real_env pp real_sys = (Ret (co, nA, nB, ev, nst, gst), s1) ->
  event_new (on_grid gmax) = Ret ev2 ->
  exists co2, collider_new far_rng mid_solver (Build false false) 1 real_env (on_grid gmax) real_sys = (Ret (co2, nA, nB, ev2, nst, gst), s1) /\
    co_nc co2 = co_nc co /\ co_nevents co2 = 1%Z /\ co_writers co2 = [WStdout 0] /\
    (forall rs, sample_collision far_rng 1 1 co2 nA nB rs = sample_collision far_rng 1 1 co nA nB rs).
Proof.
  intros C V. set (cfg2 := on_grid gmax) in *. unfold collider_new in C |- *.
  mstep C. unfold get in E. apply pair_Ret_inj in E. destruct E as [<- <-].
  mstep C. mstep E. mstep C. mstep E0. mstep C. mstep C. mstep E2. mstep C. mstep C. mstep C.
  assert (O : output_new far_rng (Build false false) cfg2 s = (Ret [WStdout 0], s)).
  { unfold output_new. change (number_events cfg2) with 1%Z. erewrite bind_run by (unfold lift; rewrite real_width; reflexivity). reflexivity. }
  assert (S3 : s0 = s).
  { unfold output_new in E3. change (number_events pp) with 1%Z in E3. erewrite bind_run in E3 by (unfold lift; rewrite real_width; reflexivity).
    cbn [output pp real_config] in E3. unfold bind, ret in E3. cbn in E3. congruence. }
  eexists. split.
  - erewrite bind_run by reflexivity.
    change (create_nucleus (Build false false) (s_fs real_sys) cfg2 0) with (create_nucleus (Build false false) (s_fs real_sys) pp 0). rewrite E.
    erewrite bind_run by reflexivity.
    change (create_nucleus (Build false false) (s_fs real_sys) cfg2 1) with (create_nucleus (Build false false) (s_fs real_sys) pp 1). rewrite E0.
    erewrite bind_run by reflexivity.
    erewrite bind_run by exact E1. rewrite V. erewrite bind_run by reflexivity.
    erewrite bind_run by exact O. rewrite <- S3. erewrite bind_run by exact E4. reflexivity.
  - split; [reflexivity|]. split; [reflexivity|]. split; [reflexivity|]. intros rs. unfold sample_collision. apply collision_loop_co; reflexivity.
Qed.

(** Any grid on which the delivered event can be laid out. *)
Lemma regrid_finishes gmax ev2 s' d e2 co nA nB ev nst gst s1 rs1 :
  collider_new far_rng mid_solver (Build false false) 1 real_env pp real_sys = (Ret (co, nA, nB, ev, nst, gst), s1) ->
  event_from far_rng (Build false false) 1 1 co nA nB ev 0 (MkRstate (s_eng s1) nst gst) d rs1 ->
  event_new (on_grid gmax) = Ret ev2 ->
  event_compute false ev2 (d_A d) (d_B d) (co_nc co) = Ret e2 ->
  s' = Sys (rs_eng rs1) (s_fs s1) (s_out s1 ++ stream_line 0 0 (d_b d) (d_ncoll d) e2) (s_err s1) ->
  run_pp (on_grid gmax) = (Ret tt, s').
Proof.
  intros C (_ & nA' & nB' & HS & EA & EB & _) V HC ->.
  destruct (regrid_ctor gmax ev2 _ _ _ _ _ _ _ C V) as (co2 & C2 & N2 & M2 & W2 & S2).
  unfold run_pp, collide. erewrite bind_run by exact C2. cbv beta iota.
  unfold run_events. rewrite M2. change (zupto 1) with [0%Z]. cbn [mfold]. unfold one_event.
  unfold bind at 1 2. unfold in_rstate at 1. cbn [ru_sys ru_norm ru_gamma]. rewrite S2, HS. cbv beta iota zeta.
  unfold bind at 1. rewrite <- EA, <- EB, N2. unfold lift at 1. cbn [debug]. rewrite HC. cbv beta iota.
  rewrite W2. reflexivity.
Qed.

Lemma len_app (a b : string) : String.length (a ++ b) = (String.length a + String.length b)%nat.
Proof. induction a as [|c a IH]; cbn; [reflexivity|]. rewrite IH. reflexivity. Qed.

Lemma grid_new gmax (m : Z) : gmax = IZR m / 4 -> (1 <= m <= 1000)%Z -> exists ev, event_new (on_grid gmax) = Ret ev /\ evolved (on_grid gmax) ev /\
  0 <= ev_xymax ev <= 1000.
Proof.
  intros -> Hm. assert (1 <= IZR m <= 1000) by (split; apply IZR_le; lia).
  assert (P1 : 0 < grid_max (on_grid (IZR m / 4))) by (cbn; lra). assert (P2 : 0 < grid_step (on_grid (IZR m / 4))) by (cbn; lra).
  destruct (C12_geometry (on_grid (IZR m / 4)) P1 P2) as (ev & E & _ & _ & _ & _ & _ & _ & _ & X & _).
  { cbn. lra. }
  exists ev. split; [exact E|]. split; [constructor; exact E|]. cbn [grid_max grid_step on_grid with_output with_profile] in X. lra.
Qed.

(** The two protons of the run lie at the origin, so their profiles end at 5/2. *)
Lemma laid_out gmax sp ev d : 0 < gmax -> evolved (on_grid gmax) ev -> 0 <= ev_xymax ev <= 1000 ->
  (forall n, In n (d_A d) \/ In n (d_B d) -> n_part n = true -> n_cons n = [@Constituent RA 0 0 1]) ->
  exists e2, event_compute false ev (d_A d) (d_B d) (nucleon_common_of (on_grid gmax) sp) = Ret e2.
Proof.
  intros Hg V X PN. apply C13_compute_returns_R; [exact Hg|cbn; lra|exact V|].
  intros n Hn Hp. pose proof (PN n Hn Hp) as Q. split; [rewrite Q; discriminate|].
  intros b0 b1 b2 b3 x Hb Hi. change (grid_step (on_grid gmax)) with (1 / 2).
  assert (B : -5 / 2 <= x <= 5 / 2).
  { apply boundary_R in Hb. rewrite radius_sq_R in Hb. change (constit_width (on_grid gmax)) with (1 / 2) in Hb.
    rewrite (Rabs_right (1 / 2)) in Hb by lra. rewrite Q in Hb.
    destruct Hb as (_ & _ & (q0 & I0 & E0) & (q1 & I1 & E1) & (q2 & I2 & E2) & (q3 & I3 & E3)).
    destruct I0 as [<-|[]]. destruct I1 as [<-|[]]. destruct I2 as [<-|[]]. destruct I3 as [<-|[]]. cbn [q_x q_y] in E0, E1, E2, E3.
    destruct Hi as [<-|[<-|[<-|[<-|[]]]]]; lra. }
  lra.
Qed.

Lemma grid_delivered gmax s' ds :
  run_delivered far_rng mid_solver (Build false false) 1 1 1 real_env (on_grid gmax) real_sys s' ds ->
  exists d, ds = [d] /\ (forall n, In n (d_A d) \/ In n (d_B d) -> n_part n = true -> n_cons n = [@Constituent RA 0 0 1]).
Proof.
  intros (co & nA & nB & ev & nst & gst & s1 & rs & C & _ & F & _).
  pose proof (collider_new_inv _ _ _ _ _ _ _ _ _ _ _ _ _ _ C) as Hc.
  change (zupto (number_events (on_grid gmax))) with [0%Z] in F.
  inversion F as [|? ? ? d0 ra dt ? E F2]; subst. inversion F2; subst.
  pose proof (ct_A _ _ _ _ _ _ _ _ _ _ _ Hc) as HA. pose proof (ct_B _ _ _ _ _ _ _ _ _ _ _ Hc) as HB.
  assert (nA = proton) by (unfold create_nucleus in HA; cbn in HA; congruence).
  assert (nB = proton) by (unfold create_nucleus in HB; cbn in HB; congruence). subst nA nB.
  destruct (ct_nc _ _ _ _ _ _ _ _ _ _ _ Hc) as (sp & Hnc). change (nucleon_common_of (on_grid gmax) sp) with (nucleon_common_of pp sp) in Hnc.
  assert (B1 : co_bmin co = 0) by (rewrite (ct_bmin _ _ _ _ _ _ _ _ _ _ _ Hc); reflexivity).
  assert (B2 : co_bmax co = 0).
  { rewrite (ct_bmax _ _ _ _ _ _ _ _ _ _ _ Hc). unfold determine_bmax. cbn [b_max pp on_grid with_output with_profile real_config nltb nlit RA RA_with]. rlits.
    destruct (Rltb_spec 0 0); [lra|reflexivity]. }
  pose proof (pp_nucleons _ _ _ _ _ _ Hnc B1 B2 E) as PN0. exists d0. split; [reflexivity|].
  intros n [Hn|Hn] Hp; [exact (proj2 (PN0 _ (or_introl eq_refl)) n Hn Hp)|exact (proj2 (PN0 _ (or_intror eq_refl)) n Hn Hp)].
Qed.

(** p + p on a grid of half-width 3, and on one of half-width 4: one event, which
    fits the smaller grid; the printed line is the same. *)
Theorem C72_instance : exists s' s2' d d2,
  enlarged (on_grid 3) 2 = on_grid 4 /\ row_cells (on_grid 3) = 12%Z /\ row_cells (on_grid 4) = 16%Z /\
  run_pp (on_grid 3) = (Ret tt, s') /\ run_pp (on_grid 4) = (Ret tt, s2') /\
  run_delivered far_rng mid_solver (Build false false) 1 1 1 real_env (on_grid 3) real_sys s' [d] /\
  run_delivered far_rng mid_solver (Build false false) 1 1 1 real_env (on_grid 4) real_sys s2' [d2] /\
  fits (on_grid 3) d /\ same_collision d d2 /\
  middle_of 12 2 (ev_TR (d_event d)) (ev_TR (d_event d2)) /\
  ev_mult (d_event d2) = ev_mult (d_event d) /\ ev_ecc (d_event d2) = ev_ecc (d_event d) /\
  s_out s2' = s_out s' /\ s_out s' <> EmptyString.
Proof.
  destruct (pp_run_finishes (Build false false)) as (s0 & H). fold pp in H.
  destruct (C51_replay _ _ _ _ _ _ _ _ _ _ _ H) as (ds & co & nA & nB & ev & nst & gst & s1 & rs & C & _ & F & _).
  pose proof (collider_new_inv _ _ _ _ _ _ _ _ _ _ _ _ _ _ C) as Hc.
  change (zupto (number_events pp)) with [0%Z] in F.
  inversion F as [|? ? ? d0 ra dt ? E F2]; subst. inversion F2; subst.
  pose proof (ct_A _ _ _ _ _ _ _ _ _ _ _ Hc) as HA. pose proof (ct_B _ _ _ _ _ _ _ _ _ _ _ Hc) as HB.
  assert (nA = proton) by (unfold create_nucleus in HA; cbn in HA; congruence).
  assert (nB = proton) by (unfold create_nucleus in HB; cbn in HB; congruence). subst nA nB.
  destruct (ct_nc _ _ _ _ _ _ _ _ _ _ _ Hc) as (sp & Hnc).
  assert (B1 : co_bmin co = 0) by (rewrite (ct_bmin _ _ _ _ _ _ _ _ _ _ _ Hc); reflexivity).
  assert (B2 : co_bmax co = 0).
  { rewrite (ct_bmax _ _ _ _ _ _ _ _ _ _ _ Hc). unfold determine_bmax. cbn [b_max pp real_config nltb nlit RA RA_with]. rlits.
    destruct (Rltb_spec 0 0); [lra|reflexivity]. }
  pose proof (pp_nucleons _ _ _ _ _ _ Hnc B1 B2 E) as PN0.
  assert (PN : forall n, In n (d_A d0) \/ In n (d_B d0) -> n_part n = true -> n_cons n = [@Constituent RA 0 0 1]).
  { intros n [Hn|Hn] Hp; [exact (proj2 (PN0 _ (or_introl eq_refl)) n Hn Hp)|exact (proj2 (PN0 _ (or_intror eq_refl)) n Hn Hp)]. }
  destruct (grid_new 3 12) as (ev1 & V1 & W1 & X1); [lra|lia|]. destruct (grid_new 4 16) as (ev2 & V2 & W2 & X2); [lra|lia|].
  destruct (laid_out 3 sp ev1 d0 ltac:(lra) W1 X1 PN) as (e1 & L1). destruct (laid_out 4 sp ev2 d0 ltac:(lra) W2 X2 PN) as (e2 & L2).
  change (nucleon_common_of (on_grid 3) sp) with (nucleon_common_of pp sp) in L1. change (nucleon_common_of (on_grid 4) sp) with (nucleon_common_of pp sp) in L2.
  rewrite <- Hnc in L1, L2.
  pose proof (regrid_finishes 3 ev1 _ d0 e1 _ _ _ _ _ _ _ _ C E V1 L1 eq_refl) as R1.
  pose proof (regrid_finishes 4 ev2 _ d0 e2 _ _ _ _ _ _ _ _ C E V2 L2 eq_refl) as R2.
  assert (EG : enlarged (on_grid 3) 2 = on_grid 4).
  { unfold enlarged, on_grid, with_output, with_profile. cbn. f_equal. lra. }
  assert (RC : forall m g, g = IZR m / 4 -> row_cells (on_grid g) = m).
  { intros m g ->. unfold row_cells. cbn [on_grid with_output with_profile grid_max grid_step]. replace (2 * (IZR m / 4) / (1 / 2)) with (IZR m) by field. apply Zceil_IZR. }
  assert (RC3 : row_cells (on_grid 3) = 12%Z) by (apply RC; lra). assert (RC4 : row_cells (on_grid 4) = 16%Z) by (apply RC; lra).
  match type of R1 with _ = (_, ?a) => set (sA := a) in * end. match type of R2 with _ = (_, ?a) => set (sB := a) in * end.
  pose proof R2 as R2'. rewrite <- EG in R2'.
  destruct (C72_larger_grid far_rng mid_solver (Build false false) 1 1 1 real_env (on_grid 3) real_sys sA sB 2) as (_ & ds & ds2 & D & D2 & P);
    [lia|cbn; lra|cbn; lra|cbn; lra|exact R1|exact R2'|].
  destruct (C72_stdout far_rng mid_solver (Build false false) 1 1 1 real_env (on_grid 3) real_sys sA sB 2) as (dss & Ds & SO);
    [lia|cbn; lra|cbn; lra|cbn; lra|exact R1|exact R2'|].
  assert (FIT : forall d, (forall n, In n (d_A d) \/ In n (d_B d) -> n_part n = true -> n_cons n = [@Constituent RA 0 0 1]) -> fits (on_grid 3) d).
  { intros d Q n q Hn Hp Hq. rewrite (Q n Hn Hp) in Hq. destruct Hq as [<-|[]]. cbn. rewrite Rabs_R0. lra. }
  destruct (grid_delivered 3 _ _ D) as (d & -> & Q). destruct (grid_delivered 3 _ _ Ds) as (d' & -> & Q').
  inversion P as [|? d2 ? ? (Q1 & _ & _ & Q2 & _ & Q3) Z]; subst. inversion Z; subst. clear Z.
  destruct (Q3 (FIT d Q)) as [Q4 Q5]. rewrite RC3 in Q2. rewrite EG in D2.
  exists sA, sB, d, d2. split; [exact EG|]. split; [exact RC3|]. split; [exact RC4|]. split; [exact R1|]. split; [exact R2|].
  split; [exact D|]. split; [exact D2|]. split; [exact (FIT d Q)|]. split; [exact Q1|]. split; [exact Q2|]. split; [exact Q4|]. split; [exact Q5|].
  split; [apply SO; constructor; [exact (FIT d' Q')|constructor]|].
  unfold sA. cbn [s_out]. intros Em. apply (f_equal String.length) in Em. revert Em. unfold stream_line. rewrite !len_app.
  change (String.length newline) with 1%nat. change (String.length EmptyString) with 0%nat. lia.
Qed.
