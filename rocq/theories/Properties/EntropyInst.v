(** Concrete runs that meet the hypotheses of C60. *)
From Coq Require Import Reals Lra.
From Flocq Require Import Core.Raux.
From Verif.Base Require Import Result Arith RArith Rng.
From Verif.Model Require Import FastExp Config Nucleon Nucleus Event Files CrossSection Output Collider.
From Verif.Spec Require Import History Collision Contract Replay Grid Evolved Mean Total Ecc Entropy Demo.
From Verif.Proof Require Import Basics RBasics Pairs Sampling Ctor Collision EveryEvent GridP EventP FreshP NucleonP DepositR
  MeanP EccP SymP ReducedP MeanOrder EccScale.
From Verif.Properties Require Import Events GridProps Reduced Replay RealRun Entropy.
Local Open Scope R_scope.

Definition pp : config RA := real_config ["p"; "p"]%string 0.
Definition run_pp (cfg : config RA) := collide far_rng mid_solver (Build false false) 1 1 1 real_env cfg real_sys.

Lemma proton_at_origin (nu : nucleus RA) off e nu1 e1 : nu_kind nu = KProton -> length (nu_nucleons nu) = 1%nat -> off = 0 ->
  sample_nucleons far_rng 1 nu off e = (Ret nu1, e1) -> forall n, In n (nu_nucleons nu1) -> n_x n = 0 /\ n_y n = 0.
Proof.
  intros K L -> H n Hn. unfold sample_nucleons in H. rewrite K in H. destruct (nu_nucleons nu) as [|n0 [|]] eqn:E; try discriminate L.
  unfold sample_proton in H. mstep H. mstep E0. mstep H. cbn [nu_nucleons] in Hn. destruct Hn as [<-|[]].
  unfold set_nucleon_position, set_position. cbn [n_x n_y nadd nlit RA RA_with]. rlits. split; [toR; lra|reflexivity].
Qed.

(** In the p+p run at b = 0 the two protons lie on top of each other at the origin. *)
Lemma pp_nucleons co ev (rs : rstate far_rng) d rs1 sp : co_nc co = nucleon_common_of pp sp -> co_bmin co = 0 -> co_bmax co = 0 ->
  event_from far_rng (Build false false) 1 1 co proton proton ev 0 rs d rs1 ->
  forall l, l = d_A d \/ l = d_B d ->
   (exists n, In n l /\ n_part n = true) /\
   (forall n, In n l -> n_part n = true -> n_cons n = [@Constituent RA 0 0 1]).
Proof.
  intros Hnc B1 B2 (_ & nA' & nB' & HS & EA & EB & _).
  destruct (collision_loop_sampled far_rng 1 1 co proton proton 0%Z rs (d_b d) (d_ncoll d) nA' nB' rs1 eq_refl eq_refl HS)
    as (sa & Hs & W1 & W2 & _). rewrite <- EA, <- EB in Hs.
  assert (Zb : d_b d = 0).
  { rewrite (sd_b _ _ _ _ _ _ _ _ _ _ Hs), B1, B2. cbn [nsqrt nadd nmul nsub RA RA_with].
    match goal with |- sqrt ?x = 0 => replace x with 0 by (toR; ring) end. apply sqrt_0. }
  assert (PA : forall n, In n (nu_nucleons (sa_A1 sa)) -> n_x n = 0 /\ n_y n = 0).
  { eapply proton_at_origin; [exact (sd_kindA _ _ _ _ _ _ _ _ _ _ Hs)|exact (sd_lenA _ _ _ _ _ _ _ _ _ _ Hs)| |exact (sd_A _ _ _ _ _ _ _ _ _ _ Hs)].
    rewrite Zb. cbn [nmul RA RA_with]. toR. ring. }
  assert (PB : forall n, In n (nu_nucleons (sa_B1 sa)) -> n_x n = 0 /\ n_y n = 0).
  { eapply proton_at_origin; [exact (sd_kindB _ _ _ _ _ _ _ _ _ _ Hs)|exact (sd_lenB _ _ _ _ _ _ _ _ _ _ Hs)| |exact (sd_B _ _ _ _ _ _ _ _ _ _ Hs)].
    rewrite Zb. cbn [nmul RA RA_with]. toR. ring. }
  pose proof (sample_nucleons_reset _ _ _ _ _ _ _ W1 (sd_A _ _ _ _ _ _ _ _ _ _ Hs)) as (_ & _ & _ & FA).
  pose proof (sample_nucleons_reset _ _ _ _ _ _ _ W2 (sd_B _ _ _ _ _ _ _ _ _ _ Hs)) as (_ & _ & _ & FB).
  pose proof (sd_history _ _ _ _ _ _ _ _ _ _ Hs) as Hh.
  destruct (pass_came_from far_rng _ _ _ _ _ _ _ _ FA FB Hh) as [CA CB].
  destruct (pass_cons_ok far_rng _ _ _ _ _ _ _ _ FA FB Hh) as [OA OB].
  destruct (pass_hit far_rng _ _ _ _ _ _ _ _ FA FB Hh (sd_hit _ _ _ _ _ _ _ _ _ _ Hs)) as (i & j & a & b & _ & Ha & Hb & Pa & Pb).
  apply nth_error_In in Ha. apply nth_error_In in Hb.
  assert (G : forall l0 l, Forall (@is_reset RA) l0 -> (forall n, In n l0 -> n_x n = 0 /\ n_y n = 0) ->
     Forall2 (came_from far_rng (co_nc co)) l0 l -> Forall (cons_ok (co_nc co)) l ->
     forall n, In n l -> n_part n = true -> n_cons n = [@Constituent RA 0 0 1]).
  { intros l0 l F0 P0 F1 F2 n Hi Hp. rewrite Forall_forall in F0, F2. destruct (F2 n Hi) as [O1 _]. specialize (O1 Hp).
    apply In_nth_error in Hi. destruct Hi as (k & Hi).
    destruct (Forall2_nth_l _ _ _ _ _ F1 Hi) as (n1 & Hn1 & (_ & [(Q & _)|(_ & sx & sy & n2 & E2 & E3)])); [congruence|].
    apply nth_error_In in Hn1. destruct (F0 _ Hn1) as [_ R0]. destruct (P0 _ Hn1) as [X Y]. rewrite Hnc in E2.
    rewrite E3, (far_constituent _ _ _ _ _ _ _ R0 E2), X, Y. reflexivity. }
  intros l [->| ->]; split; eauto.
Qed.

(** Every cell is then far above the cut. *)
Lemma pp_thick sp (n : nucleon RA) x y : n_cons n = [@Constituent RA 0 0 1] -> -1 <= x <= 1 -> -1 <= y <= 1 ->
  / 1000 <= thick pp sp n x y.
Proof.
  intros Hc Hx Hy. unfold thick. rewrite Hc. cbn [RBasics.Rsum fold_right]. unfold term, dist2. cbn [q_x q_y q_fluct].
  change (constit_width pp) with (1 / 2).
  set (d := (x - 0) * (x - 0) + (y - 0) * (y - 0)).
  assert (D : 0 <= d <= 2) by (unfold d; split; nra).
  destruct (Rltb_spec d (5 * (1 / 2) * (5 * (1 / 2)))) as [L|L]; [|lra].
  destruct (fexp_ok true _ (arg_range _ _ (conj (proj1 D) L))) as [_ [F _]].
  assert (P : 1 / 4 <= nc_prefactor (nucleon_common_of pp sp)).
  { unfold nucleon_common_of, sqr. cbn [nc_prefactor]. change (to_size (constit_number pp)) with 1%Z. change (constit_width pp) with (1 / 2).
    cbn [none_div_two_pi ndiv nmul nofZ RA RA_with num].
    pose proof PI_4. pose proof PI_RGT_0. change (nofZ RA 1) with 1.
    replace (/ (2 * PI) / (1 / 2 * (1 / 2)) / 1) with (2 * / PI) by (field; lra).
    assert (/ 4 <= / PI) by (apply Rinv_le_contravar; lra). lra. }
  assert (X : / 81 <= exp (- (5 / 10) * d / (1 / 2 * (1 / 2)))).
  { apply Rle_trans with (exp (- (4))).
    - rewrite exp_Ropp. apply Rinv_le_contravar; [apply exp_pos|].
      replace 4 with (1 + 1 + 1 + 1) by ring. rewrite !exp_plus. pose proof exp_le_3. pose proof (exp_pos 1).
      assert (exp 1 * exp 1 <= 9) by nra. assert (0 < exp 1 * exp 1) by nra. nra.
    - replace (- (5 / 10) * d / (1 / 2 * (1 / 2))) with (- (2 * d)) by field.
      destruct (Req_dec (2 * d) 4) as [->|N]; [lra|]. left. apply exp_increasing. lra. }
  rewrite Rplus_0_r, Rmult_1_l.
  apply Rle_trans with (1 / 4 * (/ 81 * (1 - 2 / 100000))); [lra|].
  apply Rmult_le_compat; [lra|lra|exact P|]. eapply Rle_trans; [|exact F]. apply Rmult_le_compat_r; lra.
Qed.

Lemma pp_delivered cfg2 s' ds : cfg2 = pp ->
  run_delivered far_rng mid_solver (Build false false) 1 1 1 real_env cfg2 real_sys s' ds ->
  exists d, ds = [d] /\ off_the_cut d /\ forall t, In t (row_major (ev_TR (d_event d))) -> / 1000 <= t.
Proof.
  intros -> (co & nA & nB & ev & nst & gst & s1 & rs & C & _ & F & _).
  pose proof (collider_new_inv _ _ _ _ _ _ _ _ _ _ _ _ _ _ C) as Hc.
  change (zupto (number_events pp)) with [0%Z] in F.
  inversion F as [|? ? ? d ra dt ? E F2]; subst. inversion F2; subst. exists d. split; [reflexivity|].
  pose proof (ct_A _ _ _ _ _ _ _ _ _ _ _ Hc) as HA. pose proof (ct_B _ _ _ _ _ _ _ _ _ _ _ Hc) as HB.
  assert (nA = proton) by (unfold create_nucleus in HA; cbn in HA; congruence).
  assert (nB = proton) by (unfold create_nucleus in HB; cbn in HB; congruence). subst nA nB.
  destruct (ct_nc _ _ _ _ _ _ _ _ _ _ _ Hc) as (sp & Hnc).
  pose proof (ct_event _ _ _ _ _ _ _ _ _ _ _ Hc) as Hv.
  assert (B1 : co_bmin co = 0) by (rewrite (ct_bmin _ _ _ _ _ _ _ _ _ _ _ Hc); reflexivity).
  assert (B2 : co_bmax co = 0).
  { rewrite (ct_bmax _ _ _ _ _ _ _ _ _ _ _ Hc). unfold determine_bmax. cbn [b_max pp real_config nltb nlit RA RA_with]. rlits.
    destruct (Rltb_spec 0 0); [lra|reflexivity]. }
  pose proof (pp_nucleons _ _ _ _ _ _ Hnc B1 B2 E) as PN.
  destruct E as (_ & nA' & nB' & _ & _ & _ & EC). rewrite Hnc in EC.
  pose proof (evolved_new _ _ Hv) as V. pose proof (evolved_ready _ _ V) as R1.
  pose proof (event_compute_inv _ _ _ _ _ _ R1 EC) as (_ & _ & _ & _ & S1 & _).
  assert (NN : ev_nsteps ev = 4%Z).
  { destruct (C12_geometry pp) as (ev' & E' & N' & _); [cbn; lra..|]. assert (ev' = ev) by congruence. subst ev'.
    rewrite N'. cbn. replace (2 * 1 / (1 / 2)) with (IZR 4) by (simpl; field). apply Zceil_IZR. }
  assert (Low : forall t, In t (row_major (ev_TR (d_event d))) -> / 1000 <= t).
  { intros t Ht. rewrite <- (cells_row_major' _ _ S1) in Ht. apply in_map_iff in Ht. destruct Ht as ([iy ix] & <- & Hq).
    apply in_cells in Hq. cbn [fst snd].
    destruct (C14_cell pp sp ev (debug (Build false false)) (d_A d) (d_B d) (d_event d) iy ix) as (a & b & TA & TB & Ha & Hb & ->); try apply Hq; auto.
    - cbn. lra.
    - cbn. lra.
    - cbn. lia.
    - intros n q Hi Hp Hn. assert (X : n_cons n = [@Constituent RA 0 0 1]).
      { destruct Hi as [Hi|Hi]; [exact (proj2 (PN _ (or_introl eq_refl)) n Hi Hp)|exact (proj2 (PN _ (or_intror eq_refl)) n Hi Hp)]. }
      rewrite X in Hn. destruct Hn as [<-|[]]. cbn. lra.
    - change (normalization pp) with 1. change (reduced_thickness pp) with 0. rewrite NN in TA, TB, Hq. change (grid_step pp) with (1 / 2) in TA, TB.
      assert (XY : forall i, (0 <= i < 4)%Z -> -1 <= (IZR i + / 2) * (1 / 2) - IZR 4 * (1 / 2) / 2 <= 1).
      { intros i [I0 I1]. apply IZR_le in I0. assert (i <= 3)%Z as I2 by lia. apply IZR_le in I2. lra. }
      assert (G : forall l T x y, l = d_A d \/ l = d_B d -> -1 <= x <= 1 -> -1 <= y <= 1 ->
          total_thickness (debug (Build false false)) (nucleon_common_of pp sp) l x y T -> / 1000 <= T).
      { intros l T x y Hl Hx Hy (ts & FT & ->). destruct (PN l Hl) as [(n & Hn & Hp) HC].
        assert (Hf : In n (filter n_part l)) by (apply filter_In; auto).
        assert (Pos : forall m, In m (filter n_part l) -> / 1000 <= thick pp sp m x y).
        { intros m Hm. apply filter_In in Hm. apply pp_thick; auto. apply HC; apply Hm. }
        clear -FT Hf Pos. revert n Hf. induction FT as [|m t l' ts E FT IH]; intros n Hf; [destruct Hf|].
        assert (ET : t = thick pp sp m x y) by (unfold thick; pose proof (thickness_R pp sp (debug (Build false false)) m x y) as T0; cbv zeta in T0; congruence).
        pose proof (Pos m (or_introl eq_refl)) as Pm. rewrite <- ET in Pm.
        cbn [fold_right]. destruct l' as [|m' l'].
        - inversion FT; subst. cbn [fold_right]. lra.
        - assert (/ 1000 <= fold_right Rplus 0 ts) by (eapply IH; [intros; apply Pos; right; assumption|left; reflexivity]). lra. }
      pose proof (G _ _ _ _ (or_introl eq_refl) (XY ix (proj2 Hq)) (XY iy (proj1 Hq)) TA) as Ga.
      pose proof (G _ _ _ _ (or_intror eq_refl) (XY ix (proj2 Hq)) (XY iy (proj1 Hq)) TB) as Gb.
      rewrite Rmult_1_l. unfold M_p. rewrite Rabs_R0. destruct (Rlt_dec 0 eps12) as [_|N]; [|pose proof eps12_pos; contradiction].
      replace (/ 1000) with (sqrt (/ 1000 * / 1000)) by (apply sqrt_square; lra). apply sqrt_le_1_alt. apply Rmult_le_compat; lra. }
  split; [|exact Low]. intros t Ht. right. pose proof (Low t Ht). lra.
Qed.

(** p + p with arithmetic instead of geometric mean, and with three times the
    normalization. *)
Theorem C60_instance : exists s' s2' s3' d d2 d3,
  run_pp pp = (Ret tt, s') /\
  run_pp (with_entropy pp 1 1) = (Ret tt, s2') /\ run_pp (with_entropy pp 0 3) = (Ret tt, s3') /\
  same_collision d d2 /\ more_entropy d d2 /\
  (exists d0, same_collision d0 d3 /\ scaled_by 3 d0 d3 /\ ev_ecc (d_event d3) = ev_ecc (d_event d0) /\
     forall t, In t (row_major (ev_TR (d_event d0))) -> / 1000 <= t) /\
  run_delivered far_rng mid_solver (Build false false) 1 1 1 real_env pp real_sys s' [d] /\
  run_delivered far_rng mid_solver (Build false false) 1 1 1 real_env (with_entropy pp 1 1) real_sys s2' [d2] /\
  run_delivered far_rng mid_solver (Build false false) 1 1 1 real_env (with_entropy pp 0 3) real_sys s3' [d3].
Proof.
  destruct (pp_run_finishes (Build false false)) as (s' & H). fold pp in H. fold (run_pp pp) in H.
  destruct (C60_finishes RA far_rng mid_solver (Build false false) 1 1 1 real_env pp real_sys s' 1 1 eq_refl H) as (s2' & H2).
  destruct (C60_finishes RA far_rng mid_solver (Build false false) 1 1 1 real_env pp real_sys s' 0 3 eq_refl H) as (s3' & H3).
  destruct (C60_larger_p far_rng mid_solver (Build false false) 1 1 1 real_env pp real_sys s' s2' 1 far_ok ltac:(cbn; lra) ltac:(cbn; lra) ltac:(cbn; lia) ltac:(cbn; lra) ltac:(cbn; lra) H H2)
    as (ds & ds2 & D & D2 & P).
  assert (E3 : with_entropy pp 0 3 = with_entropy pp (reduced_thickness pp) (3 * normalization pp)).
  { change (normalization pp) with 1. rewrite Rmult_1_r. reflexivity. }
  pose proof H3 as H3'. rewrite E3 in H3'.
  destruct (C60_normalization far_rng mid_solver (Build false false) 1 1 1 real_env pp real_sys s' s3' 3 H H3') as (ds0 & ds3 & D0 & D3 & P3).
  destruct (pp_delivered _ _ _ eq_refl D) as (d & -> & _). destruct (pp_delivered _ _ _ eq_refl D0) as (d0 & -> & O0 & L0).
  inversion P as [|? d2 ? ? (Q1 & Q2) Z]; subst. inversion Z; subst.
  inversion P3 as [|? d3 ? ? (Q3 & Q4 & Q5) Z3]; subst. inversion Z3; subst.
  exists s', s2', s3', d, d2, d3. split; [exact H|]. split; [exact H2|]. split; [exact H3|]. split; [exact Q1|]. split; [exact Q2|].
  split.
  - exists d0. split; [exact Q3|]. split; [exact Q4|]. split; [|exact L0]. apply Q5; [lra|exact O0|].
    intros t Ht. right. rewrite (proj1 Q4) in Ht. apply in_map_iff in Ht. destruct Ht as (t0 & <- & Ht0). pose proof (L0 t0 Ht0). lra.
  - split; [exact D|]. split; [exact D2|]. rewrite E3. exact D3.
Qed.
