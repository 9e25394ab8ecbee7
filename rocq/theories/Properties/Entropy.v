(** C60: how entropy is deposited does not influence the collisions. *)
From Coq Require Import Reals Lra.
From Verif.Base Require Import Result Arith RArith Rng.
From Verif.Model Require Import FastExp Config Nucleon Nucleus Event Files CrossSection Output Collider.
From Verif.Spec Require Import History Collision Contract Replay Grid Evolved Mean Total Ecc Entropy.
From Verif.Proof Require Import Basics RBasics Pairs Sampling Ctor Collision EveryEvent GridP EventP FreshP NucleonP DepositR
  MeanP EccP SymP ReducedP MeanOrder EccScale.
From Verif.Properties Require Import Events GridProps Reduced Replay.
Local Open Scope R_scope.

(** The two constructors agree on everything but the event object. *)
Lemma profile_ctor {A} (R : Rng A) (sv : Solver A) bd cfuel e cfg p norm gmax gstep (s : sys R)
    co nA nB ev nst gst s1 co2 nA2 nB2 ev2 nst2 gst2 s12 :
  collider_new R sv bd cfuel e cfg s = (Ret (co, nA, nB, ev, nst, gst), s1) ->
  collider_new R sv bd cfuel e (with_profile cfg p norm gmax gstep) s = (Ret (co2, nA2, nB2, ev2, nst2, gst2), s12) ->
  nA2 = nA /\ nB2 = nB /\ nst2 = nst /\ gst2 = gst /\ s_eng s12 = s_eng s1 /\ co_nc co2 = co_nc co /\
  co_calc_ncoll co2 = co_calc_ncoll co /\ co_bmin co2 = co_bmin co /\ co_bmax co2 = co_bmax co /\ co_asym co2 = co_asym co.
Proof.
  intros C C2. set (cfg2 := with_profile cfg p norm gmax gstep) in *.
  unfold collider_new in C, C2. mstep C. unfold get in E. apply pair_Ret_inj in E. destruct E as [<- <-].
  mstep C2. unfold get in E. apply pair_Ret_inj in E. destruct E as [<- <-].
  mstep C. mstep E. mstep C2. mstep E0. change (create_nucleus bd (s_fs s) cfg2 0) with (create_nucleus bd (s_fs s) cfg 0) in E0.
  rewrite E in E0. inversion E0; subst x0; clear E0.
  mstep C. mstep E0. mstep C2. mstep E1. change (create_nucleus bd (s_fs s) cfg2 1) with (create_nucleus bd (s_fs s) cfg 1) in E1.
  rewrite E0 in E1. inversion E1; subst x1; clear E1.
  mstep C. mstep C2. change (partonic_cross_section R sv cfuel e cfg2 s) with (partonic_cross_section R sv cfuel e cfg s) in E2.
  rewrite E1 in E2. inversion E2; subst; clear E2.
  mstep C. mstep E2. mstep C2. mstep E3.
  mstep C. mstep C2. apply output_new_inv in E4. destruct E4 as (w1 & _ & _ & G1 & _).
  apply output_new_inv in E5. destruct E5 as (w2 & _ & _ & G2 & _).
  mstep C. mstep C2. change (random_seed cfg2) with (random_seed cfg) in E5.
  mstep C. mstep C2. cbn [co_nc co_calc_ncoll co_bmin co_bmax co_asym].
  assert (Eng : s_eng s12 = s_eng s1).
  { destruct (0 <? random_seed cfg)%Z.
    - inversion E4; inversion E5; subst. reflexivity.
    - unfold ret in E4, E5. inversion E4; inversion E5; subst. congruence. }
  repeat split; auto.
Qed.

(** Event by event, the two runs compute on the same nuclei. *)
Lemma events_pairs {A} (R : Rng A) bd fuel sfuel co co2 nA nB ev ev2 l :
  (forall rs, sample_collision R fuel sfuel co2 nA nB rs = sample_collision R fuel sfuel co nA nB rs) -> co_nc co2 = co_nc co ->
  forall (rs : rstate R) ds rs1 ds2 rs2,
  events_from R bd fuel sfuel co nA nB ev l rs ds rs1 ->
  events_from R bd fuel sfuel co2 nA nB ev2 l rs ds2 rs2 ->
  Forall2 (fun d d2 => same_collision d d2 /\
     event_compute (debug bd) ev (d_A d) (d_B d) (co_nc co) = Ret (d_event d) /\
     event_compute (debug bd) ev2 (d_A d) (d_B d) (co_nc co) = Ret (d_event d2)) ds ds2 /\ rs2 = rs1.
Proof.
  intros HS HN. induction l as [|n l IH]; intros rs ds rs1 ds2 rs2 H H2.
  - inversion H; inversion H2; subst. split; [constructor|reflexivity].
  - inversion H as [|? ? ? d ra dt ? E F]; subst. inversion H2 as [|? ? ? d2 ra2 dt2 ? E2 F2]; subst.
    destruct E as (N & nA' & nB' & S & EA & EB & V). destruct E2 as (N2 & nA2 & nB2 & S2 & EA2 & EB2 & V2).
    rewrite HS, S in S2. inversion S2; subst nA2 nB2 ra2; clear S2.
    destruct (IH _ _ _ _ _ F F2) as [IH1 ->]. split; [|reflexivity]. constructor; [|exact IH1].
    assert (DA : d_A d2 = d_A d) by congruence. assert (DB : d_B d2 = d_B d) by congruence.
    rewrite DA, DB, HN in V2. split; [|split; [exact V|exact V2]].
    pose proof (event_compute_npart _ _ _ _ _ _ V). pose proof (event_compute_npart _ _ _ _ _ _ V2).
    unfold same_collision. repeat split; congruence.
Qed.

(** Two finished runs. *)
Lemma profile_pairs {A} (R : Rng A) (sv : Solver A) bd cfuel fuel sfuel e cfg p norm gmax gstep (s s' s2' : sys R) :
  collide R sv bd cfuel fuel sfuel e cfg s = (Ret tt, s') ->
  collide R sv bd cfuel fuel sfuel e (with_profile cfg p norm gmax gstep) s = (Ret tt, s2') ->
  exists ds ds2 nA nB ev ev2 co rs rs1,
    run_delivered R sv bd cfuel fuel sfuel e cfg s s' ds /\
    run_delivered R sv bd cfuel fuel sfuel e (with_profile cfg p norm gmax gstep) s s2' ds2 /\
    s_eng s2' = s_eng s' /\
    nucleus_wf nA /\ nucleus_wf nB /\
    event_new cfg = Ret ev /\ event_new (with_profile cfg p norm gmax gstep) = Ret ev2 /\
    (exists sp, co_nc co = nucleon_common_of cfg sp) /\
    events_from R bd fuel sfuel co nA nB ev (zupto (number_events cfg)) rs ds rs1 /\
    Forall2 (fun d d2 => same_collision d d2 /\
      event_compute (debug bd) ev (d_A d) (d_B d) (co_nc co) = Ret (d_event d) /\
      event_compute (debug bd) ev2 (d_A d) (d_B d) (co_nc co) = Ret (d_event d2)) ds ds2.
Proof.
  intros H H2. destruct (C51_replay _ _ _ _ _ _ _ _ _ _ _ H) as (ds & D). destruct (C51_replay _ _ _ _ _ _ _ _ _ _ _ H2) as (ds2 & D2).
  pose proof D as (co & nA & nB & ev & nst & gst & s1 & rs & C & _ & F & Q).
  pose proof D2 as (co2 & nA2 & nB2 & ev2 & nst2 & gst2 & s12 & rs2 & C2 & _ & F2 & Q2).
  destruct (profile_ctor _ _ _ _ _ _ _ _ _ _ _ _ _ _ _ _ _ _ _ _ _ _ _ _ _ C C2) as (-> & -> & -> & -> & Ge & G1 & G2 & G3 & G4 & G5).
  rewrite Ge in F2. pose proof (collider_new_inv _ _ _ _ _ _ _ _ _ _ _ _ _ _ C) as Hc. pose proof (collider_new_inv _ _ _ _ _ _ _ _ _ _ _ _ _ _ C2) as Hc2.
  destruct (events_pairs R bd fuel sfuel co co2 nA nB ev ev2 (zupto (number_events cfg))) with (4 := F2) (3 := F) as [P E]; [|exact G1|].
  { intros rs0. unfold sample_collision. apply collision_loop_co; assumption. }
  exists ds, ds2, nA, nB, ev, ev2, co, (MkRstate (s_eng s1) nst gst), rs.
  split; [exact D|]. split; [exact D2|]. split; [congruence|].
  split; [eapply create_nucleus_wf, ct_A; eauto|]. split; [eapply create_nucleus_wf, ct_B; eauto|].
  split; [eapply ct_event; eauto|]. split; [eapply ct_event; eauto|]. split; [eapply ct_nc; eauto|].
  split; [exact F|exact P].
Qed.

Lemma Forall2_impl_in {X Y} (P Q : X -> Y -> Prop) l l' : Forall2 P l l' -> (forall x y, In x l -> P x y -> Q x y) -> Forall2 Q l l'.
Proof.
  induction 1 as [|x y l l' H H1 IH]; intros HI; constructor; [apply HI; [left; reflexivity|exact H]|].
  apply IH. intros; apply HI; [right|]; assumption.
Qed.

(** Runs from the same state of the machine which differ only in how entropy is
    deposited (--reduced-thickness, --normalization) and on which grid
    (--grid-max, --grid-step) contain the same collisions and leave the same
    random state. *)
Theorem C60_collisions : forall (A : Arith) (R : Rng A) (sv : Solver A) (bd : build) cfuel fuel sfuel e cfg (s s' s2' : sys R) p norm gmax gstep,
  collide R sv bd cfuel fuel sfuel e cfg s = (Ret tt, s') ->
  collide R sv bd cfuel fuel sfuel e (with_profile cfg p norm gmax gstep) s = (Ret tt, s2') ->
  exists ds ds2,
    run_delivered R sv bd cfuel fuel sfuel e cfg s s' ds /\
    run_delivered R sv bd cfuel fuel sfuel e (with_profile cfg p norm gmax gstep) s s2' ds2 /\
    Forall2 same_collision ds ds2 /\ s_eng s2' = s_eng s'.
Proof.
  intros A R sv bd cfuel fuel sfuel e cfg s s' s2' p norm gmax gstep H H2.
  destruct (profile_pairs R sv bd cfuel fuel sfuel e cfg p norm gmax gstep s s' s2' H H2)
    as (ds & ds2 & nA & nB & ev & ev2 & co & rs & rs1 & D & D2 & E & _ & _ & _ & _ & _ & _ & P).
  exists ds, ds2. split; [exact D|]. split; [exact D2|]. split; [|exact E].
  eapply Forall2_impl_in; [exact P|]. intros d d2 _ (Q & _). exact Q.
Qed.

(** ** The weights of participants are non-negative *)

Lemma sample_local_weights (rg : Rng RA) : rng_ok rg -> forall k x y s qs xc yc s1,
  sample_local rg k x y s = (Ret (qs, xc, yc), s1) -> forall q, In q qs -> 0 <= q_fluct q.
Proof.
  intros OK k. induction k as [|k IH]; intros x y s qs xc yc s1 H q Hq; cbn [sample_local] in H.
  - mstep H. destruct Hq.
  - mstep H. mstep H. mstep H. mstep H.
    destruct x3 as [[qs' xc'] yc']. mstep H.
    destruct Hq as [<-|Hq]; [|eapply IH; eauto]. cbn [q_fluct]. unfold draw_gamma in E1.
    pose proof (ok_gamma _ OK (rs_gamma s2) (rs_eng s2)) as G. cbn [nltb nofZ RA RA_with] in G. apply Rltb_false in G.
    destruct (gdraw rg (rs_gamma s2) (rs_eng s2)) as [[w g] e]. inversion E1; subst. exact G.
Qed.

Lemma constituent_weights (rg : Rng RA) nc (n0 n1 : nucleon RA) s s1 : rng_ok rg -> n_cexist n0 = false ->
  sample_constituent_positions rg nc n0 s = (Ret n1, s1) -> forall q, In q (n_cons n1) -> 0 <= q_fluct q.
Proof.
  intros OK H0 H q Hq. unfold sample_constituent_positions in H. rewrite H0 in H.
  destruct (_ <? _)%Z; [inversion H|]. mstep H. destruct x as [[qs xc] yc]. mstep H.
  cbn [n_cons] in Hq. apply in_map_iff in Hq. destruct Hq as (q0 & <- & Hq). cbn [q_fluct].
  eapply sample_local_weights; eauto.
Qed.

Lemma event_weights (rg : Rng RA) bd fuel sfuel co nA nB ev l (rs : rstate rg) ds rs1 : rng_ok rg -> nucleus_wf nA -> nucleus_wf nB ->
  events_from rg bd fuel sfuel co nA nB ev l rs ds rs1 ->
  forall d (n : nucleon RA) (q : constituent RA), In d ds -> In n (d_A d) \/ In n (d_B d) -> n_part n = true -> In q (n_cons n) -> 0 <= q_fluct q.
Proof.
  intros OK WA WB H. induction H as [|n0 ns rs d rs1 ds rs' E F IH]; intros d' n q Hd; [destruct Hd|].
  destruct Hd as [<-|Hd]; [|exact (IH _ _ _ Hd)]. destruct E as (_ & nA' & nB' & S & EA & EB & _).
  destruct (collision_loop_sampled rg _ _ _ _ _ _ _ _ _ _ _ _ WA WB S) as (sa & Hs & W1 & W2 & _).
  pose proof (sample_nucleons_reset _ _ _ _ _ _ _ W1 (sd_A _ _ _ _ _ _ _ _ _ _ Hs)) as (_ & _ & LA & FA).
  pose proof (sample_nucleons_reset _ _ _ _ _ _ _ W2 (sd_B _ _ _ _ _ _ _ _ _ _ Hs)) as (_ & _ & LB & FB).
  pose proof (sd_history _ _ _ _ _ _ _ _ _ _ Hs) as Hh.
  destruct (pass_came_from rg _ _ _ _ _ _ _ _ FA FB Hh) as [CA CB].
  destruct (pass_cons_ok rg _ _ _ _ _ _ _ _ FA FB Hh) as [OA OB].
  assert (G : forall l0 l1, Forall (@is_reset RA) l0 -> Forall2 (came_from rg (co_nc co)) l0 l1 -> Forall (cons_ok (co_nc co)) l1 ->
     In n l1 -> n_part n = true -> In q (n_cons n) -> 0 <= q_fluct q).
  { intros l0 l1 F0 F1 F2 Hi Hp Hq. rewrite Forall_forall in F0, F2. destruct (F2 n Hi) as [O1 _]. specialize (O1 Hp).
    apply In_nth_error in Hi. destruct Hi as (i & Hi).
    destruct (Forall2_nth_l _ _ _ _ _ F1 Hi) as (n1 & Hn1 & (_ & [(Q & _)|(_ & sx & sy & n2 & E2 & E3)])); [congruence|].
    rewrite E3 in Hq. apply nth_error_In in Hn1. destruct (F0 _ Hn1) as [_ R0].
    eapply constituent_weights; eauto. }
  rewrite EA, EB. intros [Hi|Hi] Hp Hq; [eapply (G _ _ FA CA OA)|eapply (G _ _ FB CB OB)]; eauto.
Qed.

(** ** Normalization *)

Lemma scaled_grid (TR TR2 : grid RA) N c : square N TR -> square N TR2 ->
  (forall iy ix, (0 <= iy < N)%Z -> (0 <= ix < N)%Z -> cell TR2 iy ix = c * cell TR iy ix) ->
  row_major TR2 = map (Rmult c) (row_major TR).
Proof.
  intros S S2 H. rewrite <- (cells_row_major' _ _ S), <- (cells_row_major' _ _ S2), map_map. apply map_ext_in.
  intros [iy ix] Hc. apply in_cells in Hc. cbn [fst snd]. apply H; apply Hc.
Qed.

Theorem C60_normalization : forall (rg : Rng RA) (sv : Solver RA) (bd : build) cfuel fuel sfuel e (cfg : config RA) (s s' s2' : sys rg) c,
  collide rg sv bd cfuel fuel sfuel e cfg s = (Ret tt, s') ->
  collide rg sv bd cfuel fuel sfuel e (with_entropy cfg (reduced_thickness cfg) (c * normalization cfg)) s = (Ret tt, s2') ->
  exists ds ds2,
    run_delivered rg sv bd cfuel fuel sfuel e cfg s s' ds /\
    run_delivered rg sv bd cfuel fuel sfuel e (with_entropy cfg (reduced_thickness cfg) (c * normalization cfg)) s s2' ds2 /\
    Forall2 (fun d d2 => same_collision d d2 /\ scaled_by c d d2 /\
      (0 < c -> off_the_cut d -> off_the_cut d2 -> ev_ecc (d_event d2) = ev_ecc (d_event d))) ds ds2.
Proof.
  intros rg sv bd cfuel fuel sfuel e cfg s s' s2' c H H2.
  destruct (profile_pairs rg sv bd cfuel fuel sfuel e cfg _ _ _ _ s s' s2' H H2)
    as (ds & ds2 & nA & nB & ev & ev2 & co & rs & rs1 & D & D2 & _ & _ & _ & Hv & Hv2 & (sp & Hnc) & _ & P).
  exists ds, ds2. split; [exact D|]. split; [exact D2|]. eapply Forall2_impl_in; [exact P|].
  intros d d2 _ (Q & E1 & E2). split; [exact Q|]. rewrite Hnc in E1, E2.
  pose proof (evolved_new _ _ Hv) as V1. pose proof (evolved_new _ _ Hv2) as V2.
  destruct (C15_linear cfg c sp ev ev2 (debug bd) (d_A d) (d_B d) (d_event d) V1 V2 E1) as (ev2' & E2' & CC & M).
  assert (X : ev2' = d_event d2).
  { change (nucleon_common_of (with_norm cfg (c * normalization cfg)) sp) with (nucleon_common_of cfg sp) in E2'. congruence. }
  subst ev2'.
  pose proof (evolved_ready _ _ V1) as R1. pose proof (evolved_ready _ _ V2) as R2.
  pose proof (event_compute_inv _ _ _ _ _ _ R1 E1) as (_ & _ & _ & _ & S1 & _).
  pose proof (event_compute_inv _ _ _ _ _ _ R2 E2) as (_ & _ & _ & _ & S2 & _).
  assert (NS : ev_nsteps ev2 = ev_nsteps ev).
  { clear -Hv Hv2. unfold event_new in Hv, Hv2. unfold with_entropy, with_profile in Hv2. cbn [grid_max grid_step] in Hv2.
    mstep Hv. mstep Hv. rewrite E in Hv2. cbn [rbind] in Hv2. mstep Hv2. reflexivity. }
  rewrite NS in S2.
  assert (RM : row_major (ev_TR (d_event d2)) = map (Rmult c) (row_major (ev_TR (d_event d)))) by (eapply scaled_grid; eauto).
  split; [split; [exact RM|exact M]|].
  intros Hc O1 O2. rewrite (C17_harmonics _ _ _ _ _ _ _ V1 E1), (C17_harmonics _ _ _ _ _ _ _ V2 E2), NS.
  set (t := fun q : Z * Z => cell (ev_TR (d_event d)) (fst q) (snd q)).
  assert (G : forall n, (1 <= n <= 5)%nat -> ecc_n n (cells (ev_nsteps ev)) (fun q : Z * Z => cell (ev_TR (d_event d2)) (fst q) (snd q))
                  = ecc_n n (cells (ev_nsteps ev)) t).
  { intros n Hn. transitivity (ecc_n n (cells (ev_nsteps ev)) (fun q => c * t q)).
    - apply ecc_n_ext. intros [iy ix] Hq. apply in_cells in Hq. apply CC; apply Hq.
    - apply ecc_scale; [exact Hn|exact Hc|]. intros q Hq.
      assert (I1 : In (t q) (row_major (ev_TR (d_event d)))).
      { rewrite <- (cells_row_major' _ _ S1). apply in_map_iff. exists q. split; [reflexivity|exact Hq]. }
      assert (I2 : In (c * t q) (row_major (ev_TR (d_event d2)))) by (rewrite RM; apply in_map; exact I1).
      apply O1 in I1. apply O2 in I2. unfold cut. destruct I1 as [I1|I1]; [left; exact I1|].
      destruct I2 as [I2|I2]; [left; apply Rmult_integral in I2; destruct I2; [lra|assumption]|]. right. lra. }
  rewrite !G by lia. reflexivity.
Qed.

(** ** Larger p, more entropy *)

Theorem C60_larger_p : forall (rg : Rng RA) (sv : Solver RA) (bd : build) cfuel fuel sfuel e (cfg : config RA) (s s' s2' : sys rg) p2,
  rng_ok rg -> 0 < grid_step cfg -> 0 < constit_width cfg -> (0 < constit_number cfg <= 2147483647)%Z -> 0 <= normalization cfg ->
  reduced_thickness cfg <= p2 ->
  collide rg sv bd cfuel fuel sfuel e cfg s = (Ret tt, s') ->
  collide rg sv bd cfuel fuel sfuel e (with_entropy cfg p2 (normalization cfg)) s = (Ret tt, s2') ->
  exists ds ds2,
    run_delivered rg sv bd cfuel fuel sfuel e cfg s s' ds /\
    run_delivered rg sv bd cfuel fuel sfuel e (with_entropy cfg p2 (normalization cfg)) s s2' ds2 /\
    Forall2 (fun d d2 => same_collision d d2 /\ more_entropy d d2) ds ds2.
Proof.
  intros rg sv bd cfuel fuel sfuel e cfg s s' s2' p2 OK Hd Hw Hm Hn Hp H H2.
  destruct (profile_pairs rg sv bd cfuel fuel sfuel e cfg _ _ _ _ s s' s2' H H2)
    as (ds & ds2 & nA & nB & ev & ev2 & co & rs & rs1 & D & D2 & _ & WA & WB & Hv & Hv2 & (sp & Hnc) & EF & P).
  exists ds, ds2. split; [exact D|]. split; [exact D2|]. eapply Forall2_impl_in; [exact P|].
  intros d d2 Hin (Q & E1 & E2). split; [exact Q|]. rewrite Hnc in E1, E2.
  pose proof (evolved_new _ _ Hv) as V1. pose proof (evolved_new _ _ Hv2) as V2.
  pose proof (evolved_ready _ _ V1) as R1. pose proof (evolved_ready _ _ V2) as R2.
  pose proof (event_compute_inv _ _ _ _ _ _ R1 E1) as (_ & _ & _ & _ & S1 & _).
  pose proof (event_compute_inv _ _ _ _ _ _ R2 E2) as (_ & _ & _ & _ & S2 & _).
  assert (NS : ev_nsteps ev2 = ev_nsteps ev).
  { clear -Hv Hv2. unfold event_new in Hv, Hv2. unfold with_entropy, with_profile in Hv2. cbn [grid_max grid_step] in Hv2.
    mstep Hv. mstep Hv. rewrite E in Hv2. cbn [rbind] in Hv2. mstep Hv2. reflexivity. }
  pose proof (event_weights _ _ _ _ _ _ _ _ _ _ _ _ OK WA WB EF) as HW.
  assert (CC : forall q, In q (cells (ev_nsteps ev)) ->
     cell (ev_TR (d_event d)) (fst q) (snd q) <= cell (ev_TR (d_event d2)) (fst q) (snd q)).
  { intros [iy ix] Hq. apply in_cells in Hq. cbn [fst snd].
    destruct (C14_cell cfg sp ev (debug bd) (d_A d) (d_B d) (d_event d) iy ix Hd Hw Hm) as (a & b & TA & TB & Ha & Hb & ->); auto; try apply Hq.
    { intros n q Hi Hpt Hc. eapply HW; eauto. }
    destruct (C14_cell (with_entropy cfg p2 (normalization cfg)) sp ev2 (debug bd) (d_A d) (d_B d) (d_event d2) iy ix)
      as (a2 & b2 & TA2 & TB2 & _ & _ & ->); auto; try (rewrite NS; apply Hq).
    { intros n q Hi Hpt Hc. eapply HW; eauto. }
    rewrite NS in TA2, TB2.
    change (grid_step (with_entropy cfg p2 (normalization cfg))) with (grid_step cfg) in TA2, TB2.
    change (nucleon_common_of (with_entropy cfg p2 (normalization cfg)) sp) with (nucleon_common_of cfg sp) in TA2, TB2.
    assert (U : forall nc nucl x y T T', total_thickness (debug bd) nc nucl x y T -> total_thickness (debug bd) nc nucl x y T' -> T = T').
    { clear. intros nc nucl x y T T' (ts & F & ->) (ts' & F' & ->). f_equal. revert ts' F'.
      induction F as [|n t l ts H F IH]; intros ts' F'; inversion F'; subst; [reflexivity|]. f_equal; [congruence|apply IH; assumption]. }
    rewrite (U _ _ _ _ _ _ TA2 TA), (U _ _ _ _ _ _ TB2 TB).
    change (normalization (with_entropy cfg p2 (normalization cfg))) with (normalization cfg).
    apply Rmult_le_compat_l; [exact Hn|]. apply M_p_order; assumption. }
  rewrite NS in S2. split.
  - rewrite <- (cells_row_major' _ _ S1), <- (cells_row_major' _ _ S2).
    revert CC. generalize (cells (ev_nsteps ev)). intros l. induction l as [|q l IH]; intros CC; cbn [map]; constructor.
    + apply CC. left. reflexivity.
    + apply IH. intros; apply CC. right. assumption.
  - destruct (compute_R _ _ _ _ _ _ _ V1 E1) as [EM1 _]. destruct (compute_R _ _ _ _ _ _ _ V2 E2) as [EM2 _].
    rewrite EM1, EM2, NS. change (grid_step (with_entropy cfg p2 (normalization cfg))) with (grid_step cfg).
    apply Rmult_le_compat_l; [apply Rmult_le_pos; left; exact Hd|]. apply Rsum_le. exact CC.
Qed.

(** ** Whether a run finishes does not depend on p and norm *)

Lemma entropy_ctor {A} (R : Rng A) (sv : Solver A) bd cfuel e cfg p norm (s : sys R) co nA nB ev nst gst s1 :
  collider_new R sv bd cfuel e cfg s = (Ret (co, nA, nB, ev, nst, gst), s1) ->
  exists ev2, event_new (with_entropy cfg p norm) = Ret ev2 /\ ev_nsteps ev2 = ev_nsteps ev /\
    ev_dxy ev2 = ev_dxy ev /\ ev_xymax ev2 = ev_xymax ev /\
    collider_new R sv bd cfuel e (with_entropy cfg p norm) s = (Ret (co, nA, nB, ev2, nst, gst), s1).
Proof.
  intros C. set (cfg2 := with_entropy cfg p norm). unfold collider_new in C |- *.
  mstep C. unfold get in E. apply pair_Ret_inj in E. destruct E as [<- <-].
  mstep C. mstep E. mstep C. mstep E0. mstep C. mstep C. mstep E2. mstep C. mstep C. mstep C.
  assert (V : exists ev2, event_new cfg2 = Ret ev2 /\ ev_nsteps ev2 = ev_nsteps ev /\ ev_dxy ev2 = ev_dxy ev /\ ev_xymax ev2 = ev_xymax ev).
  { clear -E2. unfold event_new in E2 |- *. unfold cfg2, with_entropy, with_profile. cbn [grid_max grid_step].
    mstep E2. mstep E2. rewrite E. cbn [rbind]. eexists. split; [reflexivity|]. cbn [ev_nsteps ev_dxy ev_xymax]. auto. }
  destruct V as (ev2 & V & N1 & N2 & N3). exists ev2. split; [exact V|]. split; [exact N1|]. split; [exact N2|]. split; [exact N3|].
  erewrite bind_run by reflexivity.
  change (create_nucleus bd (s_fs s) cfg2 0) with (create_nucleus bd (s_fs s) cfg 0). rewrite E.
  erewrite bind_run by reflexivity.
  change (create_nucleus bd (s_fs s) cfg2 1) with (create_nucleus bd (s_fs s) cfg 1). rewrite E0.
  erewrite bind_run by reflexivity.
  erewrite bind_run by exact E1. rewrite V. erewrite bind_run by reflexivity.
  erewrite bind_run by exact E3. erewrite bind_run by exact E4. reflexivity.
Qed.

Definition same_grid {A} (ev ev2 : event A) : Prop :=
  ev_nsteps ev2 = ev_nsteps ev /\ ev_dxy ev2 = ev_dxy ev /\ ev_xymax ev2 = ev_xymax ev.

Lemma compute_other {A} dbg (ev ev2 : event A) As Bs nc ev' : ready ev -> ready ev2 -> same_grid ev ev2 ->
  event_compute dbg ev As Bs nc = Ret ev' ->
  exists ev2', event_compute dbg ev2 As Bs nc = Ret ev2' /\ ready ev' /\ ready ev2' /\ same_grid ev' ev2'.
Proof.
  intros R1 R2 (NS & DD & XX) H.
  pose proof (event_compute_inv _ _ _ _ _ _ R1 H) as (SP & (k & k' & EA & EB & _) & SA & SB & _).
  assert (E2 : exists ev2', event_compute dbg ev2 As Bs nc = Ret ev2').
  { unfold event_compute. rewrite NS, DD, XX, EA. cbn [rbind]. rewrite EB. cbn [rbind]. rewrite <- NS in SA, SB.
    destruct (reduced_thickness_spec ev2 (ev_TA ev') (ev_TB ev') SA SB (proj1 R2)) as (TR & ER & SR & _).
    rewrite ER. cbn [rbind]. rewrite <- NS.
    match goal with |- context [compute_observables ?n ?t ?a ?b] => destruct (observables_spec n t a b SR) as (ec & EO & _) end.
    rewrite EO. destruct ec as [[[e2 e3] e4] e5]. cbn [rbind]. eauto. }
  destruct E2 as (ev2' & E2). exists ev2'. split; [exact E2|].
  split; [exact (proj1 (event_compute_ready _ _ _ _ _ _ R1 H))|]. split; [exact (proj1 (event_compute_ready _ _ _ _ _ _ R2 E2))|].
  pose proof (event_compute_inv _ _ _ _ _ _ R2 E2) as (SP2 & _).
  destruct SP as (_ & _ & P1 & P2 & P3). destruct SP2 as (_ & _ & Q1 & Q2 & Q3). unfold same_grid. repeat split; congruence.
Qed.

(** stdout writers always return and do not touch the random state. *)
Lemma stdout_output {A} (R : Rng A) ws n b nc (ev : event A) (s : sys R) :
  Forall (fun w => match w with WStdout _ => True | _ => False end) ws ->
  exists s', run_output R ws n b nc ev s = (Ret tt, s') /\ s_eng s' = s_eng s.
Proof.
  unfold run_output. intros F. revert s. induction F as [|w ws Hw F IH]; intros s; [exists s; split; reflexivity|].
  destruct w; try contradiction. cbn [mfold run_writer]. unfold write_stdout. erewrite bind_run by reflexivity.
  destruct (IH (Sys (s_eng s) (s_fs s) (s_out s ++ stream_line width n b nc ev)%string (s_err s))) as (s' & E & G).
  exists s'. split; [exact E|exact G].
Qed.

Lemma stdout_loop {A} (R : Rng A) bd fuel sfuel co l :
  Forall (fun w => match w with WStdout _ => True | _ => False end) (co_writers co) ->
  forall (nA nB : nucleus A) ev ev2 (s s2 : run R) r s', ready ev -> ready ev2 -> same_grid ev ev2 -> random_part s2 = random_part s ->
  mfold (one_event R bd fuel sfuel co) l (nA, nB, ev) s = (Ret r, s') ->
  exists r2 s2', mfold (one_event R bd fuel sfuel co) l (nA, nB, ev2) s2 = (Ret r2, s2').
Proof.
  intros HW. induction l as [|n l IH]; intros nA nB ev ev2 s s2 r s' R1 R2 SG RP H; cbn [mfold] in H |- *; [unfold ret; eauto|].
  mstep H. rename E into H1. unfold one_event in H1. mstep H1. rename E into HS. destruct x0 as [[[b nc] nA'] nB'].
  mstep H1. mstep E. rename E into HC. mstep H1. mstep H1.
  unfold random_part in RP. injection RP as P1 P2 P3.
  unfold in_rstate in HS. destruct (sample_collision R fuel sfuel co nA nB (MkRstate (s_eng (ru_sys s)) (ru_norm s) (ru_gamma s))) as [r0 rs] eqn:EC.
  inversion HS; subst r0 s1; clear HS.
  destruct (compute_other _ _ _ _ _ _ _ R1 R2 SG HC) as (ev2' & E2 & R1' & R2' & SG').
  destruct (stdout_output R (co_writers co) n b nc ev2' (Sys (rs_eng rs) (s_fs (ru_sys s2)) (s_out (ru_sys s2)) (s_err (ru_sys s2))) HW) as (sy & EO & GO).
  assert (One : one_event R bd fuel sfuel co (nA, nB, ev2) n s2 = (Ret (nA', nB', ev2'), Run sy (rs_norm rs) (rs_gamma rs))).
  { unfold one_event. erewrite bind_run.
    2:{ unfold in_rstate. rewrite P1, P2, P3, EC. reflexivity. }
    cbv beta iota. erewrite bind_run.
    2:{ unfold lift. rewrite E2. reflexivity. }
    erewrite bind_run; [reflexivity|]. unfold in_sys. cbn [ru_sys ru_norm ru_gamma]. rewrite EO. reflexivity. }
  rewrite (bind_run _ _ _ _ _ One). eapply IH; [exact R1'|exact R2'|exact SG'| |exact H].
  unfold random_part. cbn [ru_sys ru_norm ru_gamma]. rewrite GO. cbn [s_eng].
  unfold in_sys in E. cbn [ru_sys ru_norm ru_gamma] in E.
  destruct (stdout_output R (co_writers co) n b nc x0 (Sys (rs_eng rs) (s_fs (ru_sys s)) (s_out (ru_sys s)) (s_err (ru_sys s))) HW) as (sy1 & EO1 & GO1).
  rewrite EO1 in E. inversion E; subst. cbn [ru_sys ru_norm ru_gamma]. rewrite GO1. reflexivity.
Qed.

Theorem C60_finishes : forall (A : Arith) (R : Rng A) (sv : Solver A) (bd : build) cfuel fuel sfuel e cfg (s s' : sys R) p norm,
  output cfg = None ->
  collide R sv bd cfuel fuel sfuel e cfg s = (Ret tt, s') ->
  exists s2', collide R sv bd cfuel fuel sfuel e (with_entropy cfg p norm) s = (Ret tt, s2').
Proof.
  intros A R sv bd cfuel fuel sfuel e cfg s s' p norm HO H. apply collide_inv in H.
  destruct H as (co & nA & nB & ev & nst & gst & s1 & r & s2 & Hn & Hr & ->).
  destruct (entropy_ctor R sv bd cfuel e cfg p norm s co nA nB ev nst gst s1 Hn) as (ev2 & V & N1 & N2 & N3 & C2).
  pose proof (collider_new_inv _ _ _ _ _ _ _ _ _ _ _ _ _ _ Hn) as Hc.
  assert (HW : Forall (fun w => match w with WStdout _ => True | _ => False end) (co_writers co)).
  { destruct (ct_writers _ _ _ _ _ _ _ _ _ _ _ Hc) as (width & _ & ->). unfold writers_of. rewrite HO.
    destruct (quiet cfg); repeat constructor. }
  assert (RV : ready ev) by (eapply event_new_ready, ct_event; eauto).
  assert (RV2 : ready ev2) by (eapply event_new_ready; eauto).
  unfold run_events in Hr.
  destruct (stdout_loop R bd fuel sfuel co _ HW nA nB ev ev2 _ (Run s1 nst gst) _ _ RV RV2 (conj N1 (conj N2 N3)) eq_refl Hr) as (r2 & t2 & L).
  unfold collide. rewrite (bind_run _ _ _ _ _ C2). unfold run_events. rewrite L. eauto.
Qed.
