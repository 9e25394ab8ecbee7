(** C53: each event of a run collides the two projectiles named in the
    configuration, in that order. *)
From Coq Require Import Reals Lra Permutation Sorted.
From Verif.Base Require Import Result Arith RArith Rng.
From Verif.Model Require Import Random Config Nucleon Files Nucleus Event CrossSection Collider.
From Verif.Spec Require Import Contract Draws Geometry Species History Collision Runs.
From Verif.Proof Require Import Basics RBasics Pairs Sampling Ctor Collision ShiftP RadiiP EveryEvent.
From Verif.Properties Require Import Events Nuclei Species LightNuclei Impact Configured RealRun.
Local Open Scope R_scope.

(** The radius that stands for a nucleus in the default range of impact
    parameters: the radius parameter (for deformed nuclei the largest) plus three
    times the diffuseness; for the deuteron, where the Hulthen proposal is 1/100. *)
Definition species_radius (sh : shape) : R :=
  match sh with
  | Point => 0
  | Hulthen a _ => ln 100 / (2 * milli a)
  | Spherical r a => milli r + 3 * milli a
  | Deformed r a b2 b4 => milli r * (1 + 63 / 100 * Rabs (milli b2) + 85 / 100 * Rabs (milli b4)) + 3 * milli a
  end.

(** Nucleons [ns] placed about (centre, 0, 0) with minimum distance [d]. *)
Definition nucleus_at (N : nat) (sh : shape) (d centre : R) (ns : list (nucleon RA)) : Prop :=
  length ns = N /\
  match sh with
  | Point => forall n, In n ns -> pos n = (centre, 0, 0)
  | Hulthen _ _ => exists n1 n2, ns = [n1; n2] /\
      from_centre centre n2 = (- vx (from_centre centre n1), - vy (from_centre centre n1), - vz (from_centre centre n1))
  | Spherical r a =>
      (forall n, In n ns -> vnorm (from_centre centre n) <= milli r + 10 * milli a) /\
      exists tries, apart d tries ns
  | Deformed r a b2 b4 =>
      (forall n, In n ns -> vnorm (from_centre centre n) <=
         milli r * (1 + 63 / 100 * Rabs (milli b2) + 85 / 100 * Rabs (milli b4)) + 10 * milli a) /\
      exists tries, apart d tries ns
  end.

Lemma radius_species sh d nu : has_shape sh d (nu_kind nu) -> radius (A:=RA) nu = species_radius sh.
Proof.
  unfold radius, has_shape. intros H. destruct sh, (nu_kind nu); try contradiction; cbn [species_radius].
  - cbn [nlit RA RA_with]. apply Rlit_0.
  - destruct H as [-> ->]. cbn [nlit ndiv nneg nlog nofZ nmul RA RA_with]. rewrite Rlit_m2.
    unfold Rdiv. rewrite <- ln_Rinv by lra. f_equal. f_equal. lra.
  - destruct H as (-> & -> & _). cbn [nadd nmul nlit RA RA_with]. rewrite Rlit_0. reflexivity.
  - destruct H as (_ & -> & _ & _ & _ & ->). cbn [nsub nmul nlit RA RA_with]. rewrite Rlit_0. toR. lra.
Qed.

Definition diffuse_ok (sh : shape) : Prop :=
  match sh with
  | Spherical r a => 0 <= milli r + 10 * milli a
  | Deformed r a b2 b4 => 0 <= milli r * (1 + 63 / 100 * Rabs (milli b2) + 85 / 100 * Rabs (milli b4)) + 10 * milli a
  | _ => True
  end.

Lemma species_diffuse s N sh : lookup s species = Some (N, sh) -> diffuse_ok sh.
Proof.
  unfold species. cbn [lookup].
  repeat (destruct (String.eqb _ _); [intros E; injection E as _ <-; cbn [diffuse_ok]; unfold milli; try exact I; try lra;
    match goal with |- 0 <= _ * (1 + _ * Rabs ?x + _ * Rabs ?y) + _ => pose proof (Rabs_pos x); pose proof (Rabs_pos y); nra end|]).
  discriminate.
Qed.

Lemma sampled_nucleus_at (rg : Rng RA) : rng_ok rg -> forall N sh d fuel (nu nu' : nucleus RA) (offset : R) e e',
  0 <= d -> diffuse_ok sh -> has_shape sh d (nu_kind nu) -> length (nu_nucleons nu) = N -> nucleus_wf nu ->
  sample_nucleons rg fuel nu offset e = (Ret nu', e') -> nucleus_at N sh d offset (nu_nucleons nu').
Proof.
  intros OK N sh d fuel nu nu' offset e e' Hd Dok Sh L W H.
  destruct (sample_nucleons_reset rg _ _ _ _ _ _ W H) as (_ & _ & Ln & _). unfold has_shape in Sh.
  split; [congruence|]. destruct (nu_kind nu) as [|a b|r' a' d2|r' a' b2' b4' rmax d2|] eqn:K; destruct sh as [|za zb|zr za|zr za zb2 zb4]; try contradiction.
  - unfold nucleus_wf in W. rewrite K in W. unfold sample_nucleons in H. rewrite K in H. unfold sample_proton in H.
    destruct (nu_nucleons nu) as [|n [|? ?]]; try discriminate W.
    apply bind_Ret_inv in H. destruct H as (ns' & e2 & H & Hr). unfold ret in Hr, H. apply pair_Ret_inj in Hr. destruct Hr as [<- <-].
    apply pair_Ret_inj in H. destruct H as [<- <-]. cbn [nu_nucleons]. intros m [<-|[]].
    unfold pos, set_nucleon_position, set_position. cbn [n_x n_y n_z]. toR. rlits. f_equal. f_equal. ring.
  - unfold nucleus_wf in W. rewrite K in W. unfold sample_nucleons in H. rewrite K in H. unfold sample_deuteron in H.
    apply bind_Ret_inv in H. destruct H as (ns' & e2 & H & Hr). unfold ret in Hr. apply pair_Ret_inj in Hr. destruct Hr as [<- <-]. cbn [nu_nucleons].
    apply bind_Ret_inv in H. destruct H as (r & e1 & _ & H).
    erewrite bind_run in H by apply cos_theta_run. erewrite bind_run in H by apply phi_run.
    destruct (nu_nucleons nu) as [|m1 [|m2 [|? ?]]]; try discriminate W.
    destruct (polar _ _ _) as [[x y] z]. unfold ret in H. apply pair_Ret_inj in H. destruct H as [<- <-].
    do 2 eexists. split; [reflexivity|]. unfold from_centre, set_nucleon_position, set_position, vx, vy, vz. cbn [n_x n_y n_z fst snd].
    toR. repeat f_equal; ring.
  - destruct Sh as (-> & -> & ->). cbn [diffuse_ok] in Dok.
    destruct (C29_min_distance rg OK fuel nu nu' _ _ d offset e e' K Hd Dok H) as (_ & _ & tries & _ & T1 & _ & T2 & T3 & T4).
    destruct (C30_woods_saxon rg OK fuel nu nu' _ _ d offset e e' K Hd Dok H) as (raw & radii & tr & e0 & _ & _ & _ & L1 & L2 & L3 & _ & Hi).
    split; [|exists tries; unfold apart; tauto].
    intros n Hn. apply In_nth_error in Hn. destruct Hn as (i & Hn).
    destruct (nth_error_same_length _ radii i n (eq_trans L3 (eq_sym L1)) Hn) as (r & Hr).
    destruct (nth_error_same_length _ tr i n (eq_trans L3 (eq_sym L2)) Hn) as (k & Hk).
    destruct (Hi i n r k Hn Hr Hk) as (-> & B & _). apply B.
  - destruct Sh as (-> & -> & -> & -> & -> & ->). cbn [diffuse_ok] in Dok.
    destruct (C31_deformed rg OK fuel nu nu' _ _ _ _ _ d offset e e' K Hd Dok H) as (m & raw & pts & tr & e0 & _ & _ & _ & _ & L1 & L2 & L3 & _ & Hi).
    assert (G : forall i n, nth_error (nu_nucleons nu') i = Some n -> exists r c k, nth_error pts i = Some (r, c) /\ nth_error tr i = Some k).
    { intros i n Hn. destruct (nth_error_same_length _ pts i n (eq_trans L3 (eq_sym L1)) Hn) as ([r c] & Hr).
      destruct (nth_error_same_length _ tr i n (eq_trans L3 (eq_sym L2)) Hn) as (k & Hk). eauto. }
    assert (GK : forall k, In k tr -> (1 <= k <= 1000)%nat /\ (d * d < 1 / 10000000000 -> k = 1%nat)).
    { intros k Hk. apply In_nth_error in Hk. destruct Hk as (i & Hk).
      destruct (nth_error_same_length _ (nu_nucleons nu') i k (eq_trans L2 (eq_sym L3)) Hk) as (n & Hn).
      destruct (G i n Hn) as (r & c & k' & Hr & Hk'). destruct (Hi i n r c k Hn Hr Hk) as (_ & _ & _ & _ & B1 & B2 & _). auto. }
    split.
    + intros n Hn. apply In_nth_error in Hn. destruct Hn as (i & Hn). destruct (G i n Hn) as (r & c & k & Hr & Hk).
      destruct (Hi i n r c k Hn Hr Hk) as (_ & -> & B & _). apply B.
    + exists tr. unfold apart. split; [congruence|]. split; [intros k Hk; apply (GK k Hk)|]. split; [intros D k Hk; apply (GK k Hk); exact D|].
      intros i n k Hn Hk. destruct (G i n Hn) as (r & c & k' & Hr & _). destruct (Hi i n r c k Hn Hr Hk) as (_ & _ & _ & _ & _ & _ & B). exact B.
Qed.

Lemma same_pos_pos (a b : nucleon RA) : same_pos a b -> pos b = pos a /\ forall c, from_centre c b = from_centre c a.
Proof. intros (X & Y & Z). unfold pos, from_centre. rewrite X, Y, Z. auto. Qed.

Lemma F2_nth {X Y} (P : X -> Y -> Prop) l l' i y : Forall2 P l l' -> nth_error l' i = Some y -> exists x, nth_error l i = Some x /\ P x y.
Proof.
  intros F. revert i. induction F as [|a b l l' Hab F IH]; intros [|i] H; try discriminate H.
  - cbn in H. injection H as <-. exists a. auto.
  - apply IH. exact H.
Qed.

Lemma nucleus_at_same_pos N sh d c l l' : Forall2 (@same_pos RA) l l' -> nucleus_at N sh d c l -> nucleus_at N sh d c l'.
Proof.
  intros F [L H]. assert (L' : length l' = length l) by (clear -F; induction F; cbn; congruence).
  split; [congruence|].
  assert (AP : forall tries, apart d tries l -> apart d tries l').
  { intros tries (A1 & A2 & A3 & A4). unfold apart. split; [congruence|]. split; [exact A2|]. split; [exact A3|].
    intros i n k Hn Hk. destruct (F2_nth _ _ _ _ _ F Hn) as (n0 & Hn0 & Pn).
    destruct (A4 i n0 k Hn0 Hk) as [A|[A|A]]; [auto|auto|right; right].
    intros j m Hj Hm. destruct (F2_nth _ _ _ _ _ F Hm) as (m0 & Hm0 & Pm).
    destruct (same_pos_pos _ _ Pn) as [-> _]. destruct (same_pos_pos _ _ Pm) as [-> _]. eapply A; eassumption. }
  assert (FC : forall r, (forall n, In n l -> vnorm (from_centre c n) <= r) -> forall n, In n l' -> vnorm (from_centre c n) <= r).
  { intros r B n Hn. apply In_nth_error in Hn. destruct Hn as (i & Hn). destruct (F2_nth _ _ _ _ _ F Hn) as (n0 & Hn0 & Pn).
    destruct (same_pos_pos _ _ Pn) as [_ ->]. apply B. eapply nth_error_In, Hn0. }
  destruct sh.
  - intros n Hn. apply In_nth_error in Hn. destruct Hn as (i & Hn). destruct (F2_nth _ _ _ _ _ F Hn) as (n0 & Hn0 & Pn).
    destruct (same_pos_pos _ _ Pn) as [-> _]. apply H. eapply nth_error_In, Hn0.
  - destruct H as (n1 & n2 & -> & E). inversion F as [|? m1 ? ? P1 F1]; subst. inversion F1 as [|? m2 ? ? P2 F2]; subst. inversion F2; subst.
    exists m1, m2. split; [reflexivity|]. destruct (same_pos_pos _ _ P1) as [_ Q1]. destruct (same_pos_pos _ _ P2) as [_ Q2]. rewrite Q1, Q2. exact E.
  - destruct H as [B (t & A)]. split; [apply FC, B|eauto].
  - destruct H as [B (t & A)]. split; [apply FC, B|eauto].
Qed.

(** The largest impact parameter that is tried. *)
Definition widest (cfg : config RA) (shA shB : shape) : R :=
  if Rlt_dec (b_max cfg) 0 then species_radius shA + species_radius shB + 6 * nucleon_width cfg else b_max cfg.

(** In every event of every finished run with two documented projectiles, the
    first projectile's nucleons sit about (s b, 0, 0), the second one's about
    ((s-1) b, 0, 0); s is given by the two radii, b is drawn from the ring
    between --b-min and the widest impact parameter. *)
Theorem C53_projectiles :
  every_event_in RA (fun rg bd sfuel cfg co nA nB ev0 d =>
    forall nameA nameB NA NB shA shB,
    nth_error (projectile cfg) 0 = Some nameA -> nth_error (projectile cfg) 1 = Some nameB ->
    lookup nameA species = Some (NA, shA) -> lookup nameB species = Some (NB, shB) ->
    rng_ok rg -> 0 <= nucleon_min_dist cfg -> 0 <= nucleon_width cfg ->
    let s := share (species_radius shA) (species_radius shB) in
    nucleus_at NA shA (nucleon_min_dist cfg) (s * d_b d) (d_A d) /\
    nucleus_at NB shB (nucleon_min_dist cfg) ((s - 1) * d_b d) (d_B d) /\
    (2 <= ev_npart (d_event d) <= Z.of_nat (NA + NB))%Z /\
    exists u, 0 <= u < 1 /\
      d_b d = sqrt (b_min cfg ^ 2 + (widest cfg shA shB ^ 2 - b_min cfg ^ 2) * u)).
Proof.
  apply every_event_in_intro.
  intros rg sv bd cfuel sfuel e cfg s co nA nB ev0 nst gst s1 d Hn Hc WA WB G nameA nameB NA NB shA shB PA PB LA LB OK Hd Hw sh.
  pose proof (ct_A _ _ _ _ _ _ _ _ _ _ _ Hc) as KA. pose proof (ct_B _ _ _ _ _ _ _ _ _ _ _ Hc) as KB.
  unfold create_nucleus in KA, KB. rewrite PA in KA. rewrite PB in KB.
  destruct (C27_table bd (s_fs s) nameA (nucleon_min_dist cfg) NA shA LA) as (nu & E & NlA & SA). assert (nu = nA) by congruence. subst nu.
  destruct (C27_table bd (s_fs s) nameB (nucleon_min_dist cfg) NB shB LB) as (nu & E' & NlB & SB). assert (nu = nB) by congruence. subst nu.
  pose proof (radius_species _ _ _ SA) as RdA. pose proof (radius_species _ _ _ SB) as RdB.
  assert (LnA : length (nu_nucleons nA) = NA) by (rewrite NlA; apply repeat_length).
  assert (LnB : length (nu_nucleons nB) = NB) by (rewrite NlB; apply repeat_length).
  pose proof G as (sa & Hs & W1 & W2 & _ & He).
  destruct (history_pos _ _ _ _ _ _ _ _ _ _ (sd_history _ _ _ _ _ _ _ _ _ _ Hs)) as [FA FB].
  assert (AS : co_asym co = sh). { rewrite (ct_asym _ _ _ _ _ _ _ _ _ _ _ Hc), determine_asym_R, RdA, RdB. reflexivity. }
  pose proof (sd_A _ _ _ _ _ _ _ _ _ _ Hs) as SmA. pose proof (sd_B _ _ _ _ _ _ _ _ _ _ Hs) as SmB.
  rewrite AS in SmA, SmB. cbn [nmul nsub nlit RA RA_with] in SmA, SmB. rewrite Rlit_0 in SmB.
  split; [|split; [|split]].
  - eapply nucleus_at_same_pos; [exact FA|].
    eapply (sampled_nucleus_at rg OK NA shA); [exact Hd|eapply species_diffuse, LA| | |exact W1|exact SmA].
    + rewrite (sd_kindA _ _ _ _ _ _ _ _ _ _ Hs). exact SA.
    + rewrite (sd_lenA _ _ _ _ _ _ _ _ _ _ Hs). exact LnA.
  - eapply nucleus_at_same_pos; [exact FB|].
    eapply (sampled_nucleus_at rg OK NB shB); [exact Hd|eapply species_diffuse, LB| | |exact W2|exact SmB].
    + rewrite (sd_kindB _ _ _ _ _ _ _ _ _ _ Hs). exact SB.
    + rewrite (sd_lenB _ _ _ _ _ _ _ _ _ _ Hs). exact LnB.
  - pose proof (genuine_history _ _ _ _ _ _ _ _ _ _ G) as (As & Bs & s0 & hs & s2 & LA' & LB' & FA' & FB' & HH & Ht & _).
    apply event_compute_npart in He. unfold npart_of in He.
    rewrite <- LA', <- LB' in HH.
    destruct (pass_hit rg _ _ _ _ _ _ _ _ FA' FB' HH Ht) as (i & j & a & b & _ & Ha & Hb & Pa & Pb).
    pose proof (history_length _ _ _ _ _ _ _ _ _ _ HH) as (_ & L1 & L2).
    apply nth_error_In in Ha. apply nth_error_In in Hb.
    pose proof (npart_pos _ _ Ha Pa). pose proof (npart_pos _ _ Hb Pb).
    pose proof (npart_le_length (d_A d)). pose proof (npart_le_length (d_B d)).
    unfold npart_of in *. rewrite L1, L2 in *. lia.
  - destruct (sd_canonical _ _ _ _ _ _ _ _ _ _ Hs) as (e0 & Hu).
    exists (sa_u sa). split.
    { pose proof (drawn_range rg OK 0 e0) as D. change (0 <= fst (canonical rg e0) < 1) in D. rewrite Hu in D. exact D. }
    rewrite (sd_b _ _ _ _ _ _ _ _ _ _ Hs), (ct_bmin _ _ _ _ _ _ _ _ _ _ _ Hc),
      (effective_bmax_ok _ _ _ _ _ _ _ _ _ _ _ Hc Hw).
    unfold effective_bmax, widest. rewrite RdA, RdB. set (B := if Rlt_dec _ _ then _ else _).
    cbn [nsqrt nadd nsub nmul RA RA_with]. f_equal. simpl. ring.
Qed.

(** The Pb+p run of RealRun meets the hypotheses: 208 nucleons about b, one at 0. *)
Example C53_instance : exists s' co nA nB ev0 nst gst s1 d,
  collider_new far_rng mid_solver (Build false false) 1 real_env (real_config ["Pb"; "p"]%string (1208 / 100)) real_sys
    = (Ret (co, nA, nB, ev0, nst, gst), s1) /\
  delivered far_rng (co_writers co) [d] s1 s' /\
  d_b d = 1208 / 100 /\
  nucleus_at 208 (Spherical 6620 546) 0 (1208 / 100) (d_A d) /\
  (exists n, d_B d = [n] /\ pos n = (0, 0, 0)) /\
  (2 <= ev_npart (d_event d) <= 209)%Z.
Proof.
  destruct (pbp_run_finishes (Build false false)) as (s' & H). exists s'. apply C53_projectiles in H.
  destruct H as (co & nA & nB & ev0 & nst & gst & s1 & ds & Hn & Len & _ & Hd & _ & Hp).
  change (Z.to_nat (number_events (real_config ["Pb"; "p"]%string (1208 / 100)))) with 1%nat in Len.
  destruct ds as [|d [|? ?]]; try discriminate.
  exists co, nA, nB, ev0, nst, gst, s1, d. split; [exact Hn|]. split; [exact Hd|].
  destruct (Hp d (or_introl eq_refl) "Pb"%string "p"%string 208%nat 1%nat (Spherical 6620 546) Point eq_refl eq_refl eq_refl eq_refl far_ok)
    as (P1 & P2 & P3 & u & Hu & Eb); [cbn [nucleon_min_dist nucleon_width real_config]; lra..|].
  assert (Sh : share (species_radius (Spherical 6620 546)) (species_radius Point) = 1).
  { unfold share. cbn [species_radius]. unfold milli. destruct (Rlt_dec _ _); [lra|field]. }
  rewrite Sh in P1, P2.
  assert (B : d_b d = 1208 / 100).
  { rewrite Eb. unfold widest. cbn [b_min b_max real_config]. destruct (Rlt_dec _ _); [lra|].
    replace (_ + _) with ((1208 / 100) ^ 2) by ring. rewrite sqrt_pow2 by lra. reflexivity. }
  rewrite B in P1, P2. cbn [nucleon_min_dist real_config] in P1, P2. split; [exact B|].
  split; [replace (1208 / 100) with (1 * (1208 / 100)) by lra; exact P1|]. split; [|exact P3].
  destruct P2 as [L P2]. cbn in P2. destruct (d_B d) as [|n [|? ?]]; try discriminate L.
  exists n. split; [reflexivity|]. rewrite (P2 n (or_introl eq_refl)). f_equal. f_equal. lra.
Qed.
