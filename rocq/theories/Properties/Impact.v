(** C05-C07 in real arithmetic: the impact parameter and the placement of the nuclei. *)
From Coq Require Import Reals Lra Permutation Sorted.
From Verif.Base Require Import Result Arith RArith Rng.
From Verif.Model Require Import Random Config Nucleon Files Nucleus Event CrossSection Output Collider.
From Verif.Spec Require Import History Collision Runs Contract Draws Geometry.
From Verif.Proof Require Import Basics RBasics Pairs Sampling Ctor Collision EveryEvent ShiftP RadiiP ManualP ImpactP.
From Verif.Properties Require Import Events Nuclei LightNuclei.
Local Open Scope R_scope.

(** The upper end of the impact-parameter range: --b-max, or if that is negative
    the sum of the two radii and the maximum nucleon-nucleon impact parameter. *)
Definition effective_bmax (cfg : config RA) (nA nB : nucleus RA) : R :=
  if Rlt_dec (b_max cfg) 0 then radius nA + radius nB + 6 * nucleon_width cfg else b_max cfg.

Lemma effective_bmax_ok rg bd cfg co nA nB ev0 nst gst s s1 :
  constructed (A:=RA) rg bd cfg co nA nB ev0 nst gst s s1 -> 0 <= nucleon_width cfg ->
  co_bmax co = effective_bmax cfg nA nB.
Proof.
  intros Hc Hw. rewrite (ct_bmax _ _ _ _ _ _ _ _ _ _ _ Hc).
  destruct (ct_nc _ _ _ _ _ _ _ _ _ _ _ Hc) as (sp & ->).
  unfold determine_bmax, effective_bmax. cbn [nltb nlit RA RA_with nadd]. rlits. unfold Rltb.
  destruct (Rlt_dec (b_max cfg) 0); [|reflexivity].
  rewrite (proj2 (in_range_is_distance cfg sp nucleon_zero nucleon_zero Hw)). reflexivity.
Qed.

(** ** C05, real arithmetic *)
Theorem C05_range_real :
  every_event_in RA (fun rg bd sfuel cfg co nA nB ev0 d =>
    rng_ok rg -> 0 <= nucleon_width cfg ->
    0 <= b_min cfg -> b_min cfg <= effective_bmax cfg nA nB ->
    b_min cfg <= d_b d <= effective_bmax cfg nA nB /\
    (b_min cfg = b_max cfg -> d_b d = b_min cfg)).
Proof.
  apply every_event_in_intro.
  intros rg sv bd cfuel sfuel e cfg s co nA nB ev0 nst gst s1 d _ Hc WA WB G OK Hw H0 H1.
  destruct (genuine_b _ _ _ _ _ _ _ _ _ _ G OK) as (u & Hu & ->).
  rewrite (effective_bmax_ok _ _ _ _ _ _ _ _ _ _ _ Hc Hw).
  rewrite (ct_bmin _ _ _ _ _ _ _ _ _ _ _ Hc).
  pose proof (sample_b_range (b_min cfg) (effective_bmax cfg nA nB) u H0 H1) as B.
  split; [apply B; lra|]. intros E.
  assert (X : effective_bmax cfg nA nB = b_min cfg).
  { unfold effective_bmax. destruct (Rlt_dec (b_max cfg) 0); lra. }
  rewrite X in *. assert (b_min cfg <= sample_b (A:=RA) (b_min cfg) (b_min cfg) u <= b_min cfg) by (apply B; lra). lra.
Qed.

(** The law of the impact parameter.  Every reported b comes from one uniform
    number u in [0,1) delivered by the generator ... *)
Theorem C05_formula :
  every_event_in RA (fun rg bd sfuel cfg co nA nB ev0 d =>
    rng_ok rg -> 0 <= nucleon_width cfg ->
    exists u e e', canonical rg e = (u, e') /\ 0 <= u < 1 /\
      d_b d = sqrt (b_min cfg ^ 2 + (effective_bmax cfg nA nB ^ 2 - b_min cfg ^ 2) * u)).
Proof.
  apply every_event_in_intro.
  intros rg sv bd cfuel sfuel e cfg s co nA nB ev0 nst gst s1 d _ Hc WA WB G OK Hw.
  destruct G as (sa & Hs & _). destruct (sd_canonical _ _ _ _ _ _ _ _ _ _ Hs) as (e0 & He).
  exists (sa_u sa), e0, (sa_e1 sa). split; [exact He|]. split.
  { pose proof (drawn_range rg OK 0 e0) as D. change (0 <= fst (canonical rg e0) < 1) in D. rewrite He in D. exact D. }
  rewrite (sd_b _ _ _ _ _ _ _ _ _ _ Hs), (ct_bmin _ _ _ _ _ _ _ _ _ _ _ Hc),
    (effective_bmax_ok _ _ _ _ _ _ _ _ _ _ _ Hc Hw).
  cbn [nsqrt nadd nsub nmul RA RA_with]. f_equal. simpl. ring.
Qed.

(** ... so that b <= x exactly if u is at most the ratio of the areas of the rings
    [bmin, x] and [bmin, bmax]: dP is proportional to b db. *)
Theorem C05_area_law :
  forall bmin bmax x u : R,
  0 <= bmin < bmax -> bmin <= x <= bmax -> 0 <= u <= 1 ->
  (sqrt (bmin ^ 2 + (bmax ^ 2 - bmin ^ 2) * u) <= x <->
   u <= (PI * x ^ 2 - PI * bmin ^ 2) / (PI * bmax ^ 2 - PI * bmin ^ 2)).
Proof.
  intros bmin bmax x u H1 H2 H3. pose proof PI_RGT_0 as HP.
  assert (P : 0 < bmax ^ 2 - bmin ^ 2) by nra.
  replace ((PI * x ^ 2 - PI * bmin ^ 2) / (PI * bmax ^ 2 - PI * bmin ^ 2))
    with ((x ^ 2 - bmin ^ 2) / (bmax ^ 2 - bmin ^ 2)) by (field; assert (0 < PI * (bmax ^ 2 - bmin ^ 2)) by (apply Rmult_lt_0_compat; lra); repeat split; nra).
  set (D := bmax ^ 2 - bmin ^ 2) in *.
  assert (Q : u <= (x ^ 2 - bmin ^ 2) / D <-> bmin ^ 2 + D * u <= x ^ 2).
  { split; intros H.
    - apply (Rmult_le_compat_r D) in H; [|lra]. unfold Rdiv in H. rewrite Rmult_assoc, Rinv_l in H by lra. lra.
    - apply (Rmult_le_reg_r D); [lra|]. unfold Rdiv. rewrite Rmult_assoc, Rinv_l by lra. lra. }
  rewrite Q. assert (0 <= bmin ^ 2 + D * u) by nra.
  split; intros H0.
  - apply Rle_trans with (sqrt (bmin ^ 2 + D * u) ^ 2); [rewrite pow2_sqrt; lra|]. apply pow_incr. split; [apply sqrt_pos|auto].
  - replace x with (sqrt (x ^ 2)) by (apply sqrt_pow2; lra). apply sqrt_le_1_alt. exact H0.
Qed.

(** Every impact parameter of the range is reached. *)
Theorem C05_reached :
  forall bmin bmax b : R, 0 <= bmin -> bmin <= b < bmax ->
  exists u, 0 <= u < 1 /\ sqrt (bmin ^ 2 + (bmax ^ 2 - bmin ^ 2) * u) = b.
Proof.
  intros bmin bmax b H0 H. assert (P : 0 < bmax ^ 2 - bmin ^ 2) by nra.
  exists ((b ^ 2 - bmin ^ 2) / (bmax ^ 2 - bmin ^ 2)). split.
  - split; [apply Rmult_le_pos; [nra|left; apply Rinv_0_lt_compat; lra]|].
    apply (Rmult_lt_reg_r (bmax ^ 2 - bmin ^ 2)); [lra|]. unfold Rdiv. rewrite Rmult_assoc, Rinv_l by lra. nra.
  - replace (bmin ^ 2 + (bmax ^ 2 - bmin ^ 2) * ((b ^ 2 - bmin ^ 2) / (bmax ^ 2 - bmin ^ 2))) with (b ^ 2) by (field; lra).
    apply sqrt_pow2. lra.
Qed.

(** ** C06 *)

(** Share of the impact parameter given to projectile A. *)
Definition share (rA rB : R) : R := if Rlt_dec (rA + rB) (1 / 10) then 1 / 2 else rA / (rA + rB).

Lemma share_range rA rB : 0 <= rA -> 0 <= rB -> 0 <= share rA rB <= 1 /\ (rA = rB -> share rA rB = 1 / 2).
Proof.
  intros HA HB. unfold share. destruct (Rlt_dec (rA + rB) (1 / 10)) as [|Hge]; [split; [lra|auto]|].
  split.
  - split; [apply Rmult_le_pos; [lra|left; apply Rinv_0_lt_compat; lra]|].
    apply (Rmult_le_reg_r (rA + rB)); [lra|]. unfold Rdiv. rewrite Rmult_assoc, Rinv_l by lra. lra.
  - intros ->. field. lra.
Qed.

Lemma determine_asym_R (nA nB : nucleus RA) : determine_asym nA nB = share (radius nA) (radius nB).
Proof.
  unfold determine_asym, share. cbn [nltb nlit RA RA_with nadd ndiv]. rlits. unfold Rltb.
  destruct (Rlt_dec (radius nA + radius nB) (1 / 10)); [toR; lra|reflexivity].
Qed.

Lemma Forall2_trans_pos {X Y Z} (P : X -> Y -> Prop) (Q : Y -> Z -> Prop) (T : X -> Z -> Prop) l1 l2 l3 :
  (forall x y z, P x y -> Q y z -> T x z) -> Forall2 P l1 l2 -> Forall2 Q l2 l3 -> Forall2 T l1 l3.
Proof.
  intros H H1. revert l3. induction H1 as [|x y l l' Hx H1 IH]; intros l3 H2; inversion H2; subst; constructor; eauto.
Qed.

(** The nucleons of each event are those of the two nuclei sampled about the
    origin (with the same random numbers), displaced along x only. *)
Theorem C06_displacement :
  every_event_in RA (fun rg bd sfuel cfg co nA nB ev0 d =>
    let s := share (radius nA) (radius nB) in
    let xA := s * d_b d in let xB := - (1 - s) * d_b d in
    xA - xB = d_b d /\ 0 <= s <= 1 /\ (radius nA = radius nB -> s = 1 / 2) /\
    exists nuA cA nuB cB e1 e2 e3,
      nu_kind nuA = nu_kind nA /\ nu_kind nuB = nu_kind nB /\
      sample_nucleons rg sfuel nuA 0 e1 = (Ret cA, e2) /\
      sample_nucleons rg sfuel nuB 0 e2 = (Ret cB, e3) /\
      Forall2 (fun c n : nucleon RA => pos n = (n_x c + xA, n_y c, n_z c)) (nu_nucleons cA) (d_A d) /\
      Forall2 (fun c n : nucleon RA => pos n = (n_x c + xB, n_y c, n_z c)) (nu_nucleons cB) (d_B d)).
Proof.
  apply every_event_in_intro.
  intros rg sv bd cfuel sfuel e cfg s co nA nB ev0 nst gst s1 d _ Hc WA WB G. cbv zeta.
  pose proof (create_radius_nonneg _ _ _ _ _ (ct_A _ _ _ _ _ _ _ _ _ _ _ Hc)) as RA0.
  pose proof (create_radius_nonneg _ _ _ _ _ (ct_B _ _ _ _ _ _ _ _ _ _ _ Hc)) as RB0.
  destruct (share_range _ _ RA0 RB0) as [S1 S2].
  split; [ring|]. split; [exact S1|]. split; [exact S2|].
  destruct G as (sa & Hs & W1 & W2 & _ & _).
  destruct (centred_sample _ _ _ _ _ _ _ W1 (sd_A _ _ _ _ _ _ _ _ _ _ Hs)) as (cA & EA & FA).
  destruct (centred_sample _ _ _ _ _ _ _ W2 (sd_B _ _ _ _ _ _ _ _ _ _ Hs)) as (cB & EB & FB).
  destruct (history_pos _ _ _ _ _ _ _ _ _ _ (sd_history _ _ _ _ _ _ _ _ _ _ Hs)) as [PA PB].
  exists (sa_A0 sa), cA, (sa_B0 sa), cB, (sa_e1 sa), (sa_e2 sa), (rs_eng (sa_start sa)).
  split; [apply (sd_kindA _ _ _ _ _ _ _ _ _ _ Hs)|]. split; [apply (sd_kindB _ _ _ _ _ _ _ _ _ _ Hs)|].
  split; [exact EA|]. split; [exact EB|].
  rewrite (ct_asym _ _ _ _ _ _ _ _ _ _ _ Hc), determine_asym_R in FA, FB.
  split.
  - eapply Forall2_trans_pos; [|exact FA|exact PA].
    intros x y z -> (X & Y & Z). unfold pos. rewrite <- X, <- Y, <- Z. reflexivity.
  - eapply Forall2_trans_pos; [|exact FB|exact PB].
    intros x y z -> (X & Y & Z). unfold pos. rewrite <- X, <- Y, <- Z. cbn [n_x n_y n_z].
    f_equal. f_equal. toR. rlits. ring.
Qed.

(** ** C07 *)

(** All nucleons of [l] lie within [r] of a centre at (c, 0, 0). *)
Definition contained (c r : R) (l : list (nucleon RA)) : Prop :=
  forall n, In n l -> vnorm (from_centre c n) <= r.

Lemma vnorm_x p r : vnorm p <= r -> Rabs (vx p) <= r.
Proof.
  intros H. apply Rle_trans with (vnorm p); [|exact H]. unfold vnorm, vdot.
  rewrite <- sqrt_Rsqr_abs. apply sqrt_le_1_alt. unfold Rsqr.
  pose proof (Rle_0_sqr (vy p)). pose proof (Rle_0_sqr (vz p)). unfold Rsqr in *. lra.
Qed.

(** Whatever range was configured: a collision of two nuclei contained in their
    radii has b at most rA + rB + max_impact. *)
Theorem C07_covered :
  every_event_in RA (fun rg bd sfuel cfg co nA nB ev0 d =>
    0 <= nucleon_width cfg ->
    contained (share (radius nA) (radius nB) * d_b d) (radius nA) (d_A d) ->
    contained (- (1 - share (radius nA) (radius nB)) * d_b d) (radius nB) (d_B d) ->
    d_b d <= radius nA + radius nB + 6 * nucleon_width cfg).
Proof.
  apply every_event_in_intro.
  intros rg sv bd cfuel sfuel e cfg s co nA nB ev0 nst gst s1 d _ Hc WA WB G Hw CA CB.
  pose proof (genuine_history _ _ _ _ _ _ _ _ _ _ G) as (As & Bs & s0 & hs & s2 & LA & LB & FA & FB & HH & Ht & _).
  rewrite <- LA, <- LB in *.
  destruct (pass_hit rg _ _ _ _ _ _ _ _ FA FB HH Ht) as (i & j & a & b & _ & Ha & Hb & Pa & Pb).
  pose proof (pass_partnered rg _ _ _ _ _ _ _ _ FA FB HH) as [PA _].
  destruct (PA a (nth_error_In _ _ Ha) Pa) as (b' & Hb' & _ & Hr).
  destruct (ct_nc _ _ _ _ _ _ _ _ _ _ _ Hc) as (sp & Enc). rewrite Enc in Hr.
  apply (proj1 (in_range_is_distance cfg sp a b' Hw)) in Hr.
  rewrite (proj2 (in_range_is_distance cfg sp a b' Hw)) in Hr.
  specialize (CA a (nth_error_In _ _ Ha)). specialize (CB b' Hb').
  apply vnorm_x in CA. apply vnorm_x in CB. unfold from_centre, vx in CA, CB. cbn [fst] in CA, CB.
  apply Rabs_def2x in CA. apply Rabs_def2x in CB.
  assert (Hx : Rabs (n_x a - n_x b') <= 6 * nucleon_width cfg).
  { eapply Rle_trans; [|exact Hr]. rewrite <- sqrt_Rsqr_abs. apply sqrt_le_1_alt. unfold Rsqr.
    pose proof (Rle_0_sqr (n_y a - n_y b')). unfold Rsqr in *. simpl in *. lra. }
  apply Rabs_def2x in Hx. cbn [num RA RA_with] in *. lra.
Qed.

(** Protons, and pre-generated nuclei all of whose configurations were looked at
    for the radius, are contained. *)
Definition radius_covers (nu : nucleus RA) : Prop :=
  match nu_kind nu with
  | KProton => True
  | KManual nconfigs nnuc _ _ => (nconfigs <= 500 / nnuc + 1)%Z
  | _ => False
  end.

Lemma sampled_contained (rg : Rng RA) bd f sp (dmin : R) (nu nu0 nu' : nucleus RA) fuel (offset : R) e e' :
  rng_ok rg -> nucleus_create (A:=RA) bd f sp dmin = Ret nu -> radius_covers nu ->
  nu_kind nu0 = nu_kind nu -> nucleus_wf nu0 ->
  sample_nucleons rg fuel nu0 offset e = (Ret nu', e') ->
  contained offset (radius nu) (nu_nucleons nu').
Proof.
  intros OK Hcr RC K W H. unfold radius_covers in RC. destruct (nu_kind nu) eqn:Ek; try contradiction.
  - (* proton *)
    unfold nucleus_wf in W. rewrite K in W.
    unfold sample_nucleons in H. rewrite K in H. unfold sample_proton in H.
    destruct (nu_nucleons nu0) as [|n0 [|? ?]] eqn:En; try discriminate.
    unfold bind, ret in H. apply pair_Ret_inj in H. destruct H as [<- _]. cbn [nu_nucleons].
    intros n [<-|[]]. unfold radius. rewrite Ek. cbn [nlit RA RA_with]. rlits.
    right. apply vnorm_of_square; [lra|].
    unfold vdot, from_centre, vx, vy, vz, set_nucleon_position, set_position. cbn [n_x n_y n_z fst snd].
    toR. rlits. ring.
  - (* file *)
    unfold nucleus_wf in W. rewrite K in W.
    destruct (C33_manual rg OK _ _ _ _ _ _ _ _ _ _ K W H) as (m & index & _ & Hi & Len & Hk & Hd).
    assert (X : exists rsq, max_rsq (A:=RA) data (Z.min (500 / nnuc + 1) nconfigs * nnuc) = Ret rsq /\ rmax = sqrt rsq /\ nnuc <> 0%Z).
    { clear - Hcr Ek. unfold nucleus_create in Hcr.
      repeat match type of Hcr with
      | (if String.eqb ?a ?b then _ else _) = _ =>
          destruct (String.eqb a b);
          [exfalso; match type of Hcr with Ret ?x = Ret nu => assert (E : x = nu) by congruence; rewrite <- E in Ek; discriminate end|]
      end.
      destruct (filename_is_hdf5 sp); [|discriminate]. destruct (with_hdf5 bd); [|discriminate].
      apply manual_create_inv in Hcr. destruct Hcr as (nm & ds & nc & nn & rsq & _ & _ & N0 & M & ->).
      cbn [nu_kind nucleus_new] in Ek.
      match type of Ek with KManual ?a ?b ?c ?d = KManual ?a2 ?b2 ?c2 ?d2 => assert (E : a = a2 /\ b = b2 /\ c = c2 /\ d = d2) by (injection Ek; auto) end.
      destruct E as (<- & <- & <- & <-).
      exists rsq. auto. }
    destruct X as (rsq & Hm & -> & N0).
    replace (Z.min (500 / nnuc + 1) nconfigs) with nconfigs in Hm by lia.
    apply max_rsq_R in Hm. destruct Hm as (M0 & Mall & _).
    intros n Hn. apply In_nth_error in Hn. destruct Hn as (k & Hn).
    destruct (Hk _ _ Hn) as (p & Ep & Hs).
    destruct (Hd k k n n p p Hn Hn Ep Ep) as [_ ->].
    assert (Kl : (k < Z.to_nat nnuc)%nat) by (rewrite <- Len; apply nth_error_Some; congruence).
    destruct (Mall (index * nnuc + Z.of_nat k)%Z) as (q & Eq & Hq).
    { split; [nia|]. assert ((index + 1) * nnuc <= nconfigs * nnuc)%Z by (apply Z.mul_le_mono_nonneg_r; lia). lia. }
    assert (q = p) by congruence. subst q.
    unfold radius. rewrite Ek. unfold vnorm. apply sqrt_le_1_alt. exact Hq.
Qed.

Lemma contained_same_pos c r l l' : Forall2 (@same_pos RA) l l' -> contained c r l -> contained c r l'.
Proof.
  induction 1 as [|x y l l' (X & Y & Z) F IH]; intros H n Hn; [destruct Hn|destruct Hn as [<-|Hn]].
  - pose proof (H x (or_introl eq_refl)) as Hx. unfold from_centre in *. rewrite <- X, <- Y, <- Z. exact Hx.
  - apply IH; [|exact Hn]. intros m Hm. apply H. right. exact Hm.
Qed.

(** So for two such projectiles nothing is lost by the default range: no collision
    has b above rA + rB + 6w, and with a negative b-max the b is drawn from that
    whole range (C05_reached). *)
Theorem C07_default_range :
  every_event_in RA (fun rg bd sfuel cfg co nA nB ev0 d =>
    rng_ok rg -> 0 <= nucleon_width cfg -> radius_covers nA -> radius_covers nB ->
    d_b d <= radius nA + radius nB + 6 * nucleon_width cfg /\
    (b_max cfg < 0 ->
     exists u e e', canonical rg e = (u, e') /\ 0 <= u < 1 /\
       d_b d = sqrt (b_min cfg ^ 2 +
                     ((radius nA + radius nB + 6 * nucleon_width cfg) ^ 2 - b_min cfg ^ 2) * u))).
Proof.
  apply every_event_in_intro.
  intros rg sv bd cfuel sfuel e cfg s co nA nB ev0 nst gst s1 d _ Hc WA WB G OK Hw RcA RcB.
  split.
  2:{ intros Hneg. destruct G as (sa & Hs & _). destruct (sd_canonical _ _ _ _ _ _ _ _ _ _ Hs) as (e0 & He).
      exists (sa_u sa), e0, (sa_e1 sa). split; [exact He|]. split.
      { pose proof (drawn_range rg OK 0 e0) as D. change (0 <= fst (canonical rg e0) < 1) in D. rewrite He in D. exact D. }
      rewrite (sd_b _ _ _ _ _ _ _ _ _ _ Hs), (ct_bmin _ _ _ _ _ _ _ _ _ _ _ Hc),
        (effective_bmax_ok _ _ _ _ _ _ _ _ _ _ _ Hc Hw).
      unfold effective_bmax. destruct (Rlt_dec (b_max cfg) 0) as [_|N]; [|contradiction].
      cbn [nsqrt nadd nsub nmul RA RA_with]. f_equal. simpl. ring. }
  pose proof G as (sa & Hs & W1 & W2 & _ & _).
  destruct (history_pos _ _ _ _ _ _ _ _ _ _ (sd_history _ _ _ _ _ _ _ _ _ _ Hs)) as [PA PB].
  pose proof (ct_A _ _ _ _ _ _ _ _ _ _ _ Hc) as KA. pose proof (ct_B _ _ _ _ _ _ _ _ _ _ _ Hc) as KB.
  unfold create_nucleus in KA, KB.
  destruct (nth_error (projectile cfg) 0) as [spA|]; [|discriminate].
  destruct (nth_error (projectile cfg) 1) as [spB|]; [|discriminate].
  pose proof (sampled_contained rg bd _ _ _ _ _ _ _ _ _ _ OK KA RcA (sd_kindA _ _ _ _ _ _ _ _ _ _ Hs) W1 (sd_A _ _ _ _ _ _ _ _ _ _ Hs)) as CA.
  pose proof (sampled_contained rg bd _ _ _ _ _ _ _ _ _ _ OK KB RcB (sd_kindB _ _ _ _ _ _ _ _ _ _ Hs) W2 (sd_B _ _ _ _ _ _ _ _ _ _ Hs)) as CB.
  apply (contained_same_pos _ _ _ _ PA) in CA. apply (contained_same_pos _ _ _ _ PB) in CB.
  rewrite (ct_asym _ _ _ _ _ _ _ _ _ _ _ Hc), determine_asym_R in CA, CB.
  pose proof (genuine_history _ _ _ _ _ _ _ _ _ _ G) as (As & Bs & s0 & hs & s2 & LA & LB & FA & FB & HH & Ht & _).
  (* same argument as C07_covered *)
  rewrite <- LA, <- LB in *.
  destruct (pass_hit rg _ _ _ _ _ _ _ _ FA FB HH Ht) as (i & j & a & b & _ & Ha & Hb & Pa & Pb).
  pose proof (pass_partnered rg _ _ _ _ _ _ _ _ FA FB HH) as [QA _].
  destruct (QA a (nth_error_In _ _ Ha) Pa) as (b' & Hb' & _ & Hr).
  destruct (ct_nc _ _ _ _ _ _ _ _ _ _ _ Hc) as (sp & Enc). rewrite Enc in Hr.
  apply (proj1 (in_range_is_distance cfg sp a b' Hw)) in Hr.
  rewrite (proj2 (in_range_is_distance cfg sp a b' Hw)) in Hr.
  specialize (CA a (nth_error_In _ _ Ha)). specialize (CB b' Hb').
  apply vnorm_x in CA. apply vnorm_x in CB. unfold from_centre, vx in CA, CB. cbn [fst] in CA, CB.
  apply Rabs_def2x in CA. apply Rabs_def2x in CB.
  assert (Hx : Rabs (n_x a - n_x b') <= 6 * nucleon_width cfg).
  { eapply Rle_trans; [|exact Hr]. rewrite <- sqrt_Rsqr_abs. apply sqrt_le_1_alt. unfold Rsqr.
    pose proof (Rle_0_sqr (n_y a - n_y b')). unfold Rsqr in *. simpl in *. lra. }
  apply Rabs_def2x in Hx. cbn [num RA RA_with nmul nsub nlit] in *. revert CB. rlits. intros CB. lra.
Qed.
