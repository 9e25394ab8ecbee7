(** C32, C33: deuterons and pre-generated configurations; instances for C28-C33. *)
From Coq Require Import Reals Lra Permutation Sorted.
From Flocq Require Import Core BinarySingleNaN.
From Verif.Base Require Import Result Arith RArith FArith Rng.
From Verif.Model Require Import Random Config Nucleon Files Nucleus Collider.
From Verif.Spec Require Import Contract Draws Geometry.
From Verif.Proof Require Import Basics RBasics Sampling Ctor ShiftP RadiiP ManualP.
From Verif.Properties Require Import Nuclei.
Local Open Scope R_scope.

(** ** C32 *)

Lemma hulthen_closed a b u : 0 < a -> 0 < u ->
  let r := - ln u / (2 * a) in
  u = exp (- (2 * a * r)) /\ hulthen_weight a b r u = (1 - exp (- (b - a) * r)) ^ 2.
Proof.
  intros Ha Hu r. assert (E : u = exp (- (2 * a * r))).
  { unfold r. replace (- (2 * a * (- ln u / (2 * a)))) with (ln u) by (field; lra).
    symmetry. apply exp_ln. exact Hu. }
  split; [exact E|]. unfold hulthen_weight. rewrite E at 1.
  replace (exp (- b * r)) with (exp (- a * r) * exp (- (b - a) * r)) by (rewrite <- exp_plus; f_equal; ring).
  replace (- (2 * a * r)) with (- a * r + - a * r) by ring. rewrite exp_plus.
  pose proof (exp_pos (- a * r)). field. lra.
Qed.

(** The acceptance weight is a probability. *)
Theorem C32_weight : forall a b u, 0 < a -> a <= b -> 0 < u <= 1 ->
  0 <= - ln u / (2 * a) /\ 0 <= hulthen_weight a b (- ln u / (2 * a)) u <= 1.
Proof.
  intros a b u Ha Hab Hu.
  assert (Hr : 0 <= - ln u / (2 * a)).
  { apply Rmult_le_pos; [|left; apply Rinv_0_lt_compat; lra].
    assert (ln u <= ln 1) by (destruct (Req_dec u 1) as [->|]; [lra|left; apply ln_increasing; lra]).
    rewrite ln_1 in *. lra. }
  split; [exact Hr|]. destruct (hulthen_closed a b u Ha) as [_ E]; [lra|]. cbv zeta in E. rewrite E.
  assert (X : 0 < exp (- (b - a) * (- ln u / (2 * a))) <= 1).
  { split; [apply exp_pos|].
    assert (L : - (b - a) * (- ln u / (2 * a)) <= 0).
    { assert (0 <= (b - a) * (- ln u / (2 * a))) by (apply Rmult_le_pos; lra). lra. }
    destruct (Req_dec (- (b - a) * (- ln u / (2 * a))) 0) as [->|]; [rewrite exp_0; lra|].
    rewrite <- exp_0. left. apply exp_increasing. lra. }
  nra.
Qed.

Lemma npow_2 (x : R) : 0 <= x -> npow RA x (nofZ RA 2) = x ^ 2.
Proof.
  intros H. cbn [npow nofZ RA RA_with]. unfold Rpow. destruct (Req_EM_T x 0) as [->|Hn].
  - destruct (Req_EM_T _ 0) as [E|]; [exfalso; simpl in E; lra|]. toR. ring.
  - change (Rpower x 2 = x ^ 2). rewrite <- (Rpower_pow 2 x) by lra. f_equal; simpl; lra.
Qed.

(** The rejection loop, draw by draw: attempt t uses draws 2t (u) and 2t+1 (v). *)
Lemma deuteron_radius_run rg fuel (a b : R) e r e' :
  deuteron_radius (A:=RA) rg fuel a b e = (Ret r, e') ->
  exists t, (t < fuel)%nat /\ e' = after rg (2 * t + 2) e /\
    (forall j, (j <= t)%nat ->
       let u := drawn rg (2 * j) e in
       let rj := - ln u / (2 * a) in
       let p := npow RA (exp (- a * rj) - exp (- b * rj)) 2 / u in
       (p < drawn rg (2 * j + 1) e <-> (j < t)%nat)) /\
    r = - ln (drawn rg (2 * t) e) / (2 * a).
Proof.
  revert e. induction fuel as [|fuel IH]; intros e H; [discriminate|].
  cbn [deuteron_radius] in H.
  erewrite bind_run in H by apply draw_canonical_run.
  erewrite bind_run in H by apply draw_canonical_run.
  rewrite <- after_add in H. change (1 + 1)%nat with 2%nat in H. rewrite drawn_after in H.
  cbn [num RA RA_with nadd nsub nmul ndiv nneg nlog nexp nofZ nltb] in H.
  destruct (Rltb_spec (npow RA (exp (- a * (- ln (drawn rg 0 e) / (2 * a))) - exp (- b * (- ln (drawn rg 0 e) / (2 * a)))) 2
     / drawn rg 0 e) (drawn rg (0 + 1) e)) as [Hlt|Hge].
  - destruct (IH _ H) as (t & Ht & He & Hj & Hr).
    exists (S t). split; [lia|]. split; [|split].
    + rewrite He, <- after_add. f_equal. lia.
    + intros [|j] Hjt; [split; [intros; lia|intros; exact Hlt]|].
      specialize (Hj j ltac:(lia)). rewrite !drawn_after in Hj.
      replace (2 * j + 2)%nat with (2 * S j)%nat in Hj by lia.
      replace (2 * j + 1 + 2)%nat with (2 * S j + 1)%nat in Hj by lia.
      cbv zeta in *. rewrite Hj. lia.
    + rewrite Hr, drawn_after. do 4 f_equal. lia.
  - unfold ret in H. assert (r = - ln (drawn rg 0 e) / (2 * a)) by congruence.
    assert (e' = after rg 2 e) by congruence. subst r e'. exists 0%nat. split; [lia|].
    split; [reflexivity|]. split; [|reflexivity].
    intros j Hj. assert (j = 0%nat) by lia. subst j. cbv zeta. simpl (2 * 0)%nat. simpl (0 + 1)%nat in *.
    split; intros; [contradiction|lia].
Qed.

Theorem C32_deuteron :
  forall (rg : Rng RA), rng_ok rg ->
  forall fuel (nu nu' : nucleus RA) (a b offset : R) e e',
  nu_kind nu = @KDeuteron RA a b -> length (nu_nucleons nu) = 2%nat -> 0 < a -> a <= b ->
  (forall k, 0 < drawn rg (2 * k) e) ->              (* no proposal draw is exactly zero *)
  sample_nucleons rg fuel nu offset e = (Ret nu', e') ->
  exists t u r c ph n1 n2,
    u = drawn rg (2 * t) e /\                        (* the accepted draw *)
    u = exp (- (2 * a * r)) /\ 0 <= r /\
    drawn rg (2 * t + 1) e <= hulthen_weight a b r u /\
    (* all earlier proposals were rejected *)
    (forall j, (j < t)%nat -> let u' := drawn rg (2 * j) e in
       hulthen_weight a b (- ln u' / (2 * a)) u' < drawn rg (2 * j + 1) e) /\
    c = cos_draw rg (2 * t + 2) e /\ ph = phi_draw rg (2 * t + 3) e /\ e' = after rg (2 * t + 4) e /\
    nu_nucleons nu' = [n1; n2] /\
    sits offset n1 (sph r c ph) /\
    sits offset n2 (- vx (sph r c ph), - vy (sph r c ph), - vz (sph r c ph)) /\
    vnorm (from_centre offset n1) = r /\ vnorm (from_centre offset n2) = r.
Proof.
  intros rg OK fuel nu nu' a b offset e e' K L Ha Hab Hpos H.
  unfold sample_nucleons in H. rewrite K in H. unfold sample_deuteron in H.
  apply bind_Ret_inv in H. destruct H as (ns' & e2 & H & Hr). unfold ret in Hr.
  apply pair_Ret_inj in Hr. destruct Hr as [<- <-]. cbn [nu_nucleons].
  apply bind_Ret_inv in H. destruct H as (r & e1 & Hrad & H).
  apply deuteron_radius_run in Hrad. destruct Hrad as (t & Ht & -> & Hj & Er).
  erewrite bind_run in H by apply cos_theta_run.
  erewrite bind_run in H by apply phi_run.
  rewrite <- after_add in H. rewrite phi_draw_after, cos_draw_after in H.
  rewrite <- after_add in H.
  destruct (nu_nucleons nu) as [|m1 [|m2 [|? ?]]]; try discriminate.
  destruct (polar _ _ _) as [[x y] z] eqn:Ep. unfold ret in H.
  apply pair_Ret_inj in H. destruct H as [<- <-].
  pose (u := drawn rg (2 * t) e). fold u in Er.
  assert (Hu : 0 < u <= 1). { split; [apply Hpos|]. left. apply (drawn_range rg OK). }
  destruct (hulthen_closed a b u Ha) as [Eu _]; [lra|]. cbv zeta in Eu.
  destruct (C32_weight a b u Ha Hab Hu) as [Hr0 Hw]. rewrite <- Er in *.
  assert (W : forall j, 0 < drawn rg (2 * j) e ->
    let u' := drawn rg (2 * j) e in let rj := - ln u' / (2 * a) in
    npow RA (exp (- a * rj) - exp (- b * rj)) 2 / u' = hulthen_weight a b rj u').
  { intros j Hp u' rj. unfold hulthen_weight. f_equal. change 2 with (nofZ RA 2). rewrite npow_2; [reflexivity|].
    assert (0 <= rj). { apply (C32_weight a b u' Ha Hab). split; [exact Hp|left; apply (drawn_range rg OK)]. }
    assert (- b * rj <= - a * rj) by nra.
    destruct (Req_dec (- b * rj) (- a * rj)) as [->|]; [lra|].
    assert (exp (- b * rj) < exp (- a * rj)) by (apply exp_increasing; lra). lra. }
  exists t, u, r, (cos_draw rg (2 * t + 2) e), (phi_draw rg (2 * t + 3) e).
  do 2 eexists.
  split; [reflexivity|]. split; [exact Eu|]. split; [exact Hr0|].
  split. { pose proof (Hj t (Nat.le_refl t)) as Hjt. cbv zeta in Hjt.
           rewrite (W t) in Hjt by apply Hpos. fold u in Hjt. rewrite <- Er in Hjt.
           destruct (Rle_dec (drawn rg (2 * t + 1) e) (hulthen_weight a b r u)); auto.
           exfalso. assert ((t < t)%nat) by (apply Hjt; lra). lia. }
  split. { intros j Hlt. cbv zeta. rewrite <- (W j) by apply Hpos. apply (Hj j); lia. }
  split; [reflexivity|]. split; [reflexivity|]. split; [f_equal; lia|]. split; [reflexivity|].
  assert (Ep' : sph r (cos_draw rg (2 * t + 2) e) (phi_draw rg (2 * t + 3) e) = (x, y, z)).
  { rewrite <- Ep. unfold polar, sph. cbn [num RA RA_with nadd nsub nmul nlit nsqrt ncos nsin]. rlits.
    replace (0 + (2 * t + 2))%nat with (2 * t + 2)%nat by lia.
    replace (0 + (1 + (2 * t + 2)))%nat with (2 * t + 3)%nat by lia. reflexivity. }
  rewrite Ep'. unfold vx, vy, vz. cbn [fst snd].
  assert (N : vdot (x, y, z) (x, y, z) = r * r).
  { rewrite <- Ep'. pose proof (polar_norm r (cos_draw rg (2 * t + 2) e) (phi_draw rg (2 * t + 3) e) (cos_draw_range rg OK _ _)) as P.
    cbv zeta in P. rewrite <- P. unfold polar, sph, vdot, vx, vy, vz.
    cbn [num RA RA_with nadd nsub nmul nlit nsqrt ncos nsin fst snd]. rlits. reflexivity. }
  unfold vdot, vx, vy, vz in N. cbn [fst snd] in N.
  split; [|split; [|split]].
  - unfold sits, set_nucleon_position, set_position. cbn. auto.
  - unfold sits, set_nucleon_position, set_position. cbn. auto.
  - apply vnorm_of_square; [exact Hr0|]. rewrite <- N. unfold from_centre, vdot, vx, vy, vz. cbn. ring.
  - apply vnorm_of_square; [exact Hr0|]. rewrite <- N. unfold from_centre, vdot, vx, vy, vz. cbn. ring.
Qed.

(** IEEE arithmetic: a draw u = 0 (allowed: canonical is in [0,1)) is accepted
    and makes every coordinate of both nucleons infinite or NaN.  The hypotheses
    on the C library are the values required by the C standard (annex F). *)
Lemma mult_not_finite (x y : f64) : is_finite x = false -> is_finite (f64_mul x y) = false.
Proof. destruct x, y; simpl; intros; try discriminate; reflexivity. Qed.
Lemma plus_not_finite (x y : f64) : is_finite x = false -> is_finite (f64_add x y) = false.
Proof. destruct x, y; simpl; intros; try discriminate; try reflexivity; destruct s, s0; reflexivity. Qed.
Lemma opp_not_finite (x : f64) : is_finite x = false -> is_finite (Bopp x) = false.
Proof. destruct x; simpl; auto. Qed.

Theorem C32_zero_draw :
  forall (L : Libm) (rg : Rng (FA L)) fuel (nu : nucleus (FA L)) (offset : f64) e,
  m_log L f64_zero = B754_infinity true ->
  m_exp L (B754_infinity true) = f64_zero ->
  m_pow L f64_zero (f64_ofZ 2) = f64_zero ->
  nu_kind nu = nu_kind (@deuteron (FA L)) -> length (nu_nucleons nu) = 2%nat ->
  drawn rg 0 e = f64_zero ->
  exists nu' e' n1 n2,
    sample_nucleons rg (S fuel) nu offset e = (Ret nu', e') /\ nu_nucleons nu' = [n1; n2] /\
    forall n : nucleon (FA L), In n [n1; n2] ->
      is_finite (n_x n : f64) = false /\ is_finite (n_y n : f64) = false /\ is_finite (n_z n : f64) = false.
Proof.
  intros L rg fuel nu offset e Hlog Hexp Hpow K Len Hu.
  unfold sample_nucleons. rewrite K. cbn [deuteron deuteron_of nucleus_new nu_kind].
  unfold sample_deuteron.
  set (a := nfmin (FA L) _ _). set (b := nfmax (FA L) _ _).
  assert (Er : deuteron_radius rg (S fuel) a b e = (Ret f64_inf, after rg 2 e)).
  { cbn [deuteron_radius].
    erewrite bind_run by apply draw_canonical_run.
    erewrite bind_run by apply draw_canonical_run.
    rewrite <- after_add. change (1 + 1)%nat with 2%nat. rewrite drawn_after.
    rewrite Hu. cbn [FA num nadd nsub nmul ndiv nneg nlog nexp nofZ nltb npow].
    rewrite Hlog.
    replace (f64_div (Bopp (B754_infinity true)) (f64_mul (f64_ofZ 2) a)) with f64_inf by (vm_compute; reflexivity).
    replace (f64_mul (Bopp a) f64_inf) with (B754_infinity true : f64) by (vm_compute; reflexivity).
    replace (f64_mul (Bopp b) f64_inf) with (B754_infinity true : f64) by (vm_compute; reflexivity).
    rewrite Hexp. replace (f64_sub f64_zero f64_zero) with f64_zero by reflexivity.
    rewrite Hpow. replace (f64_div f64_zero f64_zero) with f64_nan by reflexivity.
    reflexivity. }
  assert (Gb : forall X (k : num (FA L) -> M (engine rg) X), bind (deuteron_radius rg (S fuel) a b) k e
               = k f64_inf (after rg 2 e)).
  { intros X k. unfold bind. rewrite Er. reflexivity. }
  destruct (nu_nucleons nu) as [|m1 [|m2 [|? ?]]]; try discriminate.
  unfold bind at 1. rewrite Gb.
  erewrite bind_run by apply cos_theta_run. erewrite bind_run by apply phi_run.
  unfold polar. cbn iota beta zeta. unfold ret.
  set (s := nsqrt _ _). set (cp := ncos _ _). set (sp := nsin _ _). set (c := cos_draw _ _ _).
  do 4 eexists. split; [reflexivity|]. split; [reflexivity|].
  assert (I1 : is_finite (f64_mul f64_inf s) = false) by (apply mult_not_finite; reflexivity).
  assert (I2 : is_finite (f64_mul f64_inf c) = false) by (apply mult_not_finite; reflexivity).
  intros n [<-|[<-|[]]]; cbn [n_x n_y n_z set_nucleon_position set_position FA nadd nmul nneg].
  - split; [apply plus_not_finite, mult_not_finite, I1|]. split; [apply mult_not_finite, I1|exact I2].
  - split; [apply plus_not_finite, opp_not_finite, mult_not_finite, I1|].
    split; [apply opp_not_finite, mult_not_finite, I1|apply opp_not_finite, I2].
Qed.

(** ** C33 *)

Lemma place_manual_R (offset : R) rot data i ns ns' k n :
  place_manual (A:=RA) offset rot data i ns = Ret ns' -> nth_error ns' k = Some n ->
  exists p, file_row data (Z.to_nat (i + Z.of_nat k)) = Some p /\ sits offset n (rot p).
Proof.
  revert i ns' k. induction ns as [|m ns IH]; intros i ns' k H Hk; simpl in H.
  - apply (f_equal (fun r => match r with Ret l => l | _ => [] end)) in H. subst ns'. destruct k; discriminate.
  - apply rbind_Ret_inv in H. destruct H as (p & Ep & H). destruct (rot p) as [[x y] z] eqn:Er.
    apply rbind_Ret_inv in H. destruct H as (rest & Erest & H).
    assert (E : ns' = set_nucleon_position (A:=RA) offset m x y z :: rest) by congruence. subst ns'.
    destruct k as [|k]; simpl in Hk.
    + assert (n = set_nucleon_position (A:=RA) offset m x y z) by congruence. subst n.
      apply position_at_R in Ep. destruct Ep as [_ Ep].
      exists p. split; [rewrite Z.add_0_r; exact Ep|]. rewrite Er. unfold sits. cbn. auto.
    + destruct (IH _ _ _ Erest Hk) as (q & Eq & Hs). exists q. split; [|exact Hs].
      rewrite <- Eq. f_equal. lia.
Qed.

Theorem C33_manual :
  forall (rg : Rng RA), rng_ok rg ->
  forall fuel (nu nu' : nucleus RA) nconfigs nnuc (data : list R) (rmax offset : R) e e',
  nu_kind nu = @KManual RA nconfigs nnuc data rmax ->
  length (nu_nucleons nu) = Z.to_nat nnuc ->
  sample_nucleons rg fuel nu offset e = (Ret nu', e') ->
  exists m index,
    proper_rotation m /\ (0 <= index < nconfigs)%Z /\
    length (nu_nucleons nu') = Z.to_nat nnuc /\
    (* nucleon k is the rotated k-th position of configuration [index] *)
    (forall k n, nth_error (nu_nucleons nu') k = Some n ->
       exists p, file_row data (Z.to_nat (index * nnuc + Z.of_nat k)) = Some p /\
                 sits offset n (mapply m p)) /\
    (* mutual distances and distances from the centre are those of the file *)
    (forall k1 k2 n1 n2 p1 p2,
       nth_error (nu_nucleons nu') k1 = Some n1 -> nth_error (nu_nucleons nu') k2 = Some n2 ->
       file_row data (Z.to_nat (index * nnuc + Z.of_nat k1)) = Some p1 ->
       file_row data (Z.to_nat (index * nnuc + Z.of_nat k2)) = Some p2 ->
       vdist (pos n1) (pos n2) = vdist p1 p2 /\ vnorm (from_centre offset n1) = vnorm p1).
Proof.
  intros rg OK fuel nu nu' nconfigs nnuc data rmax offset e e' K L H.
  unfold sample_nucleons in H. rewrite K in H. unfold sample_manual in H.
  apply bind_Ret_inv in H. destruct H as (ns' & e2 & H & Hr). unfold ret in Hr.
  apply pair_Ret_inj in Hr. destruct Hr as [<- <-]. cbn [nu_nucleons].
  erewrite bind_run in H by apply phi_run.
  erewrite bind_run in H by apply cos_theta_run.
  erewrite bind_run in H by apply phi_run.
  set (a1 := phi_draw rg 0 e) in H. set (c2 := cos_draw rg 0 (after rg 1 e)) in H.
  set (a3 := phi_draw rg 0 (after rg 1 (after rg 1 e))) in H.
  pose proof (cos_draw_range rg OK 0 (after rg 1 e)) as Hc. fold c2 in Hc.
  apply bind_Ret_inv in H. destruct H as (index & e3 & Hi & H).
  apply act_inv in Hi. destruct Hi as (ix & Eix & Eix'). assert (ix = index) by congruence. subst ix. clear Eix'.
  destruct (Z.leb_spec nconfigs index) as [|Hlt]; [discriminate|].
  apply lift_Ret_inv in H. destruct H as [H He]. subst e3.
  assert (Hi0 : (0 <= index)%Z).
  { assert (T : (0 <= to_size (nconfigs - 1))%Z) by (apply Z.mod_pos_bound; lia).
    pose proof (ok_unif rg OK 0 (to_size (nconfigs - 1)) (after rg 1 (after rg 1 (after rg 1 e))) T) as U.
    rewrite Eix in U. cbn in U. lia. }
  pose (m := euler (cos a1) (sin a1) c2 (sqrt (1 - c2 * c2)) (cos a3) (sin a3)).
  assert (Pm : proper_rotation m).
  { apply euler_proper; try apply sin_cos_1. rewrite sqrt_1_c by exact Hc. ring. }
  assert (Hk : forall k n, nth_error ns' k = Some n ->
       exists p, file_row data (Z.to_nat (index * nnuc + Z.of_nat k)) = Some p /\ sits offset n (mapply m p)).
  { intros k n Hn. destruct (place_manual_R _ _ _ _ _ _ _ _ H Hn) as (p & Ep & Hs). exists p. split; [exact Ep|].
    rewrite euler_apply in Hs. cbn [num RA RA_with nadd nsub nmul nlit nsqrt ncos nsin] in Hs. rlits in Hs.
    exact Hs. }
  exists m, index. split; [exact Pm|]. split; [lia|].
  split; [rewrite <- L; eapply place_manual_reset; eauto|]. split; [exact Hk|].
  intros k1 k2 n1 n2 p1 p2 N1 N2 P1 P2.
  destruct (Hk _ _ N1) as (q1 & Q1 & (S1 & S2 & S3)). destruct (Hk _ _ N2) as (q2 & Q2 & (T1 & T2 & T3)).
  assert (q1 = p1) by congruence. assert (q2 = p2) by congruence. subst q1 q2.
  destruct (rotation_rigid m p1 p2 Pm) as [RN RD]. rewrite <- RD, <- RN. split.
  - unfold vdist, vnorm, vdot, vsub, pos, vx, vy, vz in *. cbn [fst snd] in *.
    rewrite S1, S2, S3, T1, T2, T3. f_equal. ring.
  - unfold vnorm, vdot, from_centre, vx, vy, vz in *. cbn [fst snd] in *.
    rewrite S1, S2, S3. f_equal. ring.
Qed.
