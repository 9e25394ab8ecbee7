(** C28-C31: sampling of nucleon positions. *)
From Coq Require Import Reals Lra Permutation Sorted.
From Verif.Base Require Import Result Arith RArith Rng.
From Verif.Model Require Import Random Config Nucleon Files Nucleus Collider.
From Verif.Spec Require Import Contract Draws Geometry Radii.
From Verif.Proof Require Import Basics RBasics Sampling Ctor ShiftP RadiiP.
Local Open Scope R_scope.

(** ** C28 *)

(** After sampling, for every nucleus type and in every arithmetic: same number
    of nucleons, none a participant, none with valid constituents. *)
Theorem C28_reset :
  forall (A : Arith) bd f (rg : Rng A) fuel (nu nu' : nucleus A) offset e e',
  in_use bd f nu ->
  sample_nucleons rg fuel nu offset e = (Ret nu', e') ->
  nu_kind nu' = nu_kind nu /\ length (nu_nucleons nu') = length (nu_nucleons nu) /\
  (forall n, In n (nu_nucleons nu') -> n_part n = false /\ n_cexist n = false).
Proof.
  intros A bd f rg fuel nu nu' offset e e' U H.
  destruct (sample_nucleons_reset rg _ _ _ _ _ _ (in_use_wf _ _ _ U) H) as (K & _ & L & F).
  repeat split; auto; rewrite Forall_forall in F; apply F; auto.
Qed.

(** Changing only the offset moves every nucleon along x by the difference and
    changes nothing else, including the random stream. *)
Theorem C28_offset :
  forall bd f (rg : Rng RA) fuel (nu nu1 : nucleus RA) (o1 o2 : R) e e1,
  in_use bd f nu ->
  sample_nucleons rg fuel nu o1 e = (Ret nu1, e1) ->
  exists nu2, sample_nucleons rg fuel nu o2 e = (Ret nu2, e1) /\
    Forall2 (shifted (o2 - o1)) (nu_nucleons nu1) (nu_nucleons nu2).
Proof.
  intros bd f rg fuel nu nu1 o1 o2 e e1 U H.
  destruct (sample_nucleons_shift rg o1 o2 fuel nu e (in_use_wf _ _ _ U)) as [S1 S2].
  rewrite H in S1, S2. cbn [fst snd] in S1, S2.
  destruct (sample_nucleons (A:=RA) rg fuel nu o2 e) as [r e2]. cbn [fst snd] in *. subst e2.
  destruct r as [nu2| | |]; try contradiction. exists nu2. split; auto. apply S1.
Qed.

(** Runs that fail (a rejection loop that exhausts its fuel, an unreadable
    configuration) fail alike for every offset. *)
Theorem C28_offset_failure :
  forall bd f (rg : Rng RA) fuel (nu : nucleus RA) (o1 o2 : R) e,
  in_use bd f nu ->
  (forall nu1 e1, sample_nucleons rg fuel nu o1 e <> (Ret nu1, e1)) ->
  sample_nucleons rg fuel nu o2 e = sample_nucleons rg fuel nu o1 e.
Proof.
  intros bd f rg fuel nu o1 o2 e U H.
  destruct (sample_nucleons_shift rg o1 o2 fuel nu e (in_use_wf _ _ _ U)) as [S1 S2].
  destruct (sample_nucleons (A:=RA) rg fuel nu o1 e) as [r1 e1].
  destruct (sample_nucleons (A:=RA) rg fuel nu o2 e) as [r2 e2]. cbn [fst snd] in *. subst e2.
  destruct r1, r2; try contradiction; cbn in S1; subst; auto.
  exfalso. eapply H. reflexivity.
Qed.

(** ** C29, C30: Woods-Saxon nuclei *)

Lemma nth_sorted_length {X Y} (a : list X) (b : list Y) i x : length a = length b ->
  nth_error a i = Some x -> exists y, nth_error b i = Some y.
Proof. intros L H. apply nth_some. rewrite <- L. apply nth_error_Some. congruence. Qed.

Lemma firstn_nth {X} (l : list X) i j x : (j < i)%nat -> nth_error l j = Some x -> In x (firstn i l).
Proof.
  revert i j. induction l as [|y l IH]; intros [|i] [|j] H E; simpl in *; try discriminate; try lia.
  - inversion E; auto.
  - right. eapply IH; eauto. lia.
Qed.

Lemma firstn_nth_inv {X} (l : list X) i x : In x (firstn i l) -> exists j, (j < i)%nat /\ nth_error l j = Some x.
Proof.
  revert i. induction l as [|y l IH]; intros [|i] H; simpl in *; try contradiction.
  destruct H as [->|H]; [exists 0%nat; split; [lia|reflexivity]|].
  destruct (IH i H) as (j & Hj & E). exists (S j). split; [lia|exact E].
Qed.

(** Everything about one sampling of a spherical Woods-Saxon nucleus with
    minimum distance d: [radii] are the sampled radii in non-decreasing order,
    [tries] the number of placement attempts of each nucleon; attempt number t
    (from 0, counted over all nucleons) uses the draws 2t and 2t+1 after the
    radii have been drawn. *)
Theorem C30_woods_saxon :
  forall (rg : Rng RA), rng_ok rg ->
  forall fuel (nu nu' : nucleus RA) (Rw a d offset : R) e e',
  nu_kind nu = @KWoodsSaxon RA Rw a (d * d) -> 0 <= d -> 0 <= Rw + 10 * a ->
  sample_nucleons rg fuel nu offset e = (Ret nu', e') ->
  exists raw radii tries e0,
    (* the radii: sampled from the Woods-Saxon distribution, then sorted *)
    mrepeat (length (nu_nucleons nu)) (woods_saxon_draw rg Rw a) e = (Ret raw, e0) /\
    Permutation raw radii /\ StronglySorted Rle radii /\
    length radii = length (nu_nucleons nu) /\ length tries = length (nu_nucleons nu) /\
    length (nu_nucleons nu') = length (nu_nucleons nu) /\
    e' = after rg (2 * total tries) e0 /\
    (* each nucleon *)
    forall i n r k,
      nth_error (nu_nucleons nu') i = Some n -> nth_error radii i = Some r -> nth_error tries i = Some k ->
      let attempt t := sph r (cos_draw rg (2 * (total (firstn i tries) + t)) e0)
                             (phi_draw rg (2 * (total (firstn i tries) + t) + 1) e0) in
      (* its distance from the centre is the i-th radius *)
      vnorm (from_centre offset n) = r /\ 0 <= r <= Rw + 10 * a /\
      (* it sits where its last attempt put it; there were 1 to 1000 attempts *)
      sits offset n (attempt (k - 1)%nat) /\ (1 <= k <= 1000)%nat /\
      (* all attempts but the last were too close to an earlier nucleon *)
      (forall t m', (t < k - 1)%nat -> sits offset m' (attempt t) ->
         1 / 10000000000 <= d * d /\
         exists j m, (j < i)%nat /\ nth_error (nu_nucleons nu') j = Some m /\ vdist (pos m') (pos m) < d) /\
      (* the last was not, unless the attempts were used up *)
      ((k < 1000)%nat -> d * d < 1 / 10000000000 \/
         forall j m, (j < i)%nat -> nth_error (nu_nucleons nu') j = Some m -> d <= vdist (pos n) (pos m)).
Proof.
  intros rg OK fuel nu nu' Rw a d offset e e' K Hd HR H.
  unfold sample_nucleons in H. rewrite K in H. unfold sample_ws in H.
  apply bind_Ret_inv in H. destruct H as (ns' & e2 & H & Hr). unfold ret in Hr.
  apply pair_Ret_inj in Hr. destruct Hr as [<- <-]. cbn [nu_nucleons].
  apply bind_Ret_inv in H. destruct H as (raw & e0 & Hraw & H).
  pose proof (mrepeat_length _ _ _ _ _ Hraw) as Lraw.
  assert (Lr : length (sort_num rg raw) = length (nu_nucleons nu)).
  { rewrite sort_num_length; auto. apply (ok_sort_num rg OK). }
  destruct (place_all_ws_run rg (d * d) offset (sort_num rg raw) [] (nu_nucleons nu) e0 Lr)
    as (new & ks & E & L1 & L2 & Hi).
  pose proof (eq_trans (eq_sym E) H) as EE. apply pair_Ret_inj in EE. destruct EE as [<- <-].
  clear E H. cbn [app] in *.
  exists raw, (sort_num rg raw), ks, e0.
  split; [rewrite <- draw_ws_R; exact Hraw|]. split; [apply (ok_sort_num rg OK)|].
  split; [apply Sorted_nondec, (ok_sorted_num rg OK)|].
  split; [exact Lr|]. split; [exact L2|]. split; [exact L1|]. split; [reflexivity|].
  intros i n r k Hn Hr Hk.
  pose (attempt := fun t => sph r (cos_draw rg (2 * (total (firstn i ks) + t)) e0)
                             (phi_draw rg (2 * (total (firstn i ks) + t) + 1) e0)).
  change (vnorm (from_centre offset n) = r /\ 0 <= r <= Rw + 10 * a /\
    sits offset n (attempt (k - 1)%nat) /\ (1 <= k <= 1000)%nat /\
      (forall t m', (t < k - 1)%nat -> sits offset m' (attempt t) ->
         1 / 10000000000 <= d * d /\
         exists j m, (j < i)%nat /\ nth_error new j = Some m /\ vdist (pos m') (pos m) < d) /\
      ((k < 1000)%nat -> d * d < 1 / 10000000000 \/
         forall j m, (j < i)%nat -> nth_error new j = Some m -> d <= vdist (pos n) (pos m))).
  destruct (nth_sorted_length _ (nu_nucleons nu) _ _ L1 Hn) as (n0 & Hn0).
  destruct (Hi i n0 r Hn0 Hr) as (k' & Hk' & Hk1 & Hatt & Hlast & Hprev). cbv zeta in *.
  assert (k' = k) by congruence. subst k'.
  assert (Eatt : forall t, ws_attempt (A:=RA) rg r t (after rg (2 * sum (firstn i ks)) e0) = attempt t).
  { intros t. unfold ws_attempt, attempt. rewrite cos_draw_after, phi_draw_after.
    replace (2 * t + 2 * sum (firstn i ks))%nat with (2 * (total (firstn i ks) + t))%nat by (unfold total, sum; lia).
    replace (2 * t + 1 + 2 * sum (firstn i ks))%nat with (2 * (total (firstn i ks) + t) + 1)%nat by (unfold total, sum; lia).
    unfold polar, sph. cbn [num RA RA_with nadd nsub nmul nlit nsqrt ncos nsin]. rlits. reflexivity. }
  rewrite Eatt in *.
  assert (Hr0 : 0 <= r <= Rw + 10 * a).
  { assert (In r raw). { eapply Permutation_in; [apply Permutation_sym, (ok_sort_num rg OK)|]. eapply nth_error_In; eauto. }
    assert (Forall (fun x => 0 <= x <= Rw + 10 * a) raw) as Fr.
    { eapply (mrepeat_Forall (X := R)); [|exact Hraw]. intros s x s' Hs. eapply draw_ws_range; eauto. }
    rewrite Forall_forall in Fr. auto. }
  assert (En : n = placed (A:=RA) offset n0 (attempt (k - 1)%nat)) by congruence.
  assert (Hs : sits offset n (attempt (k - 1)%nat)).
  { rewrite En. unfold sits. destruct (attempt (k - 1)%nat) as [[x y] z]. cbn. auto. }
  split; [|split; [exact Hr0|split; [exact Hs|split; [exact Hk1|split]]]].
  - apply vnorm_of_square; [lra|]. destruct Hs as (S1 & S2 & S3).
    unfold from_centre. rewrite S1, S2, S3.
    replace (vx (attempt (k - 1)%nat) + offset - offset) with (vx (attempt (k - 1)%nat)) by ring.
    pose proof (polar_norm r (cos_draw rg (2 * (total (firstn i ks) + (k - 1))) e0)
       (phi_draw rg (2 * (total (firstn i ks) + (k - 1)) + 1) e0) (cos_draw_range rg OK _ _)) as P.
    cbv zeta in P. rewrite <- P. unfold attempt. unfold polar, sph, vdot, vx, vy, vz.
    cbn [num RA RA_with nadd nsub nmul nlit nsqrt ncos nsin fst snd]. rlits. reflexivity.
  - intros t m' Ht (M1 & M2 & M3). specialize (Hprev t Ht). rewrite Eatt in Hprev.
    apply too_close_true in Hprev; [|exact Hd]. destruct Hprev as (Hge & m & Hm & Hlt). split; [exact Hge|].
    apply firstn_nth_inv in Hm. destruct Hm as (j & Hj & Ej). exists j, m. split; auto. split; auto.
    replace (pos m') with (pos (placed (A:=RA) offset n0 (attempt t))); [exact Hlt|].
    unfold pos. rewrite M1, M2, M3. destruct (attempt t) as [[x y] z]. reflexivity.
  - intros Hlt. specialize (Hlast Hlt). rewrite <- En in Hlast.
    apply too_close_false in Hlast; [|exact Hd]. destruct Hlast as [?|Hf]; [left; auto|right].
    intros j m Hj Hm. apply Hf. eapply firstn_nth; eauto.
Qed.

(** C29 in plain form. *)
Theorem C29_min_distance :
  forall (rg : Rng RA), rng_ok rg ->
  forall fuel (nu nu' : nucleus RA) (Rw a d offset : R) e e',
  nu_kind nu = @KWoodsSaxon RA Rw a (d * d) -> 0 <= d -> 0 <= Rw + 10 * a ->
  sample_nucleons rg fuel nu offset e = (Ret nu', e') ->
  exists raw e0 tries,
    mrepeat (length (nu_nucleons nu)) (woods_saxon_draw rg Rw a) e = (Ret raw, e0) /\
    length tries = length (nu_nucleons nu') /\
    e' = after rg (2 * total tries) e0 /\          (* two draws per attempt *)
    (forall k, In k tries -> (1 <= k <= 1000)%nat) /\
    (d * d < 1 / 10000000000 -> forall k, In k tries -> k = 1%nat) /\
    (forall i n k, nth_error (nu_nucleons nu') i = Some n -> nth_error tries i = Some k ->
       d * d < 1 / 10000000000 \/ k = 1000%nat \/
       forall j m, (j < i)%nat -> nth_error (nu_nucleons nu') j = Some m -> d <= vdist (pos n) (pos m)).
Proof.
  intros rg OK fuel nu nu' Rw a d offset e e' K Hd HR H.
  destruct (C30_woods_saxon rg OK fuel nu nu' Rw a d offset e e' K Hd HR H)
    as (raw & radii & tries & e0 & H1 & _ & _ & L1 & L2 & L3 & H2 & Hi).
  exists raw, e0, tries. split; [exact H1|]. split; [congruence|]. split; [exact H2|].
  assert (G : forall k, In k tries -> exists i n r, nth_error tries i = Some k /\
     nth_error (nu_nucleons nu') i = Some n /\ nth_error radii i = Some r).
  { intros k Hk. apply In_nth_error in Hk. destruct Hk as (i & Hi').
    destruct (nth_sorted_length _ (nu_nucleons nu') i k (eq_trans L2 (eq_sym L3)) Hi') as (n & Hn).
    destruct (nth_sorted_length _ radii i k (eq_trans L2 (eq_sym L1)) Hi') as (r & Hr). eauto 6. }
  split; [|split].
  - intros k Hk. destruct (G k Hk) as (i & n & r & A1 & A2 & A3).
    destruct (Hi i n r k A2 A3 A1) as (_ & _ & _ & B & _). exact B.
  - intros Hsm k Hk. destruct (G k Hk) as (i & n & r & A1 & A2 & A3).
    destruct (Hi i n r k A2 A3 A1) as (_ & _ & _ & B & C & _).
    destruct (Nat.eq_dec k 1) as [|Hne]; auto. exfalso.
    (* more than one attempt would need a too-close nucleon *)
    pose (p := sph r (cos_draw rg (2 * (total (firstn i tries) + 0)) e0)
                     (phi_draw rg (2 * (total (firstn i tries) + 0) + 1) e0)).
    destruct (C 0%nat (@Nucleon RA (vx p + offset) (vy p) (vz p) false false [])) as [Hge _]; [lia| |lra].
    unfold sits. cbn. auto.
  - intros i n k A1 A2.
    destruct (nth_sorted_length _ radii i n (eq_trans L3 (eq_sym L1)) A1) as (r & Hr).
    destruct (Hi i n r k A1 Hr A2) as (_ & _ & _ & B & _ & C).
    destruct (Nat.eq_dec k 1000) as [|Hne]; auto. destruct C as [C|C]; auto. lia.
Qed.

(** Placement always terminates: sampling a spherical Woods-Saxon nucleus returns
    for every generator, in every arithmetic, without any rejection loop. *)
Theorem C29_terminates :
  forall (A : Arith) (rg : Rng A), (forall l, Permutation l (sort_num rg l)) ->
  forall fuel (nu : nucleus A) Rw a dsq offset e,
  nu_kind nu = KWoodsSaxon Rw a dsq ->
  exists nu' e', sample_nucleons rg fuel nu offset e = (Ret nu', e').
Proof.
  intros A rg Hs fuel nu Rw a dsq offset e K. unfold sample_nucleons. rewrite K. unfold sample_ws.
  destruct (mrepeat_act (length (nu_nucleons nu))
     (pwl rg 1000 (nlit A 0 0) (nadd A Rw (nmul A (nlit A 10 0) a)) (ws_weight Rw a)) e) as (raw & e0 & E0).
  assert (Lr : length (sort_num rg raw) = length (nu_nucleons nu)).
  { rewrite sort_num_length; auto. eapply mrepeat_length; eauto. }
  destruct (place_all_ws_run rg dsq offset (sort_num rg raw) [] (nu_nucleons nu) e0 Lr)
    as (new & ks & E & _).
  unfold bind at 1 2. unfold draw_ws. rewrite E0. rewrite E. unfold ret. eauto.
Qed.

(** ** C31 (and C29): deformed nuclei *)

Lemma Rcbrt_range u : 0 <= u < 1 -> 0 <= Rcbrt u < 1.
Proof.
  intros H. unfold Rcbrt. destruct (Rlt_dec u 0); [lra|]. unfold Rpow.
  destruct (Req_EM_T u 0).
  - destruct (Req_EM_T (1/3) 0); lra.
  - split; [left; apply exp_pos|].
    unfold Rpower. apply Rlt_le_trans with (exp 0); [apply exp_increasing|rewrite exp_0; lra].
    assert (ln u < 0) by (rewrite <- ln_1; apply ln_increasing; lra). lra.
Qed.

Lemma deformed_point_range rg fuel Rw a b2 b4 rmax e r c e' : rng_ok rg -> 0 <= rmax ->
  sample_deformed_point (A:=RA) rg fuel Rw a b2 b4 rmax e = (Ret (r, c), e') ->
  0 <= r <= rmax /\ -1 <= c <= 1.
Proof.
  intros OK Hm. revert e. induction fuel as [|fuel IH]; intros e H; [discriminate|].
  cbn [sample_deformed_point] in H.
  erewrite bind_run in H by apply draw_canonical_run.
  erewrite bind_run in H by apply cos_theta_run.
  erewrite bind_run in H by apply draw_canonical_run.
  destruct (nltb RA _ _); [eapply IH; exact H|].
  unfold ret in H.
  assert (G1 : r = nmul RA rmax (ncbrt RA (drawn rg 0 e))) by congruence.
  assert (G2 : c = cos_draw rg 0 (after rg 1 e)) by congruence.
  pose proof (drawn_range rg OK 0 e) as D. pose proof (cos_draw_range rg OK 0 (after rg 1 e)) as C.
  subst c. split; [|exact C]. rewrite G1. cbn [num RA RA_with nmul ncbrt].
  pose proof (Rcbrt_range _ D) as [C1 C2]. split; [apply Rmult_le_pos; assumption|].
  rewrite <- (Rmult_1_r rmax) at 2. apply Rmult_le_compat_l; [assumption|left; assumption].
Qed.

Lemma flip_R z t : flip (A:=RA) z t = z \/ flip (A:=RA) z t = - z.
Proof.
  unfold flip. induction t as [|t IH]; [left; reflexivity|].
  change (Nat.iter (S t) (fun z : num RA => nmul RA z (nofZ RA (-1))) z)
    with (nmul RA (Nat.iter t (fun z : num RA => nmul RA z (nofZ RA (-1))) z) (nofZ RA (-1))).
  set (w := Nat.iter t _ z) in *. clearbody w. cbn [num RA RA_with nmul nofZ] in *.
  destruct IH as [->| ->]; [right|left]; ring.
Qed.

(** One sampling of a deformed nucleus: a common proper rotation [m]; [points]
    are the sampled (r, cos theta) with r in non-decreasing order; nucleon i is
    the rotation of a body-frame point with the i-th r and cos theta up to sign,
    plus the offset. *)
Theorem C31_deformed :
  forall (rg : Rng RA), rng_ok rg ->
  forall fuel (nu nu' : nucleus RA) (Rw a beta2 beta4 rmax d offset : R) e e',
  nu_kind nu = @KDeformed RA Rw a beta2 beta4 rmax (d * d) -> 0 <= d -> 0 <= rmax ->
  sample_nucleons rg fuel nu offset e = (Ret nu', e') ->
  exists m raw points tries e0,
    proper_rotation m /\
    (* tilt and spin use two draws, then the (r, cos theta) by rejection *)
    mrepeat (length (nu_nucleons nu)) (sample_deformed_point rg fuel Rw a beta2 beta4 rmax)
            (after rg 2 e) = (Ret raw, e0) /\
    Permutation raw points /\ StronglySorted (fun p q => fst p <= fst q) points /\
    length points = length (nu_nucleons nu) /\ length tries = length (nu_nucleons nu) /\
    length (nu_nucleons nu') = length (nu_nucleons nu) /\
    e' = after rg (total tries) e0 /\               (* one draw per attempt *)
    forall i n r c k,
      nth_error (nu_nucleons nu') i = Some n -> nth_error points i = Some (r, c) ->
      nth_error tries i = Some k ->
      (exists ph zsign, (zsign = 1 \/ zsign = -1) /\
         sits offset n (mapply m (sph r (zsign * c) ph))) /\
      vnorm (from_centre offset n) = r /\ 0 <= r <= rmax /\ -1 <= c <= 1 /\
      (1 <= k <= 1000)%nat /\
      (d * d < 1 / 10000000000 -> k = 1%nat) /\
      (d * d < 1 / 10000000000 \/ k = 1000%nat \/
       forall j n2, (j < i)%nat -> nth_error (nu_nucleons nu') j = Some n2 -> d <= vdist (pos n) (pos n2)).
Proof.
  intros rg OK fuel nu nu' Rw a beta2 beta4 rmax d offset e e' K Hd Hm H.
  unfold sample_nucleons in H. rewrite K in H. unfold sample_deformed in H.
  apply bind_Ret_inv in H. destruct H as (ns' & e2 & H & Hr). unfold ret in Hr.
  apply pair_Ret_inj in Hr. destruct Hr as [<- <-]. cbn [nu_nucleons].
  erewrite bind_run in H by apply cos_theta_run.
  erewrite bind_run in H by apply phi_run.
  apply bind_Ret_inv in H. destruct H as (raw & e0 & Hraw & H).
  rewrite <- after_add in Hraw. change (1 + 1)%nat with 2%nat in Hraw.
  set (ca := cos_draw rg 0 e) in H. set (ab := phi_draw rg 0 (after rg 1 e)) in H.
  pose proof (cos_draw_range rg OK 0 e) as Hca. fold ca in Hca.
  pose proof (mrepeat_length _ _ _ _ _ Hraw) as Lraw.
  assert (Lr : length (sort_fst rg raw) = length (nu_nucleons nu)).
  { rewrite <- Lraw. symmetry. apply Permutation_length, (ok_sort_fst rg OK). }
  set (rot := rotate_tilt_spin (A:=RA) ca _ _ _) in H.
  pose (m := tilt_spin ca (sqrt (1 - ca * ca)) (cos ab) (sin ab)).
  assert (Erot : forall p, rot p = mapply m p).
  { intros p. unfold rot, m. rewrite <- tilt_spin_apply.
    cbn [num RA RA_with nadd nsub nmul nlit nsqrt ncos nsin]. rlits. reflexivity. }
  assert (Pm : proper_rotation m).
  { apply tilt_spin_proper; [|apply sin_cos_1]. rewrite sqrt_1_c by exact Hca. ring. }
  destruct (place_all_deformed_run rg (d * d) offset rot (sort_fst rg raw) [] (nu_nucleons nu) e0 Lr)
    as (new & ks & E & L1 & L2 & Hi).
  pose proof (eq_trans (eq_sym E) H) as EE. apply pair_Ret_inj in EE. destruct EE as [<- <-].
  clear E H. cbn [app] in *.
  exists m, raw, (sort_fst rg raw), ks, e0.
  split; [exact Pm|]. split; [exact Hraw|]. split; [apply (ok_sort_fst rg OK)|].
  split. { pose proof (ok_sorted_fst rg OK raw) as S.
           clear -S. induction S as [|x l S IH HF]; constructor; auto.
           eapply Forall_impl; [|exact HF]. intros y Hy. apply Rltb_false in Hy. exact Hy. }
  split; [exact Lr|]. split; [exact L2|]. split; [exact L1|]. split; [reflexivity|].
  intros i n r c k Hn Hr Hk.
  destruct (nth_sorted_length _ (nu_nucleons nu) _ _ L1 Hn) as (n0 & Hn0).
  destruct (Hi i n0 (r, c) Hn0 Hr) as (k' & Hk' & Hk1 & Hatt & Hlast & Hprev). cbv zeta in *.
  assert (k' = k) by congruence. subst k'.
  assert (Hrc : 0 <= r <= rmax /\ -1 <= c <= 1).
  { assert (In (r, c) raw). { eapply Permutation_in; [apply Permutation_sym, (ok_sort_fst rg OK)|]. eapply nth_error_In; eauto. }
    assert (Forall (fun x : R * R => 0 <= fst x <= rmax /\ -1 <= snd x <= 1) raw) as Fr.
    { eapply (mrepeat_Forall (X := (R * R)%type)); [|exact Hraw]. intros s [x y] s' Hs. cbn [fst snd].
      eapply deformed_point_range; eauto. }
    rewrite Forall_forall in Fr. apply (Fr (r, c)). auto. }
  destruct Hrc as [Hr0 Hc0].
  set (ei := after rg (sum (firstn i ks)) e0) in *.
  assert (Hbody : exists ph zsign, (zsign = 1 \/ zsign = -1) /\
     def_attempt (A:=RA) rg rot (r_sin (r, c)) (r_cos (r, c)) (k - 1) ei = mapply m (sph r (zsign * c) ph)).
  { exists (phi_draw rg (k - 1) ei). unfold def_attempt. rewrite Erot.
    destruct (flip_R (r_cos (r, c)) (k - 1)) as [Ef|Ef]; rewrite Ef;
      [exists 1|exists (-1)]; (split; [auto|]); f_equal; unfold sph, r_sin, r_cos;
      cbn [fst snd num RA RA_with nadd nsub nmul nlit nsqrt ncos nsin]; rlits; f_equal;
      try ring; f_equal; f_equal; f_equal; f_equal; ring. }
  destruct Hbody as (ph & zs & Hz & Eb). rewrite Eb in *.
  assert (En : n = placed (A:=RA) offset n0 (mapply m (sph r (zs * c) ph))) by congruence.
  assert (Hs : sits offset n (mapply m (sph r (zs * c) ph))).
  { rewrite En. unfold sits. destruct (mapply m _) as [[x y] z]. cbn. auto. }
  split; [exists ph, zs; auto|].
  split; [|split; [exact Hr0|split; [exact Hc0|split; [exact Hk1|split]]]].
  - destruct (rotation_rigid m (sph r (zs * c) ph) (sph r (zs * c) ph) Pm) as [Rn _].
    transitivity (vnorm (sph r (zs * c) ph)).
    + rewrite <- Rn. f_equal. unfold from_centre. destruct Hs as (S1 & S2 & S3). rewrite S1, S2, S3.
      destruct (mapply m _) as [[x y] z]. unfold vx, vy, vz. cbn. f_equal. f_equal. ring.
    + apply vnorm_of_square; [lra|].
      assert (Hzc : -1 <= zs * c <= 1) by (destruct Hz; subst zs; lra).
      pose proof (polar_norm r (zs * c) ph Hzc) as P. cbv zeta in P. rewrite <- P.
      unfold polar, sph, vdot, vx, vy, vz.
      cbn [num RA RA_with nadd nsub nmul nlit nsqrt ncos nsin fst snd]. rlits. reflexivity.
  - intros Hsm. destruct (Nat.eq_dec k 1) as [|Hne]; auto. exfalso.
    assert (Ht : (0 < k - 1)%nat) by lia. specialize (Hprev 0%nat Ht).
    apply too_close_true in Hprev; [|exact Hd]. lra.
  - destruct (Nat.eq_dec k 1000) as [|Hne]; auto.
    assert (Hlt : (k < 1000)%nat) by lia. specialize (Hlast Hlt). rewrite <- En in Hlast.
    apply too_close_false in Hlast; [|exact Hd]. destruct Hlast as [?|Hf]; [left; auto|right; right].
    intros j n2 Hj Hn2. apply Hf. eapply firstn_nth; eauto.
Qed.

(** For the deformed species of the table: the maximum radius used. *)
Theorem C31_max_radius :
  forall n (Rw a beta2 beta4 dmin : R),
  nu_kind (@deformed RA n Rw a beta2 beta4 dmin) =
    @KDeformed RA Rw a beta2 beta4 (Rw * (1 + 63 / 100 * Rabs beta2 + 85 / 100 * Rabs beta4) + 10 * a) (dmin * dmin).
Proof.
  intros. unfold deformed, nucleus_new, deformed_rmax. cbn [nu_kind].
  cbn [num RA RA_with nadd nsub nmul nlit nabs]. rlits. reflexivity.
Qed.

(** The sampled (r, cos theta): proposal t is r = rmax * cbrt(u), uniform in
    volume, and a uniform cosine; it is kept iff its third draw does not exceed
    the density; the first kept proposal is the sample. *)
Theorem C31_points :
  forall (rg : Rng RA), rng_ok rg ->
  forall fuel (Rw a beta2 beta4 rmax r c : R) e e',
  sample_deformed_point rg fuel Rw a beta2 beta4 rmax e = (Ret (r, c), e') ->
  exists t,
    let prop j := (rmax * Rcbrt (drawn rg (3 * j) e), cos_draw rg (3 * j + 1) e) in
    (t < fuel)%nat /\ e' = after rg (3 * t + 3) e /\ (r, c) = prop t /\
    (forall j, (j < t)%nat ->
       deformed_density Rw a beta2 beta4 (fst (prop j)) (snd (prop j)) < drawn rg (3 * j + 2) e) /\
    drawn rg (3 * t + 2) e <= deformed_density Rw a beta2 beta4 (fst (prop t)) (snd (prop t)).
Proof.
  intros rg OK fuel Rw a beta2 beta4 rmax r c e e'. cbv zeta. revert e.
  assert (D : forall r c : R, deformed_dist (A:=RA) Rw a beta2 beta4 r c = deformed_density Rw a beta2 beta4 r c).
  { intros r0 c0. unfold deformed_dist, deformed_density, Y20, Y40.
    cbn [num RA RA_with nadd nsub nmul ndiv nlit nsqrt nexp nofZ none_div_root_pi]. rlits.
    assert (0 < PI) by apply PI_RGT_0. assert (0 < sqrt PI) by (apply sqrt_lt_R0; lra).
    rewrite sqrt_div_alt by lra. unfold Rdiv at 1. rewrite Rmult_1_l.
    replace (sqrt 5 / 4 * / sqrt PI * (3 * (c0 * c0) - 1)) with (/ 4 * (sqrt 5 / sqrt PI) * (3 * c0 ^ 2 - 1)) by (field; lra).
    replace (3 / 16 * / sqrt PI * (35 * (c0 * c0) * (c0 * c0) - 30 * (c0 * c0) + 3))
      with (3 / 16 / sqrt PI * (35 * c0 ^ 4 - 30 * c0 ^ 2 + 3)) by (field; lra).
    reflexivity. }
  induction fuel as [|fuel IH]; intros e H; [discriminate|].
  cbn [sample_deformed_point] in H.
  erewrite bind_run in H by apply draw_canonical_run.
  erewrite bind_run in H by apply cos_theta_run.
  erewrite bind_run in H by apply draw_canonical_run.
  rewrite D in H. rewrite <- !after_add, drawn_after, cos_draw_after in H.
  cbn [num RA RA_with nmul ncbrt nltb] in H. cbn [Nat.add] in H.
  match type of H with (if Rltb ?x ?y then _ else _) _ = _ => destruct (Rltb_spec x y) as [Hlt|Hge] end.
  - destruct (IH _ H) as (t & Ht & He & Hp & Hj & Hk). exists (S t).
    rewrite !drawn_after in *. rewrite cos_draw_after in *.
    replace (3 * t + 3)%nat with (3 * S t)%nat in * by lia.
    replace (3 * t + 1 + 3)%nat with (3 * S t + 1)%nat in * by lia.
    replace (3 * t + 2 + 3)%nat with (3 * S t + 2)%nat in * by lia.
    split; [lia|]. split; [rewrite He, <- after_add; f_equal; lia|]. split; [exact Hp|]. split; [|exact Hk].
    intros [|j] Hlt'; [exact Hlt|]. specialize (Hj j ltac:(lia)).
    rewrite !drawn_after, cos_draw_after in Hj.
    replace (3 * j + 3)%nat with (3 * S j)%nat in * by lia.
    replace (3 * j + 1 + 3)%nat with (3 * S j + 1)%nat in * by lia.
    replace (3 * j + 2 + 3)%nat with (3 * S j + 2)%nat in * by lia. exact Hj.
  - unfold ret in H. exists 0%nat. split; [lia|]. split; [change (3 * 0 + 3)%nat with 3%nat; congruence|].
    simpl (3 * 0)%nat. cbn [Nat.add]. apply pair_Ret_inj in H.
    split; [symmetry; apply H|]. split; [lia|]. cbn [fst snd]. lra.
Qed.
