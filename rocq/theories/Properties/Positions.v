(** C59: the law of the nucleon positions. *)
From Coq Require Import Reals Lra Permutation.
From Verif.Base Require Import Result Arith RArith Rng.
From Verif.Model Require Import Random Config Nucleon Files Nucleus Collider.
From Verif.Spec Require Import Geometry Radii Law Glauber Attempts Species Positions.
From Verif.Proof Require Import Basics RBasics Sampling RadiiP LawP GlauberP AttemptsP PositionsP.
From Verif.Properties Require Import Nuclei Species LightNuclei Configured Attempts.
Local Open Scope R_scope.

(** The positions of the nucleons relative to the centre of their nucleus. *)
Definition positions (off : R) (nu : nucleus RA) : list vec := map (from_centre off) (nu_nucleons nu).

Lemma Rprod_map {X Y} (f : Y -> R) (h : X -> Y) l : Rprod f (map h l) = Rprod (fun x => f (h x)) l.
Proof. unfold Rprod. induction l as [|x l IH]; cbn; [reflexivity|]. rewrite IH. reflexivity. Qed.

Section Sample.
Context (U : (R -> R) -> R) (HU : averages (A:=RA) U) (HL : linear (A:=RA) U).
Context (D : shapes RA) (seed : Z -> tape RA).
Local Notation G := (ideal D seed).
Local Notation V := (canonical_mean D U).
Local Notation mo := (mean_of (A:=RA) U).

(** The result of [sample_nucleons] is the list of nucleons with the new offset. *)
Lemma mo_nucleons fuel nu (off : R) m (F : list (nucleon RA) -> R) v :
  (match nu_kind nu with
   | KProton => sample_proton G off (nu_nucleons nu)
   | KDeuteron a b => sample_deuteron G fuel a b off (nu_nucleons nu)
   | KWoodsSaxon Rws a dminsq => sample_ws G Rws a dminsq off (nu_nucleons nu)
   | KDeformed Rws a beta2 beta4 rmax dminsq => sample_deformed G fuel Rws a beta2 beta4 rmax dminsq off (nu_nucleons nu)
   | KManual nconfigs nnuc data _ => sample_manual G nconfigs nnuc data off (nu_nucleons nu)
   end) = m ->
  mo m (if_finished F) v -> mo (sample_nucleons G fuel nu off) (if_finished (fun nu' => F (nu_nucleons nu'))) v.
Proof.
  intros E H. unfold sample_nucleons. rewrite E.
  apply (mo_bind (A:=RA) U HU _ _ _ F); [intros ns'; apply planned_ret| |exact H].
  intros ns'. exact (mo_ret (A:=RA) U (@Nucleus RA (nu_kind nu) ns' off) (if_finished (fun nu' => F (nu_nucleons nu')))).
Qed.
End Sample.

(** Spherical nuclei, without a minimum distance: the nucleons are independent, each
    in a uniformly distributed direction at a Woods-Saxon distributed radius. *)
Theorem C59_spherical :
  forall (D : shapes RA) seed (U : (R -> R) -> R), averages (A:=RA) U -> linear (A:=RA) U -> (forall l, Permutation l (sh_sort D l)) ->
  forall bd f s (d : R) N r a, lookup s species = Some (N, Spherical r a) -> d * d < 1 / 10000000000 ->
  forall fuel (nu : nucleus RA) (off : R) (g : vec -> R), in_use_as bd f s d nu ->
  mean_of (A:=RA) U (sample_nucleons (ideal D seed) fuel nu off) (if_finished (fun nu' => Rprod g (positions off nu')))
    (U (fun w => over_sphere (canonical_mean D U) g (sh_pwl D 1000 0 (milli r + 10 * milli a) (fermi_density (milli r) (milli a)) w)) ^ N).
Proof.
  intros D seed U HU HL HS bd f s d N r a L Hd fuel nu off g I.
  destruct (in_use_as_shape _ _ _ _ _ _ _ I L) as [Ln Sh]. unfold has_shape in Sh.
  destruct (nu_kind nu) as [| |r' a' d2| |] eqn:K; try contradiction. destruct Sh as (-> & -> & ->).
  unfold positions. rewrite <- Ln.
  eapply (mo_ext (A:=RA) U HU _ _ _ _ _ _ (fun _ => eq_refl) _ eq_refl).
  - eapply (mo_nucleons U HU D seed fuel nu off); [rewrite K; reflexivity|]. apply (mo_spherical U HU HL D seed off (d * d) g Hd HS).
  Unshelve. intros [x| | |]; try reflexivity. cbn. symmetry. apply Rprod_map.
Qed.

(** The deuteron: the two nucleons are opposite each other, the direction is
    uniformly distributed, the radius as [over_deuteron] says; a sampling that gives
    up after n proposals reaches proposal k with probability q^k. *)
Theorem C59_deuteron :
  forall (D : shapes RA) seed (U : (R -> R) -> R), averages (A:=RA) U -> linear (A:=RA) U -> (forall u, 0 <= sh_canonical D u < 1) ->
  forall bd f (d : R) n (nu : nucleus RA) (off : R) (F : vec -> vec -> R), in_use_as bd f "d" d nu ->
  let over := over_deuteron (canonical_mean D U) (457 / 1000) (235 / 100) in
  mean_of (A:=RA) U (sample_nucleons (ideal D seed) n nu off)
    (if_finished (fun nu' => match positions off nu' with [p; q] => F p q | _ => 0 end))
    (geometric (1 - over (fun _ => 1)) n * over (fun p => F p (- vx p, - vy p, - vz p))).
Proof.
  intros D seed U HU HL HR bd f d n nu off F I. cbv zeta.
  destruct (in_use_as_shape _ _ _ _ _ _ _ I (eq_refl : lookup "d"%string species = Some (2%nat, Hulthen 457 2350))) as [Ln Sh]. unfold has_shape in Sh.
  destruct (nu_kind nu) as [|a b| | |] eqn:K; try contradiction. destruct Sh as [Ea Eb].
  assert (Ha : a = 457 / 1000) by (rewrite Ea; unfold milli; lra). assert (Hb : b = 235 / 100) by (rewrite Eb; unfold milli; lra).
  rewrite <- Ha, <- Hb. assert (A0 : 0 < a) by lra. assert (AB : a < b) by lra. clear Ea Eb Ha Hb.
  set (V := canonical_mean D U).
  pose (W := fun h : R -> R => V (fun u => accept V (hulthen_weight a b (- ln u / (2 * a)) u) * h (- ln u / (2 * a)))).
  pose (q := V (fun u => 1 - accept V (hulthen_weight a b (- ln u / (2 * a)) u))).
  assert (Q : q = 1 - over_deuteron V a b (fun _ => 1)).
  { unfold q, over_deuteron. transitivity (V (fun u => 1 + -1 * (accept V (hulthen_weight a b (- ln u / (2 * a)) u) * over_sphere V (fun _ => 1) (- ln u / (2 * a))))).
    - apply (V_ext' U HU D). intros u. unfold over_sphere. cbv beta.
      replace (V (fun _ => V (fun _ => 1))) with 1; [ring|].
      unfold V at 2. rewrite (V_const U HU D 1). symmetry. apply (V_const U HU D).
    - unfold V at 1. rewrite (V_add U HL D), (V_const U HU D), (V_scale U HL D). fold V. ring. }
  assert (Rad : forall h n, mean_of (A:=RA) U (deuteron_radius (ideal D seed) n a b) (if_finished h) (geometric q n * W h)).
  { intros h m. induction m as [|n' IH].
    - eapply (mo_ext (A:=RA) U HU _ _ _ _ _ _ (fun _ => eq_refl) (fun _ => eq_refl)); [|apply (mo_fail (A:=RA) U (@OutOfFuel R))]. unfold geometric. cbn. ring.
    - cbn [deuteron_radius].
      apply (mo_bind (A:=RA) U HU _ _ _ (fun u => let r := nneg RA (nlog RA u) / (nmul RA (nofZ RA 2) a) in
         let p := npow RA (nsub RA (nexp RA (nmul RA (nneg RA a) r)) (nexp RA (nmul RA (nneg RA b) r))) (nofZ RA 2) / u in
         (1 - accept V p) * (geometric q n' * W h) + accept V p * h r)).
      + intros u. apply planned_bind; [apply planned_canonical|]. intros v. destruct (nltb RA _ _); [apply planned_deuteron_radius|apply planned_ret].
      + intros u. cbv zeta. set (r := nneg RA (nlog RA u) / (nmul RA (nofZ RA 2) a)).
        set (p := npow RA (nsub RA (nexp RA (nmul RA (nneg RA a) r)) (nexp RA (nmul RA (nneg RA b) r))) (nofZ RA 2) / u).
        change (ndiv RA (nneg RA (nlog RA u)) (nmul RA (nofZ RA 2) a)) with r.
        apply (mo_bind (A:=RA) U HU _ _ _ (fun v => if Rlt_dec p v then geometric q n' * W h else h r)).
        * intros v. destruct (nltb RA _ _); [apply planned_deuteron_radius|apply planned_ret].
        * intros v. match goal with |- context [nltb RA ?x v] => change (nltb RA x v) with (Rltb p v) end.
          destruct (Rltb_spec p v) as [H|H]; destruct (Rlt_dec p v); try lra.
          -- exact IH.
          -- exact (mo_ret (A:=RA) U r (if_finished h)).
        * unfold V. rewrite <- (V_choice U HU HL D). apply (mo_canonical U D seed).
      + eapply (mo_ext (A:=RA) U HU _ _ _ _ _ _ (fun _ => eq_refl) (fun _ => eq_refl)); [|apply (mo_canonical U D seed)].
        rewrite geometric_S. fold V.
        transitivity (V (fun u => (1 - accept V (hulthen_weight a b (- ln u / (2 * a)) u)) * (geometric q n' * W h) + accept V (hulthen_weight a b (- ln u / (2 * a)) u) * h (- ln u / (2 * a)))).
        * apply (V_ext U HU D). intros w. pose proof (HR w) as Hu. set (u := sh_canonical D w) in *. cbv zeta.
          change (nneg RA (nlog RA u) / nmul RA (nofZ RA 2) a) with (- ln u / (2 * a)). set (r := - ln u / (2 * a)).
          replace (npow RA _ _ / u) with (hulthen_weight a b r u); [reflexivity|].
          unfold hulthen_weight. f_equal. change (npow RA) with Rpow.
          change (nsub RA (nexp RA (nmul RA (nneg RA a) r)) (nexp RA (nmul RA (nneg RA b) r))) with (exp (- a * r) - exp (- b * r)).
          change (nofZ RA 2) with 2. set (x := exp (- a * r) - exp (- b * r)).
          assert (X : 0 <= x).
          { assert (Hr : 0 <= r). { unfold r. destruct (Req_dec u 0) as [Z|Z].
              - rewrite Z. unfold ln. destruct (Rlt_dec 0 0) as [Z0|Z0]; [exfalso; exact (Rlt_irrefl _ Z0)|]. unfold Rdiv. rewrite Ropp_0. lra.
              - assert (ln u < 0) by (rewrite <- ln_1; apply ln_increasing; lra). apply Rlt_le, Rdiv_lt_0_compat; lra. }
            assert (exp (- b * r) <= exp (- a * r)); [|unfold x; lra].
            destruct (Req_dec r 0) as [Z|Z]; [rewrite Z, !Rmult_0_r; lra|]. apply Rlt_le, exp_increasing. nra. }
          unfold Rpow. destruct (Req_EM_T x 0) as [Z|Z].
          -- destruct (Req_EM_T 2 0); [lra|]. rewrite Z. ring.
          -- change (Rpower x 2) with (Rpower x (INR 2)). rewrite Rpower_pow by lra. reflexivity.
        * unfold V at 1. rewrite (V_add U HL D), (V_scale_r U HU HL D). fold V. fold q. fold (W h). ring. }
  eapply (mo_ext (A:=RA) U HU _ _ _ _ _ _ (fun _ => eq_refl) _ _).
  - eapply (mo_nucleons U HU D seed n nu off _ (fun ns => match map (from_centre off) ns with [p; q] => F p q | _ => 0 end)); [rewrite K; reflexivity|].
    unfold sample_deuteron.
    apply (mo_bind (A:=RA) U HU _ _ _ (fun r => over_sphere V (fun p => F p (- vx p, - vy p, - vz p)) r)); [| |apply Rad].
    + intros r. apply planned_bind; [apply planned_cos_theta|]. intros c. apply planned_bind; [apply planned_phi|]. intros ph. destruct (polar (A:=RA) r c ph) as [[x y] z].
      destruct (nu_nucleons nu) as [|n1 [|n2 rest]]; [apply planned_undefined|apply planned_undefined|apply planned_ret].
    + intros r. destruct (nu_nucleons nu) as [|n1 [|n2 [|n3 rest]]]; try discriminate Ln.
      apply (mo_bind (A:=RA) U HU _ _ _ (fun c => V (fun v => (fun p => F p (- vx p, - vy p, - vz p)) (sph r c (2 * PI * v))))); [| |apply (mo_cos U HU D seed)].
      * intros c. apply planned_bind; [apply planned_phi|]. intros ph. destruct (polar (A:=RA) r c ph) as [[x y] z]. apply planned_ret.
      * intros c. apply (mo_bind (A:=RA) U HU _ _ _ (fun ph => (fun p => F p (- vx p, - vy p, - vz p)) (sph r c ph))); [| |apply (mo_phi U HU D seed)].
        -- intros ph. destruct (polar (A:=RA) r c ph) as [[x y] z]. apply planned_ret.
        -- intros ph. destruct (polar (A:=RA) r c ph) as [[x y] z] eqn:E.
           eapply (mo_ext (A:=RA) U HU _ _ _ _ _ _ (fun _ => eq_refl) (fun _ => eq_refl)); [|apply (mo_ret (A:=RA) U)].
           cbn [if_finished map]. rewrite !from_centre_set.
           assert (S : sph r c ph = (x, y, z)) by (transitivity (polar (A:=RA) r c ph); [unfold polar, sph; toR; rlits; reflexivity|exact E]).
           rewrite S. reflexivity.
  Unshelve.
  2: { rewrite <- Q. reflexivity. }
  intros [x| | |]; reflexivity.
Qed.

(** Deformed nuclei, without a minimum distance: given the orientation, the nucleons
    are independent, each distributed in the nucleus' frame as [over_body] says; the
    axis of the nucleus is uniformly distributed. *)
Theorem C59_deformed :
  forall (D : shapes RA) seed (U : (R -> R) -> R), averages (A:=RA) U -> linear (A:=RA) U -> (forall l, Permutation l (sh_sort_fst D l)) ->
  forall cr : R -> R, (forall u, cr u ^ 3 = u) ->
  forall bd f s (d : R) N r a b2 b4, lookup s species = Some (N, Deformed r a b2 b4) -> d * d < 1 / 10000000000 ->
  forall n (nu : nucleus RA) (off : R) (g : vec -> R), in_use_as bd f s d nu ->
  let rmax := milli r * (1 + 63 / 100 * Rabs (milli b2) + 85 / 100 * Rabs (milli b4)) + 10 * milli a in
  let over := over_body (canonical_mean D U) cr (milli r) (milli a) (milli b2) (milli b4) rmax in
  mean_of (A:=RA) U (sample_nucleons (ideal D seed) n nu off) (if_finished (fun nu' => Rprod g (positions off nu')))
    (over_axes (canonical_mean D U) (fun rot => (geometric (1 - over (fun _ => 1)) n * over (fun p => g (rot p))) ^ N)).
Proof.
  intros D seed U HU HL HS cr HC bd f s d N r a b2 b4 L Hd n nu off g I. cbv zeta.
  destruct (in_use_as_shape _ _ _ _ _ _ _ I L) as [Ln Sh]. unfold has_shape in Sh.
  destruct (nu_kind nu) as [| | |r' a' b2' b4' rmax d2|] eqn:K; try contradiction. destruct Sh as (-> & -> & -> & -> & -> & <-).
  set (V := canonical_mean D U). set (over := over_body V cr (milli r) (milli a) (milli b2) (milli b4) rmax).
  assert (Q : V (fun u => V (fun v => 1 - accept V (deformed_density (milli r) (milli a) (milli b2) (milli b4) (rmax * cr u) (2 * v - 1)))) = 1 - over (fun _ => 1)).
  { unfold over, over_body. cbv zeta.
    transitivity (V (fun u => 1 + -1 * V (fun v => accept V (deformed_density (milli r) (milli a) (milli b2) (milli b4) (rmax * cr u) (2 * v - 1)) * V (fun _ => 1)))).
    - apply (V_ext' U HU D). intros u. unfold V at 3 5. rewrite (V_const U HU D).
      transitivity (V (fun v => 1 + -1 * (accept V (deformed_density (milli r) (milli a) (milli b2) (milli b4) (rmax * cr u) (2 * v - 1)) * 1))).
      + apply (V_ext' U HU D). intros v. ring.
      + unfold V at 1. rewrite (V_add U HL D), (V_const U HU D), (V_scale U HL D). reflexivity.
    - unfold V at 1. rewrite (V_add U HL D), (V_const U HU D), (V_scale U HL D). fold V. ring. }
  rewrite <- Q. unfold positions. rewrite <- Ln.
  eapply (mo_ext (A:=RA) U HU _ _ _ _ _ _ (fun _ => eq_refl) _ eq_refl).
  - eapply (mo_nucleons U HU D seed n nu off _ (Rprod (fun n0 => g (from_centre off n0)))); [rewrite K; reflexivity|].
    unfold sample_deformed.
    assert (P : forall ca ab, planned (bind (mrepeat (length (nu_nucleons nu)) (sample_deformed_point (ideal D seed) n (milli r) (milli a) (milli b2) (milli b4) rmax)) (fun samples =>
      place_all_deformed (ideal D seed) (d * d) off (rotate_tilt_spin (A:=RA) ca (nsqrt RA (nsub RA (nlit RA 1 0) (nmul RA ca ca))) (ncos RA ab) (nsin RA ab)) (sort_fst (ideal D seed) samples) [] (nu_nucleons nu)))).
    { intros ca ab. apply planned_bind; [apply planned_mrepeat, planned_deformed_point|]. intros samples. apply planned_place_all_deformed. }
    apply (mo_bind (A:=RA) U HU _ _ _ (fun ca => V (fun v => (geometric (V (fun u => V (fun v => 1 - accept V (deformed_density (milli r) (milli a) (milli b2) (milli b4) (rmax * cr u) (2 * v - 1))))) n
       * over (fun p => g (spin (2 * PI * v) (tilt ca p)))) ^ length (nu_nucleons nu)))); [| |apply (mo_cos U HU D seed)].
    + intros ca. cbv zeta. apply planned_bind; [apply planned_phi|]. intros ab. apply P.
    + intros ca. cbv zeta.
      apply (mo_bind (A:=RA) U HU _ _ _ (fun ab => (geometric (V (fun u => V (fun v => 1 - accept V (deformed_density (milli r) (milli a) (milli b2) (milli b4) (rmax * cr u) (2 * v - 1))))) n
       * over (fun p => g (spin ab (tilt ca p)))) ^ length (nu_nucleons nu))); [| |apply (mo_phi U HU D seed)].
      * intros ab. apply P.
      * intros ab.
        eapply (mo_ext (A:=RA) U HU _ _ _ _ _ _ (fun _ => eq_refl) (fun _ => eq_refl));
          [|exact (mo_points_placed U HU HL D seed off (d * d) g Hd cr (milli r) (milli a) (milli b2) (milli b4) rmax HC
              (rotate_tilt_spin (A:=RA) ca (nsqrt RA (nsub RA (nlit RA 1 0) (nmul RA ca ca))) (ncos RA ab) (nsin RA ab)) HS n (nu_nucleons nu))].
        fold V. fold over. f_equal. f_equal. unfold over, over_body. cbv zeta. apply (V_ext' U HU D). intros u. apply (V_ext' U HU D). intros v. f_equal.
        apply (V_ext' U HU D). intros w. f_equal. unfold rotate_tilt_spin, spin, tilt, sph, vx, vy, vz. cbn [fst snd]. toR. rlits.
        change (ncos RA ab) with (cos ab). change (nsin RA ab) with (sin ab). change (nsqrt RA) with R_sqrt.sqrt. f_equal; [f_equal|]; ring.
  Unshelve. intros [x| | |]; try reflexivity. cbn. symmetry. apply Rprod_map.
Qed.

(** The program does not give up: as the number of proposals grows, the mean tends
    to the one with the density normalised. *)
Lemma geometric_limit q : 0 <= q < 1 -> Un_cv (geometric q) (/ (1 - q)).
Proof.
  intros Hq eps He. destruct (pow_lt_1_zero q ltac:(rewrite Rabs_right; lra) (eps * (1 - q)) ltac:(apply Rmult_lt_0_compat; lra)) as (N & HN).
  exists N. intros n Hn. specialize (HN n Hn). unfold R_dist.
  replace (geometric q n - / (1 - q)) with (- (q ^ n / (1 - q))).
  - rewrite Rabs_Ropp. unfold Rdiv. rewrite Rabs_mult, (Rabs_right (/ (1 - q))) by (apply Rle_ge, Rlt_le, Rinv_0_lt_compat; lra).
    apply Rmult_lt_reg_r with (1 - q); [lra|]. rewrite Rmult_assoc, Rinv_l, Rmult_1_r by lra. exact HN.
  - pose proof (geometric_closed q n) as E. replace (geometric q n) with ((1 - q ^ n) / (1 - q)) by (rewrite <- E; field; lra). field. lra.
Qed.
Lemma pow_limit (u : nat -> R) l N : Un_cv u l -> Un_cv (fun n => u n ^ N) (l ^ N).
Proof.
  intros H. induction N as [|N IH]; cbn [pow].
  - intros eps He. exists O. intros n _. unfold R_dist. rewrite Rminus_diag_eq, Rabs_R0 by reflexivity. exact He.
  - apply (CV_mult u (fun n => u n ^ N)); assumption.
Qed.
Lemma const_limit c : Un_cv (fun _ => c) c.
Proof. intros eps He. exists O. intros n _. unfold R_dist. rewrite Rminus_diag_eq, Rabs_R0 by reflexivity. exact He. Qed.
Lemma ext_limit (u v : nat -> R) l : (forall n, u n = v n) -> Un_cv u l -> Un_cv v l.
Proof. intros E H eps He. destruct (H eps He) as (N & HN). exists N. intros n Hn. rewrite <- E. apply HN, Hn. Qed.

Theorem C59_deuteron_limit :
  forall (D : shapes RA) seed (U : (R -> R) -> R), averages (A:=RA) U -> linear (A:=RA) U -> (forall u, 0 <= sh_canonical D u < 1) ->
  forall bd f (d : R) (nu : nucleus RA) (off : R) (F : vec -> vec -> R), in_use_as bd f "d" d nu ->
  let over := over_deuteron (canonical_mean D U) (457 / 1000) (235 / 100) in
  0 < over (fun _ => 1) <= 1 ->
  forall v : nat -> R, (forall n, mean_of (A:=RA) U (sample_nucleons (ideal D seed) n nu off)
    (if_finished (fun nu' => match positions off nu' with [p; q] => F p q | _ => 0 end)) (v n)) ->
  Un_cv v (over (fun p => F p (- vx p, - vy p, - vz p)) / over (fun _ => 1)).
Proof.
  intros D seed U HU HL HR bd f d nu off F I over H1 v Hv.
  apply (ext_limit (fun n => geometric (1 - over (fun _ => 1)) n * over (fun p => F p (- vx p, - vy p, - vz p)))).
  - intros n. eapply (mo_unique (A:=RA) U HU); [apply (C59_deuteron D seed U HU HL HR bd f d n nu off F I)|apply Hv].
  - unfold Rdiv. rewrite Rmult_comm. apply CV_mult; [|apply const_limit].
    replace (/ over (fun _ => 1)) with (/ (1 - (1 - over (fun _ => 1)))) by (f_equal; ring). apply geometric_limit. lra.
Qed.

Theorem C59_deformed_limit :
  forall (D : shapes RA) seed (U : (R -> R) -> R), averages (A:=RA) U -> linear (A:=RA) U -> (forall l, Permutation l (sh_sort_fst D l)) ->
  forall cr : R -> R, (forall u, cr u ^ 3 = u) ->
  forall bd f s (d : R) N r a b2 b4, lookup s species = Some (N, Deformed r a b2 b4) -> d * d < 1 / 10000000000 ->
  forall (nu : nucleus RA) (off : R) (g : vec -> R), in_use_as bd f s d nu ->
  let rmax := milli r * (1 + 63 / 100 * Rabs (milli b2) + 85 / 100 * Rabs (milli b4)) + 10 * milli a in
  let over := over_body (canonical_mean D U) cr (milli r) (milli a) (milli b2) (milli b4) rmax in
  0 < over (fun _ => 1) <= 1 ->
  forall v : nat -> R, (forall n, mean_of (A:=RA) U (sample_nucleons (ideal D seed) n nu off) (if_finished (fun nu' => Rprod g (positions off nu'))) (v n)) ->
  Un_cv v (over_axes (canonical_mean D U) (fun rot => (over (fun p => g (rot p)) / over (fun _ => 1)) ^ N)).
Proof.
  intros D seed U HU HL HS cr HC bd f s d N r a b2 b4 L Hd nu off g I rmax over H1 v Hv.
  assert (S : forall c, over_axes (canonical_mean D U) (fun rot => (c * over (fun p => g (rot p))) ^ N) = c ^ N * over_axes (canonical_mean D U) (fun rot => over (fun p => g (rot p)) ^ N)).
  { intros c. unfold over_axes. rewrite <- (V_scale U HL D). apply (V_ext' U HU D). intros u. rewrite <- (V_scale U HL D). apply (V_ext' U HU D). intros w. apply Rpow_mult_distr. }
  apply (ext_limit (fun n => geometric (1 - over (fun _ => 1)) n ^ N * over_axes (canonical_mean D U) (fun rot => over (fun p => g (rot p)) ^ N))).
  - intros n. rewrite <- S. eapply (mo_unique (A:=RA) U HU); [apply (C59_deformed D seed U HU HL HS cr HC bd f s d N r a b2 b4 L Hd n nu off g I)|apply Hv].
  - replace (over_axes (canonical_mean D U) (fun rot => (over (fun p => g (rot p)) / over (fun _ => 1)) ^ N))
      with ((/ over (fun _ => 1)) ^ N * over_axes (canonical_mean D U) (fun rot => over (fun p => g (rot p)) ^ N)).
    + apply CV_mult; [|apply const_limit]. apply pow_limit.
      replace (/ over (fun _ => 1)) with (/ (1 - (1 - over (fun _ => 1)))) by (f_equal; ring). apply geometric_limit. lra.
    + rewrite <- S. unfold over_axes. apply (V_ext' U HU D). intros u. apply (V_ext' U HU D). intros w. unfold Rdiv. f_equal. ring.
Qed.

(** Nuclei from a file: a uniformly chosen configuration (as std::uniform_int_distribution
    transforms a variate) under a uniformly distributed rotation. *)
Lemma position_at_file (data : list R) i p : (0 <= i)%Z -> file_row data (Z.to_nat i) = Some p -> position_at (A:=RA) data i = Ret p.
Proof.
  intros Hi H. unfold file_row in H. unfold position_at, at_index.
  destruct (nth_error data (3 * Z.to_nat i)) as [x|] eqn:E1; [|discriminate H].
  destruct (nth_error data (3 * Z.to_nat i + 1)) as [y|] eqn:E2; [|discriminate H].
  destruct (nth_error data (3 * Z.to_nat i + 2)) as [z|] eqn:E3; [|discriminate H].
  replace (3 * i <? 0)%Z with false by (symmetry; apply Z.ltb_ge; lia).
  replace (3 * i + 1 <? 0)%Z with false by (symmetry; apply Z.ltb_ge; lia).
  replace (3 * i + 2 <? 0)%Z with false by (symmetry; apply Z.ltb_ge; lia).
  replace (Z.to_nat (3 * i)) with (3 * Z.to_nat i)%nat by lia. replace (Z.to_nat (3 * i + 1)) with (3 * Z.to_nat i + 1)%nat by lia.
  replace (Z.to_nat (3 * i + 2)) with (3 * Z.to_nat i + 2)%nat by lia.
  change (@nth_error (num RA)) with (@nth_error R). rewrite E1, E2, E3. exact (f_equal (fun o => match o with Some q => Ret q | None => Ret p end) H).
Qed.
Lemma place_manual_all (off : R) rot (data : list R) : forall ns rows i, (0 <= i)%Z -> length rows = length ns ->
  (forall k p, nth_error rows k = Some p -> file_row data (Z.to_nat i + k) = Some p) ->
  exists ns', place_manual (A:=RA) off rot data i ns = Ret ns' /\ map (from_centre off) ns' = map rot rows.
Proof.
  induction ns as [|n ns IH]; intros [|p rows] i Hi L H; try discriminate L; cbn [place_manual].
  - exists []. auto.
  - rewrite (position_at_file data i p Hi) by (rewrite <- (H 0%nat p eq_refl); f_equal; lia). cbn [rbind].
    destruct (rot p) as [[x y] z] eqn:E.
    destruct (IH rows (i + 1)%Z ltac:(lia) (f_equal pred L)) as (ns' & E1 & E2).
    { intros k q Hq. rewrite <- (H (S k) q Hq). f_equal. lia. }
    rewrite E1. cbn [rbind]. eexists. split; [reflexivity|]. cbn [map]. rewrite E2, from_centre_set, E. reflexivity.
Qed.

Theorem C59_manual :
  forall (D : shapes RA) seed (U : (R -> R) -> R), averages (A:=RA) U ->
  forall fuel (nu : nucleus RA) nconfigs nnuc (data : list R) (rmax off : R) (config : Z -> list vec) (F : list vec -> R),
  nu_kind nu = @KManual RA nconfigs nnuc data rmax -> length (nu_nucleons nu) = Z.to_nat nnuc -> (0 < nnuc)%Z -> (0 < nconfigs < 2 ^ 64)%Z ->
  (forall k, (0 <= k < nconfigs)%Z -> configuration data (Z.to_nat nnuc) (Z.to_nat k) (config k)) ->
  (forall u, (0 <= sh_int D 0 (nconfigs - 1) u < nconfigs)%Z) ->
  mean_of (A:=RA) U (sample_nucleons (ideal D seed) fuel nu off) (if_finished (fun nu' => F (positions off nu')))
    (over_rotations (canonical_mean D U) (fun rot => U (fun w => F (map rot (config (sh_int D 0 (nconfigs - 1) w)))))).
Proof.
  intros D seed U HU fuel nu nconfigs nnuc data rmax off config F K Ln Hn Hc Hcfg Hi.
  eapply (mo_nucleons U HU D seed fuel nu off _ (fun ns => F (map (from_centre off) ns))); [rewrite K; reflexivity|].
  set (ns := nu_nucleons nu) in *. set (V := canonical_mean D U).
  pose (place := fun a1 c2 a3 => bind (act (unif_int (ideal D seed) 0 (to_size (nconfigs - 1)))) (fun index =>
     if (nconfigs <=? index)%Z then throw (H5Exception "hyperslab selection out of range")
     else lift (place_manual (A:=RA) off (rotate_euler (A:=RA) (ncos RA a1) (nsin RA a1) c2 (nsqrt RA (nsub RA (nlit RA 1 0) (nmul RA c2 c2))) (ncos RA a3) (nsin RA a3)) data (index * nnuc) ns))).
  assert (P : forall a1 c2 a3, planned (place a1 c2 a3)).
  { intros a1 c2 a3. unfold place. apply planned_bind; [exact (planned_act (A:=RA) (sh_int D 0 (to_size (nconfigs - 1))))|]. intros index.
    destruct (nconfigs <=? index)%Z; [apply planned_throw|apply planned_lift]. }
  change (mean_of (A:=RA) U (bind (phi (ideal D seed)) (fun a1 => bind (cos_theta (ideal D seed)) (fun c2 => bind (phi (ideal D seed)) (fun a3 => place a1 c2 a3))))
    (if_finished (fun ns => F (map (from_centre off) ns))) (over_rotations V (fun rot => U (fun w => F (map rot (config (sh_int D 0 (nconfigs - 1) w))))))).
  pose (res := fun a1 c2 a3 => U (fun w => F (map (fun p => spin a3 (tilt c2 (spin a1 p))) (config (sh_int D 0 (nconfigs - 1) w))))).
  apply (mo_bind (A:=RA) U HU _ _ _ (fun a1 => V (fun u => V (fun v => res a1 (2 * u - 1) (2 * PI * v))))); [| |apply (mo_phi U HU D seed)].
  - intros a1. apply planned_bind; [apply planned_cos_theta|]. intros c2. apply planned_bind; [apply planned_phi|]. intros a3. apply P.
  - intros a1. apply (mo_bind (A:=RA) U HU _ _ _ (fun c2 => V (fun v => res a1 c2 (2 * PI * v)))); [| |apply (mo_cos U HU D seed)].
    + intros c2. apply planned_bind; [apply planned_phi|]. intros a3. apply P.
    + intros c2. apply (mo_bind (A:=RA) U HU _ _ _ (fun a3 => res a1 c2 a3)); [intros a3; apply P| |apply (mo_phi U HU D seed)].
      intros a3. exists (Draw (fun w => Done (let index := sh_int D 0 (nconfigs - 1) w in
        place_manual (A:=RA) off (rotate_euler (A:=RA) (ncos RA a1) (nsin RA a1) c2 (nsqrt RA (nsub RA (nlit RA 1 0) (nmul RA c2 c2))) (ncos RA a3) (nsin RA a3)) data (index * nnuc) ns))).
      assert (TS : to_size (nconfigs - 1) = (nconfigs - 1)%Z) by (apply Z.mod_small; lia).
      split.
      * intros t. unfold place, bind, act. cbn [unif_int ideal]. rewrite TS. cbn [follow]. pose proof (Hi (front t)) as Hx. cbv zeta.
        replace (nconfigs <=? sh_int D 0 (nconfigs - 1) (front t))%Z with false by (symmetry; apply Z.leb_gt; lia). reflexivity.
      * cbn [mean]. unfold res. apply (av_ext _ HU). intros w. cbv zeta. pose proof (Hi w) as Hx. set (k := sh_int D 0 (nconfigs - 1) w) in *.
        destruct (Hcfg k Hx) as [L1 L2].
        destruct (place_manual_all off (rotate_euler (A:=RA) (ncos RA a1) (nsin RA a1) c2 (nsqrt RA (nsub RA (nlit RA 1 0) (nmul RA c2 c2))) (ncos RA a3) (nsin RA a3)) data ns (config k) (k * nnuc)) as (ns' & E1 & E2).
        { nia. } { congruence. }
        { intros i p Hp. rewrite <- (L2 i p Hp). f_equal. nia. }
        match goal with |- if_finished _ ?x = _ => replace x with (@Ret (list (nucleon RA)) ns') by (symmetry; exact E1) end.
        cbn [if_finished]. rewrite E2. f_equal. apply map_ext. intros [[x y] z]. unfold rotate_euler, spin, tilt, vx, vy, vz. cbn [fst snd]. toR. rlits.
        change (ncos RA a1) with (cos a1). change (nsin RA a1) with (sin a1). change (ncos RA a3) with (cos a3). change (nsin RA a3) with (sin a3). change (nsqrt RA) with R_sqrt.sqrt.
        f_equal; [f_equal|]; ring.
Qed.

(** The law of equidistant variates is one the theorems apply to; a variate does not
    exceed p with probability p, up to 1/n. *)
Lemma count_below (n : nat) (p : R) : (0 < n)%nat -> 0 <= p <= 1 -> forall m, (m <= n)%nat ->
  let c := fold_right (fun k acc => (if Rlt_dec p (INR k / INR n) then 0 else 1) + acc) 0 (seq 0 m) in
  Rmin (p * INR n) (INR m) <= c <= Rmin (p * INR n + 1) (INR m).
Proof.
  intros Hn Hp m. assert (N0 : 0 < INR n) by (apply lt_0_INR; exact Hn).
  assert (Sn : forall h m, fold_right (fun k acc => h k + acc) 0 (seq 0 (S m)) = fold_right (fun k acc => h k + acc) 0 (seq 0 m) + h m).
  { intros h k. rewrite seq_S, fold_right_app. cbn [fold_right Nat.add]. generalize (seq 0 k). intros l. induction l as [|i l IH]; cbn [fold_right]; [ring|]. rewrite IH. ring. }
  induction m as [|m IH]; intros Hm; cbv zeta.
  - cbn [seq fold_right INR]. assert (0 <= p * INR n) by (apply Rmult_le_pos; lra). rewrite !Rmin_right by lra. lra.
  - rewrite Sn. specialize (IH ltac:(lia)). cbv zeta in IH. rewrite S_INR.
    set (c := fold_right _ _ _) in *. destruct (Rlt_dec p (INR m / INR n)) as [H|H].
    + assert (p * INR n < INR m). { apply Rmult_lt_compat_r with (r := INR n) in H; [|exact N0]. unfold Rdiv in H. rewrite Rmult_assoc, Rinv_l in H; lra. }
      unfold Rmin in *. repeat destruct Rle_dec; lra.
    + assert (INR m <= p * INR n). { apply Rnot_lt_le in H. apply Rmult_le_compat_r with (r := INR n) in H; [|lra]. unfold Rdiv in H. rewrite Rmult_assoc, Rinv_l in H; lra. }
      unfold Rmin in *. repeat destruct Rle_dec; lra.
Qed.

Theorem C59_variates : forall n, (0 < n)%nat ->
  averages (A:=RA) (equidistant n) /\ linear (A:=RA) (equidistant n) /\
  forall p, 0 <= p <= 1 -> p <= accept (equidistant n) p <= p + / INR n.
Proof.
  intros n Hn. assert (N0 : 0 < INR n) by (apply lt_0_INR; exact Hn). unfold equidistant. split; [|split].
  - split.
    + intros c. replace (fold_right (fun _ acc => c + acc) 0 (seq 0 n)) with (INR n * c); [field; lra|].
      rewrite <- (seq_length n 0) at 1. generalize (seq 0 n). intros l. induction l as [|k l IH]; [cbn; ring|]. cbn [length fold_right]. rewrite S_INR, <- IH. ring.
    + intros f g H. f_equal. generalize (seq 0 n). intros l. induction l as [|k l IH]; cbn [fold_right]; [reflexivity|]. rewrite H, IH. reflexivity.
  - split.
    + intros f g. rewrite <- Rmult_plus_distr_l. f_equal. generalize (seq 0 n). intros l. induction l as [|k l IH]; cbn [fold_right]; [ring|]. rewrite IH. ring.
    + intros c f. rewrite <- Rmult_assoc, (Rmult_comm c), Rmult_assoc. f_equal. generalize (seq 0 n). intros l. induction l as [|k l IH]; cbn [fold_right]; [ring|]. rewrite IH. ring.
  - intros p Hp. unfold accept. pose proof (count_below n p Hn Hp n (le_n n)) as H. cbv zeta in H. set (c := fold_right _ _ _) in *.
    assert (P1 : p * INR n <= INR n) by (assert (p * INR n <= 1 * INR n) by (apply Rmult_le_compat_r; lra); lra).
    rewrite Rmin_left in H by exact P1.
    assert (c <= p * INR n + 1) by (eapply Rle_trans; [apply H|apply Rmin_l]).
    split.
    + apply Rmult_le_reg_l with (INR n); [exact N0|]. rewrite <- Rmult_assoc, Rinv_r, Rmult_1_l by lra. lra.
    + apply Rmult_le_reg_l with (INR n); [exact N0|]. rewrite <- Rmult_assoc, Rinv_r, Rmult_1_l by lra. rewrite Rmult_plus_distr_l, Rinv_r by lra. lra.
Qed.
