(** The law of the nucleon positions: calculus. *)
From Coq Require Import Reals Lra Permutation FunctionalExtensionality.
From Verif.Base Require Import Result Arith RArith Rng.
From Verif.Model Require Import Random Config Nucleon Files Nucleus Collider.
From Verif.Spec Require Import Geometry Radii Law Glauber Attempts Positions.
From Verif.Proof Require Import Basics RBasics RadiiP LawP GlauberP AttemptsP.
Local Open Scope R_scope.

(** ** Means of composed programs *)
Section Means.
Context {A : Arith} (U : (num A -> R) -> R) (HU : averages U).

Lemma mo_ext {X} (m m' : tape A -> X * tape A) F F' v v' :
  (forall t, m t = m' t) -> (forall r, F r = F' r) -> v = v' -> mean_of U m F v -> mean_of U m' F' v'.
Proof.
  intros Hm HF <- (p & Hp & <-). exists p. split; [intros t; rewrite <- Hm; apply Hp|]. apply (mean_unique2 U HU). intros t. symmetry. apply HF.
Qed.
Lemma mo_ret {X} (x : X) F : mean_of U (ret x) F (F (Ret x)).
Proof. exists (Done (Ret x)). split; [intros t; reflexivity|reflexivity]. Qed.
Lemma mo_fail {X} (r : result X) F : mean_of U (lift r) F (F r).
Proof. exists (Done r). split; [intros t; reflexivity|reflexivity]. Qed.
Lemma mo_act {X} (f : num A -> X) F : mean_of U (act (fun t : tape A => (f (front t), rest t))) F (U (fun u => F (Ret (f u)))).
Proof. exists (Draw (fun u => Done (Ret (f u)))). split; [intros t; reflexivity|reflexivity]. Qed.
Lemma mo_unique {X} (m : tape A -> X * tape A) F v v' : mean_of U m F v -> mean_of U m F v' -> v = v'.
Proof. intros (p & Hp & <-) (q & Hq & <-). apply (mean_unique U HU). intros t. rewrite <- Hp, <- Hq. reflexivity. Qed.
(** Programs that draw once and go on. *)
Lemma mo_bind {X Y} (m : M (tape A) X) (k : X -> M (tape A) Y) (F : Y -> R) (w : X -> R) v :
  (forall x, planned (k x)) -> (forall x, mean_of U (k x) (if_finished F) (w x)) ->
  mean_of U m (if_finished w) v -> mean_of U (bind m k) (if_finished F) v.
Proof.
  intros P K (p & Hp & <-). exists (pbind p (fun x => proj1_sig (P x))). split.
  - apply plans_bind; [exact Hp|]. intros x. exact (proj2_sig (P x)).
  - rewrite (mean_pbind U HU). apply (mean_unique2 U HU). intros t. destruct (fst (follow p t)) as [x| | |]; try reflexivity. cbn [if_finished].
    eapply mo_unique; [|apply K]. exists (proj1_sig (P x)). split; [exact (proj2_sig (P x))|reflexivity].
Qed.

Hypothesis HL : linear U.
Lemma mo_scale {X} (m : M (tape A) X) F c v : mean_of U m (if_finished F) v -> mean_of U m (if_finished (fun x => c * F x)) (c * v).
Proof.
  intros (p & Hp & <-). exists p. split; [exact Hp|]. rewrite <- (mean_scale U HU HL). apply (mean_unique2 U HU). intros t. destruct (fst (follow p t)); cbn; ring.
Qed.
Lemma mo_repeat {X} (m : M (tape A) X) (h : X -> R) v : planned m -> mean_of U m (if_finished h) v ->
  forall n, mean_of U (mrepeat n m) (if_finished (Rprod h)) (v ^ n).
Proof.
  intros P Hm. induction n as [|n IH]; [apply (mo_ret (@nil X))|]. cbn [mrepeat pow].
  apply (mo_bind _ _ _ (fun x => h x * v ^ n)).
  - intros x. apply planned_bind; [apply planned_mrepeat; exact P|]. intros xs. apply planned_ret.
  - intros x. apply (mo_bind _ _ _ (fun xs => h x * Rprod h xs)); [intros xs; apply planned_ret| |].
    + intros xs. apply (mo_ret (x :: xs)).
    + apply mo_scale, IH.
  - apply (mo_ext m m (if_finished (fun x => v ^ n * h x)) _ (v ^ n * v)); [reflexivity| |ring|apply mo_scale, Hm].
    intros [x| | |]; cbn; ring.
Qed.
End Means.

Lemma Rprod_app {X} (f : X -> R) l l' : Rprod f (l ++ l') = Rprod f l * Rprod f l'.
Proof. unfold Rprod. induction l as [|x l IH]; cbn [app fold_right]; [ring|]. rewrite IH. ring. Qed.
Lemma Rprod_perm {X} (f : X -> R) l l' : Permutation l l' -> Rprod f l = Rprod f l'.
Proof. unfold Rprod. induction 1; cbn [fold_right]; [reflexivity|congruence|ring|congruence]. Qed.

(** ** The samplers *)
Section Samplers.
Context (U : (R -> R) -> R) (HU : averages (A:=RA) U) (HL : linear (A:=RA) U).
Context (D : shapes RA) (seed : Z -> tape RA).
Local Notation G := (ideal D seed).
Local Notation V := (canonical_mean D U).
Local Notation mo := (mean_of (A:=RA) U).

Lemma mo_canonical F : mo (draw_canonical G) (if_finished F) (V F).
Proof. exact (mo_act (A:=RA) U (sh_canonical D) (if_finished F)). Qed.
Lemma mo_cos F : mo (cos_theta G) (if_finished F) (V (fun u => F (2 * u - 1))).
Proof.
  apply (mo_bind (A:=RA) U HU _ _ _ (fun u => F (2 * u - 1))); [intros u; apply planned_ret| |apply mo_canonical].
  intros u. exact (mo_ret (A:=RA) U (2 * u - 1) (if_finished F)).
Qed.
Lemma mo_phi F : mo (phi G) (if_finished F) (V (fun u => F (2 * PI * u))).
Proof.
  apply (mo_bind (A:=RA) U HU _ _ _ (fun u => F (2 * PI * u))); [intros u; apply planned_ret| |apply mo_canonical].
  intros u. exact (mo_ret (A:=RA) U (2 * PI * u) (if_finished F)).
Qed.
Lemma V_ext f g : (forall u, f (sh_canonical D u) = g (sh_canonical D u)) -> V f = V g.
Proof. intros H. apply (av_ext _ HU). exact H. Qed.
Lemma V_ext' f g : (forall u, f u = g u) -> V f = V g.
Proof. intros H. apply V_ext. intros u. apply H. Qed.
Lemma V_scale c f : V (fun u => c * f u) = c * V f.
Proof. exact (li_scale _ HL c (fun u => f (sh_canonical D u))). Qed.
Lemma V_scale_r c f : V (fun u => f u * c) = V f * c.
Proof. rewrite Rmult_comm, <- V_scale. apply V_ext'. intros. ring. Qed.
Lemma V_add f g : V (fun u => f u + g u) = V f + V g.
Proof. exact (li_add _ HL (fun u => f (sh_canonical D u)) (fun u => g (sh_canonical D u))). Qed.
Lemma V_const c : V (fun _ => c) = c.
Proof. exact (av_const _ HU c). Qed.
Lemma V_choice p a b : V (fun v => if Rlt_dec p v then a else b) = (1 - accept V p) * a + accept V p * b.
Proof.
  unfold accept. transitivity (V (fun v => a + (b - a) * (if Rlt_dec p v then 0 else 1))).
  - apply V_ext'. intros v. destruct (Rlt_dec p v); ring.
  - rewrite V_add, V_const, V_scale. ring.
Qed.

(** Positions of nucleons relative to a centre. *)
Section Spherical.
Variables (off d2 : R) (g : vec -> R).
Hypothesis D2 : d2 < 1 / 10000000000.
Local Notation at_n := (fun n : nucleon RA => g (from_centre off n)).

Lemma never_close prev n : is_too_close (A:=RA) d2 prev n = false.
Proof.
  unfold is_too_close. replace (nltb RA d2 (nlit RA 1 (-10))) with true; [reflexivity|]. symmetry. apply Rltb_true. cbn. rlits. lra.
Qed.
Lemma from_centre_set (n : nucleon RA) (x y z : R) : from_centre off (set_nucleon_position (A:=RA) off n x y z) = (x, y, z).
Proof. unfold from_centre, set_nucleon_position, set_position. cbn. f_equal. f_equal. ring. Qed.

Lemma mo_place_ws k r prev n c : mo (place_ws G (S (S k)) d2 off r prev n) (if_finished (fun n' => c * at_n n')) (c * over_sphere V g r).
Proof.
  cbn [place_ws].
  apply (mo_bind (A:=RA) U HU _ _ _ (fun ct => V (fun v => c * g (sph r ct (2 * PI * v))))).
  - intros ct. apply planned_bind; [apply planned_phi|]. intros ph. destruct (polar r ct ph) as [[x y] z]. rewrite never_close. apply planned_ret.
  - intros ct. apply (mo_bind (A:=RA) U HU _ _ _ (fun ph => c * g (sph r ct ph))); [| |apply mo_phi].
    + intros ph. destruct (polar r ct ph) as [[x y] z]. rewrite never_close. apply planned_ret.
    + intros ph. destruct (polar r ct ph) as [[x y] z] eqn:E. rewrite never_close.
      apply (mo_ext (A:=RA) U HU (ret (set_nucleon_position (A:=RA) off n x y z)) (ret (set_nucleon_position (A:=RA) off n x y z)) (if_finished (fun n' => c * at_n n')) (if_finished (fun n' => c * at_n n')) (c * at_n (set_nucleon_position (A:=RA) off n x y z)) _ (fun _ => eq_refl) (fun _ => eq_refl)).
      * cbv beta. rewrite from_centre_set. f_equal. f_equal. transitivity (polar (A:=RA) r ct ph); [symmetry; exact E|]. unfold polar, sph. toR. rlits. reflexivity.
      * apply (mo_ret (A:=RA) U).
  - eapply (mo_ext (A:=RA) U HU _ _ _ _ _ _ (fun _ => eq_refl) (fun _ => eq_refl)); [|apply mo_cos].
    unfold over_sphere. rewrite <- V_scale. apply V_ext'. intros u. apply V_scale.
Qed.

Lemma mo_place_all_ws todo : forall radii prev, length radii = length todo ->
  mo (place_all_ws G d2 off radii prev todo) (if_finished (Rprod at_n)) (Rprod at_n prev * Rprod (over_sphere V g) radii).
Proof.
  induction todo as [|n todo IH]; intros [|r radii] prev L; try discriminate L; cbn [place_all_ws].
  - eapply (mo_ext (A:=RA) U HU _ _ _ _ _ _ (fun _ => eq_refl) (fun _ => eq_refl)); [|apply (mo_ret (A:=RA) U prev)]. cbn. ring.
  - apply (mo_bind (A:=RA) U HU _ _ _ (fun n' => Rprod at_n (prev ++ [n']) * Rprod (over_sphere V g) radii)).
    + intros n'. apply planned_place_all_ws.
    + intros n'. apply IH. exact (f_equal pred L).
    + eapply (mo_ext (A:=RA) U HU _ _ _ _ _ _ (fun _ => eq_refl)); [| |exact (mo_place_ws 998 r prev n (Rprod at_n prev * Rprod (over_sphere V g) radii))].
      * intros [n'| | |]; cbn; try reflexivity. rewrite Rprod_app. cbn. ring.
      * cbn. fold (Rprod (over_sphere V g) radii). ring.
Qed.

Lemma mrepeat_length {S X} (m : M S X) n : forall e l e', mrepeat n m e = (Ret l, e') -> length l = n.
Proof.
  induction n as [|n IH]; intros e l e' H; cbn [mrepeat] in H; [unfold ret in H; inversion H; reflexivity|].
  mstep H. mstep H. unfold ret in H. inversion H; subst. cbn. f_equal. eapply IH. eassumption.
Qed.
Lemma mo_ext_in {X} (m : M (tape RA) X) F F' v : mo m (if_finished F) v -> (forall t x t', m t = (Ret x, t') -> F x = F' x) -> mo m (if_finished F') v.
Proof.
  intros (p & Hp & <-) H. exists p. split; [exact Hp|]. apply (mean_unique2 (A:=RA) U HU). intros t. specialize (Hp t). destruct (follow p t) as [[x| | |] t'] eqn:E; try reflexivity.
  cbn. symmetry. eapply H. exact Hp.
Qed.

Hypothesis HS : forall l, Permutation l (sh_sort D l).
Lemma mo_spherical Rw a ns : mo (sample_ws G Rw a d2 off ns) (if_finished (Rprod at_n))
  (U (fun w => over_sphere V g (sh_pwl D 1000 0 (Rw + 10 * a) (fermi_density Rw a) w)) ^ length ns).
Proof.
  assert (P : planned (draw_ws G Rw a)) by exact (planned_act (A:=RA) (sh_pwl D 1000 (nlit RA 0 0) (nadd RA Rw (nmul RA (nlit RA 10 0) a)) (ws_weight (A:=RA) Rw a))).
  assert (K : mo (draw_ws G Rw a) (if_finished (over_sphere V g)) (U (fun w => over_sphere V g (sh_pwl D 1000 0 (Rw + 10 * a) (fermi_density Rw a) w)))).
  { rewrite (draw_ws_R G). exists (Draw (fun w => Done (Ret (sh_pwl D 1000 0 (Rw + 10 * a) (fermi_density Rw a) w)))). split; [|reflexivity]. intros t. reflexivity. }
  unfold sample_ws.
  (* the placement step only runs on as many radii as there are nucleons *)
  set (place := fun radii => place_all_ws G d2 off (sort_num G radii) [] ns).
  destruct (mo_repeat (A:=RA) U HU HL _ _ _ P K (length ns)) as (p & Hp & Hv).
  assert (PK : forall radii, planned (place radii)) by (intros radii; apply planned_place_all_ws).
  exists (pbind p (fun x => proj1_sig (PK x))). split.
  { apply plans_bind; [exact Hp|]. intros x. exact (proj2_sig (PK x)). }
  rewrite (mean_pbind (A:=RA) U HU), <- Hv. apply (mean_unique2 (A:=RA) U HU). intros t. specialize (Hp t).
  destruct (follow p t) as [[x| | |] t'] eqn:E; try reflexivity. cbn [fst if_finished].
  apply mrepeat_length in Hp.
  eapply (mo_unique (A:=RA) U HU).
  - exists (proj1_sig (PK x)). split; [exact (proj2_sig (PK x))|reflexivity].
  - unfold place. eapply (mo_ext (A:=RA) U HU _ _ _ _ _ _ (fun _ => eq_refl) (fun _ => eq_refl)); [|apply mo_place_all_ws].
    + cbn [Rprod fold_right]. rewrite Rmult_1_l. symmetry. apply Rprod_perm, HS.
    + cbn [sort_num ideal]. rewrite <- (Permutation_length (HS x)). exact Hp.
Qed.

(** *** Deformed nuclei *)
Variables (cr : R -> R) (Rw a beta2 beta4 rmax : R).
Hypothesis HC : forall u, cr u ^ 3 = u.
Local Notation dens r c := (deformed_density Rw a beta2 beta4 r c).
Local Notation prop F := (V (fun u => V (fun v => accept V (dens (rmax * cr u) (2 * v - 1)) * F (rmax * cr u) (2 * v - 1)))).
Local Notation rej := (V (fun u => V (fun v => 1 - accept V (dens (rmax * cr u) (2 * v - 1))))).

Lemma cube_inj x y : x ^ 3 = y ^ 3 -> x = y.
Proof.
  intros H. assert ((x - y) * (x * x + x * y + y * y) = 0) as E by (ring_simplify; lra).
  apply Rmult_integral in E. destruct E as [E|E]; [lra|].
  assert (x * x + x * y + y * y = (x + y / 2) * (x + y / 2) + 3 / 4 * (y * y)) as Q by field.
  pose proof (Rle_0_sqr (x + y / 2)) as S1. pose proof (Rle_0_sqr y) as S2. unfold Rsqr in S1, S2.
  assert (Y : y * y = 0) by lra. apply Rmult_integral in Y. assert (y = 0) by (destruct Y; assumption). subst y.
  assert (X : x * x = 0) by lra. apply Rmult_integral in X. destruct X; assumption.
Qed.
Lemma Rcbrt_cr u : Rcbrt u = cr u.
Proof.
  apply cube_inj. rewrite HC.
  assert (K : forall x, 0 < x -> Rpow x (1 / 3) ^ 3 = x).
  { intros x Hx. unfold Rpow. destruct (Req_EM_T x 0); [lra|]. rewrite <- Rpower_pow by apply exp_pos. rewrite Rpower_mult.
    replace (1 / 3 * INR 3) with 1 by (cbn; field). apply Rpower_1, Hx. }
  unfold Rcbrt. destruct (Rlt_dec u 0) as [N|P].
  - transitivity (- (Rpow (- u) (1 / 3) ^ 3)); [ring|]. rewrite K by lra. ring.
  - destruct (Req_dec u 0) as [->|N]; [|apply K; lra]. unfold Rpow. destruct (Req_EM_T 0 0); [|lra]. destruct (Req_EM_T (1 / 3) 0); [lra|]. ring.
Qed.
Lemma deformed_dist_R r c : deformed_dist (A:=RA) Rw a beta2 beta4 r c = dens r c.
Proof.
  unfold deformed_dist, deformed_density, Y20, Y40.
  cbn [num RA RA_with nadd nsub nmul ndiv nlit nsqrt nexp nofZ none_div_root_pi]. rlits.
  assert (0 < PI) by apply PI_RGT_0. assert (0 < sqrt PI) by (apply sqrt_lt_R0; lra).
  rewrite sqrt_div_alt by lra. unfold Rdiv at 1. rewrite Rmult_1_l.
  replace (sqrt 5 / 4 * / sqrt PI * (3 * (c * c) - 1)) with (/ 4 * (sqrt 5 / sqrt PI) * (3 * c ^ 2 - 1)) by (field; lra).
  replace (3 / 16 * / sqrt PI * (35 * (c * c) * (c * c) - 30 * (c * c) + 3))
    with (3 / 16 / sqrt PI * (35 * c ^ 4 - 30 * c ^ 2 + 3)) by (field; lra).
  reflexivity.
Qed.

Lemma mo_point F n : mo (sample_deformed_point G n Rw a beta2 beta4 rmax) (if_finished (fun rc => F (fst rc) (snd rc))) (geometric rej n * prop F).
Proof.
  induction n as [|n IH].
  - eapply (mo_ext (A:=RA) U HU _ _ _ _ _ _ (fun _ => eq_refl) (fun _ => eq_refl)); [|apply (mo_fail (A:=RA) U (@OutOfFuel (R * R)))]. unfold geometric. cbn. ring.
  - cbn [sample_deformed_point].
    apply (mo_bind (A:=RA) U HU _ _ _ (fun u => V (fun v => (1 - accept V (dens (rmax * cr u) (2 * v - 1))) * (geometric rej n * prop F)
       + accept V (dens (rmax * cr u) (2 * v - 1)) * F (rmax * cr u) (2 * v - 1)))).
    + intros u. apply planned_bind; [apply planned_cos_theta|]. intros c. apply planned_bind; [apply planned_canonical|]. intros v.
      destruct (nltb RA _ _); [apply planned_deformed_point|apply planned_ret].
    + intros u. apply (mo_bind (A:=RA) U HU _ _ _ (fun c => (1 - accept V (dens (rmax * cr u) c)) * (geometric rej n * prop F)
       + accept V (dens (rmax * cr u) c) * F (rmax * cr u) c)); [| |apply mo_cos].
      * intros c. apply planned_bind; [apply planned_canonical|]. intros v. destruct (nltb RA _ _); [apply planned_deformed_point|apply planned_ret].
      * intros c. apply (mo_bind (A:=RA) U HU _ _ _ (fun v => if Rlt_dec (dens (rmax * cr u) c) v then geometric rej n * prop F else F (rmax * cr u) c)).
        -- intros v. destruct (nltb RA _ _); [apply planned_deformed_point|apply planned_ret].
        -- intros v. change (ncbrt RA u) with (Rcbrt u). rewrite Rcbrt_cr. rewrite deformed_dist_R.
           change (nmul RA rmax (cr u)) with (rmax * cr u). change (nltb RA) with Rltb.
           destruct (Rltb_spec (dens (rmax * cr u) c) v) as [H|H]; destruct (Rlt_dec (dens (rmax * cr u) c) v); try lra.
           ++ exact IH.
           ++ exact (mo_ret (A:=RA) U (rmax * cr u, c) (if_finished (fun rc => F (fst rc) (snd rc)))).
        -- rewrite <- V_choice. apply mo_canonical.
    + eapply (mo_ext (A:=RA) U HU _ _ _ _ _ _ (fun _ => eq_refl) (fun _ => eq_refl)); [|apply mo_canonical].
      rewrite geometric_S. transitivity (V (fun u => V (fun v => 1 - accept V (dens (rmax * cr u) (2 * v - 1))) * (geometric rej n * prop F)
        + V (fun v => accept V (dens (rmax * cr u) (2 * v - 1)) * F (rmax * cr u) (2 * v - 1)))).
      * apply V_ext'. intros u. rewrite V_add, V_scale_r. reflexivity.
      * rewrite V_add, V_scale_r. ring.
Qed.

Variable rot : vec -> vec.
Lemma mo_place_def k rs z prev n c : mo (place_deformed G (S (S k)) d2 off rot rs z prev n) (if_finished (fun n' => c * at_n n'))
  (c * V (fun w => g (rot (rs * cos (2 * PI * w), rs * sin (2 * PI * w), z)))).
Proof.
  cbn [place_deformed].
  apply (mo_bind (A:=RA) U HU _ _ _ (fun ph => c * g (rot (rs * cos ph, rs * sin ph, z)))).
  - intros ph. destruct (rot _) as [[x y] z']. rewrite never_close. apply planned_ret.
  - intros ph. change (ncos RA ph) with (cos ph). change (nsin RA ph) with (sin ph). change (nmul RA rs (cos ph)) with (rs * cos ph). change (nmul RA rs (sin ph)) with (rs * sin ph).
    match goal with |- context [rot ?p] => destruct (rot p) as [[x y] z'] eqn:E end. rewrite never_close.
    eapply (mo_ext (A:=RA) U HU _ _ _ _ _ _ (fun _ => eq_refl) (fun _ => eq_refl)); [|apply (mo_ret (A:=RA) U (set_nucleon_position (A:=RA) off n x y z'))].
    cbn [if_finished]. rewrite from_centre_set. first [reflexivity|f_equal; f_equal; symmetry; exact E].
  - rewrite <- V_scale. exact (mo_phi (fun ph => c * g (rot (rs * cos ph, rs * sin ph, z)))).
Qed.
Local Notation ring_mean rc := (V (fun w => g (rot (sph (fst rc) (snd rc) (2 * PI * w))))).
Lemma mo_place_all_def todo : forall samples prev, length samples = length todo ->
  mo (place_all_deformed G d2 off rot samples prev todo) (if_finished (Rprod at_n)) (Rprod at_n prev * Rprod (fun rc => ring_mean rc) samples).
Proof.
  induction todo as [|n todo IH]; intros [|[r ct] samples] prev L; try discriminate L; cbn [place_all_deformed].
  - eapply (mo_ext (A:=RA) U HU _ _ _ _ _ _ (fun _ => eq_refl) (fun _ => eq_refl)); [|apply (mo_ret (A:=RA) U prev)]. cbn. ring.
  - apply (mo_bind (A:=RA) U HU _ _ _ (fun n' => Rprod at_n (prev ++ [n']) * Rprod (fun rc => ring_mean rc) samples)).
    + intros n'. apply planned_place_all_deformed.
    + intros n'. apply IH. exact (f_equal pred L).
    + eapply (mo_ext (A:=RA) U HU _ _ _ _ _ _ (fun _ => eq_refl)); [| |exact (mo_place_def 998 _ _ prev n (Rprod at_n prev * Rprod (fun rc => ring_mean rc) samples))].
      * intros [n'| | |]; cbn [if_finished]; try reflexivity. rewrite Rprod_app. cbn. ring.
      * change (Rprod (fun rc => ring_mean rc) ((r, ct) :: samples)) with (V (fun w => g (rot (sph r ct (2 * PI * w)))) * Rprod (fun rc => ring_mean rc) samples).
        replace (V (fun w => g (rot (sph r ct (2 * PI * w))))) with (V (fun w => g (rot (nmul RA r (nsqrt RA (nsub RA (nlit RA 1 0) (nmul RA ct ct))) * cos (2 * PI * w), nmul RA r (nsqrt RA (nsub RA (nlit RA 1 0) (nmul RA ct ct))) * sin (2 * PI * w), nmul RA r ct)))).
        -- ring.
        -- apply V_ext'. intros w. unfold sph. toR. rlits. reflexivity.
Qed.

Hypothesis HS2 : forall l, Permutation l (sh_sort_fst D l).
Lemma mo_points_placed n ns : mo (bind (mrepeat (length ns) (sample_deformed_point G n Rw a beta2 beta4 rmax)) (fun samples => place_all_deformed G d2 off rot (sort_fst G samples) [] ns))
  (if_finished (Rprod at_n)) ((geometric rej n * over_body V cr Rw a beta2 beta4 rmax (fun p => g (rot p))) ^ length ns).
Proof.
  set (place := fun samples => place_all_deformed G d2 off rot (sort_fst G samples) [] ns).
  assert (K : mo (sample_deformed_point G n Rw a beta2 beta4 rmax) (if_finished (fun rc => ring_mean rc)) (geometric rej n * over_body V cr Rw a beta2 beta4 rmax (fun p => g (rot p)))).
  { exact (mo_point (fun r c => V (fun w => g (rot (sph r c (2 * PI * w))))) n). }
  destruct (mo_repeat (A:=RA) U HU HL _ _ _ (planned_deformed_point D seed Rw a beta2 beta4 rmax n) K (length ns)) as (p & Hp & Hv).
  assert (PK : forall samples, planned (place samples)) by (intros samples; apply planned_place_all_deformed).
  exists (pbind p (fun x => proj1_sig (PK x))). split.
  { apply plans_bind; [exact Hp|]. intros x. exact (proj2_sig (PK x)). }
  rewrite (mean_pbind (A:=RA) U HU), <- Hv. apply (mean_unique2 (A:=RA) U HU). intros t. specialize (Hp t).
  destruct (follow p t) as [[x| | |] t'] eqn:E; try reflexivity. cbn [fst if_finished].
  apply mrepeat_length in Hp.
  eapply (mo_unique (A:=RA) U HU).
  - exists (proj1_sig (PK x)). split; [exact (proj2_sig (PK x))|reflexivity].
  - unfold place. eapply (mo_ext (A:=RA) U HU _ _ _ _ _ _ (fun _ => eq_refl) (fun _ => eq_refl)); [|apply mo_place_all_def].
    + unfold Rprod at 1. cbn [fold_right]. rewrite Rmult_1_l. symmetry. apply Rprod_perm, HS2.
    + cbn [sort_fst ideal]. rewrite <- (Permutation_length (HS2 x)). exact Hp.
Qed.
End Spherical.
End Samplers.
