(** Proofs about a nucleus rotated about the beam axis. *)
From Coq Require Import Reals Lra ZArith Lia List.
From Verif.Base Require Import Result Arith RArith Rng.
From Verif.Model Require Import Random Config Nucleon Files Nucleus.
From Verif.Spec Require Import Geometry Law Positions Isotropy.
From Verif.Proof Require Import Basics RBasics Sampling LawP PositionsP.
Import ListNotations.
Local Open Scope R_scope.

(** ** Programs with the same law up to a relation *)
Section Same.
Context (U : (R -> R) -> R) (HU : averages (A:=RA) U).

Definition same_law {X Y} (Q : X -> Y -> Prop) (m : M (tape RA) X) (m' : M (tape RA) Y) : Prop :=
  forall p q, plans (A:=RA) m p -> plans (A:=RA) m' q -> forall f g, (forall r r', outcome Q r r' -> f r = g r') -> mean (A:=RA) U f p = mean (A:=RA) U g q.

Definition after {X Y} (k : X -> plan RA (result Y)) (f : result Y -> R) (r : result X) : R :=
  match r with Ret x => mean (A:=RA) U f (k x) | Throw e => f (Throw e) | UB u => f (UB u) | OutOfFuel => f OutOfFuel end.
Lemma mean_bind {X Y} (k : X -> plan RA (result Y)) f : forall p, mean (A:=RA) U f (pbind p k) = mean (A:=RA) U (after k f) p.
Proof. induction p as [[x| | |]|next IH]; try reflexivity. cbn [pbind mean]. apply (av_ext _ HU). exact IH. Qed.

Lemma plan_unique {X} (m : M (tape RA) X) p q (f : result X -> R) : plans (A:=RA) m p -> plans (A:=RA) m q -> mean (A:=RA) U f p = mean (A:=RA) U f q.
Proof. intros P Q. apply (mean_unique (A:=RA) U HU). intros t. rewrite <- (P t), <- (Q t). reflexivity. Qed.

Lemma sl_done {X Y} (Q : X -> Y -> Prop) (r : result X) (r' : result Y) : outcome Q r r' -> same_law Q (fun t => (r, t)) (fun t => (r', t)).
Proof.
  intros H p q P P' f g C. rewrite (plan_unique _ p (Done r) f P) by (intros t; reflexivity). rewrite (plan_unique _ q (Done r') g P') by (intros t; reflexivity).
  exact (C _ _ H).
Qed.
Lemma sl_ret {X Y} (Q : X -> Y -> Prop) x y : Q x y -> same_law Q (ret x) (ret y).
Proof. intros H. exact (sl_done Q (Ret x) (Ret y) H). Qed.

Lemma sl_bind {X Y X' Y'} (Q : X -> Y -> Prop) (Q' : X' -> Y' -> Prop) m m' k k' :
  planned (A:=RA) m -> planned (A:=RA) m' -> (forall x, planned (A:=RA) (k x)) -> (forall y, planned (A:=RA) (k' y)) ->
  same_law Q m m' -> (forall x y, Q x y -> same_law Q' (k x) (k' y)) -> same_law Q' (bind m k) (bind m' k').
Proof.
  intros [p0 P0] [q0 Q0] Hk Hk' E K p q P Qp f g C.
  rewrite (plan_unique _ p _ f P (plans_bind m k p0 (fun x => proj1_sig (Hk x)) P0 (fun x => proj2_sig (Hk x)))).
  rewrite (plan_unique _ q _ g Qp (plans_bind m' k' q0 (fun x => proj1_sig (Hk' x)) Q0 (fun x => proj2_sig (Hk' x)))).
  rewrite !mean_bind. apply (E _ _ P0 Q0). intros [x|e|u|] [y|e'|u'|] H; cbn in H |- *; try contradiction; try (apply C; exact H).
  apply (K x y H _ _ (proj2_sig (Hk x)) (proj2_sig (Hk' y)) f g C).
Qed.
Lemma sl_refl {X} (m : M (tape RA) X) : same_law eq m m.
Proof.
  intros p q P Qp f g C. rewrite (plan_unique _ p q f P Qp). clear P Qp. induction q as [r|k IH]; cbn [mean].
  - apply C. destruct r; cbn; auto.
  - apply (av_ext _ HU). exact IH.
Qed.
(** A common beginning. *)
Lemma sl_then {X X' Y'} (Q' : X' -> Y' -> Prop) (m : M (tape RA) X) k k' :
  planned (A:=RA) m -> (forall x, planned (A:=RA) (k x)) -> (forall y, planned (A:=RA) (k' y)) ->
  (forall x, same_law Q' (k x) (k' x)) -> same_law Q' (bind m k) (bind m k').
Proof. intros P K K' E. apply (sl_bind eq); try assumption; [apply sl_refl|]. intros x y <-. apply E. Qed.

(** ** The azimuth *)
Context (D : shapes RA) (seed : Z -> tape RA) (alpha : R).
Local Notation G := (ideal D seed).
Hypothesis HA : starts_anywhere (canonical_mean D U) alpha.

Lemma sl_phi {X Y} (Q : X -> Y -> Prop) (k : R -> M (tape RA) X) (k' : R -> M (tape RA) Y) :
  (forall a, planned (A:=RA) (k a)) -> (forall a, planned (A:=RA) (k' a)) ->
  (forall a a', cos a' = cos (a + alpha) -> sin a' = sin (a + alpha) -> same_law Q (k a) (k' a')) ->
  same_law Q (bind (phi G) k) (bind (phi G) k').
Proof.
  intros Hk Hk' K p q P Qp f g C.
  pose (P0 := Draw (fun u => proj1_sig (Hk (2 * PI * sh_canonical D u))) : plan RA (result X)).
  pose (Q0 := Draw (fun u => proj1_sig (Hk' (2 * PI * sh_canonical D u))) : plan RA (result Y)).
  assert (EP : plans (A:=RA) (bind (phi G) k) P0) by (intros t; exact (proj2_sig (Hk (2 * PI * sh_canonical D (front (A:=RA) t))) (rest (A:=RA) t))).
  assert (EQ : plans (A:=RA) (bind (phi G) k') Q0) by (intros t; exact (proj2_sig (Hk' (2 * PI * sh_canonical D (front (A:=RA) t))) (rest (A:=RA) t))).
  rewrite (plan_unique _ p _ f P EP), (plan_unique _ q _ g Qp EQ). unfold P0, Q0. cbn [mean].
  pose (h := fun u => mean (A:=RA) U g (proj1_sig (Hk' (2 * PI * u)))).
  assert (J : forall a a', cos a' = cos (a + alpha) -> sin a' = sin (a + alpha) -> mean (A:=RA) U f (proj1_sig (Hk a)) = mean (A:=RA) U g (proj1_sig (Hk' a'))).
  { intros a a' c s. exact (K a a' c s _ _ (proj2_sig (Hk a)) (proj2_sig (Hk' a')) f g C). }
  assert (PI0 := PI_neq0).
  transitivity (canonical_mean D U (fun u => h (u + alpha / (2 * PI)))).
  - apply (av_ext _ HU). intros u. unfold h. replace (2 * PI * (sh_canonical D u + alpha / (2 * PI))) with (2 * PI * sh_canonical D u + alpha) by (field; exact PI0).
    apply J; reflexivity.
  - rewrite HA; [reflexivity|]. intros u. unfold h. transitivity (mean (A:=RA) U f (proj1_sig (Hk (2 * PI * u - alpha)))); [symmetry|]; apply J.
    + replace (2 * PI * (u + 1)) with (2 * PI * u + 2 * PI) by ring. rewrite cos_plus, cos_2PI, sin_2PI. replace (2 * PI * u - alpha + alpha) with (2 * PI * u) by ring. ring.
    + replace (2 * PI * (u + 1)) with (2 * PI * u + 2 * PI) by ring. rewrite sin_plus, cos_2PI, sin_2PI. replace (2 * PI * u - alpha + alpha) with (2 * PI * u) by ring. ring.
    + f_equal. ring.
    + f_equal. ring.
Qed.

(** ** Nucleons *)
Context (off : R).
Definition at_angle (n n' : nucleon RA) : Prop := from_centre off n' = spin alpha (from_centre off n).
Definition all_at_angle (l l' : list (nucleon RA)) : Prop := map (from_centre off) l' = map (spin alpha) (map (from_centre off) l).

Lemma spin_dist2 p q : (vx (spin alpha p) - vx (spin alpha q)) * (vx (spin alpha p) - vx (spin alpha q)) + (vy (spin alpha p) - vy (spin alpha q)) * (vy (spin alpha p) - vy (spin alpha q)) =
  (vx p - vx q) * (vx p - vx q) + (vy p - vy q) * (vy p - vy q).
Proof.
  unfold spin, vx, vy; cbn [fst snd]. set (c := cos alpha). set (s := sin alpha).
  assert (E : c * c + s * s = 1) by (pose proof (sin2_cos2 alpha) as E; unfold Rsqr in E; fold c s in E; lra).
  destruct p as [[x y] z], q as [[x' y'] z']; cbn [fst snd].
  transitivity ((c * c + s * s) * ((x - x') * (x - x') + (y - y') * (y - y'))); [ring|]. rewrite E. ring.
Qed.
Lemma angle_dist n n' k k' : at_angle n n' -> at_angle k k' -> dist3_sq (A:=RA) n' k' = dist3_sq (A:=RA) n k.
Proof.
  unfold at_angle. intros H K. 
  assert (X : dist3_sq (A:=RA) n' k' = (vx (from_centre off n') - vx (from_centre off k')) * (vx (from_centre off n') - vx (from_centre off k')) +
     (vy (from_centre off n') - vy (from_centre off k')) * (vy (from_centre off n') - vy (from_centre off k')) + (vz (from_centre off n') - vz (from_centre off k')) * (vz (from_centre off n') - vz (from_centre off k'))).
  { unfold dist3_sq, from_centre, vx, vy, vz. cbn. ring. }
  rewrite X, H, K, spin_dist2. unfold dist3_sq, from_centre, spin, vx, vy, vz. cbn. ring.
Qed.
Lemma angle_close d2 n n' : at_angle n n' -> forall l l', all_at_angle l l' -> is_too_close (A:=RA) d2 l' n' = is_too_close (A:=RA) d2 l n.
Proof.
  intros H l l' L. unfold is_too_close. destruct (nltb RA d2 _); [reflexivity|]. revert l' L.
  induction l as [|k l IH]; intros [|k' l'] L; try discriminate L; [reflexivity|]. unfold all_at_angle in L. cbn [map] in L.
  assert (K : at_angle k k') by exact (f_equal (hd (0, 0, 0)) L). apply (f_equal (@tl vec)) in L. cbn [tl] in L.
  cbn [existsb]. rewrite (angle_dist n n' k k' H K). rewrite (IH l' L). reflexivity.
Qed.
Lemma angle_snoc l l' n n' : all_at_angle l l' -> at_angle n n' -> all_at_angle (l ++ [n]) (l' ++ [n']).
Proof. unfold all_at_angle, at_angle. intros L H. rewrite !map_app. cbn [map]. rewrite L, H. reflexivity. Qed.
Lemma angle_set n n' (p p' : vec) : p' = spin alpha p ->
  at_angle (set_nucleon_position (A:=RA) off n (vx p) (vy p) (vz p)) (set_nucleon_position (A:=RA) off n' (vx p') (vy p') (vz p')).
Proof. intros E. unfold at_angle. rewrite !from_centre_set. destruct p as [[x y] z], p' as [[x' y'] z']. exact E. Qed.

Lemma polar_turned r c a a' : cos a' = cos (a + alpha) -> sin a' = sin (a + alpha) -> polar (A:=RA) r c a' = spin alpha (polar (A:=RA) r c a) :> vec.
Proof.
  intros E F. unfold polar, spin, vx, vy, vz. cbn [fst snd]. change (ncos RA a') with (cos a'). change (nsin RA a') with (sin a').
  change (ncos RA a) with (cos a). change (nsin RA a) with (sin a). rewrite E, F, cos_plus, sin_plus. toR. f_equal. f_equal; ring.
Qed.

Lemma sl_place_ws d2 r prev prev' : all_at_angle prev prev' -> forall tries n n',
  same_law at_angle (place_ws G (S tries) d2 off r prev n) (place_ws G (S tries) d2 off r prev' n').
Proof.
  intros L. induction tries as [|tries IH]; intros n n'; cbn [place_ws].
  - apply sl_then; [apply planned_cos_theta| | |].
    + intros c. apply planned_bind; [apply planned_phi|]. intros a. destruct (polar (A:=RA) r c a) as [[x y] z]. apply planned_ret.
    + intros c. apply planned_bind; [apply planned_phi|]. intros a. destruct (polar (A:=RA) r c a) as [[x y] z]. apply planned_ret.
    + intros c. apply sl_phi; [intros a; destruct (polar (A:=RA) r c a) as [[x y] z]; apply planned_ret..|].
      intros a a' E F. pose proof (polar_turned r c a a' E F) as T. destruct (polar (A:=RA) r c a) as [[x y] z], (polar (A:=RA) r c a') as [[x' y'] z'].
      apply sl_ret. exact (angle_set n n' (x, y, z) (x', y', z') T).
  - assert (W : forall (prev : list (nucleon RA)) (n : nucleon RA) c a, planned (A:=RA) (let '(x, y, z) := polar (A:=RA) r c a in let n' := set_nucleon_position (A:=RA) off n x y z in
        if is_too_close (A:=RA) d2 prev n' then place_ws G (S tries) d2 off r prev n' else ret n')).
    { intros pr m c a. destruct (polar (A:=RA) r c a) as [[x y] z]. cbv zeta. destruct (is_too_close _ _ _); [apply planned_place_ws|apply planned_ret]. }
    apply sl_then; [apply planned_cos_theta| | |].
    + intros c. apply planned_bind; [apply planned_phi|]. intros a. apply W.
    + intros c. apply planned_bind; [apply planned_phi|]. intros a. apply W.
    + intros c. apply sl_phi; [intros a; apply W..|].
      intros a a' E F. pose proof (polar_turned r c a a' E F) as T. destruct (polar (A:=RA) r c a) as [[x y] z], (polar (A:=RA) r c a') as [[x' y'] z'].
      pose proof (angle_set n n' (x, y, z) (x', y', z') T) as S1. cbv zeta. change (vx (x, y, z)) with x in S1. change (vy (x, y, z)) with y in S1. change (vz (x, y, z)) with z in S1.
      change (vx (x', y', z')) with x' in S1. change (vy (x', y', z')) with y' in S1. change (vz (x', y', z')) with z' in S1.
      rewrite (angle_close d2 _ _ S1 _ _ L). destruct (is_too_close _ _ _); [apply IH|apply sl_ret; exact S1].
Qed.

Lemma sl_place_all_ws d2 : forall todo radii prev prev', all_at_angle prev prev' ->
  same_law all_at_angle (place_all_ws G d2 off radii prev todo) (place_all_ws G d2 off radii prev' todo).
Proof.
  induction todo as [|n todo IH]; intros radii prev prev' L; [destruct radii; cbn [place_all_ws]; apply sl_ret, L|].
  destruct radii as [|r radii]; cbn [place_all_ws]; [exact (sl_done _ (UB UbDerefEnd) (UB UbDerefEnd) eq_refl)|].
  apply (sl_bind at_angle); [apply planned_place_ws|apply planned_place_ws|intros; apply planned_place_all_ws|intros; apply planned_place_all_ws| |].
  - exact (sl_place_ws d2 r prev prev' L 999 n n).
  - intros x y H. apply IH, angle_snoc; assumption.
Qed.

Definition turns (rot rot' : R * R * R -> R * R * R) : Prop := forall p, rot' p = spin alpha (rot p) :> vec.

Lemma sl_place_deformed d2 rot rot' rs prev prev' : turns rot rot' -> all_at_angle prev prev' -> forall tries z n n',
  same_law at_angle (place_deformed G (S tries) d2 off rot rs z prev n) (place_deformed G (S tries) d2 off rot' rs z prev' n').
Proof.
  intros T L. induction tries as [|tries IH]; intros z n n'.
  - cbn [place_deformed]. apply sl_then; [apply planned_phi| | |].
    + intros a. destruct (rot _) as [[x y] z']. apply planned_ret.
    + intros a. destruct (rot' _) as [[x y] z']. apply planned_ret.
    + intros a. match goal with |- context [rot ?q] => pose proof (T q) as E; destruct (rot q) as [[x1 y1] z1], (rot' q) as [[x2 y2] z2] end.
      apply sl_ret. exact (angle_set n n' (x1, y1, z1) (x2, y2, z2) E).
  - assert (W : forall rot (prev : list (nucleon RA)) (n : nucleon RA) a, planned (A:=RA) (let '(x, y, z0) := rot (nmul RA rs (ncos RA a), nmul RA rs (nsin RA a), z) in let n' := set_nucleon_position (A:=RA) off n x y z0 in
        if is_too_close (A:=RA) d2 prev n' then place_deformed G (S tries) d2 off rot rs (nmul RA z (nofZ RA (-1))) prev n' else ret n')).
    { intros ro pr m a. destruct (ro _) as [[x y] z0]. cbv zeta. destruct (is_too_close _ _ _); [apply planned_place_deformed|apply planned_ret]. }
    apply sl_then; [apply planned_phi|intros a; apply (W rot)|intros a; apply (W rot')|].
    intros a. cbv zeta. match goal with |- context [rot ?q] => pose proof (T q) as E; destruct (rot q) as [[x1 y1] z1], (rot' q) as [[x2 y2] z2] end.
    pose proof (angle_set n n' (x1, y1, z1) (x2, y2, z2) E) as S1. change (vx (x1, y1, z1)) with x1 in S1. change (vy (x1, y1, z1)) with y1 in S1. change (vz (x1, y1, z1)) with z1 in S1.
    change (vx (x2, y2, z2)) with x2 in S1. change (vy (x2, y2, z2)) with y2 in S1. change (vz (x2, y2, z2)) with z2 in S1.
    rewrite (angle_close d2 _ _ S1 _ _ L). destruct (is_too_close _ _ _); [apply IH|apply sl_ret; exact S1].
Qed.
Lemma sl_place_all_deformed d2 rot rot' : turns rot rot' -> forall todo samples prev prev', all_at_angle prev prev' ->
  same_law all_at_angle (place_all_deformed G d2 off rot samples prev todo) (place_all_deformed G d2 off rot' samples prev' todo).
Proof.
  intros T. induction todo as [|n todo IH]; intros samples prev prev' L; [destruct samples; cbn [place_all_deformed]; apply sl_ret, L|].
  destruct samples as [|[r c] samples]; cbn [place_all_deformed]; [exact (sl_done _ (UB UbDerefEnd) (UB UbDerefEnd) eq_refl)|].
  apply (sl_bind at_angle); [apply planned_place_deformed|apply planned_place_deformed|intros; apply planned_place_all_deformed|intros; apply planned_place_all_deformed| |].
  - exact (sl_place_deformed d2 rot rot' _ prev prev' T L 999 _ n n).
  - intros x y H. apply IH, angle_snoc; assumption.
Qed.

Lemma tilt_spin_turned ca sa a a' : cos a' = cos (a + alpha) -> sin a' = sin (a + alpha) ->
  turns (rotate_tilt_spin (A:=RA) ca sa (cos a) (sin a)) (rotate_tilt_spin (A:=RA) ca sa (cos a') (sin a')).
Proof.
  intros E F [[x y] z]. unfold rotate_tilt_spin, spin, vx, vy, vz. cbn [fst snd]. rewrite E, F, cos_plus, sin_plus. toR. f_equal. f_equal; ring.
Qed.
Lemma euler_turned c1 s1 c2 s2 a a' : cos a' = cos (a + alpha) -> sin a' = sin (a + alpha) ->
  turns (rotate_euler (A:=RA) c1 s1 c2 s2 (cos a) (sin a)) (rotate_euler (A:=RA) c1 s1 c2 s2 (cos a') (sin a')).
Proof.
  intros E F [[x y] z]. unfold rotate_euler, spin, vx, vy, vz. cbn [fst snd]. rewrite E, F, cos_plus, sin_plus. toR. f_equal. f_equal; ring.
Qed.
Lemma place_manual_turned rot rot' data : turns rot rot' -> forall ns i,
  outcome all_at_angle (place_manual (A:=RA) off rot data i ns) (place_manual (A:=RA) off rot' data i ns).
Proof.
  intros T. induction ns as [|n ns IH]; intros i; cbn [place_manual]; [reflexivity|].
  destruct (position_at data i) as [p|e|u|]; cbn [rbind]; try reflexivity; try exact I.
  pose proof (T p) as E. destruct (rot p) as [[x y] z], (rot' p) as [[x' y'] z'].
  specialize (IH (i + 1)%Z). destruct (place_manual (A:=RA) off rot data (i + 1) ns), (place_manual (A:=RA) off rot' data (i + 1) ns); cbn in IH |- *; try contradiction; try exact IH.
  unfold all_at_angle in *. cbn [map]. rewrite IH. f_equal. exact (angle_set n n (x, y, z) (x', y', z') E).
Qed.

(** Every nucleus. *)
Lemma sl_sample_nucleons fuel nu : nucleus_wf nu ->
  same_law (fun nu1 nu2 => all_at_angle (nu_nucleons nu1) (nu_nucleons nu2)) (sample_nucleons G fuel nu off) (sample_nucleons G fuel nu off).
Proof.
  intros W. unfold sample_nucleons. 
  match goal with |- same_law _ (bind ?m _) _ => set (prog := m) end.
  assert (P : planned (A:=RA) prog).
  { unfold prog. clear prog W. 
    destruct (nu_kind nu) as [|a b|Rw a d2|Rw a b2 b4 rm d2|nc nn data rm].
    - unfold sample_proton. destruct (nu_nucleons nu); [apply planned_undefined|apply planned_ret].
    - unfold sample_deuteron. apply planned_bind; [apply planned_deuteron_radius|]. intros r. apply planned_bind; [apply planned_cos_theta|]. intros c. apply planned_bind; [apply planned_phi|]. intros ph.
      destruct (polar (A:=RA) r c ph) as [[x y] z]. destruct (nu_nucleons nu) as [|n1 [|n2 l]]; [apply planned_undefined|apply planned_undefined|apply planned_ret].
    - unfold sample_ws. apply planned_bind; [apply planned_mrepeat; exact (planned_act (A:=RA) (sh_pwl D 1000 (nlit RA 0 0) (nadd RA Rw (nmul RA (nlit RA 10 0) a)) (ws_weight (A:=RA) Rw a)))|].
      intros radii. apply planned_place_all_ws.
    - unfold sample_deformed. apply planned_bind; [apply planned_cos_theta|]. intros c. apply planned_bind; [apply planned_phi|]. intros ph.
      apply planned_bind; [apply planned_mrepeat, planned_deformed_point|]. intros s. apply planned_place_all_deformed.
    - unfold sample_manual. apply planned_bind; [apply planned_phi|]. intros a1. apply planned_bind; [apply planned_cos_theta|]. intros c. apply planned_bind; [apply planned_phi|]. intros a3.
      apply planned_bind; [exact (planned_act (A:=RA) (sh_int D 0 (to_size (nc - 1))))|]. intros i. destruct (nc <=? i)%Z; [apply planned_throw|apply planned_lift]. }
  apply (sl_bind all_at_angle); [exact P|exact P|intros; apply planned_ret|intros; apply planned_ret| |intros x y H; apply sl_ret; exact H].
  unfold prog. clear P prog. unfold nucleus_wf in W. destruct (nu_kind nu) as [|a b|Rw a d2|Rw a b2 b4 rm d2|nc nn data rm].
  - unfold sample_proton. destruct (nu_nucleons nu) as [|n [|n2 l]]; try discriminate W. apply sl_ret. unfold all_at_angle. cbn [map]. rewrite !from_centre_set.
    unfold spin, vx, vy, vz. cbn [fst snd]. rlits. f_equal. f_equal. f_equal; ring.
  - unfold sample_deuteron. destruct (nu_nucleons nu) as [|n1 [|n2 [|n3 l]]]; try discriminate W.
    assert (Z : forall r c ph, planned (A:=RA) (let '(x, y, z) := polar (A:=RA) r c ph in ret [set_nucleon_position (A:=RA) off n1 x y z; set_nucleon_position (A:=RA) off n2 (nneg RA x) (nneg RA y) (nneg RA z)]))
      by (intros r c ph; destruct (polar (A:=RA) r c ph) as [[x y] z]; apply planned_ret).
    apply sl_then; [apply planned_deuteron_radius| | |].
    1,2: intros r; apply planned_bind; [apply planned_cos_theta|]; intros c; apply planned_bind; [apply planned_phi|]; intros ph; apply Z.
    intros r. apply sl_then; [apply planned_cos_theta| | |].
    1,2: intros c; apply planned_bind; [apply planned_phi|]; intros ph; apply Z.
    intros c. apply sl_phi; [intros; apply Z..|].
    intros ph ph' E F. pose proof (polar_turned r c ph ph' E F) as T. destruct (polar (A:=RA) r c ph) as [[x y] z], (polar (A:=RA) r c ph') as [[x' y'] z'].
    apply sl_ret. unfold all_at_angle. cbn [map]. rewrite !from_centre_set. unfold spin, vx, vy, vz in *. cbn [fst snd] in *. injection T as -> -> ->.
    toR. f_equal. f_equal. f_equal. f_equal; ring.
  - unfold sample_ws. apply sl_then; [apply planned_mrepeat; exact (planned_act (A:=RA) (sh_pwl D 1000 (nlit RA 0 0) (nadd RA Rw (nmul RA (nlit RA 10 0) a)) (ws_weight (A:=RA) Rw a)))|intros; apply planned_place_all_ws..|].
    intros radii. apply sl_place_all_ws. reflexivity.
  - unfold sample_deformed.
    assert (Z : forall ca sa cb sb, planned (A:=RA) (bind (mrepeat (length (nu_nucleons nu)) (sample_deformed_point G fuel Rw a b2 b4 rm)) (fun samples =>
        place_all_deformed G d2 off (rotate_tilt_spin (A:=RA) ca sa cb sb) (sort_fst G samples) [] (nu_nucleons nu)))).
    { intros. apply planned_bind; [apply planned_mrepeat, planned_deformed_point|]. intros s. apply planned_place_all_deformed. }
    apply sl_then; [apply planned_cos_theta| | |].
    1,2: intros c; apply planned_bind; [apply planned_phi|]; intros ph; apply Z.
    intros c. apply sl_phi; [intros; apply Z..|]. intros ph ph' E F.
    apply sl_then; [apply planned_mrepeat, planned_deformed_point|intros; apply planned_place_all_deformed..|].
    intros s. apply sl_place_all_deformed; [exact (tilt_spin_turned _ _ ph ph' E F)|reflexivity].
  - unfold sample_manual.
    assert (Z : forall rot, planned (A:=RA) (bind (act (unif_int G 0 (to_size (nc - 1)))) (fun index =>
       if (nc <=? index)%Z then throw (H5Exception "hyperslab selection out of range") else lift (place_manual (A:=RA) off rot data (index * nn) (nu_nucleons nu))))).
    { intros rot. apply planned_bind; [exact (planned_act (A:=RA) (sh_int D 0 (to_size (nc - 1))))|]. intros i. destruct (nc <=? i)%Z; [apply planned_throw|apply planned_lift]. }
    apply sl_then; [apply planned_phi| | |].
    1,2: intros a1; apply planned_bind; [apply planned_cos_theta|]; intros c; apply planned_bind; [apply planned_phi|]; intros ph; apply Z.
    intros a1. apply sl_then; [apply planned_cos_theta| | |].
    1,2: intros c; apply planned_bind; [apply planned_phi|]; intros ph; apply Z.
    intros c. apply sl_phi; [intros; apply Z..|]. intros ph ph' E F.
    apply sl_then; [exact (planned_act (A:=RA) (sh_int D 0 (to_size (nc - 1))))| | |].
    1,2: intros i; destruct (nc <=? i)%Z; [apply planned_throw|apply planned_lift].
    intros i. destruct (nc <=? i)%Z; [exact (sl_done _ (Throw _) (Throw _) eq_refl)|].
    unfold lift. apply sl_done. apply place_manual_turned. exact (euler_turned _ _ _ _ ph ph' E F).
Qed.
End Same.
