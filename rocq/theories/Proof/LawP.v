(** Calculus of decision trees. *)
From Coq Require Import Reals.
From Verif.Base Require Import Result Arith Rng.
From Verif.Model Require Import Random Nucleon Nucleus Collider.
From Verif.Spec Require Import Law.

Section Plans.
Context {A : Arith}.

(** ** Plans of a program are unique in law *)
Lemma mean_const {X} (U : (num A -> R) -> R) (HU : averages U) (f : X -> R) v (p : plan A X) :
  (forall t, f (fst (follow p t)) = v) -> mean U f p = v.
Proof.
  induction p as [x|k IH]; intros H.
  - exact (H (fun _ => nofZ A 0)).
  - cbn [mean]. transitivity (U (fun _ => v)); [|apply HU]. apply (av_ext _ HU). intros u. apply IH. intros t. exact (H (put_front u t)).
Qed.

Theorem mean_unique {X} (U : (num A -> R) -> R) (HU : averages U) (f : X -> R) (p : plan A X) : forall q,
  (forall t, fst (follow p t) = fst (follow q t)) -> mean U f p = mean U f q.
Proof.
  induction p as [x|k IH]; intros q H.
  - symmetry. apply mean_const; [exact HU|]. intros t. rewrite <- H. reflexivity.
  - destruct q as [y|l].
    + apply mean_const; [exact HU|]. intros t. rewrite H. reflexivity.
    + cbn [mean]. apply (av_ext _ HU). intros u. apply IH. intros t. exact (H (put_front u t)).
Qed.

(** ** Binding *)
Fixpoint pbind {X Y} (p : plan A (result X)) (k : X -> plan A (result Y)) : plan A (result Y) :=
  match p with
  | Done (Ret x) => k x
  | Done (Throw e) => Done (Throw e)
  | Done (UB u) => Done (UB u)
  | Done OutOfFuel => Done OutOfFuel
  | Draw next => Draw (fun u => pbind (next u) k)
  end.

Lemma follow_bind {X Y} (p : plan A (result X)) (k : X -> plan A (result Y)) : forall t,
  follow (pbind p k) t = match follow p t with
  | (Ret x, t') => follow (k x) t' | (Throw e, t') => (Throw e, t') | (UB u, t') => (UB u, t') | (OutOfFuel, t') => (OutOfFuel, t') end.
Proof. induction p as [[x| | |]|next IH]; intros t; try reflexivity. cbn [pbind follow]. apply IH. Qed.

(** [p] is a plan of the engine program [m]. *)
Definition plans {X} (m : M (tape A) X) (p : plan A (result X)) : Prop := forall t, m t = follow p t.
Definition planned {X} (m : M (tape A) X) : Type := {p | plans m p}.

Lemma planned_ret {X} (x : X) : planned (ret x). Proof. exists (Done (Ret x)). intros t. reflexivity. Qed.
Lemma planned_fail {X} (r : result X) : planned (fail r). Proof. exists (Done r). intros t. reflexivity. Qed.
Lemma planned_lift {X} (r : result X) : planned (lift r). Proof. exists (Done r). intros t. reflexivity. Qed.
Lemma planned_throw {X} e : planned (throw (X:=X) e). Proof. exists (Done (Throw e)). intros t. reflexivity. Qed.
Lemma planned_undefined {X} u : planned (undefined (X:=X) u). Proof. exists (Done (UB u)). intros t. reflexivity. Qed.
Lemma planned_fuel {X} : planned (out_of_fuel (X:=X)). Proof. exists (Done OutOfFuel). intros t. reflexivity. Qed.
Lemma planned_act {X} (f : num A -> X) : planned (act (fun t : tape A => (f (front t), rest t))).
Proof. exists (Draw (fun u => Done (Ret (f u)))). intros t. reflexivity. Qed.
Lemma plans_bind {X Y} (m : M (tape A) X) (k : X -> M (tape A) Y) p q :
  plans m p -> (forall x, plans (k x) (q x)) -> plans (bind m k) (pbind p q).
Proof.
  intros Hm Hk t. rewrite follow_bind. unfold bind. rewrite Hm. destruct (follow p t) as [[x| | |] t']; try reflexivity. apply Hk.
Qed.
Lemma planned_bind {X Y} (m : M (tape A) X) (k : X -> M (tape A) Y) : planned m -> (forall x, planned (k x)) -> planned (bind m k).
Proof.
  intros [p Hp] Hk. exists (pbind p (fun x => proj1_sig (Hk x))). apply plans_bind; [exact Hp|]. intros x. exact (proj2_sig (Hk x)).
Qed.
Lemma planned_ext {X} (m m' : M (tape A) X) : (forall t, m t = m' t) -> planned m -> planned m'.
Proof. intros E [p Hp]. exists p. intros t. rewrite <- E. apply Hp. Qed.
Lemma planned_mrepeat {X} (m : M (tape A) X) : planned m -> forall n, planned (mrepeat n m).
Proof.
  intros Hm. induction n as [|n IH]; [apply planned_ret|]. cbn [mrepeat]. apply planned_bind; [exact Hm|]. intros x.
  apply planned_bind; [exact IH|]. intros xs. apply planned_ret.
Qed.

(** ** Coupling: [q] is [p] with some draws whose value does not matter left out *)
Inductive coupled {X Y} (Q : X -> Y -> Prop) : plan A X -> plan A Y -> Prop :=
| cp_done : forall x y, Q x y -> coupled Q (Done x) (Done y)
| cp_draw : forall k l, (forall u, coupled Q (k u) (l u)) -> coupled Q (Draw k) (Draw l)
| cp_extra : forall k q, (forall u, coupled Q (k u) q) -> coupled Q (Draw k) q.

Lemma coupled_mean {X Y} (U : (num A -> R) -> R) (HU : averages U) (Q : X -> Y -> Prop) f g p q :
  coupled Q p q -> (forall x y, Q x y -> f x = g y) -> mean U f p = mean U g q.
Proof.
  intros C H. induction C as [x y HQ|k l C IH|k q C IH]; cbn [mean].
  - apply H, HQ.
  - apply (av_ext _ HU). exact IH.
  - rewrite <- (av_const _ HU (mean U g q)). apply (av_ext _ HU). exact IH.
Qed.

Lemma coupled_same {X} (P : X -> Prop) (p : plan A X) : (forall t, P (fst (follow p t))) -> coupled (fun x y => x = y /\ P x) p p.
Proof.
  induction p as [x|k IH]; intros H.
  - apply cp_done. split; [reflexivity|]. exact (H (fun _ => nofZ A 0)).
  - apply cp_draw. intros u. apply IH. intros t. exact (H (put_front u t)).
Qed.

(** Lifting a relation to outcomes. *)
Definition outcome {X Y} (Q : X -> Y -> Prop) (r : result X) (r' : result Y) : Prop :=
  match r, r' with
  | Ret x, Ret y => Q x y
  | Throw e, Throw e' => e = e'
  | UB u, UB u' => u = u'
  | OutOfFuel, OutOfFuel => True
  | _, _ => False
  end.
Lemma coupled_impl {X Y} (Q Q' : X -> Y -> Prop) p q : (forall x y, Q x y -> Q' x y) -> coupled Q p q -> coupled Q' p q.
Proof.
  intros H C. induction C as [x y HQ|k l C IH|k q C IH]; [apply cp_done, H, HQ|apply cp_draw, IH|apply cp_extra, IH].
Qed.
Lemma coupled_refl {X} (P : X -> Prop) (p : plan A (result X)) :
  (forall t x, fst (follow p t) = Ret x -> P x) -> coupled (outcome (fun x y => x = y /\ P x)) p p.
Proof.
  intros H. apply (coupled_impl (fun r r' => r = r' /\ match r with Ret x => P x | _ => True end)).
  - intros x y [-> K]. destruct y; cbn; auto.
  - apply (coupled_same (fun r => match r with Ret x => P x | _ => True end)). intros t.
    destruct (fst (follow p t)) eqn:E; try exact I. apply (H t), E.
Qed.
Lemma coupled_bind {X Y X' Y'} (Q : X -> Y -> Prop) (Q' : X' -> Y' -> Prop) p q k l :
  coupled (outcome Q) p q -> (forall x y, Q x y -> coupled (outcome Q') (k x) (l y)) ->
  coupled (outcome Q') (pbind p k) (pbind q l).
Proof.
  intros C H. induction C as [x y HQ|k' l' C IH|k' q C IH].
  - destruct x, y; cbn in HQ; try contradiction; cbn [pbind].
    + apply H, HQ.
    + apply cp_done. exact HQ.
    + apply cp_done. exact HQ.
    + apply cp_done. exact I.
  - cbn [pbind]. apply cp_draw. exact IH.
  - cbn [pbind]. apply cp_extra. exact IH.
Qed.
End Plans.

(** ** Plans of the nuclei *)
Section Nuclei.
Context {A : Arith} (D : shapes A) (seed : Z -> tape A).
Local Notation G := (ideal D seed).

Lemma planned_canonical : planned (draw_canonical G). Proof. exact (planned_act (sh_canonical D)). Qed.
Lemma planned_cos_theta : planned (cos_theta G). Proof. apply planned_bind; [apply planned_canonical|]. intros u. apply planned_ret. Qed.
Lemma planned_phi : planned (phi G). Proof. apply planned_bind; [apply planned_canonical|]. intros u. apply planned_ret. Qed.

Lemma planned_deuteron_radius a b : forall fuel, planned (deuteron_radius G fuel a b).
Proof.
  induction fuel as [|fuel IH]; cbn [deuteron_radius]; [apply planned_fuel|].
  apply planned_bind; [apply planned_canonical|]. intros u. apply planned_bind; [apply planned_canonical|]. intros v.
  destruct (nltb A _ v); [exact IH|apply planned_ret].
Qed.
Lemma planned_place_ws dm off r prev : forall tries n, planned (place_ws G tries dm off r prev n).
Proof.
  induction tries as [|tries IH]; intros n; cbn [place_ws]; [apply planned_ret|].
  apply planned_bind; [apply planned_cos_theta|]. intros c. apply planned_bind; [apply planned_phi|]. intros ph.
  destruct (polar r c ph) as [[x y] z]. destruct tries; [apply planned_ret|].
  destruct (is_too_close _ _ _); [apply IH|apply planned_ret].
Qed.
Lemma planned_place_all_ws dm off : forall todo radii prev, planned (place_all_ws G dm off radii prev todo).
Proof.
  induction todo as [|n todo IH]; intros radii prev; destruct radii as [|r radii]; cbn [place_all_ws]; try apply planned_ret; [apply planned_undefined|]. apply planned_bind; [apply planned_place_ws|]. intros n'. apply IH.
Qed.
Lemma planned_deformed_point Rw a b2 b4 rm : forall fuel, planned (sample_deformed_point G fuel Rw a b2 b4 rm).
Proof.
  induction fuel as [|fuel IH]; cbn [sample_deformed_point]; [apply planned_fuel|].
  apply planned_bind; [apply planned_canonical|]. intros u. apply planned_bind; [apply planned_cos_theta|]. intros c.
  apply planned_bind; [apply planned_canonical|]. intros v. destruct (nltb A _ v); [exact IH|apply planned_ret].
Qed.
Lemma planned_place_deformed dm off rot rs prev : forall tries z n, planned (place_deformed G tries dm off rot rs z prev n).
Proof.
  induction tries as [|tries IH]; intros z n; cbn [place_deformed]; [apply planned_ret|].
  apply planned_bind; [apply planned_phi|]. intros ph. destruct (rot _) as [[x y] z']. destruct tries; [apply planned_ret|].
  destruct (is_too_close _ _ _); [apply IH|apply planned_ret].
Qed.
Lemma planned_place_all_deformed dm off rot : forall todo samples prev, planned (place_all_deformed G dm off rot samples prev todo).
Proof.
  induction todo as [|n todo IH]; intros samples prev; destruct samples as [|[r c] samples]; cbn [place_all_deformed]; try apply planned_ret; [apply planned_undefined|]. apply planned_bind; [apply planned_place_deformed|]. intros n'. apply IH.
Qed.

Lemma planned_sample_nucleons fuel nu off : planned (sample_nucleons G fuel nu off).
Proof.
  unfold sample_nucleons. apply planned_bind; [|intros ns; apply planned_ret].
  destruct (nu_kind nu) as [|a b|Rw a dm|Rw a b2 b4 rm dm|nc nn data rm].
  - unfold sample_proton. destruct (nu_nucleons nu); [apply planned_undefined|apply planned_ret].
  - unfold sample_deuteron. apply planned_bind; [apply planned_deuteron_radius|]. intros r.
    apply planned_bind; [apply planned_cos_theta|]. intros c. apply planned_bind; [apply planned_phi|]. intros ph.
    destruct (polar r c ph) as [[x y] z]. destruct (nu_nucleons nu) as [|n1 [|n2 ns]]; try apply planned_undefined. apply planned_ret.
  - unfold sample_ws. apply planned_bind; [apply planned_mrepeat; exact (planned_act _)|]. intros radii. apply planned_place_all_ws.
  - unfold sample_deformed. apply planned_bind; [apply planned_cos_theta|]. intros ca. apply planned_bind; [apply planned_phi|]. intros ab.
    apply planned_bind; [apply planned_mrepeat, planned_deformed_point|]. intros samples. apply planned_place_all_deformed.
  - unfold sample_manual. apply planned_bind; [apply planned_phi|]. intros a1. apply planned_bind; [apply planned_cos_theta|]. intros c2.
    apply planned_bind; [apply planned_phi|]. intros a3. apply planned_bind; [exact (planned_act (fun u => sh_int D 0 (to_size (nc - 1)) u))|]. intros i.
    destruct (nc <=? i)%Z; [apply planned_throw|apply planned_lift].
Qed.
End Nuclei.

(** ** Plans of the collision search *)
Section Search.
Context {A : Arith} (D : shapes A) (seed : Z -> tape A) (ns gs : num A * num A).
Local Notation G := (ideal D seed).
Local Notation MkR t := (@MkRstate A G t ns gs).

Definition rplans {X} (m : M (rstate G) X) (p : plan A (result X)) : Prop :=
  forall t, m (MkR t) = (fst (follow p t), MkR (snd (follow p t))).
Definition rplanned {X} (m : M (rstate G) X) : Type := {p | rplans m p}.

Lemma rplans_ret {X} (x : X) : rplans (ret x) (Done (Ret x)). Proof. intros t. reflexivity. Qed.
Lemma rplans_throw {X} e : rplans (throw (X:=X) e) (Done (Throw e)). Proof. intros t. reflexivity. Qed.
Lemma rplans_fuel {X} : rplans (out_of_fuel (X:=X)) (Done OutOfFuel). Proof. intros t. reflexivity. Qed.
Lemma rplans_bind {X Y} (m : M (rstate G) X) (k : X -> M (rstate G) Y) p q :
  rplans m p -> (forall x, rplans (k x) (q x)) -> rplans (bind m k) (pbind p q).
Proof.
  intros Hm Hk t. rewrite follow_bind. unfold bind. rewrite Hm. destruct (follow p t) as [[x| | |] t']; cbn [fst snd]; try reflexivity. apply Hk.
Qed.
Lemma rplans_eng {X} (m : M (tape A) X) p : plans m p -> rplans (on_eng (R:=G) m) p.
Proof. intros H t. unfold on_eng. cbn [rs_eng rs_norm rs_gamma]. rewrite H. destruct (follow p t). reflexivity. Qed.
Lemma rplans_canonical : rplans (on_eng (draw_canonical G)) (Draw (fun u => Done (Ret (sh_canonical D u)))).
Proof. intros t. reflexivity. Qed.
Lemma rplans_normal : rplans (draw_normal G) (Draw (fun u => Done (Ret (sh_normal D (fst ns) (snd ns) u)))).
Proof. intros t. reflexivity. Qed.
Lemma rplans_gamma : rplans (draw_gamma G) (Draw (fun u => Done (Ret (sh_gamma D (fst gs) (snd gs) u)))).
Proof. intros t. reflexivity. Qed.

Lemma rplans_on_tape {X} (m : M (rstate G) X) p : rplans m p -> forall t, on_tape ns gs m t = follow p t.
Proof. intros H t. unfold on_tape. rewrite H. cbn [rs_eng]. destruct (follow p t). reflexivity. Qed.

(** The plan of sample_local. *)
Fixpoint p_local (k : nat) (xc yc : num A) : plan A (result (list (constituent A) * num A * num A)) :=
  match k with
  | O => Done (Ret ([], xc, yc))
  | S k' => Draw (fun u => Draw (fun v => Draw (fun w =>
      let x := sh_normal D (fst ns) (snd ns) u in
      let y := sh_normal D (fst ns) (snd ns) v in
      let f := sh_gamma D (fst gs) (snd gs) w in
      pbind (p_local k' (nadd A xc x) (nadd A yc y)) (fun r => let '(qs, xs, ys) := r in Done (Ret (Constituent x y f :: qs, xs, ys))))))
  end.
Lemma p_local_ok k : forall xc yc, rplans (sample_local G k xc yc) (p_local k xc yc).
Proof.
  induction k as [|k IH]; intros xc yc; [apply rplans_ret|].
  cbn [sample_local p_local].
  refine (rplans_bind _ _ (Draw (fun u => Done (Ret (sh_normal D (fst ns) (snd ns) u)))) (fun x => Draw (fun v => Draw (fun w =>
      let y := sh_normal D (fst ns) (snd ns) v in
      let f := sh_gamma D (fst gs) (snd gs) w in
      pbind (p_local k (nadd A xc x) (nadd A yc y)) (fun r => let '(qs, xs, ys) := r in Done (Ret (Constituent x y f :: qs, xs, ys)))))) rplans_normal _).
  intros x.
  refine (rplans_bind _ _ (Draw (fun u => Done (Ret (sh_normal D (fst ns) (snd ns) u)))) (fun y => Draw (fun w =>
      let f := sh_gamma D (fst gs) (snd gs) w in
      pbind (p_local k (nadd A xc x) (nadd A yc y)) (fun r => let '(qs, xs, ys) := r in Done (Ret (Constituent x y f :: qs, xs, ys))))) rplans_normal _).
  intros y.
  refine (rplans_bind _ _ (Draw (fun u => Done (Ret (sh_gamma D (fst gs) (snd gs) u)))) (fun f =>
      pbind (p_local k (nadd A xc x) (nadd A yc y)) (fun r => let '(qs, xs, ys) := r in Done (Ret (Constituent x y f :: qs, xs, ys)))) rplans_gamma _).
  intros f. apply rplans_bind; [apply IH|]. intros [[qs xs] ys]. apply rplans_ret.
Qed.

Definition p_constituents (nc : nucleon_common A) (n : nucleon A) : plan A (result (nucleon A)) :=
  if n_cexist n then Done (Ret n)
  else if (cons_max_size <? nc_number nc)%Z then Done (Throw LengthError)
  else pbind (p_local (Z.to_nat (nc_number nc)) (nlit A 0 0) (nlit A 0 0)) (fun r =>
    let '(qs, xsum, ysum) := r in
    let xcom := ndiv A xsum (nofZ A (nc_number nc)) in
    let ycom := ndiv A ysum (nofZ A (nc_number nc)) in
    let place q := Constituent (nadd A (q_x q) (nsub A (n_x n) xcom)) (nadd A (q_y q) (nsub A (n_y n) ycom)) (q_fluct q) in
    Done (Ret (Nucleon (n_x n) (n_y n) (n_z n) (n_part n) true (map place qs)))).
Lemma p_constituents_ok nc n : rplans (sample_constituent_positions G nc n) (p_constituents nc n).
Proof.
  unfold sample_constituent_positions, p_constituents. destruct (n_cexist n); [apply rplans_ret|].
  destruct (_ <? _)%Z; [apply rplans_throw|]. apply rplans_bind; [apply p_local_ok|]. intros [[qs xs] ys]. apply rplans_ret.
Qed.

Definition p_participate (nc : nucleon_common A) (a b : nucleon A) : plan A (result (bool * nucleon A * nucleon A)) :=
  if n_part a && n_part b && negb (nc_calc_ncoll nc) then Done (Ret (true, a, b))
  else if nltb A (nc_max_impact_sq nc) (nadd A (sqr (nsub A (n_x a) (n_x b))) (sqr (nsub A (n_y a) (n_y b)))) then Done (Ret (false, a, b))
  else pbind (p_constituents nc a) (fun a' => pbind (p_constituents nc b) (fun b' =>
    Draw (fun u => Done (Ret (if nltb A (one_minus_prob nc (n_cons a') (n_cons b')) (sh_canonical D u)
      then (true, set_participant a', set_participant b') else (false, a', b')))))).
Lemma p_participate_ok nc a b : rplans (participate G nc a b) (p_participate nc a b).
Proof.
  unfold participate, p_participate. destruct (_ && _); [apply rplans_ret|]. destruct (nltb A _ _); [apply rplans_ret|].
  apply rplans_bind; [apply p_constituents_ok|]. intros a'. apply rplans_bind; [apply p_constituents_ok|]. intros b'.
  refine (rplans_bind _ _ (Draw (fun u => Done (Ret (sh_canonical D u)))) (fun u => Done (Ret (if nltb A (one_minus_prob nc (n_cons a') (n_cons b')) u
      then (true, set_participant a', set_participant b') else (false, a', b')))) rplans_canonical _).
  intros u. destruct (nltb A _ u); apply rplans_ret.
Qed.

Fixpoint p_row (co : collider A) (a : nucleon A) (bs : list (nucleon A)) (nc : Z) (c : bool)
  : plan A (result (nucleon A * list (nucleon A) * Z * bool)) :=
  match bs with
  | [] => Done (Ret (a, [], nc, c))
  | b :: bs' =>
      pbind (p_participate (co_nc co) a b) (fun r => let '(hit, a', b') := r in
        pbind (p_row co a' bs' (if hit && co_calc_ncoll co then (nc + 1)%Z else nc) (hit || c)) (fun r =>
          let '(a'', bs'', nc'', c') := r in Done (Ret (a'', b' :: bs'', nc'', c'))))
  end.
Lemma p_row_ok co bs : forall a nc c, rplans (pair_row G co a bs nc c) (p_row co a bs nc c).
Proof.
  induction bs as [|b bs IH]; intros a nc c; [apply rplans_ret|]. cbn [pair_row p_row].
  apply rplans_bind; [apply p_participate_ok|]. intros [[hit a'] b']. apply rplans_bind; [apply IH|].
  intros [[[a'' bs''] nc''] c']. apply rplans_ret.
Qed.
Fixpoint p_pairs (co : collider A) (As bs : list (nucleon A)) (nc : Z) (c : bool)
  : plan A (result (list (nucleon A) * list (nucleon A) * Z * bool)) :=
  match As with
  | [] => Done (Ret ([], bs, nc, c))
  | a :: As' =>
      pbind (p_row co a bs nc c) (fun r => let '(a', bs', nc', c') := r in
        pbind (p_pairs co As' bs' nc' c') (fun r =>
          let '(As'', bs'', nc'', c'') := r in Done (Ret (a' :: As'', bs'', nc'', c''))))
  end.
Lemma p_pairs_ok co As : forall bs nc c, rplans (pair_loop G co As bs nc c) (p_pairs co As bs nc c).
Proof.
  induction As as [|a As IH]; intros bs nc c; [apply rplans_ret|]. cbn [pair_loop p_pairs].
  apply rplans_bind; [apply p_row_ok|]. intros [[[a' bs'] nc'] c']. apply rplans_bind; [apply IH|].
  intros [[[a'' bs''] nc''] c'']. apply rplans_ret.
Qed.

Definition p_nucleons (sfuel : nat) (nu : nucleus A) (off : num A) : plan A (result (nucleus A)) :=
  proj1_sig (planned_sample_nucleons D seed sfuel nu off).
Lemma p_nucleons_ok sfuel nu off : plans (sample_nucleons G sfuel nu off) (p_nucleons sfuel nu off).
Proof. exact (proj2_sig (planned_sample_nucleons D seed sfuel nu off)). Qed.

(** One attempt: impact parameter, nuclei, pairs. *)
Definition p_attempt (sfuel : nat) (co : collider A) (nA nB : nucleus A) (nc : Z)
  : plan A (result (num A * Z * nucleus A * nucleus A * bool)) :=
  Draw (fun u =>
    let b := sample_b (co_bmin co) (co_bmax co) (sh_canonical D u) in
    pbind (p_nucleons sfuel nA (nmul A (co_asym co) b)) (fun nA1 =>
    pbind (p_nucleons sfuel nB (nmul A (nsub A (co_asym co) (nlit A 1 0)) b)) (fun nB1 =>
    pbind (p_pairs co (nu_nucleons nA1) (nu_nucleons nB1) nc false) (fun r =>
      let '(As, Bs, nc', c) := r in
      Done (Ret (b, nc', with_nucleons nA1 As, with_nucleons nB1 Bs, c)))))).
Fixpoint p_search (fuel sfuel : nat) (co : collider A) (nA nB : nucleus A) (nc : Z)
  : plan A (result (num A * Z * nucleus A * nucleus A)) :=
  match fuel with
  | O => Done OutOfFuel
  | S fuel' =>
      pbind (p_attempt sfuel co nA nB nc) (fun r => let '(b, nc', nA2, nB2, c) := r in
        if c : bool then Done (Ret (b, nc', nA2, nB2)) else p_search fuel' sfuel co nA2 nB2 nc')
  end.
Lemma pbind_assoc {X Y Z} (p : plan A (result X)) (k : X -> plan A (result Y)) (l : Y -> plan A (result Z)) : forall t,
  follow (pbind (pbind p k) l) t = follow (pbind p (fun x => pbind (k x) l)) t.
Proof. induction p as [[x| | |]|next IH]; intros t; try reflexivity. cbn [pbind follow]. apply IH. Qed.

Lemma p_search_ok fuel sfuel co : forall nA nB nc, rplans (collision_loop G fuel sfuel co nA nB nc) (p_search fuel sfuel co nA nB nc).
Proof.
  induction fuel as [|fuel IH]; intros nA nB nc; [apply rplans_fuel|]. cbn [collision_loop p_search]. unfold p_attempt.
  pose (next := fun r : num A * Z * nucleus A * nucleus A * bool => let '(b, nc', nA2, nB2, c) := r in
        if c : bool then Done (Ret (b, nc', nA2, nB2)) else p_search fuel sfuel co nA2 nB2 nc').
  refine (rplans_bind _ _ (Draw (fun u => Done (Ret (sh_canonical D u)))) (fun u => pbind (
    let b := sample_b (co_bmin co) (co_bmax co) u in
    pbind (p_nucleons sfuel nA (nmul A (co_asym co) b)) (fun nA1 =>
    pbind (p_nucleons sfuel nB (nmul A (nsub A (co_asym co) (nlit A 1 0)) b)) (fun nB1 =>
    pbind (p_pairs co (nu_nucleons nA1) (nu_nucleons nB1) nc false) (fun r =>
      let '(As, Bs, nc', c) := r in
      Done (Ret (b, nc', with_nucleons nA1 As, with_nucleons nB1 Bs, c)))))) next) rplans_canonical _).
  intros u. cbv zeta. intros t. rewrite pbind_assoc. revert t.
  apply rplans_bind; [apply rplans_eng, p_nucleons_ok|]. intros nA1. intros t. rewrite pbind_assoc. revert t.
  apply rplans_bind; [apply rplans_eng, p_nucleons_ok|]. intros nB1. intros t. rewrite pbind_assoc. revert t.
  apply rplans_bind; [apply p_pairs_ok|]. intros [[[As Bs] nc'] c]. cbn [pbind]. unfold next.
  destruct c; [apply rplans_ret|apply IH].
Qed.
End Search.
