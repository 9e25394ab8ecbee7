(** Attempts, searches and runs as independent samples. *)
From Coq Require Import Reals Lra.
From Verif.Base Require Import Result Arith Rng.
From Verif.Model Require Import Config Random Nucleon Nucleus Event Collider.
From Verif.Spec Require Import History Collision Replay Law Attempts.
From Verif.Proof Require Import Basics Pairs Sampling Collision EventP ShiftP FreshP LawP GlauberP.
Local Open Scope R_scope.

(** ** Means *)
Section Means.
Context {A : Arith} (U : (num A -> R) -> R) (HU : averages U).

Lemma mean_unique2 {X Y} (f : X -> R) (g : Y -> R) (p : plan A X) : forall q : plan A Y,
  (forall t, f (fst (follow p t)) = g (fst (follow q t))) -> mean U f p = mean U g q.
Proof.
  induction p as [x|k IH]; intros q H.
  - symmetry. apply mean_const; [exact HU|]. intros t. rewrite <- H. reflexivity.
  - destruct q as [y|l].
    + apply mean_const; [exact HU|]. intros t. rewrite H. reflexivity.
    + cbn [mean]. apply (av_ext _ HU). intros u. apply IH. intros t. exact (H (put_front u t)).
Qed.

Hypothesis HL : linear U.
Lemma mean_linear {X} (f g : X -> R) c (p : plan A X) : mean U (fun x => f x + c * g x) p = mean U f p + c * mean U g p.
Proof.
  induction p as [x|k IH]; cbn [mean]; [reflexivity|].
  rewrite (av_ext _ HU _ (fun u => mean U f (k u) + c * mean U g (k u))) by exact IH.
  rewrite (li_add _ HL), (li_scale _ HL). reflexivity.
Qed.
Lemma mean_scale {X} (g : X -> R) c (p : plan A X) : mean U (fun x => c * g x) p = c * mean U g p.
Proof.
  induction p as [x|k IH]; cbn [mean]; [reflexivity|].
  rewrite (av_ext _ HU _ (fun u => c * mean U g (k u))) by exact IH. apply (li_scale _ HL).
Qed.
End Means.

Lemma geometric_S q n : geometric q (S n) = 1 + q * geometric q n.
Proof.
  unfold geometric. cbn [seq fold_right]. rewrite <- seq_shift. cbn [pow]. f_equal.
  generalize (seq 0 n). intros l. induction l as [|k l IH]; cbn [map fold_right]; [ring|]. rewrite IH. cbn [pow]. ring.
Qed.

(** ** Attempts do not depend on what was there before *)
Section Attempt.
Context {A : Arith} (G : Rng A) (dbg : bool) (sfuel : nat) (co : collider A).

Lemma pair_row_none bs : forall a nc c s a' bs' nc' s',
  pair_row G co a bs nc c s = (Ret (a', bs', nc', false), s') -> c = false /\ nc' = nc.
Proof.
  induction bs as [|b bs IH]; intros a nc c s a' bs' nc' s' H; cbn [pair_row] in H.
  - unfold ret in H. inversion H. auto.
  - mstep H. destruct x as [[hit a1] b1]. mstep H. destruct x as [[[a2 bs2] n2] c2]. unfold ret in H. inversion H; subst.
    apply IH in E0. destruct E0 as [E1 ->]. apply orb_false_iff in E1. destruct E1 as [-> ->]. auto.
Qed.
Lemma pair_loop_none As : forall bs nc c s As' bs' nc' s',
  pair_loop G co As bs nc c s = (Ret (As', bs', nc', false), s') -> c = false /\ nc' = nc.
Proof.
  induction As as [|a As IH]; intros bs nc c s As' bs' nc' s' H; cbn [pair_loop] in H.
  - unfold ret in H. inversion H. auto.
  - mstep H. destruct x as [[[a1 bs1] n1] c1]. mstep H. destruct x as [[[a2 bs2] n2] c2]. unfold ret in H. inversion H; subst.
    apply IH in E0. destruct E0 as [-> ->]. apply pair_row_none in E. exact E.
Qed.

(** What is known of a finished attempt. *)
Lemma attempt_inv nA nB s b n nA' nB' c s' : nucleus_wf nA -> nucleus_wf nB ->
  attempt G sfuel co nA nB s = (Ret (b, n, nA', nB', c), s') ->
  twin nA nA' /\ twin nB nB' /\ (c = false -> n = 0%Z).
Proof.
  intros WA WB H. unfold attempt in H. mstep H. cbv zeta in H. mstep H. mstep H. mstep H. destruct x2 as [[[As Bs] k] c'].
  unfold ret in H. inversion H; subst. clear H.
  assert (TA : twin nA x0).
  { unfold on_eng in E0. destruct (sample_nucleons G sfuel nA _ _) as [r e1] eqn:E3. inversion E0; subst.
    destruct (sample_nucleons_reset G _ _ _ _ _ _ WA E3) as (K & _ & L & _). split; congruence. }
  assert (TB : twin nB x1).
  { unfold on_eng in E1. destruct (sample_nucleons G sfuel nB _ _) as [r e1] eqn:E3. inversion E1; subst.
    destruct (sample_nucleons_reset G _ _ _ _ _ _ WB E3) as (K & _ & L & _). split; congruence. }
  split; [|split].
  - pose proof (pair_loop_history _ _ _ _ _ _ _ _ _ _ _ _ E2) as (hs & Hh & _).
    destruct (history_length _ _ _ _ _ _ _ _ _ _ Hh) as (_ & L1 & L2). destruct TA. split; [assumption|cbn; congruence].
  - pose proof (pair_loop_history _ _ _ _ _ _ _ _ _ _ _ _ E2) as (hs & Hh & _).
    destruct (history_length _ _ _ _ _ _ _ _ _ _ Hh) as (_ & L1 & L2). destruct TB. split; [assumption|cbn; congruence].
  - intros ->. apply pair_loop_none in E2. apply E2.
Qed.

Lemma attempt_like nA nA' nB nB' s : nucleus_wf nA -> nucleus_wf nB -> twin nA nA' -> twin nB nB' ->
  rel (fun x y : num A * Z * nucleus A * nucleus A * bool => like_outcome (fst x) (fst y) /\ snd x = snd y)
    (attempt G sfuel co nA nB s) (attempt G sfuel co nA' nB' s).
Proof.
  intros WA WB TA TB. unfold attempt. apply rel_bind_same. intros u s1. cbv zeta. set (b := sample_b _ _ _).
  eapply rel_bind with (Q := twins).
  { apply rel_on_eng. apply (sample_nucleons_like G); assumption. }
  intros A1 A1' s2 HA. eapply rel_bind with (Q := twins).
  { apply rel_on_eng. apply (sample_nucleons_like G); assumption. }
  intros B1 B1' s3 HB. eapply rel_bind; [apply (pair_loop_like G co _ _ _ _ 0 false s3 (proj2 HA) (proj2 HB))|].
  intros [[[As Bs] k1] c] [[[As' Bs'] k1'] c'] s4 (G1 & G2 & G3 & G4). cbn [fst snd] in *. subst k1' c'.
  apply rel_ret. destruct HA as [KA1 FA], HB as [KB1 FB]. cbn [fst snd]. split; [|reflexivity].
  unfold like_outcome, twins, with_nucleons. cbn. auto 8.
Qed.
Lemma observed_like ev0 obs b n nA nB nA' nB' : twins nA nA' -> twins nB nB' ->
  observed dbg co ev0 obs b n nA nB = observed dbg co ev0 obs b n nA' nB'.
Proof. intros [_ HA] [_ HB]. unfold observed. rewrite (event_compute_like dbg ev0 (co_nc co) _ _ _ _ HA HB). reflexivity. Qed.
End Attempt.

(** ** The law of a search *)
Section Search.
Context {A : Arith} (U : (num A -> R) -> R) (HU : averages U) (HL : linear U).
Context (D : shapes A) (seed : Z -> tape A) (ns gs : num A * num A).
Context (dbg : bool) (sfuel : nat) (co : collider A).
Local Notation G := (ideal D seed).
Local Notation MkR t := (@MkRstate A G t ns gs).

Lemma p_attempt_ok nA nB : rplans D seed ns gs (attempt G sfuel co nA nB) (p_attempt D seed ns gs sfuel co nA nB 0).
Proof.
  unfold attempt, p_attempt.
  refine (rplans_bind _ _ _ _ _ _ (Draw (fun u => Done (Ret (sh_canonical D u)))) (fun u =>
    let b := sample_b (co_bmin co) (co_bmax co) u in
    pbind (p_nucleons D seed sfuel nA (nmul A (co_asym co) b)) (fun nA1 =>
    pbind (p_nucleons D seed sfuel nB (nmul A (nsub A (co_asym co) (nlit A 1 0)) b)) (fun nB1 =>
    pbind (p_pairs D ns gs co (nu_nucleons nA1) (nu_nucleons nB1) 0 false) (fun r =>
      let '(As, Bs, nc', c) := r in
      Done (Ret (b, nc', with_nucleons nA1 As, with_nucleons nB1 Bs, c)))))) (rplans_canonical _ _ _ _) _).
  intros u. cbv zeta.
  apply rplans_bind; [apply rplans_eng, p_nucleons_ok|]. intros nA1.
  apply rplans_bind; [apply rplans_eng, p_nucleons_ok|]. intros nB1.
  apply rplans_bind; [apply p_pairs_ok|]. intros [[[As Bs] nc'] c]. apply rplans_ret.
Qed.

Variables (nA nB : nucleus A) (ev0 : event A).
Hypothesis WA : nucleus_wf nA.
Hypothesis WB : nucleus_wf nB.
Lemma twin_wf (n1 n2 : nucleus A) : nucleus_wf n1 -> twin n1 n2 -> nucleus_wf n2.
Proof. intros W [K L]. eapply wf_kind_len; [exact W|congruence|congruence]. Qed.
Lemma twin_trans (a b c : nucleus A) : twin a b -> twin b c -> twin a c.
Proof. intros [? ?] [? ?]. split; congruence. Qed.

Lemma attempt_same obs nA1 nB1 : twin nA nA1 -> twin nB nB1 ->
  mean U (if_collided dbg co ev0 obs) (p_attempt D seed ns gs sfuel co nA1 nB1 0) = mean U (if_collided dbg co ev0 obs) (p_attempt D seed ns gs sfuel co nA nB 0).
Proof.
  intros TA TB. symmetry. apply (mean_unique2 U HU). intros t.
  destruct (attempt_like G sfuel co nA nA1 nB nB1 (MkR t) WA WB TA TB) as [H _].
  rewrite !p_attempt_ok in H. cbn [fst] in H.
  destruct (fst (follow (p_attempt D seed ns gs sfuel co nA nB 0) t)) as [[[[[b n] a1] b1] c]| | |],
    (fst (follow (p_attempt D seed ns gs sfuel co nA1 nB1 0) t)) as [[[[[b' n'] a1'] b1'] c']| | |]; cbn in H; try contradiction; try reflexivity.
  destruct H as [(E1 & E2 & T1 & T2) E3]. cbn [fst snd] in *. subst. destruct c'; [|reflexivity]. cbn. apply observed_like; assumption.
Qed.
Lemma attempt_same_none nA1 nB1 : twin nA nA1 -> twin nB nB1 ->
  mean U no_collision (p_attempt D seed ns gs sfuel co nA1 nB1 0) = mean U no_collision (p_attempt D seed ns gs sfuel co nA nB 0).
Proof.
  intros TA TB. symmetry. apply (mean_unique2 U HU). intros t.
  destruct (attempt_like G sfuel co nA nA1 nB nB1 (MkR t) WA WB TA TB) as [H _].
  rewrite !p_attempt_ok in H. cbn [fst] in H.
  destruct (fst (follow (p_attempt D seed ns gs sfuel co nA nB 0) t)) as [[[[[b n] a1] b1] c]| | |],
    (fst (follow (p_attempt D seed ns gs sfuel co nA1 nB1 0) t)) as [[[[[b' n'] a1'] b1'] c']| | |]; cbn in H; try contradiction; try reflexivity.
  destruct H as [_ E3]. cbn [fst snd] in *. subst. reflexivity.
Qed.

Theorem search_mean obs v q :
  mean U (if_collided dbg co ev0 obs) (p_attempt D seed ns gs sfuel co nA nB 0) = v ->
  mean U no_collision (p_attempt D seed ns gs sfuel co nA nB 0) = q ->
  forall n nA1 nB1, twin nA nA1 -> twin nB nB1 ->
  mean U (if_found dbg co ev0 obs) (p_search D seed ns gs n sfuel co nA1 nB1 0) = v * geometric q n.
Proof.
  intros Hv Hq. induction n as [|n IH]; intros nA1 nB1 TA TB.
  - unfold geometric. cbn. ring.
  - rewrite geometric_S. cbn [p_search]. rewrite (mean_pbind U HU).
    transitivity (mean U (fun r => if_collided dbg co ev0 obs r + (v * geometric q n) * no_collision r) (p_attempt D seed ns gs sfuel co nA1 nB1 0)).
    + apply (mean_unique2 U HU). intros t.
      destruct (fst (follow (p_attempt D seed ns gs sfuel co nA1 nB1 0) t)) as [[[[[b k] a1] b1] c]| | |] eqn:E; cbn; try ring.
      destruct c; cbn [mean]; [cbn; ring|].
      assert (H : attempt G sfuel co nA1 nB1 (MkR t) = (Ret (b, k, a1, b1, false), MkR (snd (follow (p_attempt D seed ns gs sfuel co nA1 nB1 0) t)))).
      { rewrite p_attempt_ok, E. reflexivity. }
      apply attempt_inv in H; [|exact (twin_wf nA nA1 WA TA)|exact (twin_wf nB nB1 WB TB)].
      destruct H as (T1 & T2 & K). rewrite (K eq_refl). rewrite (IH a1 b1); [ring|eapply twin_trans; eassumption|eapply twin_trans; eassumption].
    + rewrite (mean_linear U HU HL), (attempt_same obs nA1 nB1 TA TB), (attempt_same_none nA1 nB1 TA TB), Hv, Hq. ring.
Qed.
End Search.

(** ** Successive events *)
Section Same.
Context {A : Arith} (G : Rng A) (dbg : bool) (sfuel : nat) (co : collider A).
Lemma search_twin fuel nA nB k s b n nA' nB' s' : nucleus_wf nA -> nucleus_wf nB ->
  collision_loop G fuel sfuel co nA nB k s = (Ret (b, n, nA', nB'), s') -> twin nA nA' /\ twin nB nB'.
Proof.
  intros WA WB H. destruct (collision_loop_sampled G _ _ _ _ _ _ _ _ _ _ _ _ WA WB H) as (sa & Hs & W1 & W2 & _ & K1 & K2 & _).
  pose proof (sd_history _ _ _ _ _ _ _ _ _ _ Hs) as Hh.
  pose proof (history_length _ _ _ _ _ _ _ _ _ _ Hh) as (_ & LA' & LB').
  pose proof (sample_nucleons_reset _ _ _ _ _ _ _ W1 (sd_A _ _ _ _ _ _ _ _ _ _ Hs)) as (_ & _ & LA & _).
  pose proof (sample_nucleons_reset _ _ _ _ _ _ _ W2 (sd_B _ _ _ _ _ _ _ _ _ _ Hs)) as (_ & _ & LB & _).
  rewrite (sd_lenA _ _ _ _ _ _ _ _ _ _ Hs) in LA. rewrite (sd_lenB _ _ _ _ _ _ _ _ _ _ Hs) in LB.
  split; split; congruence.
Qed.
Lemma twins_twin (a b : nucleus A) : twins a b -> twin a b.
Proof. intros [K F]. split; [exact K|eapply F2_length; exact F]. Qed.

Lemma events_of_same fuel n : forall nA nB nA1 nB1 ev ev1 s, nucleus_wf nA -> nucleus_wf nB -> twin nA nA1 -> twin nB nB1 ->
  ready ev -> ready ev1 -> same_params ev ev1 ->
  rel eq (events_of G dbg sfuel co fuel n nA nB ev s) (events_of G dbg sfuel co fuel n nA1 nB1 ev1 s).
Proof.
  induction n as [|n IH]; intros nA nB nA1 nB1 ev ev1 s WA WB TA TB RV RV1 SP; [apply rel_ret; reflexivity|]. cbn [events_of].
  destruct (collision_loop_like G fuel sfuel co nA nA1 nB nB1 0 s WA WB TA TB) as [H1 H2].
  unfold sample_collision. unfold bind at 1 4.
  destruct (collision_loop G fuel sfuel co nA nB 0 s) as [r s1] eqn:E1, (collision_loop G fuel sfuel co nA1 nB1 0 s) as [r1 s1'] eqn:E2.
  cbn [fst snd] in H1, H2. subst s1'.
  destruct r as [[[[b k] a2] b2]| | |], r1 as [[[[b' k'] a2'] b2']| | |]; cbn in H1; try contradiction; subst; try (split; reflexivity).
  destruct H1 as (Eb & Ek & T1 & T2). cbn [fst snd] in *. subst b' k'.
  rewrite <- (event_compute_same dbg ev ev1) by assumption.
  rewrite <- (event_compute_like dbg ev (co_nc co) _ _ _ _ (proj2 T1) (proj2 T2)).
  destruct (search_twin _ _ _ _ _ _ _ _ _ _ WA WB E1) as [T3 T4].
  unfold bind at 1 3. unfold lift. destruct (event_compute dbg ev (nu_nucleons a2) (nu_nucleons b2) (co_nc co)) as [ev'| | |] eqn:EV; try (split; reflexivity).
  destruct (event_compute_ready _ _ _ _ _ _ RV EV) as [R2 _].
  eapply rel_bind; [apply IH|].
  - exact (twin_wf nA a2 WA T3).
  - exact (twin_wf nB b2 WB T4).
  - apply twins_twin, T1.
  - apply twins_twin, T2.
  - exact R2.
  - exact R2.
  - apply same_params_refl.
  - intros l l' s2 <-. apply rel_ret. reflexivity.
Qed.
End Same.

Section Events.
Context {A : Arith} (U : (num A -> R) -> R) (HU : averages U) (HL : linear U).
Context (D : shapes A) (seed : Z -> tape A) (ns gs : num A * num A).
Context (dbg : bool) (sfuel fuel : nat) (co : collider A).
Local Notation G := (ideal D seed).
Local Notation MkR t := (@MkRstate A G t ns gs).

Fixpoint p_events (n : nat) (nA nB : nucleus A) (ev : event A) : plan A (result (list (num A * Z * event A))) :=
  match n with
  | O => Done (Ret [])
  | S n' =>
      pbind (p_search D seed ns gs fuel sfuel co nA nB 0) (fun r => let '(b, k, nA', nB') := r in
      pbind (Done (event_compute dbg ev (nu_nucleons nA') (nu_nucleons nB') (co_nc co))) (fun ev' =>
      pbind (p_events n' nA' nB' ev') (fun l => Done (Ret ((b, k, ev') :: l)))))
  end.
Lemma p_events_ok n : forall nA nB ev, rplans D seed ns gs (events_of G dbg sfuel co fuel n nA nB ev) (p_events n nA nB ev).
Proof.
  induction n as [|n IH]; intros nA nB ev; [apply rplans_ret|]. cbn [events_of p_events].
  apply rplans_bind; [apply p_search_ok|]. intros [[[b k] a1] b1].
  apply rplans_bind; [intros t; reflexivity|]. intros ev'. apply rplans_bind; [apply IH|]. intros l. apply rplans_ret.
Qed.

Variables (nA nB : nucleus A) (ev0 : event A).
Hypothesis WA : nucleus_wf nA.
Hypothesis WB : nucleus_wf nB.
Hypothesis RV : ready ev0.

Theorem events_mean f (F F' : list (num A * Z * event A) -> R) n :
  (forall b k ev l, F ((b, k, ev) :: l) = f b k ev * F' l) ->
  mean U (if_finished F) (p_events (S n) nA nB ev0) =
  mean U (if_found dbg co ev0 f) (p_search D seed ns gs fuel sfuel co nA nB 0) * mean U (if_finished F') (p_events n nA nB ev0).
Proof.
  intros HF. cbn [p_events]. rewrite (mean_pbind U HU). rewrite Rmult_comm. rewrite <- (mean_scale U HU HL).
  apply (mean_unique2 U HU). intros t.
  destruct (fst (follow (p_search D seed ns gs fuel sfuel co nA nB 0) t)) as [[[[b k] a1] b1]| | |] eqn:E; try (cbn; ring).
  cbn [if_found]. unfold observed.
  destruct (event_compute dbg ev0 (nu_nucleons a1) (nu_nucleons b1) (co_nc co)) as [ev'| | |] eqn:EV; cbn [pbind mean]; try (cbn; ring).
  rewrite (mean_pbind U HU).
  assert (H : collision_loop G fuel sfuel co nA nB 0 (MkR t) = (Ret (b, k, a1, b1), MkR (snd (follow (p_search D seed ns gs fuel sfuel co nA nB 0) t)))).
  { rewrite p_search_ok, E. reflexivity. }
  destruct (search_twin G sfuel co _ _ _ _ _ _ _ _ _ _ WA WB H) as [T1 T2].
  destruct (event_compute_ready _ _ _ _ _ _ RV EV) as [R2 SP].
  rewrite Rmult_comm. rewrite <- (mean_scale U HU HL). apply (mean_unique2 U HU). intros t'.
  destruct (events_of_same G dbg sfuel co fuel n nA nB a1 b1 ev0 ev' (MkR t') WA WB T1 T2 RV R2 SP) as [H1 _].
  rewrite !p_events_ok in H1. cbn [fst] in H1.
  destruct (fst (follow (p_events n nA nB ev0) t')), (fst (follow (p_events n a1 b1 ev') t')); cbn in H1; try contradiction; subst; cbn; try ring.
  rewrite HF. reflexivity.
Qed.
End Events.
