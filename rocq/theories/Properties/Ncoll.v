(** C56: --ncoll counts collisions without changing them. *)
From Coq Require Import Reals.
From Verif.Base Require Import Result Arith Rng.
From Verif.Model Require Import Config Random Nucleon Nucleus Event Files CrossSection Output Collider.
From Verif.Spec Require Import History Geometry Collision Law.
From Verif.Proof Require Import Basics Sampling ShiftP LawP.

(** The same options with --ncoll on or off; the same collider. *)
Definition ncoll_option {A : Arith} (b : bool) (cfg : config A) : config A :=
  Config (projectile cfg) (number_events cfg) (quiet cfg) (output cfg) (no_header cfg) b
    (reduced_thickness cfg) (fluctuation cfg) (nucleon_width cfg) (constit_width cfg) (constit_number cfg)
    (nucleon_min_dist cfg) (cross_section cfg) (normalization cfg) (b_min cfg) (b_max cfg) (random_seed cfg)
    (grid_max cfg) (grid_step cfg).
Definition ncoll_common {A : Arith} (b : bool) (nc : nucleon_common A) : nucleon_common A :=
  NucleonCommon (nc_fast_exp nc) (nc_nucleon_width nc) (nc_constituent_width nc) (nc_number nc) (nc_sampling_width nc)
    (nc_max_impact_sq nc) (nc_constituent_width_sq nc) (nc_constituent_radius_sq nc) (nc_sigma_partonic nc) (nc_prefactor nc) b.
Definition ncoll_mode {A : Arith} (b : bool) (co : collider A) : collider A :=
  Collider (ncoll_common b (co_nc co)) (co_nevents co) b (co_bmin co) (co_bmax co) (co_asym co) (co_writers co).

(** Switching --ncoll changes nothing else of the collider that is constructed. *)
Theorem C56_collider : forall (A : Arith) (G : Rng A) sv bd fuel e cfg b (s s1 : sys G) co nA nB ev nst gst,
  collider_new G sv bd fuel e cfg s = (Ret (co, nA, nB, ev, nst, gst), s1) ->
  collider_new G sv bd fuel e (ncoll_option b cfg) s = (Ret (ncoll_mode b co, nA, nB, ev, nst, gst), s1).
Proof.
  intros A G sv bd fuel e cfg b s s1 co nA nB ev nst gst H.
  unfold collider_new in *.
  apply bind_Ret_inv in H. destruct H as (s0 & s2 & E0 & H). unfold get in E0. injection E0 as <- <-.
  unfold bind at 1, get.
  apply bind_Ret_inv in H. destruct H as (nA0 & s2 & E1 & H). unfold bind at 1. change (create_nucleus bd (s_fs s) (ncoll_option b cfg) 0) with (create_nucleus bd (s_fs s) cfg 0). rewrite E1.
  apply bind_Ret_inv in H. destruct H as (nB0 & s3 & E2 & H). unfold bind at 1. change (create_nucleus bd (s_fs s) (ncoll_option b cfg) 1) with (create_nucleus bd (s_fs s) cfg 1). rewrite E2.
  apply bind_Ret_inv in H. destruct H as (sp & s4 & E3 & H). unfold bind at 1.
  change (partonic_cross_section G sv fuel e (ncoll_option b cfg) s3) with (partonic_cross_section G sv fuel e cfg s3). rewrite E3.
  apply bind_Ret_inv in H. destruct H as (ev0 & s5 & E4 & H). unfold bind at 1. change (event_new (ncoll_option b cfg)) with (event_new cfg). rewrite E4.
  apply bind_Ret_inv in H. destruct H as (ws & s6 & E5 & H). unfold bind at 1. change (output_new G bd (ncoll_option b cfg) s5) with (output_new G bd cfg s5). rewrite E5.
  apply bind_Ret_inv in H. destruct H as ([] & s7 & E6 & H). unfold bind at 1. change (random_seed (ncoll_option b cfg)) with (random_seed cfg). rewrite E6.
  unfold ret in *. injection H as <- <- <- <- <- <- <-. reflexivity.
Qed.

(** The event computed from given nucleons does not depend on it either. *)
Theorem C56_event : forall (A : Arith) dbg (ev : event A) As Bs nc b,
  event_compute dbg ev As Bs (ncoll_common b nc) = event_compute dbg ev As Bs nc.
Proof. reflexivity. Qed.

Section Coupling.
Context {A : Arith} (D : shapes A) (seed : Z -> tape A) (ns gs : num A * num A) (co : collider A).
Let on := ncoll_mode true co.
Let off := ncoll_mode false co.

(** A flagged nucleon has constituents, and there has been a collision. *)
Definition settled_nucleon (c : bool) (n : nucleon A) : Prop := n_part n = true -> n_cexist n = true /\ c = true.

Lemma settled_weaken c c' n : settled_nucleon c n -> (c = true -> c' = true) -> settled_nucleon c' n.
Proof. intros H W P. destruct (H P). auto. Qed.

Lemma constituents_part nc n t n' : fst (follow (p_constituents D ns gs nc n) t) = Ret n' -> n_part n' = n_part n /\ n_cexist n' = true.
Proof.
  unfold p_constituents. destruct (n_cexist n) eqn:E; cbn [follow fst]; [intros H; injection H as <-; auto|].
  destruct (_ <? _)%Z; cbn [follow fst]; [discriminate|]. rewrite follow_bind.
  destruct (follow (p_local D ns gs _ _ _) t) as [[[[qs xs] ys]| | |] t']; cbn [follow fst]; try discriminate.
  intros H. injection H as <-. auto.
Qed.

(** One pair, before which [c] says whether there has been a collision: the same
    nucleons result, and there has been a collision in the same cases. *)
Definition same_pair (c : bool) (r r' : bool * nucleon A * nucleon A) : Prop :=
  let '(h, a, b) := r in let '(h', a', b') := r' in
  a' = a /\ b' = b /\ h' || c = h || c /\ settled_nucleon (h || c) a /\ settled_nucleon (h || c) b.

Lemma set_participant_flagged (n : nucleon A) : n_part n = true -> set_participant n = n.
Proof. intros H. destruct n. cbn in *. subst. reflexivity. Qed.

Lemma couple_pair c a b : settled_nucleon c a -> settled_nucleon c b ->
  coupled (outcome (same_pair c)) (p_participate D ns gs (co_nc on) a b) (p_participate D ns gs (co_nc off) a b).
Proof.
  intros Sa Sb. unfold p_participate. cbn [on off ncoll_mode co_nc ncoll_common nc_calc_ncoll nc_max_impact_sq negb].
  rewrite andb_false_r, andb_true_r.
  destruct (n_part a && n_part b) eqn:E.
  - apply andb_prop in E. destruct E as [Pa Pb]. destruct (Sa Pa) as [Ca ->]. destruct (Sb Pb) as [Cb _].
    destruct (nltb A _ _).
    + apply cp_done. cbn. auto.
    + unfold p_constituents. rewrite Ca, Cb. cbn [pbind]. apply cp_extra. intros u. apply cp_done.
      rewrite !set_participant_flagged by assumption. destruct (nltb A _ _); cbn; repeat split; auto.
  - destruct (nltb A _ _).
    + apply cp_done. cbn. repeat split; first [reflexivity | apply Sa; assumption | apply Sb; assumption].
    + assert (S : forall n, settled_nucleon c n -> coupled (outcome (fun x y => x = y /\ (n_part x = true -> c = true) /\ n_cexist x = true))
        (p_constituents D ns gs (ncoll_common true (co_nc co)) n) (p_constituents D ns gs (ncoll_common false (co_nc co)) n)).
      { intros n Sn. change (p_constituents D ns gs (ncoll_common false (co_nc co)) n) with (p_constituents D ns gs (ncoll_common true (co_nc co)) n).
        apply (coupled_refl (fun x => (n_part x = true -> c = true) /\ n_cexist x = true)). intros t x F. apply constituents_part in F.
        destruct F as [F1 F2]. split; [|exact F2]. rewrite F1. intros P. apply Sn, P. }
      refine (coupled_bind _ _ _ _ _ _ (S a Sa) _). intros a' a'' (<- & Ha1 & Ha2).
      refine (coupled_bind _ _ _ _ _ _ (S b Sb) _). intros b' b'' (<- & Hb1 & Hb2).
      apply cp_draw. intros u. apply cp_done.
      change (one_minus_prob (ncoll_common false (co_nc co))) with (one_minus_prob (ncoll_common true (co_nc co))).
      destruct (nltb A _ _); cbn.
      * repeat split; auto; unfold set_participant; [destruct (n_part a')|destruct (n_part b')]; assumption.
      * repeat split; auto.
Qed.

(** A row. *)
Definition same_row (c0 : bool) (m : nat) (r r' : nucleon A * list (nucleon A) * Z * bool) : Prop :=
  let '(a, bs, _, c) := r in let '(a', bs', _, c') := r' in
  a' = a /\ bs' = bs /\ c' = c /\ settled_nucleon c a /\ Forall (settled_nucleon c) bs /\ (c0 = true -> c = true) /\ length bs = m.
Lemma couple_row bs : forall a nc nc' c, settled_nucleon c a -> Forall (settled_nucleon c) bs ->
  coupled (outcome (same_row c (length bs))) (p_row D ns gs on a bs nc c) (p_row D ns gs off a bs nc' c).
Proof.
  induction bs as [|b bs IH]; intros a nc nc' c Sa Sb.
  - apply cp_done. cbn -[settled_nucleon]. auto 10.
  - inversion Sb as [|? ? Sb1 Sb2]; subst. cbn [p_row].
    refine (coupled_bind _ _ _ _ _ _ (couple_pair c a b Sa Sb1) _).
    intros [[h a1] b1] [[h' a1'] b1'] (-> & -> & Eh & Sa' & Sb'). rewrite Eh.
    assert (W : c = true -> h || c = true) by (intros ->; apply orb_true_r).
    refine (coupled_bind _ _ _ _ _ _ (IH a1 _ _ (h || c) Sa' _) _).
    { eapply Forall_impl; [|exact Sb2]. intros n Sn. exact (settled_weaken _ _ _ Sn W). }
    intros [[[a2 bs2] n2] c2] [[[a2' bs2'] n2'] c2'] (-> & -> & -> & S1 & S2 & Hc & Hl). apply cp_done. cbn -[settled_nucleon].
    repeat (split; [solve [auto]|]). split; [|split; [auto|congruence]].
    constructor; [|exact S2]. exact (settled_weaken _ _ _ Sb' Hc).
Qed.

Definition same_pairs (m n : nat) (r r' : list (nucleon A) * list (nucleon A) * Z * bool) : Prop :=
  let '(As, bs, _, c) := r in let '(As', bs', _, c') := r' in As' = As /\ bs' = bs /\ c' = c /\ length As = m /\ length bs = n.
Lemma couple_pairs As : forall bs nc nc' c, Forall (settled_nucleon c) As -> Forall (settled_nucleon c) bs ->
  coupled (outcome (same_pairs (length As) (length bs))) (p_pairs D ns gs on As bs nc c) (p_pairs D ns gs off As bs nc' c).
Proof.
  induction As as [|a As IH]; intros bs nc nc' c Sa Sb.
  - apply cp_done. cbn. auto 10.
  - inversion Sa as [|? ? Sa1 Sa2]; subst. cbn [p_pairs].
    refine (coupled_bind _ _ _ _ _ _ (couple_row bs a nc nc' c Sa1 Sb) _).
    intros [[[a1 bs1] n1] c1] [[[a1' bs1'] n1'] c1'] (-> & -> & -> & S1 & S2 & Hc & Hl).
    refine (coupled_bind _ _ _ _ _ _ (IH bs1 _ _ c1 _ S2) _).
    { eapply Forall_impl; [|exact Sa2]. intros n Sn. exact (settled_weaken _ _ _ Sn Hc). }
    intros [[[a2 bs2] n2] c2] [[[a2' bs2'] n2'] c2'] (-> & -> & -> & L1 & L2). apply cp_done. cbn. rewrite L1, L2. auto 10.
Qed.

(** Sampling a nucleus. *)
Lemma couple_nucleus sfuel nu offset : nucleus_wf nu ->
  coupled (outcome (fun x y => x = y /\ nucleus_wf x /\ Forall is_reset (nu_nucleons x))) (p_nucleons D seed sfuel nu offset) (p_nucleons D seed sfuel nu offset).
Proof.
  intros W. apply (coupled_refl (fun x => nucleus_wf x /\ Forall is_reset (nu_nucleons x))). intros t x F.
  pose proof (p_nucleons_ok D seed sfuel nu offset t) as E. destruct (follow _ t) as [r t']. cbn [fst] in F. subst r.
  destruct (sample_nucleons_reset (ideal D seed) _ _ _ _ _ _ W E) as (K & _ & Ln & Rs). split; [|exact Rs].
  unfold nucleus_wf in *. rewrite K. destruct (nu_kind nu); rewrite ?Ln; auto.
Qed.

(** An attempt, and the search. *)
Definition same_attempt (r r' : num A * Z * nucleus A * nucleus A * bool) : Prop :=
  let '(b, _, nA, nB, c) := r in let '(b', _, nA', nB', c') := r' in
  b' = b /\ nA' = nA /\ nB' = nB /\ c' = c /\ nucleus_wf nA /\ nucleus_wf nB.
Lemma reset_settled c l : Forall is_reset l -> Forall (settled_nucleon c) l.
Proof. apply Forall_impl. intros n [P _] Q. congruence. Qed.
Lemma with_nucleons_wf (nu : nucleus A) l : nucleus_wf nu -> length l = length (nu_nucleons nu) -> nucleus_wf (with_nucleons nu l).
Proof. intros W L. unfold nucleus_wf, with_nucleons in *. cbn. destruct (nu_kind nu); rewrite ?L; auto. Qed.
Lemma couple_attempt sfuel nA nB nc nc' : nucleus_wf nA -> nucleus_wf nB ->
  coupled (outcome same_attempt) (p_attempt D seed ns gs sfuel on nA nB nc) (p_attempt D seed ns gs sfuel off nA nB nc').
Proof.
  intros WA WB. apply cp_draw. intros u. cbv zeta.
  refine (coupled_bind _ _ _ _ _ _ (couple_nucleus sfuel nA _ WA) _). intros nA1 nA1' (<- & WA1 & RA1).
  refine (coupled_bind _ _ _ _ _ _ (couple_nucleus sfuel nB _ WB) _). intros nB1 nB1' (<- & WB1 & RB1).
  refine (coupled_bind _ _ _ _ _ _ (couple_pairs _ _ nc nc' false (reset_settled _ _ RA1) (reset_settled _ _ RB1)) _).
  intros [[[As bs] n2] c2] [[[As' bs'] n2'] c2'] (-> & -> & -> & L1 & L2). apply cp_done. cbn.
  repeat (split; [reflexivity|]). split; apply with_nucleons_wf; assumption.
Qed.

Definition same_collision (r r' : num A * Z * nucleus A * nucleus A) : Prop :=
  let '(b, _, nA, nB) := r in let '(b', _, nA', nB') := r' in b' = b /\ nA' = nA /\ nB' = nB.
Lemma couple_search fuel sfuel : forall nA nB nc nc', nucleus_wf nA -> nucleus_wf nB ->
  coupled (outcome same_collision) (p_search D seed ns gs fuel sfuel on nA nB nc) (p_search D seed ns gs fuel sfuel off nA nB nc').
Proof.
  induction fuel as [|fuel IH]; intros nA nB nc nc' WA WB; [apply cp_done; exact I|]. cbn [p_search].
  refine (coupled_bind _ _ _ _ _ _ (couple_attempt sfuel nA nB nc nc' WA WB) _).
  intros [[[[b n1] nA1] nB1] c1] [[[[b' n1'] nA1'] nB1'] c1'] (-> & -> & -> & -> & W1 & W2).
  destruct c1; [apply cp_done; cbn; auto|]. apply IH; assumption.
Qed.
End Coupling.

(** What a search for a collision returns, apart from the number of binary
    collisions: the impact parameter and the nuclei with their participants, or
    the failure. *)
Definition but_ncoll {A : Arith} (r : result (num A * Z * nucleus A * nucleus A)) : result (num A * nucleus A * nucleus A) :=
  match r with
  | Ret (b, _, nA, nB) => Ret (b, nA, nB)
  | Throw e => Throw e
  | UB u => UB u
  | OutOfFuel => OutOfFuel
  end.

(** A program's means are determined by what it does. *)
Theorem C56_mean_unique : forall (A : Arith) X (U : (num A -> R) -> R), averages U ->
  forall (m : tape A -> X * tape A) (f : X -> R) v v', mean_of U m f v -> mean_of U m f v' -> v = v'.
Proof.
  intros A X U HU m f v v' (p & Hp & <-) (q & Hq & <-). apply (mean_unique U HU). intros t. rewrite <- Hp, <- Hq. reflexivity.
Qed.

(** Whatever is observed of a collision apart from the number of binary
    collisions has the same mean with and without --ncoll. *)
Theorem C56_collision : forall (A : Arith) (D : shapes A) seed (U : (num A -> R) -> R), averages U ->
  forall bd f nA nB, in_use bd f nA -> in_use bd f nB ->
  forall co fuel sfuel ns gs (obs : result (num A * nucleus A * nucleus A) -> R), exists v,
  mean_of U (on_tape ns gs (sample_collision (ideal D seed) fuel sfuel (ncoll_mode true co) nA nB)) (fun r => obs (but_ncoll r)) v /\
  mean_of U (on_tape ns gs (sample_collision (ideal D seed) fuel sfuel (ncoll_mode false co) nA nB)) (fun r => obs (but_ncoll r)) v.
Proof.
  intros A D seed U HU bd f nA nB IA IB co fuel sfuel ns gs obs.
  exists (mean U (fun r => obs (but_ncoll r)) (p_search D seed ns gs fuel sfuel (ncoll_mode true co) nA nB 0)). split.
  - exists (p_search D seed ns gs fuel sfuel (ncoll_mode true co) nA nB 0). split; [|reflexivity].
    intros t. apply rplans_on_tape. apply p_search_ok.
  - exists (p_search D seed ns gs fuel sfuel (ncoll_mode false co) nA nB 0). split.
    + intros t. apply rplans_on_tape. apply p_search_ok.
    + symmetry. eapply (coupled_mean U HU); [eapply couple_search; eapply in_use_wf; eassumption|].
      intros r r' H. f_equal. destruct r as [[[[b n] nA1] nB1]| | |], r' as [[[[b' n'] nA1'] nB1']| | |]; cbn in H; try contradiction; subst; try reflexivity.
      destruct H as (-> & -> & ->). reflexivity.
Qed.

(** Successive collisions, as in a run: the nuclei of one are sampled anew for the
    next.  What is kept of each: impact parameter and nuclei. *)
Fixpoint collisions {A : Arith} (G : Rng A) (n fuel sfuel : nat) (co : collider A) (nA nB : nucleus A)
  : M (rstate G) (list (num A * nucleus A * nucleus A)) :=
  match n with
  | O => ret []
  | S n' => bind (sample_collision G fuel sfuel co nA nB) (fun r => let '(b, _, nA', nB') := r in
      bind (collisions G n' fuel sfuel co nA' nB') (fun l => ret ((b, nA', nB') :: l)))
  end.

Section Many.
Context {A : Arith} (D : shapes A) (seed : Z -> tape A) (ns gs : num A * num A) (co : collider A).
Let on := ncoll_mode true co.
Let off := ncoll_mode false co.
Fixpoint p_collisions (n fuel sfuel : nat) (co : collider A) (nA nB : nucleus A) : plan A (result (list (num A * nucleus A * nucleus A))) :=
  match n with
  | O => Done (Ret [])
  | S n' => pbind (p_search D seed ns gs fuel sfuel co nA nB 0) (fun r => let '(b, _, nA', nB') := r in
      pbind (p_collisions n' fuel sfuel co nA' nB') (fun l => Done (Ret ((b, nA', nB') :: l))))
  end.
Lemma p_collisions_ok fuel sfuel co' n : forall nA nB,
  rplans D seed ns gs (collisions (ideal D seed) n fuel sfuel co' nA nB) (p_collisions n fuel sfuel co' nA nB).
Proof.
  induction n as [|n IH]; intros nA nB; [apply rplans_ret|]. cbn [collisions p_collisions].
  apply rplans_bind; [apply p_search_ok|]. intros [[[b k] nA'] nB']. apply rplans_bind; [apply IH|]. intros l. apply rplans_ret.
Qed.
Lemma couple_search_wf fuel sfuel : forall nA nB nc nc', nucleus_wf nA -> nucleus_wf nB ->
  coupled (outcome (fun r r' => same_collision r r' /\ nucleus_wf (snd (fst r)) /\ nucleus_wf (snd r)))
    (p_search D seed ns gs fuel sfuel on nA nB nc) (p_search D seed ns gs fuel sfuel off nA nB nc').
Proof.
  induction fuel as [|fuel IH]; intros nA nB nc nc' WA WB; [apply cp_done; exact I|]. cbn [p_search].
  refine (coupled_bind _ _ _ _ _ _ (couple_attempt D seed ns gs co sfuel nA nB nc nc' WA WB) _).
  intros [[[[b n1] nA1] nB1] c1] [[[[b' n1'] nA1'] nB1'] c1'] (-> & -> & -> & -> & W1 & W2).
  destruct c1; [apply cp_done; cbn; auto|]. apply IH; assumption.
Qed.
Lemma couple_collisions fuel sfuel n : forall nA nB, nucleus_wf nA -> nucleus_wf nB ->
  coupled (outcome eq) (p_collisions n fuel sfuel on nA nB) (p_collisions n fuel sfuel off nA nB).
Proof.
  induction n as [|n IH]; intros nA nB WA WB; [apply cp_done; reflexivity|]. cbn [p_collisions].
  refine (coupled_bind _ _ _ _ _ _ (couple_search_wf fuel sfuel nA nB 0 0 WA WB) _).
  intros [[[b k] nA'] nB'] [[[b' k'] nA''] nB''] ((-> & -> & ->) & W1 & W2). cbn [fst snd] in W1, W2.
  refine (coupled_bind _ _ _ _ _ _ (IH nA' nB' W1 W2) _). intros l ? <-. apply cp_done. reflexivity.
Qed.
End Many.

(** Any number of collisions in a row, their joint law. *)
Theorem C56_collisions : forall (A : Arith) (D : shapes A) seed (U : (num A -> R) -> R), averages U ->
  forall bd f nA nB, in_use bd f nA -> in_use bd f nB ->
  forall co n fuel sfuel ns gs (obs : result (list (num A * nucleus A * nucleus A)) -> R), exists v,
  mean_of U (on_tape ns gs (collisions (ideal D seed) n fuel sfuel (ncoll_mode true co) nA nB)) obs v /\
  mean_of U (on_tape ns gs (collisions (ideal D seed) n fuel sfuel (ncoll_mode false co) nA nB)) obs v.
Proof.
  intros A D seed U HU bd f nA nB IA IB co n fuel sfuel ns gs obs.
  exists (mean U obs (p_collisions D seed ns gs n fuel sfuel (ncoll_mode true co) nA nB)). split.
  - exists (p_collisions D seed ns gs n fuel sfuel (ncoll_mode true co) nA nB). split; [|reflexivity].
    intros t. apply rplans_on_tape. apply p_collisions_ok.
  - exists (p_collisions D seed ns gs n fuel sfuel (ncoll_mode false co) nA nB). split.
    + intros t. apply rplans_on_tape. apply p_collisions_ok.
    + symmetry. eapply (coupled_mean U HU); [eapply couple_collisions; eapply in_use_wf; eassumption|].
      intros r r' H. f_equal. destruct r, r'; cbn in H; try contradiction; subst; reflexivity.
Qed.
