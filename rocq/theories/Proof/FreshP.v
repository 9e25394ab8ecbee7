(** What a nucleus went through before it is sampled does not matter. *)
From Verif.Base Require Import Result Arith Rng.
From Verif.Model Require Import FastExp Config Nucleon Nucleus Event Random Files CrossSection Output Collider.
From Verif.Spec Require Import History Collision Replay.
From Verif.Proof Require Import Basics Pairs Sampling GridP EventP ShiftP Collision.

Section Rel.
Context {S : Type}.
(** Two runs from the same state: related outcomes and the same final state. *)
Definition rel {X Y} (P : X -> Y -> Prop) (a : result X * S) (b : result Y * S) : Prop :=
  rel_res P (fst a) (fst b) /\ snd a = snd b.

Lemma rel_ret {X Y} (P : X -> Y -> Prop) x y (s : S) : P x y -> rel P (ret x s) (ret y s).
Proof. intros H. split; [exact H|reflexivity]. Qed.

Lemma rel_bind {X X' Y Z} (Q : X -> X' -> Prop) (P : Y -> Z -> Prop) (m : M S X) (m' : M S X') k k' s :
  rel Q (m s) (m' s) -> (forall x x' s1, Q x x' -> rel P (k x s1) (k' x' s1)) ->
  rel P (bind m k s) (bind m' k' s).
Proof.
  intros [H1 H2] H. unfold bind. destruct (m s) as [r s1], (m' s) as [r' s1']. cbn [fst snd] in *. subst s1'.
  destruct r, r'; cbn in H1; try contradiction; subst; auto; split; cbn; auto.
Qed.
Lemma rel_same {X} (m : M S X) s : rel eq (m s) (m s).
Proof. split; [|reflexivity]. destruct (fst (m s)); cbn; auto. Qed.
Lemma rel_bind_same {X Y Z} (P : Y -> Z -> Prop) (m : M S X) k k' s :
  (forall x s1, rel P (k x s1) (k' x s1)) -> rel P (bind m k s) (bind m k' s).
Proof. intros H. eapply rel_bind; [apply rel_same|]. intros x x' s1 <-. apply H. Qed.
Lemma rel_Ret {X Y} (P : X -> Y -> Prop) a x s1 (b : result Y * S) : rel P a b -> a = (Ret x, s1) ->
  exists y, b = (Ret y, s1) /\ P x y.
Proof.
  intros [H1 H2] ->. cbn in H1, H2. destruct b as [[y| | |] s2]; cbn in H1; try contradiction.
  cbn in H2. subst s2. eauto.
Qed.
Lemma rel_mono {X Y} (P Q : X -> Y -> Prop) a b : rel P a b -> (forall x y, P x y -> Q x y) -> rel Q a b.
Proof. intros [H1 H2] H. split; [|exact H2]. destruct (fst a), (fst b); cbn in *; auto. Qed.
End Rel.

Lemma F2_length {X Y} (P : X -> Y -> Prop) l1 l2 : Forall2 P l1 l2 -> length l1 = length l2.
Proof. induction 1; cbn; congruence. Qed.

Section Fresh.
Context {A : Arith} (R : Rng A).

Lemma set_pos_like o n1 n2 (x y z : num A) : like (set_nucleon_position o n1 x y z) (set_nucleon_position o n2 x y z).
Proof. unfold like, set_nucleon_position, set_position. cbn. repeat split. discriminate. Qed.

Lemma too_close_like d p1 p2 (n1 n2 : nucleon A) : Forall2 like p1 p2 -> like n1 n2 ->
  is_too_close d p1 n1 = is_too_close d p2 n2.
Proof.
  intros H (X & Y & Z & _). unfold is_too_close. destruct (nltb A d _); [reflexivity|].
  induction H as [|a b l1 l2 (Xa & Ya & Za & _) H IH]; [reflexivity|]. cbn [existsb]. rewrite IH.
  unfold dist3_sq. rewrite X, Y, Z, Xa, Ya, Za. reflexivity.
Qed.

Lemma place_ws_like t d o r p1 p2 n1 n2 e : Forall2 like p1 p2 ->
  rel like (place_ws R (S t) d o r p1 n1 e) (place_ws R (S t) d o r p2 n2 e).
Proof.
  intros Hp. revert n1 n2 e. induction t as [|t IH]; intros n1 n2 e.
  - cbn [place_ws]. apply rel_bind_same. intros c s1. apply rel_bind_same. intros ph s2.
    destruct (polar _ _ _) as [[x y] z]. apply rel_ret, set_pos_like.
  - remember (S t) as t1. cbn [place_ws]. apply rel_bind_same. intros c s1. apply rel_bind_same. intros ph s2.
    destruct (polar _ _ _) as [[x y] z]. subst t1.
    rewrite (too_close_like d p1 p2 _ _ Hp (set_pos_like o n1 n2 x y z)).
    destruct (is_too_close d p2 _); [apply IH|apply rel_ret, set_pos_like].
Qed.

Lemma place_all_ws_like d o radii p1 p2 t1 t2 e : Forall2 like p1 p2 -> length t1 = length t2 ->
  rel (Forall2 like) (place_all_ws R d o radii p1 t1 e) (place_all_ws R d o radii p2 t2 e).
Proof.
  revert radii p1 p2 t2 e. induction t1 as [|n1 t1 IH]; intros radii p1 p2 [|n2 t2] e Hp L; try discriminate L.
  - destruct radii; apply rel_ret; exact Hp.
  - destruct radii as [|r radii]; [split; reflexivity|]. cbn [place_all_ws].
    eapply rel_bind; [apply (place_ws_like 999 d o r p1 p2 n1 n2 e Hp)|].
    intros m1 m2 s1 Hm. apply IH; [apply Forall2_app; auto|]. cbn in L. lia.
Qed.

Lemma place_deformed_like t d o rot rs z p1 p2 n1 n2 e : Forall2 like p1 p2 ->
  rel like (place_deformed R (S t) d o rot rs z p1 n1 e) (place_deformed R (S t) d o rot rs z p2 n2 e).
Proof.
  intros Hp. revert z n1 n2 e. induction t as [|t IH]; intros z n1 n2 e.
  - cbn [place_deformed]. apply rel_bind_same. intros ph s2.
    destruct (rot _) as [[x y] w]. apply rel_ret, set_pos_like.
  - remember (S t) as t1. cbn [place_deformed]. apply rel_bind_same. intros ph s2.
    destruct (rot _) as [[x y] w]. subst t1.
    rewrite (too_close_like d p1 p2 _ _ Hp (set_pos_like o n1 n2 x y w)).
    destruct (is_too_close d p2 _); [apply IH|apply rel_ret, set_pos_like].
Qed.

Lemma place_all_deformed_like d o rot samples p1 p2 t1 t2 e : Forall2 like p1 p2 -> length t1 = length t2 ->
  rel (Forall2 like) (place_all_deformed R d o rot samples p1 t1 e) (place_all_deformed R d o rot samples p2 t2 e).
Proof.
  revert samples p1 p2 t2 e. induction t1 as [|n1 t1 IH]; intros samples p1 p2 [|n2 t2] e Hp L; try discriminate L.
  - destruct samples; apply rel_ret; exact Hp.
  - destruct samples as [|[r c] samples]; [split; reflexivity|]. cbn [place_all_deformed].
    eapply rel_bind; [apply (place_deformed_like 999); exact Hp|].
    intros m1 m2 s1 Hm. apply IH; [apply Forall2_app; auto|]. cbn in L. lia.
Qed.

Lemma place_manual_like o rot data i ns1 ns2 : length ns1 = length ns2 ->
  rel_res (Forall2 (@like A)) (place_manual o rot data i ns1) (place_manual o rot data i ns2).
Proof.
  revert i ns2. induction ns1 as [|n1 ns1 IH]; intros i [|n2 ns2] L; try discriminate L; [constructor|]. cbn [place_manual].
  destruct (position_at data i) as [p| | |]; cbn [rbind rel_res]; auto. destruct (rot p) as [[x y] z].
  specialize (IH (i + 1)%Z ns2 ltac:(cbn in L; lia)).
  destruct (place_manual o rot data (i+1) ns1), (place_manual o rot data (i+1) ns2); cbn in *; auto; try contradiction.
  constructor; auto. apply set_pos_like.
Qed.

(** Two nuclei of the same kind and size. *)
Definition twin (n1 n2 : nucleus A) : Prop :=
  nu_kind n1 = nu_kind n2 /\ length (nu_nucleons n1) = length (nu_nucleons n2).
Definition twins (n1 n2 : nucleus A) : Prop :=
  nu_kind n1 = nu_kind n2 /\ Forall2 like (nu_nucleons n1) (nu_nucleons n2).

Lemma sample_nucleons_like fuel n1 n2 o e : nucleus_wf n1 -> twin n1 n2 ->
  rel twins (sample_nucleons R fuel n1 o e) (sample_nucleons R fuel n2 o e).
Proof.
  intros W [K L]. unfold sample_nucleons. cbv zeta. rewrite <- K.
  eapply rel_bind with (Q := Forall2 like); [|intros x y s1 H; apply rel_ret; split; [reflexivity|exact H]].
  unfold nucleus_wf in W.
  destruct (nu_kind n1) as [ |a b|Rw a d|Rw a b2 b4 rm d|nconf nn data rm].
  - destruct (nu_nucleons n1) as [|m1 [|? ?]]; try discriminate W.
    destruct (nu_nucleons n2) as [|m2 [|? ?]]; try discriminate L.
    apply rel_ret. constructor; [apply set_pos_like|constructor].
  - destruct (nu_nucleons n1) as [|m1 [|m1' [|? ?]]]; try discriminate W.
    destruct (nu_nucleons n2) as [|m2 [|m2' [|? ?]]]; try discriminate L.
    unfold sample_deuteron. apply rel_bind_same. intros r s1. apply rel_bind_same. intros c s2. apply rel_bind_same. intros ph s3.
    destruct (polar _ _ _) as [[x y] z]. apply rel_ret.
    constructor; [apply set_pos_like|]. constructor; [apply set_pos_like|constructor].
  - unfold sample_ws. rewrite L. apply rel_bind_same. intros radii s1. apply place_all_ws_like; auto.
  - unfold sample_deformed. rewrite L. apply rel_bind_same. intros ca s1. apply rel_bind_same. intros ab s2.
    apply rel_bind_same. intros smp s3. apply place_all_deformed_like; auto.
  - unfold sample_manual. apply rel_bind_same. intros a1 s1. apply rel_bind_same. intros c2 s2.
    apply rel_bind_same. intros a3 s3. apply rel_bind_same. intros ix s4.
    destruct (nconf <=? ix)%Z; [split; reflexivity|]. unfold lift. split; [|reflexivity]. cbn [fst].
    apply place_manual_like; auto.
Qed.

(** ** The pair loop *)
Lemma sample_cons_like nc a b s : like a b ->
  rel (fun a' b' => like a' b' /\ n_cexist a' = true) (sample_constituent_positions R nc a s) (sample_constituent_positions R nc b s).
Proof.
  intros H. destruct H as (X & Y & Z & P & C & Q). unfold sample_constituent_positions. rewrite <- C.
  destruct (n_cexist a) eqn:Ea.
  - apply rel_ret. split; [|exact Ea]. unfold like. rewrite Ea. auto 8.
  - destruct (cons_max_size <? nc_number nc)%Z; [split; reflexivity|].
    apply rel_bind_same. intros [[qs xs] ys] s1. apply rel_ret. rewrite X, Y, Z, P.
    split; [|reflexivity]. unfold like. cbn. auto 8.
Qed.

Lemma set_participant_like (a b : nucleon A) : like a b -> n_cexist a = true -> like (set_participant a) (set_participant b).
Proof.
  intros (X & Y & Z & P & C & Q) E. rewrite E in Q. specialize (Q eq_refl). unfold set_participant. rewrite <- P.
  destruct (n_part a) eqn:Pa; unfold like; cbn; rewrite <- ?C, ?Pa; auto 10.
Qed.

Definition like3 (x y : bool * nucleon A * nucleon A) : Prop :=
  fst (fst x) = fst (fst y) /\ like (snd (fst x)) (snd (fst y)) /\ like (snd x) (snd y).

Lemma participate_like nc a b a' b' s : like a a' -> like b b' ->
  rel like3 (participate R nc a b s) (participate R nc a' b' s).
Proof.
  intros Ha Hb. pose proof Ha as (Xa & Ya & Za & Pa & Ca & Qa). pose proof Hb as (Xb & Yb & Zb & Pb & Cb & Qb).
  unfold participate. rewrite <- Pa, <- Pb, <- Xa, <- Xb, <- Ya, <- Yb.
  destruct (n_part a && n_part b && negb (nc_calc_ncoll nc)); [apply rel_ret; split; [reflexivity|auto]|].
  match goal with |- rel _ ((if ?c then _ else _) _) _ => destruct c end; [apply rel_ret; split; [reflexivity|auto]|].
  eapply rel_bind; [apply (sample_cons_like nc a a' s Ha)|]. intros a1 a1' s1 [Ha1 Ea].
  eapply rel_bind; [apply (sample_cons_like nc b b' s1 Hb)|]. intros b1 b1' s2 [Hb1 Eb].
  assert (QA : n_cons a1 = n_cons a1') by (apply Ha1; rewrite Ea; reflexivity).
  assert (QB : n_cons b1 = n_cons b1') by (apply Hb1; rewrite Eb; reflexivity).
  rewrite <- QA, <- QB. apply rel_bind_same. intros u s3.
  match goal with |- rel _ ((if ?c then _ else _) _) _ => destruct c end; apply rel_ret; (split; [reflexivity|]); cbn [fst snd];
    auto using set_participant_like.
Qed.

Lemma pair_row_like co a a' bs bs' k c s : like a a' -> Forall2 like bs bs' ->
  rel (fun x y : nucleon A * list (nucleon A) * Z * bool =>
         like (fst (fst (fst x))) (fst (fst (fst y))) /\ Forall2 like (snd (fst (fst x))) (snd (fst (fst y))) /\
         snd (fst x) = snd (fst y) /\ snd x = snd y)
      (pair_row R co a bs k c s) (pair_row R co a' bs' k c s).
Proof.
  intros Ha H. revert a a' k c s Ha. induction H as [|b b' bs bs' Hb H IH]; intros a a' k c s Ha.
  - apply rel_ret. cbn. auto.
  - cbn [pair_row]. eapply rel_bind; [apply (participate_like _ _ _ _ _ s Ha Hb)|].
    intros [[h a1] b1] [[h' a1'] b1'] s1 (E & H1 & H2). cbn [fst snd] in *. subst h'.
    eapply rel_bind; [apply IH; exact H1|].
    intros [[[a2 bs2] k2] c2] [[[a2' bs2'] k2'] c2'] s2 (G1 & G2 & G3 & G4). cbn [fst snd] in *. subst.
    apply rel_ret. cbn. auto.
Qed.

Lemma pair_loop_like co As As' bs bs' k c s : Forall2 like As As' -> Forall2 like bs bs' ->
  rel (fun x y : list (nucleon A) * list (nucleon A) * Z * bool =>
         Forall2 like (fst (fst (fst x))) (fst (fst (fst y))) /\ Forall2 like (snd (fst (fst x))) (snd (fst (fst y))) /\
         snd (fst x) = snd (fst y) /\ snd x = snd y)
      (pair_loop R co As bs k c s) (pair_loop R co As' bs' k c s).
Proof.
  intros H. revert bs bs' k c s. induction H as [|a a' As As' Ha H IH]; intros bs bs' k c s Hb.
  - apply rel_ret. cbn. auto.
  - cbn [pair_loop]. eapply rel_bind; [apply (pair_row_like co _ _ _ _ k c s Ha Hb)|].
    intros [[[a1 bs1] k1] c1] [[[a1' bs1'] k1'] c1'] s1 (G1 & G2 & G3 & G4). cbn [fst snd] in *. subst.
    eapply rel_bind; [apply IH; exact G2|].
    intros [[[a2 bs2] k2] c2] [[[a2' bs2'] k2'] c2'] s2 (F1 & F2 & F3 & F4). cbn [fst snd] in *. subst.
    apply rel_ret. cbn. auto.
Qed.

Lemma rel_on_eng {X Y} (P : X -> Y -> Prop) (m : M (engine R) X) (m' : M (engine R) Y) (s : rstate R) :
  rel P (m (rs_eng s)) (m' (rs_eng s)) -> rel P (on_eng m s) (on_eng m' s).
Proof.
  intros [H1 H2]. unfold on_eng. destruct (m (rs_eng s)) as [r e], (m' (rs_eng s)) as [r' e']. cbn in *. subst e'.
  split; [exact H1|reflexivity].
Qed.

Definition like_outcome (x y : num A * Z * nucleus A * nucleus A) : Prop :=
  fst (fst (fst x)) = fst (fst (fst y)) /\ snd (fst (fst x)) = snd (fst (fst y)) /\
  twins (snd (fst x)) (snd (fst y)) /\ twins (snd x) (snd y).

Lemma wf_kind_len (n1 n2 : nucleus A) : nucleus_wf n1 -> nu_kind n2 = nu_kind n1 ->
  length (nu_nucleons n2) = length (nu_nucleons n1) -> nucleus_wf n2.
Proof. unfold nucleus_wf. intros W -> ->. exact W. Qed.

Lemma collision_loop_like fuel sfuel co nA nA' nB nB' k s :
  nucleus_wf nA -> nucleus_wf nB -> twin nA nA' -> twin nB nB' ->
  rel like_outcome (collision_loop R fuel sfuel co nA nB k s) (collision_loop R fuel sfuel co nA' nB' k s).
Proof.
  revert nA nA' nB nB' k s. induction fuel as [|fuel IH]; intros nA nA' nB nB' k s WA WB TA TB; [split; reflexivity|].
  cbn [collision_loop]. apply rel_bind_same. intros u s1.
  set (b := sample_b _ _ _).
  destruct (on_eng (sample_nucleons R sfuel nA (nmul A (co_asym co) b)) s1) as [rA sA] eqn:EA.
  destruct (on_eng (sample_nucleons R sfuel nB (nmul A (nsub A (co_asym co) (nlit A 1 0)) b)) sA) as [rB sB] eqn:EB.
  eapply rel_bind with (Q := fun x y : nucleus A => twins x y /\ nu_kind x = nu_kind nA /\ length (nu_nucleons x) = length (nu_nucleons nA)).
  { apply rel_on_eng. pose proof (sample_nucleons_like sfuel nA nA' (nmul A (co_asym co) b) (rs_eng s1) WA TA) as G.
    destruct (sample_nucleons R sfuel nA _ (rs_eng s1)) as [[x| | |] e1] eqn:E; destruct G as [G1 G2]; (split; [|exact G2]); cbn [fst] in *;
      (match goal with |- rel_res _ _ ?r => destruct r end); cbn in *; auto; try contradiction.
    split; [exact G1|]. destruct (sample_nucleons_reset R _ _ _ _ _ _ WA E) as (K & _ & L & _). auto. }
  intros A1 A1' s2 (HA & KA & LA).
  eapply rel_bind with (Q := fun x y : nucleus A => twins x y /\ nu_kind x = nu_kind nB /\ length (nu_nucleons x) = length (nu_nucleons nB)).
  { apply rel_on_eng. pose proof (sample_nucleons_like sfuel nB nB' (nmul A (nsub A (co_asym co) (nlit A 1 0)) b) (rs_eng s2) WB TB) as G.
    destruct (sample_nucleons R sfuel nB _ (rs_eng s2)) as [[x| | |] e1] eqn:E; destruct G as [G1 G2]; (split; [|exact G2]); cbn [fst] in *;
      (match goal with |- rel_res _ _ ?r => destruct r end); cbn in *; auto; try contradiction.
    split; [exact G1|]. destruct (sample_nucleons_reset R _ _ _ _ _ _ WB E) as (K & _ & L & _). auto. }
  intros B1 B1' s3 (HB & KB & LB).
  destruct (pair_loop R co (nu_nucleons A1) (nu_nucleons B1) k false s3) as [rp sp] eqn:EP.
  eapply rel_bind with (Q := fun x y : list (nucleon A) * list (nucleon A) * Z * bool =>
         (Forall2 like (fst (fst (fst x))) (fst (fst (fst y))) /\ Forall2 like (snd (fst (fst x))) (snd (fst (fst y))) /\
         snd (fst x) = snd (fst y) /\ snd x = snd y) /\
         length (fst (fst (fst x))) = length (nu_nucleons A1) /\ length (snd (fst (fst x))) = length (nu_nucleons B1)).
  { pose proof (pair_loop_like co _ _ _ _ k false s3 (proj2 HA) (proj2 HB)) as [G1 G2]. split; [|exact G2].
    rewrite EP in *. cbn [fst snd] in *.
    destruct rp as [[[[As Bs] k1] c]| | |]; (match goal with |- rel_res _ _ ?r => destruct r end); cbn in *; auto; try contradiction.
    split; [exact G1|]. apply pair_loop_history in EP. destruct EP as (hs & Hh & _).
    destruct (history_length _ _ _ _ _ _ _ _ _ _ Hh) as (_ & ? & ?). auto. }
  intros [[[As Bs] k1] c] [[[As' Bs'] k1'] c'] s4 ((G1 & G2 & G3 & G4) & G5 & G6). cbn [fst snd] in *. subst k1' c'.
  destruct HA as [KA1 FA]. destruct HB as [KB1 FB].
  destruct c.
  - apply rel_ret. unfold like_outcome, twins, with_nucleons. cbn. auto 8.
  - apply IH.
    + eapply wf_kind_len; [exact WA|exact KA|]. cbn. congruence.
    + eapply wf_kind_len; [exact WB|exact KB|]. cbn. congruence.
    + split; [exact KA1|]. cbn. apply F2_length in G1. exact G1.
    + split; [exact KB1|]. cbn. apply F2_length in G2. exact G2.
Qed.

(** ** The event *)
Lemma deposit_like dbg nc dxy xymax N (n n' : nucleon A) g : n_cons n = n_cons n' ->
  deposit dbg nc dxy xymax N n g = deposit dbg nc dxy xymax N n' g.
Proof. intros E. unfold deposit, boundary, thickness. rewrite E. reflexivity. Qed.

Lemma nuclear_thickness_like dbg nc dxy xymax N (l l' : list (nucleon A)) k : Forall2 like l l' ->
  compute_nuclear_thickness dbg nc dxy xymax N l k = compute_nuclear_thickness dbg nc dxy xymax N l' k.
Proof.
  intros H. unfold compute_nuclear_thickness. generalize (@zeros A N) as g0. revert k.
  induction H as [|n n' l l' (X & Y & Z & P & C & Q) H IH]; intros k g0; [reflexivity|]. cbn [rfold].
  rewrite <- P. destruct (n_part n) eqn:Pn.
  - rewrite (deposit_like dbg nc dxy xymax N n n' g0) by (apply Q; apply orb_true_r).
    destruct (deposit dbg nc dxy xymax N n' g0); cbn [rbind]; auto.
  - cbn [rbind]. apply IH.
Qed.

Lemma event_compute_like dbg ev nc (As As' Bs Bs' : list (nucleon A)) : Forall2 like As As' -> Forall2 like Bs Bs' ->
  event_compute dbg ev As Bs nc = event_compute dbg ev As' Bs' nc.
Proof.
  intros HA HB. unfold event_compute. rewrite (nuclear_thickness_like _ _ _ _ _ _ _ _ HA).
  destruct (compute_nuclear_thickness _ _ _ _ _ As' 0) as [[TA k]| | |]; cbn [rbind]; auto.
  rewrite (nuclear_thickness_like _ _ _ _ _ _ _ _ HB). reflexivity.
Qed.

(** ** The event loop *)
Lemma run_output_eng ws n b k (ev : event A) s r s' : run_output R ws n b k ev s = (r, s') -> s_eng s' = s_eng s.
Proof.
  unfold run_output. generalize tt as u. intros u. revert u s. induction ws as [|w ws IH]; intros u s H.
  - cbn in H. inversion H. reflexivity.
  - cbn [mfold] in H. unfold bind in H at 1.
    destruct (run_writer R w n b k ev s) as [r1 s1] eqn:E.
    assert (G : s_eng s1 = s_eng s).
    { destruct w; cbn [run_writer] in E.
      - unfold write_stdout in E. inversion E. reflexivity.
      - unfold in_fs in E. destruct (write_text_file _ _ _ _ _ _ _ _). inversion E. reflexivity.
      - unfold in_fs in E. destruct (hdf5_write _ _ _ _ _ _). inversion E. reflexivity. }
    destruct r1; try (inversion H; subst; exact G). rewrite <- G. eapply IH. exact H.
Qed.

Variable bd : build.

Lemma run_events_replay fuel sfuel co nA nB ev s r s' :
  nucleus_wf nA -> nucleus_wf nB -> ready ev ->
  run_events R bd fuel sfuel co nA nB ev s = (Ret r, s') ->
  exists ds, delivered R (co_writers co) ds (ru_sys s) (ru_sys s') /\
    events_from R bd fuel sfuel co nA nB ev (zupto (co_nevents co))
      (random_part s) ds (random_part s').
Proof.
  unfold run_events. intros WA WB HR. generalize (zupto (co_nevents co)) as l. intros l.
  assert (G : forall nA1 nB1 ev1 s, twin nA nA1 -> twin nB nB1 -> ready ev1 -> same_params ev ev1 ->
    mfold (one_event R bd fuel sfuel co) l (nA1, nB1, ev1) s = (Ret r, s') ->
    exists ds, delivered R (co_writers co) ds (ru_sys s) (ru_sys s') /\
      events_from R bd fuel sfuel co nA nB ev l (random_part s) ds (random_part s')).
  2:{ intros H. eapply G; [..|exact H]; auto using same_params_refl; split; reflexivity. }
  clear s. induction l as [|n l IH]; intros nA1 nB1 ev1 s TA TB RV SP H.
  - cbn [mfold] in H. mstep H. exists []. split; constructor; auto.
  - cbn [mfold] in H. mstep H. destruct x as [[nA2 nB2] ev2]. unfold one_event in E.
    mstep E. destruct x as [[[b k] nA3] nB3]. rename E0 into EC. mstep E. mstep E0. rename x into ev3, E0 into EV.
    mstep E. destruct x. rename E0 into EO. mstep E.
    unfold in_rstate in EC. fold (random_part s) in EC.
    destruct (sample_collision R fuel sfuel co nA1 nB1 (random_part s)) as [r1 rs] eqn:ES.
    inversion EC; subst r1 s1; clear EC.
    unfold in_sys in EO. cbn [ru_sys ru_norm ru_gamma] in EO.
    destruct (run_output R (co_writers co) n b k ev2 _) as [r1 sy] eqn:EO1.
    inversion EO; subst r1 s0; clear EO.
    pose proof (run_output_eng _ _ _ _ _ _ _ _ EO1) as Eng. cbn [s_eng] in Eng.
    unfold sample_collision in ES.
    pose proof (collision_loop_like fuel sfuel co nA nA1 nB nB1 0 (random_part s) WA WB TA TB) as [G1 G2].
    rewrite ES in G1, G2. cbn [fst snd] in G1, G2.
    destruct (collision_loop R fuel sfuel co nA nB 0 (random_part s)) as [r0 rs0] eqn:ES0. cbn [fst snd] in G1, G2. subst rs0.
    destruct r0 as [[[[b0 k0] A0] B0]| | |]; cbn in G1; try contradiction.
    destruct G1 as (Eb & Ek & (KA & FA) & (KB & FB)). cbn [fst snd] in *. subst b0 k0.
    destruct (collision_loop_sampled R _ _ _ _ _ _ _ _ _ _ _ _ WA WB ES0) as (sa & Hs & W1 & W2 & _ & K1 & K2 & _).
    pose proof (sd_history _ _ _ _ _ _ _ _ _ _ Hs) as Hh.
    pose proof (history_length _ _ _ _ _ _ _ _ _ _ Hh) as (_ & LA' & LB').
    pose proof (sample_nucleons_reset _ _ _ _ _ _ _ W1 (sd_A _ _ _ _ _ _ _ _ _ _ Hs)) as (_ & _ & LA & _).
    pose proof (sample_nucleons_reset _ _ _ _ _ _ _ W2 (sd_B _ _ _ _ _ _ _ _ _ _ Hs)) as (_ & _ & LB & _).
    rewrite (sd_lenA _ _ _ _ _ _ _ _ _ _ Hs) in LA. rewrite (sd_lenB _ _ _ _ _ _ _ _ _ _ Hs) in LB.
    destruct (event_compute_ready _ _ _ _ _ _ RV EV) as [R2 SP2].
    assert (EV0 : event_compute (debug bd) ev (nu_nucleons A0) (nu_nucleons B0) (co_nc co) = Ret ev2).
    { rewrite (event_compute_like _ _ _ _ _ _ _ FA FB), (event_compute_same _ ev ev1) by assumption. exact EV. }
    destruct (IH nA2 nB2 ev2 (Run sy (rs_norm rs) (rs_gamma rs))) as (ds & D & F); auto.
    + split; [congruence|]. apply F2_length in FA. congruence.
    + split; [congruence|]. apply F2_length in FB. congruence.
    + eapply same_params_trans; eauto.
    + exists (Delivery n b k ev2 (nu_nucleons A0) (nu_nucleons B0) :: ds). split.
      * econstructor; [| | |exact EO1|exact D]; reflexivity.
      * econstructor; [|exact F]. split; [reflexivity|]. exists A0, B0. split; [|split; [reflexivity|split; [reflexivity|exact EV0]]].
        cbn [d_b d_ncoll]. unfold sample_collision. rewrite ES0. f_equal. unfold random_part. cbn.
        rewrite Eng. destruct rs; reflexivity.
Qed.
End Fresh.
