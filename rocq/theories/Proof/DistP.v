(** The constituents of every event are drawn from the configured distributions. *)
From Verif.Base Require Import Result Arith Rng.
From Verif.Model Require Import FastExp Config Nucleon Nucleus Event Files CrossSection Output Collider.
From Verif.Spec Require Import History Collision Replay Constituents Distributions.
From Verif.Proof Require Import Basics Pairs Sampling ConstituentsP Collision.

Section Dist.
Context {A : Arith} (R : Rng A).
Variables mu sd alpha beta : num A.
Definition proper (s : rstate R) : Prop :=
  normal_object R mu sd (rs_norm s) /\ gamma_object R alpha beta (rs_gamma s).
Definition proper_draw (d : num A * num A * num A) : Prop :=
  from_normal R mu sd (d_x d) /\ from_normal R mu sd (d_y d) /\ from_gamma R alpha beta (d_f d).

Lemma proper_eng s e : proper s -> proper (MkRstate e (rs_norm s) (rs_gamma s)).
Proof. intros [H1 H2]. split; assumption. Qed.
Lemma on_eng_proper {X} (m : M (engine R) X) s r s' : on_eng m s = (r, s') -> proper s -> proper s'.
Proof. unfold on_eng. destruct (m (rs_eng s)). intros H P. inversion H; subst. apply proper_eng; exact P. Qed.
Lemma draw_normal_proper s x s' : draw_normal R s = (Ret x, s') -> proper s -> proper s' /\ from_normal R mu sd x.
Proof.
  unfold draw_normal. intros H [H1 H2]. pose proof (normal_used R mu sd _ (rs_eng s) H1) as U.
  assert (F : from_normal R mu sd (fst (fst (ndraw R (rs_norm s) (rs_eng s))))) by (exists (rs_norm s), (rs_eng s); auto).
  destruct (ndraw R (rs_norm s) (rs_eng s)) as [[x1 n1] e1]. inversion H; subst. split; [split; assumption|exact F].
Qed.
Lemma draw_gamma_proper s x s' : draw_gamma R s = (Ret x, s') -> proper s -> proper s' /\ from_gamma R alpha beta x.
Proof.
  unfold draw_gamma. intros H [H1 H2]. pose proof (gamma_used R alpha beta _ (rs_eng s) H2) as U.
  assert (F : from_gamma R alpha beta (fst (fst (gdraw R (rs_gamma s) (rs_eng s))))) by (exists (rs_gamma s), (rs_eng s); auto).
  destruct (gdraw R (rs_gamma s) (rs_eng s)) as [[x1 n1] e1]. inversion H; subst. split; [split; assumption|exact F].
Qed.
Lemma constituent_draws_proper k : forall s ds s', constituent_draws R k s = (Ret ds, s') -> proper s ->
  proper s' /\ Forall proper_draw ds.
Proof.
  induction k as [|k IH]; intros s ds s' H P; cbn [constituent_draws] in H.
  - mstep H. auto.
  - mstep H. mstep H. mstep H. mstep H. mstep H.
    destruct (draw_normal_proper _ _ _ E P) as [P1 F1]. destruct (draw_normal_proper _ _ _ E0 P1) as [P2 F2].
    destruct (draw_gamma_proper _ _ _ E1 P2) as [P3 F3]. destruct (IH _ _ _ E2 P3) as [P4 F4].
    split; [exact P4|]. constructor; [|exact F4]. split; [exact F1|]. split; [exact F2|exact F3].
Qed.

Variable nc : nucleon_common A.
(** Constituents that count were made by [m] proper draws. *)
Definition made (n : nucleon A) : Prop :=
  (n_part n = true -> n_cexist n = true) /\
  (n_cexist n = true -> exists ds, length ds = Z.to_nat (nc_number nc) /\
     n_cons n = placed n (nc_number nc) ds /\ Forall proper_draw ds).

Lemma made_reset n : is_reset n -> made n.
Proof. intros [H1 H2]. split; congruence. Qed.

Lemma sample_cons_made n s n' s' : sample_constituent_positions R nc n s = (Ret n', s') ->
  made n -> proper s -> made n' /\ proper s' /\ n_cexist n' = true.
Proof.
  intros H M P. destruct (n_cexist n) eqn:E.
  - unfold sample_constituent_positions in H. rewrite E in H. mstep H. auto.
  - assert (Hmax : (nc_number nc <= cons_max_size)%Z).
    { unfold sample_constituent_positions in H. rewrite E in H.
      destruct (Z.ltb_spec cons_max_size (nc_number nc)) as [C|C]; [discriminate H|exact C]. }
    destruct (sample_cons_draws R nc n s E Hmax) as (ds & s1 & D & L & S). rewrite S in H. inversion H; subst.
    destruct (constituent_draws_proper _ _ _ _ D P) as [P' F]. split; [|split; [exact P'|reflexivity]].
    split; [reflexivity|]. intros _. exists ds. split; [exact L|]. split; [reflexivity|exact F].
Qed.

Lemma set_participant_made n : made n -> n_cexist n = true -> made (set_participant n).
Proof.
  intros [M1 M2] E. split; [rewrite set_participant_cexist; auto|]. intros _.
  destruct (M2 E) as (ds & L & C & F). exists ds. rewrite set_participant_cons.
  split; [exact L|]. split; [|exact F]. rewrite C. unfold placed, set_participant. destruct (n_part n); reflexivity.
Qed.

Lemma participate_made a b s h a' b' s' : participate R nc a b s = (Ret (h, a', b'), s') ->
  made a -> made b -> proper s -> made a' /\ made b' /\ proper s'.
Proof.
  intros H Ma Mb P. unfold participate in H.
  destruct (n_part a && n_part b && negb (nc_calc_ncoll nc)); [mstep H; auto|].
  match type of H with (if ?c then _ else _) _ = _ => destruct c end; [mstep H; auto|].
  mstep H. mstep H. mstep H.
  destruct (sample_cons_made _ _ _ _ E Ma P) as (M1 & P1 & C1).
  destruct (sample_cons_made _ _ _ _ E0 Mb P1) as (M2 & P2 & C2).
  pose proof (on_eng_proper _ _ _ _ E1 P2) as P3.
  match type of H with (if ?c then _ else _) _ = _ => destruct c end; mstep H; auto using set_participant_made.
Qed.

Lemma upd_Forall {X} (Q : X -> Prop) l i x : Forall Q l -> Q x -> Forall Q (upd l i x).
Proof. intros H Hx. revert i. induction H; intros [|i]; cbn; auto. Qed.

Lemma history_made ps As Bs s hs As' Bs' s' : history R nc ps As Bs s hs As' Bs' s' ->
  Forall made As -> Forall made Bs -> proper s -> Forall made As' /\ Forall made Bs' /\ proper s'.
Proof.
  induction 1 as [|i j ps As Bs s a b h a' b' s1 hs As' Bs' s' Ha Hb Hp Hh IH]; intros MA MB P; [auto|].
  rewrite Forall_forall in MA, MB.
  destruct (participate_made _ _ _ _ _ _ _ Hp (MA a (nth_error_In _ _ Ha)) (MB b (nth_error_In _ _ Hb)) P) as (M1 & M2 & P1).
  apply IH; [| |exact P1]; apply upd_Forall; auto; rewrite Forall_forall; auto.
Qed.
End Dist.

Section Loop.
Context {A : Arith} (R : Rng A).
Variables mu sd alpha beta : num A.
Notation proper := (proper R mu sd alpha beta).

Lemma collision_loop_made fuel sfuel co nA nB k s b k' nA' nB' s' :
  nucleus_wf nA -> nucleus_wf nB -> collision_loop R fuel sfuel co nA nB k s = (Ret (b, k', nA', nB'), s') -> proper s ->
  proper s' /\ Forall (made R mu sd alpha beta (co_nc co)) (nu_nucleons nA') /\
  Forall (made R mu sd alpha beta (co_nc co)) (nu_nucleons nB').
Proof.
  revert nA nB k s. induction fuel as [|fuel IH]; intros nA nB k s WA WB H P; [discriminate|].
  cbn [collision_loop] in H. mstep H. mstep H. mstep H. mstep H. destruct x2 as [[[As Bs] k1] c].
  pose proof (on_eng_proper R mu sd alpha beta _ _ _ _ E P) as P1.
  pose proof (on_eng_proper R mu sd alpha beta _ _ _ _ E0 P1) as P2.
  pose proof (on_eng_proper R mu sd alpha beta _ _ _ _ E1 P2) as P3.
  apply on_eng_Ret_inv in E0. destruct E0 as (e0 & E0 & ->). apply on_eng_Ret_inv in E1. destruct E1 as (e1 & E1 & ->).
  pose proof (sample_nucleons_reset _ _ _ _ _ _ _ WA E0) as (KA & _ & LA & FA).
  pose proof (sample_nucleons_reset _ _ _ _ _ _ _ WB E1) as (KB & _ & LB & FB).
  apply pair_loop_history in E2. destruct E2 as (hs & Hh & _ & _).
  pose proof (history_length _ _ _ _ _ _ _ _ _ _ Hh) as (_ & LA' & LB').
  assert (MA : forall l : list (nucleon A), Forall is_reset l -> Forall (made R mu sd alpha beta (co_nc co)) l).
  { intros l F. eapply Forall_impl; [|exact F]. apply made_reset. }
  destruct (history_made R mu sd alpha beta _ _ _ _ _ _ _ _ _ Hh (MA _ FA) (MA _ FB) P3) as (MA' & MB' & P4).
  destruct c; [mstep H; cbn [with_nucleons nu_nucleons]; auto|].
  eapply IH; [| |exact H|exact P4].
  - revert WA. unfold nucleus_wf, with_nucleons. cbn. rewrite KA, LA', LA. auto.
  - revert WB. unfold nucleus_wf, with_nucleons. cbn. rewrite KB, LB', LB. auto.
Qed.

Lemma events_made bd fuel sfuel co nA nB ev0 l rs ds rs' : nucleus_wf nA -> nucleus_wf nB ->
  events_from R bd fuel sfuel co nA nB ev0 l rs ds rs' -> proper rs ->
  forall d, In d ds -> Forall (made R mu sd alpha beta (co_nc co)) (d_A d) /\ Forall (made R mu sd alpha beta (co_nc co)) (d_B d).
Proof.
  intros WA WB. induction 1 as [|n ns rs d rs1 ds rs' H HF IH]; intros P d0 Hd; [destruct Hd|].
  destruct H as (_ & nA' & nB' & S & EA & EB & _). unfold sample_collision in S.
  destruct (collision_loop_made _ _ _ _ _ _ _ _ _ _ _ _ WA WB S P) as (P1 & MA & MB).
  destruct Hd as [<-|Hd]; [rewrite EA, EB; auto|]. apply IH; auto.
Qed.
End Loop.
