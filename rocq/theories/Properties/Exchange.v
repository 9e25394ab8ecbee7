(** C76: which nucleus is called A, and how the nucleons are numbered, does not matter. *)
From Coq Require Import Reals Lra ZArith Lia List Permutation Bool.
From Verif.Base Require Import Result Arith RArith Rng.
From Verif.Model Require Import Config Random Nucleon Nucleus Collider.
From Verif.Spec Require Import Profile Law History Glauber Exchange.
From Verif.Proof Require Import Basics RBasics Sampling LawP GlauberP ExchangeP.
From Verif.Properties Require Import Ncoll Glauber.
Import ListNotations.
Local Open Scope R_scope.

Lemma glauber_swap U D cfg sp co As Bs : glauber U D cfg sp co As Bs -> glauber U D cfg sp co Bs As.
Proof. intros []. constructor; assumption. Qed.

Lemma glauber_perm U D cfg sp co As Bs As' Bs' : Permutation As As' -> Permutation Bs Bs' -> glauber U D cfg sp co As Bs -> glauber U D cfg sp co As' Bs'.
Proof. intros P Q []. constructor; try assumption; eapply Permutation_Forall; eauto. Qed.

Definition nobody : nucleon RA := @Nucleon RA 0 0 0 false false [].
Definition by_number (l : list (nucleon RA)) (i : nat) : nucleon RA := nth i l nobody.

Lemma numbered l : map (by_number l) (seq 0 (length l)) = l.
Proof. apply map_nth_seq. Qed.

Lemma renumbered l l' : Permutation l l' -> exists p, Permutation (seq 0 (length l)) p /\ l' = map (by_number l) p.
Proof.
  intros P. rewrite <- (numbered l) in P. destruct (Permutation_map_inv _ _ (Permutation_sym P)) as (p & E & Q). exists p. split; [exact Q|exact E].
Qed.

(** The mean over the pairs of As and Bs. *)
Lemma law_exchange w v sp As Bs f :
  trials (misses w v sp As Bs) (fun hs => f (hit_in_A (length As) (length Bs) hs) (hit_in_B (length As) (length Bs) hs) (count_true hs) (any hs)) =
  trials (misses w v sp Bs As) (fun hs => f (hit_in_B (length Bs) (length As) hs) (hit_in_A (length Bs) (length As) hs) (count_true hs) (any hs)).
Proof.
  pose proof (law_labelled w v sp (by_number As) (by_number Bs) (seq 0 (length As)) (seq 0 (length Bs)) f (seq_NoDup _ _) (seq_NoDup _ _)) as E1.
  pose proof (law_labelled w v sp (by_number Bs) (by_number As) (seq 0 (length Bs)) (seq 0 (length As)) (fun fb fa n c => f fa fb n c) (seq_NoDup _ _) (seq_NoDup _ _)) as E2.
  rewrite !numbered, !seq_length in E1, E2. rewrite E1, E2. apply law_swap; apply seq_NoDup.
Qed.

Lemma law_renumbered w v sp As Bs As' Bs' f : symmetric f -> Permutation As As' -> Permutation Bs Bs' ->
  trials (misses w v sp As Bs) (fun hs => f (hit_in_A (length As) (length Bs) hs) (hit_in_B (length As) (length Bs) hs) (count_true hs) (any hs)) =
  trials (misses w v sp As' Bs') (fun hs => f (hit_in_A (length As') (length Bs') hs) (hit_in_B (length As') (length Bs') hs) (count_true hs) (any hs)).
Proof.
  intros S PA PB. destruct (renumbered _ _ PA) as (p & P & ->). destruct (renumbered _ _ PB) as (r & R & ->).
  pose proof (seq_NoDup (length As) 0) as N1. pose proof (seq_NoDup (length Bs) 0) as N2.
  pose proof (law_labelled w v sp (by_number As) (by_number Bs) (seq 0 (length As)) (seq 0 (length Bs)) f N1 N2) as E1.
  rewrite !numbered, !seq_length in E1. rewrite E1, !map_length.
  rewrite (law_labelled w v sp (by_number As) (by_number Bs) p r f (Permutation_NoDup P N1) (Permutation_NoDup R N2)).
  apply law_order; assumption.
Qed.

(** Two nuclei in fixed positions, with --ncoll: exchanging the roles of the two
    exchanges the participant flags and changes the law of nothing else. *)
Theorem C76_exchange : forall U D cfg sp co As Bs, glauber U D cfg sp co As Bs -> ncoll cfg = true ->
  forall seed ns gs (f : list bool -> list bool -> Z -> bool -> R) other, exists m,
    mean_of (A:=RA) U (on_tape ns gs (pair_loop (ideal D seed) co As Bs 0 false)) (seen f other) m /\
    mean_of (A:=RA) U (on_tape ns gs (pair_loop (ideal D seed) co Bs As 0 false)) (seen (fun fb fa n c => f fa fb n c) other) m.
Proof.
  intros U D cfg sp co As Bs G Hn seed ns gs f other. eexists. split; [exact (C57_law U D cfg sp co As Bs G Hn seed ns gs f other)|].
  rewrite law_exchange. exact (C57_law U D cfg sp co Bs As (glauber_swap _ _ _ _ _ _ _ G) Hn seed ns gs (fun fb fa n c => f fa fb n c) other).
Qed.

(** With or without --ncoll, for everything but the number of collisions. *)
Theorem C76_exchange_participants : forall U D cfg sp co As Bs, glauber U D cfg sp co As Bs ->
  forall seed ns gs (f : list bool -> list bool -> bool -> R) other, exists m,
    mean_of (A:=RA) U (on_tape ns gs (pair_loop (ideal D seed) co As Bs 0 false)) (seen (fun fa fb _ c => f fa fb c) other) m /\
    mean_of (A:=RA) U (on_tape ns gs (pair_loop (ideal D seed) co Bs As 0 false)) (seen (fun fb fa _ c => f fa fb c) other) m.
Proof.
  intros U D cfg sp co As Bs G seed ns gs f other. eexists. split; [exact (C57_participants U D cfg sp co As Bs G seed ns gs f other)|].
  rewrite (law_exchange _ _ _ As Bs (fun fa fb _ c => f fa fb c)).
  exact (C57_participants U D cfg sp co Bs As (glauber_swap _ _ _ _ _ _ _ G) seed ns gs (fun fb fa c => f fa fb c) other).
Qed.

(** Renumbering the nucleons of either nucleus changes the law of no quantity that
    does not mention their numbers. *)
Theorem C76_renumbered : forall U D cfg sp co As Bs As' Bs', glauber U D cfg sp co As Bs -> ncoll cfg = true ->
  Permutation As As' -> Permutation Bs Bs' ->
  forall seed ns gs (f : list bool -> list bool -> Z -> bool -> R) other, symmetric f -> exists m,
    mean_of (A:=RA) U (on_tape ns gs (pair_loop (ideal D seed) co As Bs 0 false)) (seen f other) m /\
    mean_of (A:=RA) U (on_tape ns gs (pair_loop (ideal D seed) co As' Bs' 0 false)) (seen f other) m.
Proof.
  intros U D cfg sp co As Bs As' Bs' G Hn PA PB seed ns gs f other S. eexists.
  split; [exact (C57_law U D cfg sp co As Bs G Hn seed ns gs f other)|].
  rewrite (law_renumbered _ _ _ As Bs As' Bs' f S PA PB).
  exact (C57_law U D cfg sp co As' Bs' (glauber_perm _ _ _ _ _ _ _ _ _ PA PB G) Hn seed ns gs f other).
Qed.

Theorem C76_renumbered_participants : forall U D cfg sp co As Bs As' Bs', glauber U D cfg sp co As Bs ->
  Permutation As As' -> Permutation Bs Bs' ->
  forall seed ns gs (f : list bool -> list bool -> bool -> R) other, symmetric (fun fa fb _ c => f fa fb c) -> exists m,
    mean_of (A:=RA) U (on_tape ns gs (pair_loop (ideal D seed) co As Bs 0 false)) (seen (fun fa fb _ c => f fa fb c) other) m /\
    mean_of (A:=RA) U (on_tape ns gs (pair_loop (ideal D seed) co As' Bs' 0 false)) (seen (fun fa fb _ c => f fa fb c) other) m.
Proof.
  intros U D cfg sp co As Bs As' Bs' G PA PB seed ns gs f other S. eexists.
  split; [exact (C57_participants U D cfg sp co As Bs G seed ns gs f other)|].
  rewrite (law_renumbered _ _ _ As Bs As' Bs' (fun fa fb _ c => f fa fb c) S PA PB).
  exact (C57_participants U D cfg sp co As' Bs' (glauber_perm _ _ _ _ _ _ _ _ _ PA PB G) seed ns gs f other).
Qed.
