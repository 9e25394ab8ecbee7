(** Concrete cases that meet the hypotheses of C56. *)
From Coq Require Import Reals Lra.
From Coquelicot Require Import Coquelicot.
From Verif.Base Require Import Result Arith RArith Rng.
From Verif.Model Require Import Config Random Nucleon Nucleus Event Files CrossSection Output Collider.
From Verif.Spec Require Import History Geometry Collision Law.
From Verif.Properties Require Import Ncoll.

(** A variate that is uniform in [0,1], and one that takes two values. *)
Example C56_uniform : averages (A:=RA) (fun g => RInt g 0 1).
Proof.
  split.
  - intros c. rewrite RInt_const. unfold scal. cbn. unfold mult. cbn. lra.
  - intros f g H. apply RInt_ext. intros x _. apply H.
Qed.
Example C56_coin : forall (A : Arith) (x y : num A), averages (fun g => (g x + g y) / 2)%R.
Proof. intros A x y. split; [intros c; lra|]. intros f g H. rewrite !H. reflexivity. Qed.

(** Lead and uranium. *)
Example C56_instance : forall bd (f : fs RA) (D : shapes RA) seed (co : collider RA) fuel sfuel ns gs (obs : result (R * nucleus RA * nucleus RA) -> R),
  exists nA nB v, in_use bd f nA /\ in_use bd f nB /\ length (nu_nucleons nA) = 208%nat /\ length (nu_nucleons nB) = 238%nat /\
  mean_of (A:=RA) (fun g : R -> R => RInt g 0 1) (on_tape ns gs (sample_collision (ideal D seed) fuel sfuel (ncoll_mode true co) nA nB)) (fun r => obs (but_ncoll r)) v /\
  mean_of (A:=RA) (fun g : R -> R => RInt g 0 1) (on_tape ns gs (sample_collision (ideal D seed) fuel sfuel (ncoll_mode false co) nA nB)) (fun r => obs (but_ncoll r)) v.
Proof.
  intros bd f D seed co fuel sfuel ns gs obs.
  assert (IA : exists nA, in_use (A:=RA) bd f nA /\ length (nu_nucleons nA) = 208%nat).
  { eexists. split; [apply (in_use_created (A:=RA) bd f "Pb"%string 0%R); reflexivity|reflexivity]. }
  assert (IB : exists nB, in_use (A:=RA) bd f nB /\ length (nu_nucleons nB) = 238%nat).
  { eexists. split; [apply (in_use_created (A:=RA) bd f "U"%string 0%R); reflexivity|reflexivity]. }
  destruct IA as (nA & IA & LA). destruct IB as (nB & IB & LB). exists nA, nB.
  destruct (C56_collision RA D seed _ C56_uniform bd f nA nB IA IB co fuel sfuel ns gs obs) as (v & H1 & H2).
  exists v. auto 10.
Qed.
