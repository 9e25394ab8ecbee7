(** A concrete case of C76: a proton against two nucleons. *)
From Coq Require Import Reals Lra Lia ZArith List Bool Permutation.
From Coquelicot Require Import Coquelicot.
From Verif.Base Require Import Result Arith RArith Rng.
From Verif.Model Require Import Config Random Nucleon Nucleus Collider.
From Verif.Spec Require Import Profile Law History Glauber Exchange.
From Verif.Proof Require Import Basics RBasics Sampling LawP GlauberP ExchangeP.
From Verif.Properties Require Import Ncoll Glauber RealRun GlauberInst Exchange.
Import ListNotations.
Local Open Scope R_scope.

(** The number of participants. *)
Definition participants (fa fb : list bool) (n : Z) (c : bool) : R := IZR (count_true fa + count_true fb).

Lemma participants_symmetric : symmetric participants.
Proof. intros fa fa' fb fb' n c A B. unfold participants. rewrite (count_perm _ _ A), (count_perm _ _ B). reflexivity. Qed.

Theorem C76_instance : forall seed ns gs,
  let U g := RInt g 0 1 in
  let pass As Bs := on_tape ns gs (pair_loop (ideal plain_shapes seed) pp_collider As Bs 0 false) in
  glauber U plain_shapes pp_config PI pp_collider [here] [here; away] /\ ncoll pp_config = true /\
  symmetric participants /\
  (exists m, mean_of (A:=RA) U (pass [here] [here; away]) (seen (fun fa fb n c => indicator (nth 0 fb false)) 0) m /\
     mean_of (A:=RA) U (pass [here; away] [here]) (seen (fun fa fb n c => indicator (nth 0 fa false)) 0) m) /\
  (exists m, mean_of (A:=RA) U (pass [here] [here; away]) (seen participants 0) m /\
     mean_of (A:=RA) U (pass [here] [away; here]) (seen participants 0) m) /\
  mean_of (A:=RA) U (pass [here] [away; here]) (seen (fun _ _ n _ => IZR n) 0) (1 - exp (-1)).
Proof.
  intros seed ns gs U pass. destruct (C57_instance seed ns gs) as (G & M0 & M1 & _). fold U in G.
  split; [exact G|]. split; [reflexivity|]. split; [exact participants_symmetric|]. split; [|split].
  - exact (C76_exchange U plain_shapes pp_config PI pp_collider [here] [here; away] G eq_refl seed ns gs (fun fa fb n c => indicator (nth 0 fb false)) 0).
  - apply (C76_renumbered U plain_shapes pp_config PI pp_collider [here] [here; away] [here] [away; here] G eq_refl); [apply Permutation_refl|constructor|exact participants_symmetric].
  - pose proof (C57_mean_ncoll U plain_shapes pp_config PI pp_collider [here] [away; here]
      (glauber_perm _ _ _ _ _ _ _ _ _ (Permutation_refl _) (perm_swap _ _ _) G) eq_refl seed ns gs) as H.
    change (nucleon_width pp_config) with (1 / 2) in H. change (constit_width pp_config) with (1 / 2) in H.
    rewrite !Rsum_cons, M0, M1 in H. cbn [RBasics.Rsum fold_right] in H.
    replace (1 - exp (-1)) with (1 - 1 + (1 - exp (-1) + 0) + 0) by ring. exact H.
Qed.
