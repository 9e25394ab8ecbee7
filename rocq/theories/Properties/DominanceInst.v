(** Concrete cases of C74: a proton against two nucleons. *)
From Coq Require Import Reals Lra Lia ZArith List Bool.
From Coquelicot Require Import Coquelicot.
From Verif.Base Require Import Result Arith RArith Rng.
From Verif.Model Require Import Config Random Nucleon Nucleus Collider.
From Verif.Spec Require Import Profile Law History Glauber CrossSection Dominance.
From Verif.Proof Require Import Basics RBasics Sampling LawP GlauberP.
From Verif.Properties Require Import Ncoll Glauber RealRun GlauberInst Dominance.
Import ListNotations.
Local Open Scope R_scope.

Definition closer_by : nucleon RA := @Nucleon RA 2 0 0 false false [].
Definition double_collider : collider RA := @Collider RA (nucleon_common_of pp_config (2 * PI)) 1 true 0 0 (1 / 2) [].

(** The number of participants and the number of collisions grow. *)
Lemma npart_grows : grows (fun fa fb n c => IZR (count_true fa + count_true fb)).
Proof. intros fa fa' fb fb' n n' c c' A B _ _. apply IZR_le. apply count_mono in A, B. lia. Qed.
Lemma ncoll_grows : grows (fun fa fb n c => IZR n).
Proof. intros fa fa' fb fb' n n' c c' _ _ H _. apply IZR_le. exact H. Qed.

Theorem C74_instance : forall seed ns gs,
  let U g := RInt g 0 1 in
  let pass co Bs := on_tape ns gs (pair_loop (ideal plain_shapes seed) co [here] Bs 0 false) in
  glauber U plain_shapes pp_config PI pp_collider [here] [here; away] /\
  glauber U plain_shapes pp_config (2 * PI) double_collider [here] [here; closer_by] /\
  closer [here] [here; away] [here] [here; closer_by] /\
  (exists m m', mean_of (A:=RA) U (pass pp_collider [here; away]) (seen (fun _ _ n _ => IZR n) 0) m /\
     mean_of (A:=RA) U (pass double_collider [here; closer_by]) (seen (fun _ _ n _ => IZR n) 0) m' /\ m <= m') /\
  (exists p p', mean_of (A:=RA) U (pass pp_collider [here; away]) (seen (fun _ _ _ c => indicator (negb c)) 0) p /\
     mean_of (A:=RA) U (pass double_collider [here; away]) (seen (fun _ _ _ c => indicator (negb c)) 0) p' /\ p' < p).
Proof.
  intros seed ns gs U pass. pose proof PI_RGT_0 as P0.
  destruct (C57_instance seed ns gs) as (G & _).
  assert (G2 : forall x, is_reset x -> glauber U plain_shapes pp_config (2 * PI) double_collider [here] [here; x]).
  { intros x Hx. constructor; try reflexivity.
    - exact C57_uniform.
    - cbn. lra.
    - cbn. lra.
    - lra.
    - repeat constructor.
    - constructor; [repeat constructor|constructor; [exact Hx|constructor]]. }
  assert (C : closer [here] [here; away] [here] [here; closer_by]).
  { split; [reflexivity|]. split; [reflexivity|]. intros i j a b a' b' H1 H2 H3 H4.
    destruct i as [|[|?]]; cbn in H1, H3; try discriminate. injection H1 as <-. injection H3 as <-.
    destruct j as [|[|[|?]]]; cbn in H2, H4; try discriminate; injection H2 as <-; injection H4 as <-; unfold distance; cbn [n_x n_y here away closer_by].
    - lra.
    - replace ((0 - 2) ^ 2 + (0 - 0) ^ 2) with (2 * 2) by ring. replace ((0 - 4) ^ 2 + (0 - 0) ^ 2) with (4 * 4) by ring. rewrite !sqrt_square by lra. lra. }
  split; [exact G|]. split; [apply G2; repeat constructor|]. split; [exact C|]. split.
  - apply (C74_more U plain_shapes pp_config PI (2 * PI) pp_collider double_collider [here] [here; away] [here] [here; closer_by]);
      [exact G|apply G2; repeat constructor|reflexivity|lra|exact C|apply ncoll_grows].
  - apply (C74_hit U plain_shapes pp_config PI (2 * PI) pp_collider double_collider [here] [here; away]);
      [exact G|apply G2; repeat constructor|lra|].
    exists here, here. split; [left; reflexivity|]. split; [left; reflexivity|]. unfold distance. cbn [n_x n_y here].
    replace ((0 - 0) ^ 2 + (0 - 0) ^ 2) with 0 by ring. rewrite sqrt_0. cbn. lra.
Qed.
