(** A concrete case of C57: the average over a uniform variate as an integral, and
    p+p at zero distance. *)
From Coq Require Import Reals Lra.
From Coquelicot Require Import Coquelicot.
From Verif.Base Require Import Result Arith RArith Rng.
From Verif.Model Require Import Config Random Nucleon Nucleus Collider.
From Verif.Spec Require Import Profile Law History Glauber.
From Verif.Proof Require Import Basics RBasics Sampling.
From Verif.Properties Require Import Ncoll NcollInst Glauber RealRun.
Local Open Scope R_scope.

Example C57_uniform : uniform (fun g => RInt g 0 1).
Proof.
  split; [exact C56_uniform|]. intros p a b Hp.
  assert (I1 : is_RInt (fun u => if Rlt_dec p u then a else b) 0 p (scal (p - 0) b)).
  { apply (is_RInt_ext (fun _ => b)); [|apply (is_RInt_const (V:=R_NormedModule))].
    intros x Hx. rewrite Rmin_left, Rmax_right in Hx by lra. destruct (Rlt_dec p x); [lra|reflexivity]. }
  assert (I2 : is_RInt (fun u => if Rlt_dec p u then a else b) p 1 (scal (1 - p) a)).
  { apply (is_RInt_ext (fun _ => a)); [|apply (is_RInt_const (V:=R_NormedModule))].
    intros x Hx. rewrite Rmin_left, Rmax_right in Hx by lra. destruct (Rlt_dec p x); [reflexivity|lra]. }
  pose proof (is_RInt_Chasles _ _ _ _ _ _ I1 I2) as I. apply (is_RInt_unique (V:=R_CompleteNormedModule)) in I. etransitivity; [exact I|].
  unfold plus, scal. cbn. unfold mult. cbn. lra.
Qed.

(** Variates used as they are. *)
Definition plain_shapes : shapes RA :=
  @Shapes RA (fun u => u) (fun mu sd u => mu + sd * u) (fun a b u => u) (fun _ lo hi _ u => lo + (hi - lo) * u) (fun a b u => a) (fun l u => l) (fun l => l) (fun l => l).

(** A proton against two nucleons, one on top of it and one far away; the
    partonic cross section is the one computed for these widths (RealRun). *)
Definition here : nucleon RA := @Nucleon RA 0 0 0 false false [].
Definition away : nucleon RA := @Nucleon RA 4 0 0 false false [].
Definition pp_config : config RA := ncoll_option true (real_config ["p"%string; "d"%string] 0).
Definition pp_collider : collider RA := @Collider RA (nucleon_common_of pp_config PI) 1 true 0 0 (1 / 2) [].

Example C57_instance : forall seed ns gs,
  glauber (fun g => RInt g 0 1) plain_shapes pp_config PI pp_collider [here] [here; away] /\
  miss (1 / 2) (1 / 2) PI here here = exp (-1) /\ miss (1 / 2) (1 / 2) PI here away = 1 /\
  mean_of (A:=RA) (fun g : R -> R => RInt g 0 1) (on_tape ns gs (pair_loop (ideal plain_shapes seed) pp_collider [here] [here; away] 0 false))
    (seen (fun _ _ n _ => IZR n) 0) (1 - exp (-1)) /\
  mean_of (A:=RA) (fun g : R -> R => RInt g 0 1) (on_tape ns gs (pair_loop (ideal plain_shapes seed) pp_collider [here] [here; away] 0 false))
    (seen (fun _ _ _ c => indicator (negb c)) 0) (exp (-1)).
Proof.
  intros seed ns gs.
  assert (G : glauber (fun g => RInt g 0 1) plain_shapes pp_config PI pp_collider [here] [here; away]).
  { constructor; try reflexivity.
    - exact C57_uniform.
    - cbn. lra.
    - cbn. lra.
    - pose proof PI_RGT_0. lra.
    - repeat constructor.
    - repeat constructor. }
  assert (M0 : miss (1 / 2) (1 / 2) PI here here = exp (-1)).
  { unfold miss. cbn [n_x n_y here]. replace ((0 - 0) ^ 2 + (0 - 0) ^ 2) with 0 by ring. rewrite sqrt_0. destruct (Rlt_dec _ _); [lra|].
    f_equal. unfold gauss2. replace (- ((0 - 0) ^ 2 + (0 - 0) ^ 2) / (2 * (2 * (1 / 2) ^ 2))) with 0 by field. rewrite exp_0. pose proof PI_RGT_0. field. lra. }
  assert (M1 : miss (1 / 2) (1 / 2) PI here away = 1).
  { unfold miss. cbn [n_x n_y here away]. replace ((0 - 4) ^ 2 + (0 - 0) ^ 2) with (4 * 4) by ring. rewrite sqrt_square by lra. destruct (Rlt_dec _ _); [reflexivity|lra]. }
  split; [exact G|]. split; [exact M0|]. split; [exact M1|]. split.
  - replace (1 - exp (-1)) with (Rsum (fun a => Rsum (fun b => 1 - miss (nucleon_width pp_config) (constit_width pp_config) PI a b) [here; away]) [here]).
    + exact (C57_mean_ncoll _ _ _ _ _ _ _ G eq_refl seed ns gs).
    + cbn [Rsum fold_right]. change (nucleon_width pp_config) with (1 / 2). change (constit_width pp_config) with (1 / 2). rewrite M0, M1. lra.
  - replace (exp (-1)) with (Rprod (fun a => Rprod (fun b => miss (nucleon_width pp_config) (constit_width pp_config) PI a b) [here; away]) [here]).
    + exact (C57_no_collision _ _ _ _ _ _ _ G seed ns gs).
    + cbn [Rprod fold_right]. change (nucleon_width pp_config) with (1 / 2). change (constit_width pp_config) with (1 / 2). rewrite M0, M1. lra.
Qed.
