(** A concrete case of C77: n equidistant variates (std::generate_canonical<double, 53>
    is meant to have them with n = 2^53), rotations by multiples of 2 pi / n. *)
From Coq Require Import Reals Lra ZArith Lia List.
From Verif.Base Require Import Result Arith RArith Rng.
From Verif.Model Require Import Random Config Nucleon Files Nucleus.
From Verif.Spec Require Import Geometry Radii Law Glauber Attempts Species Positions Isotropy.
From Verif.Proof Require Import RBasics PositionsP.
From Verif.Properties Require Import Positions PositionsInst Isotropy.
Local Open Scope R_scope.

Lemma frac_step n k : (k < n)%nat -> frac_part (INR k / INR n) = INR k / INR n.
Proof.
  intros H. assert (0 < INR n) by (apply lt_0_INR; lia). pose proof (lt_INR _ _ H). apply frac_small. split.
  - apply Rmult_le_pos; [apply pos_INR|left; apply Rinv_0_lt_compat; assumption].
  - apply (Rmult_lt_reg_r (INR n)); [assumption|]. unfold Rdiv. rewrite Rmult_assoc, Rinv_l by lra. lra.
Qed.

Definition sum_steps (h : nat -> R) (s n : nat) : R := fold_right (fun k acc => h k + acc) 0 (seq s n).
Lemma sum_steps_ext h h' n : forall s, (forall k, (s <= k < s + n)%nat -> h k = h' k) -> sum_steps h s n = sum_steps h' s n.
Proof.
  induction n as [|n IH]; intros s H; [reflexivity|]. unfold sum_steps in *. cbn [seq fold_right]. rewrite (H s) by lia. f_equal. apply IH. intros k Hk. apply H. lia.
Qed.
Lemma sum_steps_next h n : forall s, sum_steps (fun k => h (S k)) s n = sum_steps h s n - h s + h (s + n)%nat.
Proof.
  induction n as [|n IH]; intros s; unfold sum_steps in *; cbn [seq fold_right]; [rewrite Nat.add_0_r; ring|].
  rewrite IH. replace (S s + n)%nat with (s + S n)%nat by lia. ring.
Qed.

Lemma equidistant_mean n g : canonical_mean half_shapes (equidistant n) g = / INR n * sum_steps (fun k => g (INR k / INR n)) 0 n.
Proof.
  unfold canonical_mean, equidistant. f_equal. apply sum_steps_ext. intros k H. cbn [sh_canonical half_shapes]. rewrite frac_step by lia. reflexivity.
Qed.

Lemma one_step n : (0 < n)%nat -> starts_anywhere (canonical_mean half_shapes (equidistant n)) (2 * PI / INR n).
Proof.
  intros Hn g G. rewrite !equidistant_mean. f_equal. assert (0 < INR n) by (apply lt_0_INR; exact Hn). pose proof PI_neq0.
  transitivity (sum_steps (fun k => (fun m => g (INR m / INR n)) (S k)) 0 n).
  - apply sum_steps_ext. intros k _. f_equal. rewrite S_INR. field. split; [lra|assumption].
  - rewrite (sum_steps_next (fun m => g (INR m / INR n)) n 0). cbn [Nat.add]. replace (INR n / INR n) with (INR 0 / INR n + 1) by (cbn [INR]; field; lra).
    rewrite G. ring.
Qed.
Lemma anywhere_plus V a b : starts_anywhere V a -> starts_anywhere V b -> starts_anywhere V (a + b).
Proof.
  intros HA HB g G. rewrite <- (HB g G). rewrite <- (HA (fun u => g (u + b / (2 * PI)))).
  - f_equal. apply FunctionalExtensionality.functional_extensionality. intros u. f_equal. field. exact PI_neq0.
  - intros u. rewrite <- (G (u + b / (2 * PI))). f_equal. ring.
Qed.
Lemma any_step n j : (0 < n)%nat -> starts_anywhere (canonical_mean half_shapes (equidistant n)) (2 * PI * (INR j / INR n)).
Proof.
  intros Hn. assert (0 < INR n) by (apply lt_0_INR; exact Hn). induction j as [|j IH].
  - intros g G. f_equal. apply FunctionalExtensionality.functional_extensionality. intros u. f_equal. cbn [INR]. field. split; [lra|exact PI_neq0].
  - rewrite S_INR. replace (2 * PI * ((INR j + 1) / INR n)) with (2 * PI * (INR j / INR n) + 2 * PI / INR n) by (field; lra).
    apply anywhere_plus; [exact IH|apply one_step; exact Hn].
Qed.

Theorem C77_instance : forall n, (0 < n)%nat ->
  averages (A:=RA) (equidistant n) /\ linear (A:=RA) (equidistant n) /\
  (forall j, starts_anywhere (canonical_mean half_shapes (equidistant n)) (2 * PI * (INR j / INR n))) /\
  (forall j, n = (2 * j)%nat -> starts_anywhere (canonical_mean half_shapes (equidistant n)) PI) /\
  (* uranium, at least 0.9 fm between nucleons, by any of the n angles: for example
     the chance that all nucleons are on the right is the chance that they are on the
     corresponding side of a line turned by that angle *)
  forall bd f fuel seed (off : R), exists nu, in_use bd f nu /\ length (nu_nucleons nu) = 238%nat /\
    forall j, exists m,
      mean_of (A:=RA) (equidistant n) (sample_nucleons (ideal half_shapes seed) fuel nu off)
        (if_finished (fun nu' => Rprod (fun p => if Rle_dec 0 (vx p) then 1 else 0) (positions off nu'))) m /\
      mean_of (A:=RA) (equidistant n) (sample_nucleons (ideal half_shapes seed) fuel nu off)
        (if_finished (fun nu' => Rprod (fun p => if Rle_dec 0 (vx p) then 1 else 0) (map (spin (2 * PI * (INR j / INR n))) (positions off nu')))) m.
Proof.
  intros n Hn. destruct (C59_variates n ltac:(lia)) as (HU & HL & _).
  split; [exact HU|]. split; [exact HL|]. split; [intros j; apply any_step, Hn|]. split.
  { intros j E. assert (0 < INR j) by (apply lt_0_INR; lia). replace PI with (2 * PI * (INR j / INR n)); [apply any_step, Hn|].
    rewrite E, mult_INR. cbn [INR]. field. lra. }
  intros bd f fuel seed off. eexists. split; [apply (in_use_created (A:=RA) bd f "U" (9 / 10)); reflexivity|]. split; [reflexivity|]. intros j.
  refine (C77_rotated half_shapes seed (equidistant n) _ HU (any_step n j Hn) bd f _ _ fuel off (Rprod (fun p => if Rle_dec 0 (vx p) then 1 else 0))).
  apply (in_use_created (A:=RA) bd f "U" (9 / 10)); reflexivity.
Qed.
