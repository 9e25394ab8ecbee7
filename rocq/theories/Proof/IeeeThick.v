(** Bounds on the thickness arrays in binary64. *)
From Coq Require Import ZArith Reals Lra Lia Bool List Psatz String.
From Flocq Require Import Core BinarySingleNaN Relative Mult_error.
From Verif.Base Require Import Result Arith FArith.
From Verif.Model Require Import FastExp Config Nucleon Nucleus Event.
From Verif.Spec Require Import Grid Finite.
From Verif.Proof Require Import Basics RBasics GridP EventP ExpP FastExpP Ieee IeeeInt IeeeSum IeeeExp.
From Verif.Properties Require Import ImpactIeee ThicknessIeee.
Import ListNotations.
Local Open Scope R_scope.

Notation upto := finite_upto.

Lemma upto_le x b b' : upto x b -> b <= b' -> upto x b'.
Proof. intros [F B] H. split; [exact F|lra]. Qed.

Lemma rep_scaled k e : (0 <= k <= 2 ^ 53)%Z -> (0 <= e)%Z -> rep (IZR k * bpow radix2 e).
Proof. intros Hk He. apply mult_bpow_pos_exact_FLT; [apply rep_Z; lia|lia]. Qed.

Lemma upto_add a b k e : upto a (IZR k * bpow radix2 e) -> upto b (bpow radix2 e) -> (0 <= k < 2 ^ 53)%Z -> (0 <= e <= 900)%Z ->
  upto (f64_add a b) (IZR (k + 1) * bpow radix2 e).
Proof.
  intros [Fa Ba] [Fb Bb] Hk He. 
  assert (S : 0 <= B2R a + B2R b <= IZR (k + 1) * bpow radix2 e) by (rewrite plus_IZR; lra).
  assert (RP : rep (IZR (k + 1) * bpow radix2 e)) by (apply rep_scaled; lia).
  assert (T : IZR (k + 1) * bpow radix2 e <= bpow radix2 1000).
  { apply Rle_trans with (bpow radix2 53 * bpow radix2 e).
    - apply Rmult_le_compat_r; [apply bpow_ge_0|]. change (bpow radix2 53) with (IZR (2 ^ 53)). apply IZR_le. lia.
    - rewrite <- bpow_plus. apply bpow_le. lia. }
  destruct (add_ok a b Fa Fb) as (E & F & _); [rewrite Rabs_pos_eq; lra|].
  split; [exact F|]. rewrite E. split; [apply rnd_nonneg; lra|]. rewrite <- (rnd_id _ RP). apply rnd_le. lra.
Qed.

Lemma upto_mul a b e e' : upto a (bpow radix2 e) -> upto b (bpow radix2 e') -> (-1000 <= e + e' <= 1000)%Z ->
  upto (f64_mul a b) (bpow radix2 (e + e')).
Proof.
  intros [Fa Ba] [Fb Bb] He.
  assert (S : 0 <= B2R a * B2R b <= bpow radix2 (e + e')).
  { rewrite bpow_plus. split; [apply Rmult_le_pos; lra|apply Rmult_le_compat; lra]. }
  destruct (mul_ok a b Fa Fb) as (E & F & _); [rewrite Rabs_pos_eq by lra; eapply Rle_trans; [apply S|apply bpow_le; lia]|].
  split; [exact F|]. rewrite E. split; [apply rnd_nonneg; lra|]. rewrite <- (rnd_id (bpow radix2 (e + e'))) by (apply rep_bpow; lia). apply rnd_le. lra.
Qed.

Lemma upto_div a b e e' : upto a (bpow radix2 e) -> is_finite b = true -> bpow radix2 e' <= B2R b -> (-1000 <= e - e' <= 1000)%Z ->
  upto (f64_div a b) (bpow radix2 (e - e')).
Proof.
  intros [Fa Ba] Fb Bb He. pose proof (bpow_gt_0 radix2 e') as P.
  assert (S : 0 <= B2R a / B2R b <= bpow radix2 (e - e')).
  { split; [apply Rmult_le_pos; [lra|]; apply Rlt_le, Rinv_0_lt_compat; lra|].
    apply Rmult_le_reg_r with (B2R b); [lra|]. unfold Rdiv. rewrite Rmult_assoc, Rinv_l, Rmult_1_r by lra.
    apply Rle_trans with (bpow radix2 (e - e') * bpow radix2 e').
    - rewrite <- bpow_plus. replace (e - e' + e')%Z with e by lia. lra.
    - apply Rmult_le_compat_l; [apply bpow_ge_0|lra]. }
  destruct (div_ok a b Fa) as (E & F & _); [lra|rewrite Rabs_pos_eq by lra; eapply Rle_trans; [apply S|apply bpow_le; lia]|].
  split; [exact F|]. rewrite E. split; [apply rnd_nonneg; lra|]. rewrite <- (rnd_id (bpow radix2 (e - e'))) by (apply rep_bpow; lia). apply rnd_le. lra.
Qed.

(** sqrt of a finite double between (the sign of) +-0 and 2^(2e). *)
Lemma upto_sqrt a e : upto a (bpow radix2 (e + e)) -> (-1000 <= e)%Z -> upto (f64_sqrt a) (bpow radix2 e).
Proof.
  intros [Fa Ba] He. destruct (Req_dec (B2R a) 0) as [Z|NZ].
  { destruct a as [s| | |s m x B]; try discriminate Fa.
    - split; [reflexivity|]. change (B2R (f64_sqrt (B754_zero s))) with 0. pose proof (bpow_ge_0 radix2 e). lra.
    - exfalso. revert Z. cbn [B2R]. destruct s; cbn [cond_Zopp]; intros Z; apply eq_0_F2R in Z; discriminate. }
  destruct (pos_sign a ltac:(lra)) as [S _].
  destruct (sqrt_ok a Fa S) as (E & F & _). split; [exact F|]. rewrite E.
  split; [apply rnd_nonneg, sqrt_pos|]. rewrite <- (rnd_id (bpow radix2 e)) by (apply rep_bpow; lia). apply rnd_le.
  rewrite bpow_plus in Ba. rewrite <- (R_sqrt.sqrt_square (bpow radix2 e)) by apply bpow_ge_0. apply sqrt_le_1_alt. lra.
Qed.

Section Thick.
Variable L : Libm.
Hypothesis HL : accurate_exp L.
Variable cfg : config (FA L).
Variable sp : f64.
Let v : f64 := constit_width cfg.
Hypothesis Fv : is_finite v = true.
Hypothesis Bv : bpow radix2 (-20) <= B2R v <= bpow radix2 200.
Hypothesis Hm : (1 <= constit_number cfg <= 2147483647)%Z.
Let nc := nucleon_common_of cfg sp.

Lemma width_usable : usable_width v.
Proof.
  split; [exact Fv|]. right. pose proof (bpow_gt_0 radix2 (-20)). rewrite Rabs_pos_eq by lra.
  assert (bpow radix2 (-500) <= bpow radix2 (-20)) by (apply bpow_le; lia).
  assert (bpow radix2 200 <= bpow radix2 490) by (apply bpow_le; lia). lra.
Qed.

Lemma fexp_upto dbg (x e : f64) : is_finite x = true -> - 25 / 2 - tiny <= B2R x <= 0 ->
  fast_exp_eval (A:=FA L) dbg (nc_fast_exp nc) x = Ret e -> upto e (bpow radix2 1).
Proof.
  intros Fx Hx H. destruct (fexp64_acc L dbg cfg sp x e HL Fx Hx H) as [F E]. split; [exact F|].
  change (bpow radix2 1) with 2. apply Rabs_le_inv in E. pose proof (exp_pos (B2R x)).
  assert (exp (B2R x) <= 1).
  { rewrite <- exp_0. destruct (proj2 Hx) as [Q|Q]; [left; apply exp_increasing; exact Q|rewrite Q; lra]. }
  lra.
Qed.

Lemma prefactor_upto : upto (nc_prefactor nc) (bpow radix2 42).
Proof.
  unfold nc, nucleon_common_of. cbn [nc_prefactor]. fold v. unfold sqr.
  change (upto (f64_div (f64_div f64_one_div_two_pi (f64_mul v v)) (f64_ofZ (to_size (constit_number cfg)))) (bpow radix2 42)).
  assert (Ev : to_size (constit_number cfg) = constit_number cfg).
  { unfold to_size. apply Z.mod_small. unfold size_max. lia. }
  rewrite Ev. destruct (ofZ_ok (constit_number cfg)) as [Fm Em]; [lia|].
  assert (C : upto f64_one_div_two_pi (bpow radix2 0)).
  { split; [vm_compute; reflexivity|].
    rewrite (B2R_SF _ (SpecFloat.S754_finite false 5734161139222659 (-55))) by (vm_compute; reflexivity).
    cbn [SF2R cond_Zopp]. unfold F2R. cbn [Fnum Fexp]. change (bpow radix2 (-55)) with (/ 36028797018963968). change (bpow radix2 0) with 1. lra. }
  assert (V2 : bpow radix2 (-40) <= B2R v * B2R v <= bpow radix2 400).
  { change (-40)%Z with (-20 + -20)%Z. change 400%Z with (200 + 200)%Z. rewrite !bpow_plus. pose proof (bpow_gt_0 radix2 (-20)). split; apply Rmult_le_compat; lra. }
  pose proof (bpow_gt_0 radix2 (-40)).
  destruct (mul_ok v v Fv Fv) as (E & F & _). { rewrite Rabs_pos_eq by lra. eapply Rle_trans; [apply V2|apply bpow_le; lia]. }
  assert (Q : bpow radix2 (-40) <= B2R (f64_mul v v)).
  { rewrite E. rewrite <- (rnd_id (bpow radix2 (-40))) by (apply rep_bpow; lia). apply rnd_le. lra. }
  pose proof (upto_div _ _ 0 (-40) C F Q ltac:(lia)) as D1.
  pose proof (upto_div _ (f64_ofZ (constit_number cfg)) (0 - -40) 0 D1 Fm) as D2.
  eapply upto_le; [apply D2; [rewrite Em; change (bpow radix2 0) with 1; apply IZR_le; lia|lia]|]. apply bpow_le. lia.
Qed.

Definition light (q : constituent (FA L)) : Prop := upto (q_fluct q) (bpow radix2 40).

Lemma thick_fold dbg (x y : f64) qs : forall k t0 t,
  (forall q, In q qs -> light q) -> (0 <= k)%Z -> (k + Z.of_nat (length qs) <= 2 ^ 26)%Z ->
  upto t0 (IZR k * bpow radix2 41) ->
  rfold (thickness_step (A:=FA L) dbg nc x y) qs t0 = Ret t ->
  upto t (IZR (k + Z.of_nat (length qs)) * bpow radix2 41).
Proof.
  induction qs as [|q qs IH]; intros k t0 t Hq Hk Hl H0 H.
  - cbn [rfold] in H. replace (k + Z.of_nat (length (@nil (constituent (FA L)))))%Z with k by (cbn; lia).
    replace t with t0 by (exact (f_equal (fun r : result f64 => match r with Ret w => w | _ => t end) H)). exact H0.
  - cbn [rfold] in H. cbn [length] in *.
    replace (k + Z.of_nat (S (length qs)))%Z with ((k + 1) + Z.of_nat (length qs))%Z by lia.
    destruct (thickness_step (A:=FA L) dbg nc x y t0 q) as [t1| | |] eqn:E; cbn [rbind] in H; [|discriminate H|discriminate H|discriminate H].
    apply IH with (t0 := t1); [intros; apply Hq; simpl; auto|lia|lia| |exact H].
    unfold thickness_step in E. set (d := nadd (FA L) _ _) in E.
    destruct (nltb (FA L) d _) eqn:Ld.
    + assert (Ud : unsigned d) by (apply add_unsigned; apply mul_self_unsigned).
      destruct (arg_ok v d width_usable Ud Ld) as [Fa Ba].
      match type of E with context [fast_exp_eval ?a ?b ?c] => destruct (fast_exp_eval a b c) as [e| | |] eqn:Ee end;
        cbn [rbind] in E; [|discriminate E|discriminate E|discriminate E].
      pose proof (fexp_upto dbg _ e Fa Ba Ee) as Ue.
      assert (U1 : upto (f64_mul (q_fluct q) e) (bpow radix2 41)) by (apply (upto_mul _ _ 40 1); [apply Hq; simpl; auto|exact Ue|lia]).
      replace t1 with (f64_add t0 (f64_mul (q_fluct q) e)) by (exact (f_equal (fun r : result f64 => match r with Ret w => w | _ => t1 end) E)).
      apply upto_add; auto; lia.
    + replace t1 with t0 by (exact (f_equal (fun r : result f64 => match r with Ret w => w | _ => t1 end) E)).
      eapply upto_le; [exact H0|]. apply Rmult_le_compat_r; [apply bpow_ge_0|]. apply IZR_le. lia.
Qed.

Definition light_nucleon (n : nucleon (FA L)) : Prop :=
  (forall q, In q (n_cons n) -> light q) /\ (Z.of_nat (length (n_cons n)) <= 2 ^ 26)%Z.

Lemma thick_upto dbg n (x y t : f64) : light_nucleon n -> thickness (A:=FA L) dbg nc n x y = Ret t -> upto t (bpow radix2 109).
Proof.
  intros [Hq Hl] H. unfold thickness in H.
  destruct (rfold _ _ _) as [s| | |] eqn:E in H; cbn [rbind] in H; [|discriminate H|discriminate H|discriminate H].
  apply (thick_fold dbg x y _ 0%Z) in E; auto; [|lia|].
  - replace t with (f64_mul (nc_prefactor nc) s) by (exact (f_equal (fun r : result f64 => match r with Ret w => w | _ => t end) H)).
    apply (upto_mul _ _ 42 67); [exact prefactor_upto| |lia].
    eapply upto_le; [exact E|]. change 67%Z with (26 + 41)%Z. rewrite bpow_plus. apply Rmult_le_compat_r; [apply bpow_ge_0|].
    change (bpow radix2 26) with (IZR (2 ^ 26)). apply IZR_le. lia.
  - split; [vm_compute; reflexivity|]. change (B2R (nlit (FA L) 0 0 : f64)) with 0. pose proof (bpow_gt_0 radix2 41). lra.
Qed.

(** Every cell of the thickness array of a nucleus. *)
Definition cells_upto N (g : grid (FA L)) (b : R) : Prop := forall iy ix, inside N iy ix -> upto (cell g iy ix) b.

Lemma nuclear_upto dbg (dxy xymax : f64) N (ns : list (nucleon (FA L))) : forall k (g : grid (FA L)) c g' c',
  (forall n, In n ns -> n_part n = true -> light_nucleon n) ->
  (0 <= k)%Z -> (k + Z.of_nat (length ns) <= 2 ^ 20)%Z ->
  square N g -> cells_upto N g (IZR k * bpow radix2 109) ->
  rfold (fun acc n =>
    let '(g, k) := acc in
    if n_part n then
      letr g' := deposit (A:=FA L) dbg nc dxy xymax N n g in Ret (g', (k + 1)%Z)
    else Ret (g, k)) ns (g, c) = Ret (g', c') ->
  cells_upto N g' (IZR (k + Z.of_nat (length ns)) * bpow radix2 109).
Proof.
  induction ns as [|n ns IH]; intros k g c g' c' Hn Hk Hl S HC H.
  - cbn [rfold] in H. replace (k + Z.of_nat (length (@nil (nucleon (FA L)))))%Z with k by (cbn; lia).
    replace g' with g by (exact (f_equal (fun r : result (grid (FA L) * Z) => match r with Ret w => fst w | _ => g' end) H)). exact HC.
  - cbn [rfold] in H. cbn [length] in *.
    replace (k + Z.of_nat (Datatypes.S (length ns)))%Z with ((k + 1) + Z.of_nat (length ns))%Z by lia.
    destruct (n_part n) eqn:Ep.
    + destruct (deposit (A:=FA L) dbg nc dxy xymax N n g) as [g1| | |] eqn:Ed; cbn [rbind] in H; [|discriminate H|discriminate H|discriminate H].
      destruct (deposit_inv _ _ _ _ _ _ _ _ S Ed) as (S1 & x0 & x1 & y0 & y1 & _ & HD).
      apply (IH (k + 1)%Z g1 (c + 1)%Z g' c'); auto; [intros; apply Hn; simpl; auto|lia|lia|].
      intros iy ix Hi. destruct (HD iy ix Hi) as [D1 D2].
      destruct (Z_le_dec y0 iy) as [A1|A1]; [destruct (Z_le_dec iy y1) as [A2|A2]; [destruct (Z_le_dec x0 ix) as [A3|A3]; [destruct (Z_le_dec ix x1) as [A4|A4]|]|]|].
      { destruct (D1 ltac:(lia)) as (t & Et & Ec). rewrite Ec. apply upto_add; [apply HC; exact Hi| |lia|lia].
        apply (thick_upto dbg n _ _ t (Hn n ltac:(simpl; auto) Ep) Et). }
      all: rewrite D2 by lia; (eapply upto_le; [apply HC; exact Hi|]); apply Rmult_le_compat_r; [apply bpow_ge_0|apply IZR_le; lia].
    + apply (IH (k + 1)%Z g c g' c'); auto; [intros; apply Hn; simpl; auto|lia|lia|].
      intros iy ix Hi. (eapply upto_le; [apply HC; exact Hi|]); apply Rmult_le_compat_r; [apply bpow_ge_0|apply IZR_le; lia].
Qed.

End Thick.
