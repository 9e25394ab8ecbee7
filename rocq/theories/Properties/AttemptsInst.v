(** A concrete case of C58: p+p at zero impact parameter with a generator whose
    variates are 1/4 or 3/4, each with probability 1/2.  The protons collide if the
    variate exceeds exp(-1): half of the attempts. *)
From Coq Require Import Reals Lra.
From Flocq Require Import Core.Raux.
From Verif.Base Require Import Result Arith RArith Rng.
From Verif.Model Require Import Config Random Nucleon Nucleus Event Files CrossSection Output Collider.
From Verif.Spec Require Import Profile History Geometry Law Glauber Attempts.
From Verif.Proof Require Import Basics RBasics Sampling EventP LawP GlauberP AttemptsP.
From Verif.Properties Require Import Events GridProps RealRun Ncoll NcollInst GlauberInst Attempts.
Local Open Scope R_scope.

Definition coin (g : R -> R) : R := (g (1 / 4) + g (3 / 4)) / 2.
Lemma coin_averages : averages (A:=RA) coin.
Proof. apply (C56_coin RA). Qed.
Lemma coin_linear : linear (A:=RA) coin.
Proof. split; intros; unfold coin; lra. Qed.

Definition two_protons : config RA := real_config ["p"%string; "p"%string] 0.
Definition two_collider : collider RA := @Collider RA (nucleon_common_of two_protons PI) 1 false 0 0 (1 / 2) [].
Notation proton := (Nucleus.proton (A:=RA)).

Lemma exp_m1 : 1 / 4 < exp (-1) < 3 / 4.
Proof.
  pose proof exp_le_3 as E3. assert (E2 : 2 < exp 1) by (pose proof (exp_ineq1 1 ltac:(lra)); lra).
  replace (-1) with (Ropp 1) by lra. rewrite exp_Ropp. split.
  - apply Rlt_le_trans with (/ 3); [lra|]. apply Rinv_le_contravar; [apply exp_pos|exact E3].
  - apply Rlt_trans with (/ 2); [|lra]. apply Rinv_lt_contravar; [|exact E2]. pose proof (exp_pos 1). nra.
Qed.

Lemma coin_const (g : R -> R) v : (forall x, g x = v) -> coin g = v.
Proof. intros H. unfold coin. rewrite !H. lra. Qed.

Section Inst.
Variables (seed : Z -> tape RA) (ns gs : R * R).
Notation D := plain_shapes.
Notation co := two_collider.

Lemma proton_at (off : R) sfuel t : exists n : nucleon RA, sample_nucleons (ideal D seed) sfuel proton off t = (Ret (@Nucleus RA KProton [n] off), t) /\
  n_x n = off /\ n_y n = 0 /\ n_part n = false /\ n_cexist n = false.
Proof.
  eexists. unfold sample_nucleons, Nucleus.proton, nucleus_new. cbn [nu_kind nu_nucleons]. unfold sample_proton.
  erewrite bind_run by reflexivity. split; [reflexivity|]. unfold set_nucleon_position, set_position. cbn. repeat split; toR; rlits; lra.
Qed.

Lemma attempt_value sfuel (F : result (R * Z * nucleus RA * nucleus RA * bool) -> R) (v0 v1 : R) :
  (forall (a b : nucleon RA) (na nb : R) (k : Z), n_x a = 0 -> n_y a = 0 -> n_x b = 0 -> n_y b = 0 -> n_part a = true -> n_part b = true ->
     (exists f, n_cons a = [@Constituent RA 0 0 f]) -> (exists f, n_cons b = [@Constituent RA 0 0 f]) ->
     F (Ret (0, k, @Nucleus RA KProton [a] na, @Nucleus RA KProton [b] nb, true)) = v1) ->
  (forall (b : R) (k : Z) (nA nB : nucleus RA), F (Ret (b, k, nA, nB, false)) = v0) ->
  mean (A:=RA) coin F (p_attempt D seed ns gs sfuel co proton proton 0) = (v0 + v1) / 2.
Proof.
  intros H1 H0. unfold p_attempt. cbn [mean]. apply coin_const. intros u.
  assert (B : sample_b (A:=RA) (co_bmin co) (co_bmax co) (sh_canonical D u) = 0).
  { unfold sample_b. cbn [co_bmin co_bmax two_collider]. cbn [nsqrt nadd nmul nsub RA RA_with sh_canonical plain_shapes]. transitivity (sqrt 0); [f_equal; ring|apply sqrt_0]. }
  rewrite B. cbv zeta.
  replace (nmul RA (co_asym co) 0) with 0 by (toR; ring).
  replace (nmul RA (nsub RA (co_asym co) (nlit RA 1 0)) 0) with 0 by (toR; ring).
  rewrite (mean_pbind (A:=RA) coin coin_averages). apply (mean_const (A:=RA) coin coin_averages). intros t1.
  rewrite <- (p_nucleons_ok D seed sfuel proton 0 t1). destruct (proton_at 0 sfuel t1) as (a & -> & Xa & Ya & Pa & Ca). cbn [fst].
  rewrite (mean_pbind (A:=RA) coin coin_averages). apply (mean_const (A:=RA) coin coin_averages). intros t2.
  rewrite <- (p_nucleons_ok D seed sfuel proton 0 t2). destruct (proton_at 0 sfuel t2) as (b & -> & Xb & Yb & Pb & Cb). cbn [fst nu_nucleons].
  cbn [p_pairs p_row]. unfold p_participate. rewrite Pa, Pb. cbn [andb].
  assert (R : nltb RA (nc_max_impact_sq (co_nc co)) (nadd RA (sqr (nsub RA (n_x a) (n_x b))) (sqr (nsub RA (n_y a) (n_y b)))) = false).
  { rewrite Xa, Xb, Ya, Yb. cbn [nltb RA RA_with]. unfold Rltb. destruct (Rlt_dec _ _) as [L|L]; [|reflexivity]. exfalso. revert L.
    cbn [co_nc two_collider nc_max_impact_sq nucleon_common_of two_protons real_config nucleon_width]. unfold sqr, max_impact_widths. toR. rlits. lra. }
  rewrite R. unfold p_constituents. rewrite Ca, Cb.
  change (nc_number (co_nc co)) with 1%Z. change (cons_max_size <? 1)%Z with false. cbv iota.
  change (Z.to_nat 1) with 1%nat. cbn [p_local pbind mean].
  do 6 (apply coin_const; intros ?).
  cbn [n_cons map q_x q_y q_fluct mean].
  match goal with |- context [one_minus_prob ?nc ?l ?l'] => assert (P : one_minus_prob nc l l' = exp (-1)) end.
  { change (co_nc co) with (nucleon_common_of two_protons PI). rewrite C24_probability; [|cbn; lra|cbn; lia].
    unfold T_AB, Rsum. cbn [fold_right q_x q_y constit_number constit_width two_protons real_config]. rewrite Xa, Xb, Ya, Yb.
      f_equal. f_equal. unfold gauss2. toR. rlits.
      match goal with |- context [exp ?e] => replace e with 0 end; [|field]. rewrite exp_0. pose proof PI_RGT_0. field. lra.
 }
  unfold coin at 1. rewrite P. cbn [nltb RA RA_with sh_canonical plain_shapes]. unfold Rltb. destruct exp_m1 as [L1 L2].
  destruct (Rlt_dec (exp (-1)) (1 / 4)); [lra|]. destruct (Rlt_dec (exp (-1)) (3 / 4)); [|lra].
  cbn [pbind mean andb co_calc_ncoll two_collider orb]. unfold with_nucleons. cbn [nu_kind nu_offset].
  rewrite H0, H1; [lra|..]; unfold set_participant; cbn [n_part n_x n_y n_cons]; rewrite ?Pa, ?Pb; cbn; try assumption; try reflexivity.
  - eexists. repeat f_equal; toR; rlits; rewrite ?Xa, ?Ya; field.
  - eexists. repeat f_equal; toR; rlits; rewrite ?Xb, ?Yb; field.
Qed.
End Inst.

Example C58_instance : forall bd seed ns gs sfuel, exists ev0,
  stage bd (Nucleus.proton (A:=RA)) (Nucleus.proton (A:=RA)) ev0 /\ averages (A:=RA) coin /\ linear (A:=RA) coin /\
  mean_of (A:=RA) coin (on_tape ns gs (attempt (ideal plain_shapes seed) sfuel two_collider (Nucleus.proton (A:=RA)) (Nucleus.proton (A:=RA))))
    (if_collided (debug bd) two_collider ev0 (fun _ _ _ => 1)) (1 / 2) /\
  mean_of (A:=RA) coin (on_tape ns gs (attempt (ideal plain_shapes seed) sfuel two_collider (Nucleus.proton (A:=RA)) (Nucleus.proton (A:=RA))))
    no_collision (1 / 2) /\
  forall n, mean_of (A:=RA) coin (on_tape ns gs (sample_collision (ideal plain_shapes seed) n sfuel two_collider (Nucleus.proton (A:=RA)) (Nucleus.proton (A:=RA))))
    (if_found (debug bd) two_collider ev0 (fun _ _ _ => 1)) (1 - (1 / 2) ^ n).
Proof.
  intros bd seed ns gs sfuel.
  destruct (C12_geometry two_protons) as (ev & E & N & _); [cbn; lra..|].
  assert (N4 : ev_nsteps ev = 4%Z) by (rewrite N; cbn; replace (2 * 1 / (1 / 2)) with (IZR 4) by (simpl; field); apply Zceil_IZR).
  exists ev.
  assert (ST : stage bd (Nucleus.proton (A:=RA)) (Nucleus.proton (A:=RA)) ev).
  { split; [exists []|exists []|exists two_protons; exact E]; apply (in_use_created (A:=RA) bd [] "p"%string 0%R); reflexivity. }
  assert (H1 : mean_of (A:=RA) coin (on_tape ns gs (attempt (ideal plain_shapes seed) sfuel two_collider (Nucleus.proton (A:=RA)) (Nucleus.proton (A:=RA))))
    (if_collided (debug bd) two_collider ev (fun _ _ _ => 1)) (1 / 2)).
  { apply (mean_of_plan RA plain_shapes seed coin coin_averages _ _ _ _ _ _ (p_attempt_ok plain_shapes seed ns gs sfuel two_collider _ _)).
    rewrite (attempt_value seed ns gs sfuel _ 0 1); [lra| |reflexivity].
    intros a b na nb k Xa Ya Xb Yb Pa Pb [fa Ca] [fb Cb]. cbn [if_collided]. unfold observed. cbn [nu_nucleons].
    destruct (nearish_computes (debug bd) ["p"%string; "p"%string] 0 PI ev [a] [b]) as [ev' H].
    - intros n [[<-|[]]|[<-|[]]] _; rewrite ?Ca, ?Cb; (split; [discriminate|]); intros q [<-|[]]; cbn; lra.
    - exact E.
    - exact N4.
    - change (co_nc two_collider) with (nucleon_common_of (real_config ["p"%string; "p"%string] 0) PI). rewrite H. reflexivity. }
  assert (H0 : mean_of (A:=RA) coin (on_tape ns gs (attempt (ideal plain_shapes seed) sfuel two_collider (Nucleus.proton (A:=RA)) (Nucleus.proton (A:=RA))))
    no_collision (1 / 2)).
  { apply (mean_of_plan RA plain_shapes seed coin coin_averages _ _ _ _ _ _ (p_attempt_ok plain_shapes seed ns gs sfuel two_collider _ _)).
    rewrite (attempt_value seed ns gs sfuel _ 1 0); [lra|reflexivity|reflexivity]. }
  split; [exact ST|]. split; [exact coin_averages|]. split; [exact coin_linear|]. split; [exact H1|]. split; [exact H0|]. intros n.
  replace (1 - (1 / 2) ^ n) with (1 / 2 * geometric (1 / 2) n) by (rewrite <- geometric_closed; lra).
  exact (C58_search RA plain_shapes seed coin coin_averages coin_linear bd _ _ ev ST sfuel two_collider ns gs _ _ _ H1 H0 n).
Qed.
