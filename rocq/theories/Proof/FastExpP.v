(** FastExp in real arithmetic. *)
From Coq Require Import Reals Lra.
From Flocq Require Import Core.
From Verif.Base Require Import Result Arith RArith.
From Verif.Model Require Import FastExp.
From Verif.Proof Require Import Basics RBasics ExpP.
Local Open Scope R_scope.

Lemma nth_error_zupto n k : (0 <= k < n)%Z -> nth_error (zupto n) (Z.to_nat k) = Some k.
Proof.
  intros H. unfold zupto, zrange. rewrite nth_error_map.
  rewrite (nth_error_nth' _ 0%nat) by (rewrite seq_length; lia).
  rewrite seq_nth by lia. simpl. f_equal. lia.
Qed.

Lemma fast_exp_eval_R dbg (xmin xmax : R) (n : Z) (x : R) :
  xmin < xmax -> (2 <= n <= 4294967296)%Z -> xmin <= x <= xmax ->
  let dx := (xmax - xmin) / IZR (n - 1) in
  exists k, (0 <= k < n)%Z /\ Rabs (x - (xmin + IZR k * dx)) <= dx / 2 /\
    fast_exp_eval (A:=RA) dbg (fast_exp_new (A:=RA) xmin xmax n) x
    = Ret (exp (xmin + IZR k * dx) * (1 + (x - (xmin + IZR k * dx)))) /\
    (forall j, (0 <= j < n)%Z -> x = xmin + IZR j * dx -> k = j).
Proof.
  intros Hlt Hn Hx dx.
  assert (Hn1 : 1 <= IZR (n - 1)) by (apply IZR_le; lia).
  assert (Hdx : 0 < dx) by (unfold dx; apply Rdiv_lt_0_compat; lra).
  assert (Hd : dx * IZR (n - 1) = xmax - xmin) by (unfold dx; field; lra).
  set (q := (x - xmin) / dx).
  assert (Hq : q * dx = x - xmin) by (unfold q; field; lra).
  assert (Hq0 : 0 <= q) by (unfold q; apply Rmult_le_pos; [lra|left; apply Rinv_0_lt_compat; lra]).
  assert (Hq1 : q <= IZR (n - 1)).
  { apply Rmult_le_reg_r with dx; auto. rewrite Hq. lra. }
  set (k := Ztrunc (q + 5 / 10)).
  assert (Ek : k = Zfloor (q + 5 / 10)) by (apply Ztrunc_floor; lra).
  pose proof (Zfloor_lb (q + 5 / 10)) as L. pose proof (Zfloor_ub (q + 5 / 10)) as U. rewrite <- Ek in L, U.
  assert (K0 : (0 <= k)%Z).
  { rewrite Ek. apply Zfloor_lub. simpl. lra. }
  assert (K1 : (k < n)%Z).
  { assert (IZR k < IZR n) by (rewrite minus_IZR in Hq1; lra). apply lt_IZR; auto. }
  exists k. split; [lia|]. split; [|split].
  - replace (x - (xmin + IZR k * dx)) with ((q - IZR k) * dx) by (rewrite Rmult_minus_distr_r, Hq; ring).
    rewrite Rabs_mult, (Rabs_right dx) by lra.
    assert (Rabs (q - IZR k) <= / 2) by (apply Rabs_le; lra).
    apply Rmult_le_compat_r with (r := dx) in H; lra.
  - unfold fast_exp_eval, fast_exp_new. cbn [fe_xmin fe_xmax fe_dx fe_table].
    replace (to_size (n - 1)) with (n - 1)%Z by (unfold to_size; rewrite Z.mod_small; lia).
    cbn [nltb RA RA_with nsub ndiv nofZ nlit nadd nmul nexp].
    fold dx. rlits.
    replace (Rltb x xmin) with false by (symmetry; apply Rltb_false; lra).
    replace (Rltb xmax x) with false by (symmetry; apply Rltb_false; lra).
    cbn [orb]. rewrite andb_false_r.
    unfold to_size_t. cbn [ntrunc RA RA_with]. fold q. fold k.
    unfold size_max. destruct (Z.leb_spec 0 k); [|lia]. destruct (Z.leb_spec k 18446744073709551615); [|lia].
    cbn [andb rbind]. rewrite nth_error_map, nth_error_zupto by lia. cbn [option_map].
    f_equal. f_equal. ring.
  - intros j Hj Ej. assert (q = IZR j) by (apply Rmult_eq_reg_r with dx; [|lra]; rewrite Hq, Ej; ring).
    rewrite Ek. rewrite H. apply Zfloor_imp. rewrite plus_IZR. lra.
Qed.

(** Relative error, for every table. *)
Lemma fast_exp_error dbg (xmin xmax : R) (n : Z) (x : R) :
  xmin < xmax -> (2 <= n <= 4294967296)%Z -> xmin <= x <= xmax ->
  let dx := (xmax - xmin) / IZR (n - 1) in
  exists y : R, fast_exp_eval (A:=RA) dbg (fast_exp_new (A:=RA) xmin xmax n) x = Ret y /\
    exp x * (1 - dx * dx / 8 * exp (dx / 2)) <= y <= exp x /\
    ((exists j, (0 <= j < n)%Z /\ x = xmin + IZR j * dx) -> y = exp x).
Proof.
  intros Hlt Hn Hx dx.
  destruct (fast_exp_eval_R dbg xmin xmax n x Hlt Hn Hx) as (k & Hk & Ha & E & Hj). fold dx in Ha, E, Hj.
  exists (exp (xmin + IZR k * dx) * (1 + (x - (xmin + IZR k * dx)))). split; [exact E|].
  set (xk := xmin + IZR k * dx) in *.
  pose proof (linear_exp_bounds (x - xk) (dx / 2) Ha) as [B1 B2].
  pose proof (exp_pos xk). assert (Ex : exp x = exp xk * exp (x - xk)) by (rewrite <- exp_plus; f_equal; ring).
  split; [split|].
  - rewrite Ex. rewrite Rmult_assoc. apply Rmult_le_compat_l; [lra|].
    replace (dx * dx / 8) with (dx / 2 * (dx / 2) / 2) by field. exact B1.
  - rewrite Ex. apply Rmult_le_compat_l; lra.
  - intros (j & Hj1 & Hj2). specialize (Hj j Hj1 Hj2). subst j. fold xk in Hj2. rewrite Hj2.
    unfold Rminus. rewrite Rplus_opp_r, Rplus_0_r, Rmult_1_r. reflexivity.
Qed.
