(** FastExp and the nucleon thickness in binary64. *)
From Coq Require Import ZArith Reals Lra Lia Bool List Psatz String.
From Flocq Require Import Core BinarySingleNaN Relative Mult_error.
From Verif.Base Require Import Result Arith FArith.
From Verif.Model Require Import FastExp Config Nucleon Nucleus Event.
From Verif.Spec Require Import Finite.
From Verif.Proof Require Import Basics RBasics ExpP FastExpP Ieee IeeeInt IeeeSum.
From Verif.Properties Require Import ImpactIeee ThicknessIeee.
Import ListNotations.
Local Open Scope R_scope.

(** Rounding a number of magnitude at most 2000. *)
Definition ee : R := / 1000000000000.
Lemma rnd_near x : Rabs x <= 2000 -> Rabs (rnd x - x) <= ee.
Proof.
  intros H. eapply Rle_trans; [apply (rnd_abs x 2000 H)|].
  - apply Rle_trans with (bpow radix2 0); [apply bpow_le; lia|]. change (bpow radix2 0) with 1. lra.
  - unfold ee. change u53 with (/ 9007199254740992). lra.
Qed.

Lemma rnd_near' x : Rabs x <= 20 -> Rabs (rnd x - x) <= ee / 100.
Proof.
  intros H. eapply Rle_trans; [apply (rnd_abs x 20 H)|].
  - apply Rle_trans with (bpow radix2 0); [apply bpow_le; lia|]. change (bpow radix2 0) with 1. lra.
  - unfold ee. change u53 with (/ 9007199254740992). lra.
Qed.

Lemma index_near (x : f64) : is_finite x = true -> - 25 / 2 - tiny <= B2R x <= 0 ->
  exists z, f64_trunc (f64_add (f64_div (f64_sub x xmin64) dx64) (f64_lit 5 (-1))) = Some z /\ (0 <= z <= 999)%Z /\
    Rabs (B2R x + 25 / 2 - IZR z * B2R dx64) <= 62563 / 10000000.
Proof.
  intros Fx Hx. destruct (index_ok x Fx Hx) as (z & Ez & Hz). exists z. split; [exact Ez|]. split; [exact Hz|].
  destruct xmin_v as [Fm Vm]. destruct dx_v as [Fd Vd]. destruct half_v as [Fh Vh].
  assert (T : tiny = / 1073741824) by reflexivity.
  destruct (sub_ok x xmin64 Fx Fm) as (V1 & F1 & _). { apply big_1000. rewrite Vm. apply Rabs_le. lra. }
  pose proof (rnd_near' (B2R x - B2R xmin64) ltac:(rewrite Vm; apply Rabs_le; lra)) as N1. rewrite <- V1, Vm in N1.
  set (y := f64_sub x xmin64) in *. apply Rabs_le_inv in N1. unfold ee in N1.
  assert (Di : / B2R dx64 = 576460752303423488 / 7212972376168963) by (rewrite Vd; field).
  assert (Dp : 0 < B2R dx64) by (rewrite Vd; lra).
  set (q := B2R y / B2R dx64). 
  assert (Eq : q = B2R y * (576460752303423488 / 7212972376168963)) by (unfold q, Rdiv; rewrite Di; reflexivity).
  assert (Bq : -1 <= q <= 1000) by (rewrite Eq; lra).
  destruct (div_ok y dx64 F1) as (V2 & F2 & _); [lra|apply big_1000; fold q; apply Rabs_le; lra|]. fold q in V2.
  pose proof (rnd_near q ltac:(apply Rabs_le; lra)) as N2. rewrite <- V2 in N2. set (w := f64_div y dx64) in *.
  apply Rabs_le_inv in N2. unfold ee in N2.
  destruct (add_ok w (f64_lit 5 (-1)) F2 Fh) as (V3 & F3 & _); [apply big_1000; rewrite Vh; apply Rabs_le; lra|].
  pose proof (rnd_near (B2R w + B2R (f64_lit 5 (-1))) ltac:(rewrite Vh; apply Rabs_le; lra)) as N3. rewrite <- V3, Vh in N3.
  set (v := f64_add w (f64_lit 5 (-1))) in *. apply Rabs_le_inv in N3. unfold ee in N3.
  rewrite trunc_ok in Ez by exact F3. injection Ez as Ez.
  assert (v0 : 0 <= B2R v).
  { destruct (Rle_lt_dec 0 (B2R v)) as [?|Neg]; auto. exfalso. rewrite Eq in *. lra. }
  rewrite Ztrunc_floor in Ez by lra.
  pose proof (Zfloor_lb (B2R v)) as L1. pose proof (Zfloor_ub (B2R v)) as L2. rewrite Ez in L1, L2.
  assert (Eqx : q * B2R dx64 = B2R y) by (unfold q; field; lra).
  assert (Q : Rabs (q - IZR z) <= / 2 + 3 * / 1000000000000) by (apply Rabs_le; lra).
  replace (B2R x + 25 / 2 - IZR z * B2R dx64) with ((q - IZR z) * B2R dx64 + (B2R x + 25 / 2 - B2R y)) by (rewrite <- Eqx; ring).
  eapply Rle_trans; [apply Rabs_triang|]. rewrite Rabs_mult, (Rabs_pos_eq (B2R dx64)) by lra.
  assert (Rabs (B2R x + 25 / 2 - B2R y) <= / 100000000000000) by (apply Rabs_le; lra).
  assert (Rabs (q - IZR z) * B2R dx64 <= (/ 2 + 3 * / 1000000000000) * B2R dx64) by (apply Rmult_le_compat_r; lra).
  rewrite Vd in *. lra.
Qed.


(** 1 + h against exp h, for |h| below 0.006257. *)
Lemma exp_line h : Rabs h <= 6257 / 1000000 -> exp h * (1 - 2 / 100000) <= 1 + h <= exp h.
Proof.
  intros H. destruct (linear_exp_bounds h _ H) as [A B]. split; [|exact B]. eapply Rle_trans; [|exact A].
  apply Rmult_le_compat_l; [left; apply exp_pos|].
  pose proof (exp_small (6257 / 1000000) ltac:(lra)) as E.
  assert (/ (1 - 6257 / 1000000) <= 1007 / 1000).
  { apply Rmult_le_reg_r with (1 - 6257 / 1000000); [lra|]. rewrite Rinv_l by lra. lra. }
  nra.
Qed.

(** The argument of table entry z. *)
Lemma node_near z : (0 <= z <= 999)%Z ->
  let a := f64_add xmin64 (f64_mul (f64_ofZ z) dx64) in
  is_finite (f64_mul (f64_ofZ z) dx64) = true /\ Rabs (B2R (f64_mul (f64_ofZ z) dx64) - IZR z * B2R dx64) <= ee / 100 /\
  is_finite a = true /\ Rabs (B2R a - (IZR z * B2R dx64 - 25 / 2)) <= ee / 50.
Proof.
  intros Hz a. destruct xmin_v as [Fm Vm]. destruct dx_v as [Fd Vd]. destruct (ofZ_ok z) as [Fz Vz]; [lia|].
  assert (Z0 : 0 <= IZR z <= 999) by (split; apply IZR_le; lia).
  assert (B0 : 0 <= IZR z * B2R dx64 <= 13) by (rewrite Vd; lra).
  destruct (mul_ok (f64_ofZ z) dx64 Fz Fd) as (V1 & F1 & _). { rewrite Vz. apply big_1000. apply Rabs_le. lra. }
  rewrite Vz in V1. pose proof (rnd_near' (IZR z * B2R dx64) ltac:(apply Rabs_le; lra)) as N1. rewrite <- V1 in N1.
  split; [exact F1|]. split; [exact N1|]. set (c := f64_mul (f64_ofZ z) dx64) in *.
  apply Rabs_le_inv in N1. unfold ee in *.
  destruct (add_ok xmin64 c Fm F1) as (V2 & F2 & _). { rewrite Vm. apply big_1000. apply Rabs_le. lra. }
  fold a in V2, F2. rewrite Vm in V2. pose proof (rnd_near' (- 25 / 2 + B2R c) ltac:(apply Rabs_le; lra)) as N2. rewrite <- V2 in N2.
  split; [exact F2|]. apply Rabs_le_inv in N2. unfold ee in *. apply Rabs_le. lra.
Qed.

Lemma one_v : is_finite (f64_lit 1 0) = true /\ B2R (f64_lit 1 0) = 1.
Proof. split; [vm_compute; reflexivity|apply B2R_one]. Qed.

(** FastExp agrees with exp to a relative 2.1e-5. *)
Lemma fexp64_acc (L : Libm) (dbg : bool) (cfg : config (FA L)) (sp : f64) (x e : f64) :
  accurate_exp L -> is_finite x = true -> - 25 / 2 - tiny <= B2R x <= 0 ->
  fast_exp_eval (A:=FA L) dbg (nc_fast_exp (nucleon_common_of cfg sp)) x = Ret e ->
  is_finite e = true /\ Rabs (B2R e - exp (B2R x)) <= 21 / 1000000 * exp (B2R x).
Proof.
  intros HL Fx Hx H. unfold nucleon_common_of in H. cbn [nc_fast_exp] in H.
  destruct (index_near x Fx Hx) as (z & Ez & Hz & Nz).
  unfold fast_exp_eval in H. destruct (dbg && _)%bool eqn:E; [discriminate H|].
  unfold to_size_t in H.
  change (ntrunc (FA L) _) with (f64_trunc (f64_add (f64_div (f64_sub x xmin64) dx64) (f64_lit 5 (-1)))) in H.
  rewrite Ez in H.
  assert (B : ((0 <=? z)%Z && (z <=? size_max)%Z)%bool = true).
  { apply andb_true_intro. split; apply Z.leb_le; [lia|]. unfold size_max. lia. }
  rewrite B in H. cbn [rbind] in H.
  assert (NT : nth_error (fe_table (fast_exp_new (A:=FA L) (xmin64 : num (FA L)) (f64_lit 0 0) 1000)) (Z.to_nat z)
     = Some (m_exp L (f64_add xmin64 (f64_mul (f64_ofZ z) dx64)))).
  { unfold fast_exp_new. cbn [fe_table]. rewrite nth_error_map, nth_error_zupto by lia. reflexivity. }
  change (nth_error _ _) with (nth_error (fe_table (fast_exp_new (A:=FA L) (xmin64 : num (FA L)) (f64_lit 0 0) 1000)) (Z.to_nat z)) in H at 1.
  rewrite NT in H.
  match type of H with Ret ?v = Ret _ => assert (HE : v = e) by (exact (f_equal (fun r : result f64 => match r with Ret w => w | _ => e end) H)) end. clear H. 
  change (f64_mul (m_exp L (f64_add xmin64 (f64_mul (f64_ofZ z) dx64)))
    (f64_sub (f64_sub (f64_add (f64_lit 1 0) x) xmin64) (f64_mul (f64_ofZ z) dx64)) = e) in HE.
  destruct (node_near z Hz) as (Fc & Nc & Fa & Na).
  set (a := f64_add xmin64 (f64_mul (f64_ofZ z) dx64)) in *. set (c := f64_mul (f64_ofZ z) dx64) in *.
  destruct xmin_v as [Fm Vm]. destruct one_v as [F1 V1]. destruct dx_v as [Fd Vd].
  assert (T : tiny = / 1073741824) by reflexivity.
  assert (Z0 : 0 <= IZR z <= 999) by (split; apply IZR_le; lia).
  set (node := IZR z * B2R dx64) in *. assert (N0 : 0 <= node <= 13) by (unfold node; rewrite Vd; lra).
  apply Rabs_le_inv in Nz, Nc, Na. unfold ee in *.
  destruct (HL a Fa ltac:(lra)) as [Ft Et]. set (t := m_exp L a) in *.
  (* the linear factor *)
  destruct (add_ok (f64_lit 1 0) x F1 Fx) as (Va & Fa1 & _). { rewrite V1. apply big_1000. apply Rabs_le. lra. }
  rewrite V1 in Va. pose proof (rnd_near' (1 + B2R x) ltac:(apply Rabs_le; lra)) as N1. rewrite <- Va in N1. set (p := f64_add (f64_lit 1 0) x) in *.
  apply Rabs_le_inv in N1. unfold ee in N1.
  destruct (sub_ok p xmin64 Fa1 Fm) as (Vb & Fb & _). { rewrite Vm. apply big_1000. apply Rabs_le. lra. }
  rewrite Vm in Vb. pose proof (rnd_near' (B2R p - - 25 / 2) ltac:(apply Rabs_le; lra)) as N2. rewrite <- Vb in N2. set (q := f64_sub p xmin64) in *.
  apply Rabs_le_inv in N2. unfold ee in N2.
  destruct (sub_ok q c Fb Fc) as (Vd' & Fd' & _). { apply big_1000. apply Rabs_le. lra. }
  pose proof (rnd_near' (B2R q - B2R c) ltac:(apply Rabs_le; lra)) as N3. rewrite <- Vd' in N3. set (d := f64_sub q c) in *.
  apply Rabs_le_inv in N3. unfold ee in N3.
  set (h := B2R x - B2R a).
  assert (Hh : Rabs h <= 6257 / 1000000) by (unfold h; apply Rabs_le; lra).
  assert (Dh : Rabs (B2R d - (1 + h)) <= / 1000000000000) by (unfold h; apply Rabs_le; lra).
  destruct (exp_line h Hh) as [L1 L2]. apply Rabs_le_inv in Hh, Dh.
  assert (EX : exp (B2R x) = exp (B2R a) * exp h) by (rewrite <- exp_plus; f_equal; unfold h; ring).
  assert (Ea0 : 0 < exp (B2R a)) by apply exp_pos. assert (Eh0 : 0 < exp h) by apply exp_pos.
  assert (Ea1 : exp (B2R a) <= 4).
  { apply Rle_trans with (exp 1); [destruct (Rle_lt_or_eq_dec (B2R a) 1 ltac:(lra)) as [Q| ->]; [left; apply exp_increasing; exact Q|lra]|]. pose proof exp_le_3. lra. }
  assert (Ea2 : bpow radix2 (-40) <= exp (B2R a)).
  { (* exp(-13) > 2^-40 *)
    apply Rle_trans with (/ 4782969).
    - change (bpow radix2 (-40)) with (/ 1099511627776). apply Rinv_le; lra.
    - assert (Q : exp (- B2R a) <= 4782969).
      { apply Rle_trans with (exp (INR 14 * 1)).
        - assert (Q14 : - B2R a < INR 14 * 1) by (replace (INR 14) with 14 by (rewrite INR_IZR_INZ; reflexivity); lra). left. apply exp_increasing. exact Q14.
        - rewrite Rmult_comm. rewrite <- (Rmult_1_r 1) at 1. rewrite Rmult_1_r.
          assert (PW : forall n, exp (1 * INR n) = exp 1 ^ n).
          { induction n; [simpl; rewrite Rmult_0_r, exp_0; reflexivity|]. rewrite S_INR, Rmult_plus_distr_l, exp_plus, IHn, Rmult_1_r. simpl. ring. }
          rewrite PW. apply Rle_trans with (3 ^ 14); [apply pow_incr; split; [left; apply exp_pos|apply exp_le_3]|]. simpl. lra. }
      rewrite exp_Ropp in Q. 
      apply Rmult_le_reg_l with 4782969; [lra|]. rewrite Rinv_r by lra.
      apply Rmult_le_compat_r with (r := exp (B2R a)) in Q; [|lra]. rewrite Rinv_l in Q by lra. lra. }
  set (X := exp (B2R a)) in *. set (Eh := exp h) in *.
  assert (E40 : bpow radix2 (-40) <= / 1000000000000) by (change (bpow radix2 (-40)) with (/ 1099511627776); lra).
  assert (Et' : - (/ 1000000000000 * X) <= B2R t - X <= / 1000000000000 * X).
  { apply Rabs_le_inv. eapply Rle_trans; [exact Et|]. apply Rmult_le_compat_r; lra. }
  assert (Eh1 : 99 / 100 <= Eh <= 102 / 100) by nra.
  assert (d1 : 99 / 100 <= B2R d <= 102 / 100) by lra.
  assert (P1 : (1 - 205 / 10000000) * (X * Eh) <= B2R t * B2R d <= (1 + 1 / 10000000) * (X * Eh)).
  { assert (A1 : X * (1 - / 1000000000000) <= B2R t <= X * (1 + / 1000000000000)) by lra.
    assert (A2 : Eh * (1 - 2001 / 100000000) <= B2R d <= Eh * (1 + / 100000000000)) by lra.
    split.
    - apply Rle_trans with (X * (1 - / 1000000000000) * (Eh * (1 - 2001 / 100000000))).
      + replace (X * (1 - / 1000000000000) * (Eh * (1 - 2001 / 100000000))) with ((1 - / 1000000000000) * (1 - 2001 / 100000000) * (X * Eh)) by ring.
        apply Rmult_le_compat_r; [apply Rmult_le_pos; lra|lra].
      + apply Rmult_le_compat; lra.
    - apply Rle_trans with (X * (1 + / 1000000000000) * (Eh * (1 + / 100000000000))).
      + apply Rmult_le_compat; lra.
      + replace (X * (1 + / 1000000000000) * (Eh * (1 + / 100000000000))) with ((1 + / 1000000000000) * (1 + / 100000000000) * (X * Eh)) by ring.
        apply Rmult_le_compat_r; [apply Rmult_le_pos; lra|lra]. }
  assert (XE : 0 < X * Eh <= 5) by (split; [apply Rmult_lt_0_compat; lra|nra]).
  destruct (mul_ok t d Ft Fd') as (Ve & Fe & _). { apply big_1000. apply Rabs_le. lra. }
  rewrite HE in Ve, Fe. split; [exact Fe|].
  destruct (rnd_rel (B2R t * B2R d)) as (r & Hr & Er).
  { rewrite Rabs_pos_eq by lra. apply Rle_trans with (bpow radix2 (-42)); [apply bpow_le; lia|].
    change (-42)%Z with (-2 + -40)%Z. rewrite bpow_plus. change (bpow radix2 (-2)) with (/ 4). nra. }
  rewrite EX. rewrite Ve, Er. apply Rabs_le_inv in Hr. change u53 with (/ 9007199254740992) in Hr.
  apply Rabs_le. set (W := X * Eh) in *. set (V := B2R t * B2R d) in *.
  assert (V0 : 0 < V <= 6) by lra.
  assert (V * (- / 9007199254740992) <= V * r <= V * / 9007199254740992) by (split; apply Rmult_le_compat_l; lra). lra.
Qed.
