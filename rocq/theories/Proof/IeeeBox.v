(** The index box of a participant in binary64: cells outside it are farther than
    the inner cut from every constituent. *)
From Coq Require Import ZArith Reals Lra Lia Bool List Psatz String.
From Flocq Require Import Core BinarySingleNaN Relative Mult_error.
From Verif.Base Require Import Result Arith FArith RArith.
From Verif.Model Require Import FastExp Config Nucleon Nucleus Event.
From Verif.Spec Require Import Grid Profile Finite Accuracy.
From Verif.Proof Require Import Basics RBasics GridP EventP ExpP FastExpP Ieee IeeeInt IeeeSum IeeeExp IeeeThick IeeeProfile.
From Verif.Properties Require Import ImpactIeee ThicknessIeee.
Import ListNotations.
Local Open Scope R_scope.

Lemma scan_order (L : Libm) (l : list f64) : (forall x, In x l -> near x) -> forall lo hi lo' hi' : f64,
  near lo -> near hi -> B2R lo <= B2R hi -> fold_left (scan (A:=FA L)) l (lo, hi) = (lo', hi') ->
  near lo' /\ near hi' /\ B2R lo' <= B2R lo /\ B2R hi <= B2R hi' /\ (forall x, In x l -> B2R lo' <= B2R x <= B2R hi').
Proof.
  induction l as [|x l IH]; intros Hl lo hi lo' hi' N1 N2 H12 H; cbn [fold_left] in H.
  - apply pair_equal_spec in H. destruct H as [<- <-]. repeat split; try apply N1; try apply N2; try lra; destruct H.
  - assert (Nx : near x) by (apply Hl; simpl; auto).
    assert (Hl' : forall x, In x l -> near x) by (intros; apply Hl; simpl; auto).
    unfold scan at 2 in H. change (nltb (FA L)) with f64_ltb in H.
    rewrite (ltb_ok x lo) in H by (apply Nx || apply N1). rewrite (ltb_ok hi x) in H by (apply Nx || apply N2).
    destruct (Rlt_bool_spec (B2R x) (B2R lo)) as [C|C].
    { destruct (IH Hl' x hi lo' hi' Nx N2 ltac:(lra) H) as (A1 & A2 & A3 & A4 & A5).
      repeat split; try apply A1; try apply A2; try lra. all: destruct H0 as [<-|H0]; [lra|apply A5; exact H0]. }
    destruct (Rlt_bool_spec (B2R hi) (B2R x)) as [C'|C'].
    { destruct (IH Hl' lo x lo' hi' N1 Nx ltac:(lra) H) as (A1 & A2 & A3 & A4 & A5).
      repeat split; try apply A1; try apply A2; try lra. all: destruct H0 as [<-|H0]; [lra|apply A5; exact H0]. }
    destruct (IH Hl' lo hi lo' hi' N1 N2 H12 H) as (A1 & A2 & A3 & A4 & A5).
    repeat split; try apply A1; try apply A2; try lra. all: destruct H0 as [<-|H0]; [lra|apply A5; exact H0].
Qed.

Section Box.
Variable L : Libm.
Variables dxy xymax : f64.
Variable N : Z.
Hypothesis Fd : is_finite dxy = true.
Hypothesis Fx : is_finite xymax = true.
Let st := B2R dxy.
Hypothesis Bd : bpow radix2 (-400) <= st <= bpow radix2 200.
Hypothesis HN : (1 <= N <= 8192)%Z.
Hypothesis HX : Rabs (B2R xymax - IZR N * st / 2) <= bpow radix2 (-53) * (IZR N * st / 2).

Let st0 : 0 < st.
Proof. pose proof (bpow_gt_0 radix2 (-400)). lra. Qed.

Lemma xym_range : 0 <= B2R xymax <= 5000 * st /\ B2R xymax <= bpow radix2 213 /\ Rabs (B2R xymax - IZR N * st / 2) <= / 1000000 * st.
Proof.
  assert (N1 : 1 <= IZR N <= 8192) by (split; apply IZR_le; lia). pose proof u53_small as [U0 U1].
  set (h := IZR N * st / 2) in *. assert (H0 : 0 <= h <= 4096 * st) by (unfold h; nra).
  assert (E : u53 * h <= / 1000000 * st).
  { apply Rle_trans with (/ 1000000000000000 * (4096 * st)); [apply Rmult_le_compat; lra|lra]. }
  assert (E2 : u53 * h <= h) by nra.
  assert (A : 0 <= B2R xymax <= 5000 * st) by (apply Rabs_le_inv in HX; lra).
  split; [exact A|]. split; [|lra].
  change 213%Z with (13 + 200)%Z. rewrite bpow_plus. change (bpow radix2 13) with 8192. lra.
Qed.

Lemma index_err (b : f64) i : is_finite b = true -> Rabs (B2R b) <= bpow radix2 222 ->
  cell_index (A:=FA L) dxy xymax N b = Ret i ->
  exists q, i = clip (Ztrunc q) 0 (N - 1) /\ Rabs q <= 2147483649 /\ Rabs (B2R b + B2R xymax - q * st) <= / 100000 * st.
Proof.
  intros Fb Bb H. unfold cell_index in H. destruct xym_range as (X1 & X2 & _).
  change (ndiv (FA L) (nadd (FA L) b xymax) dxy) with (f64_div (f64_add b xymax) dxy) in H.
  assert (T : Rabs (B2R b + B2R xymax) <= bpow radix2 223).
  { change 223%Z with (1 + 222)%Z. rewrite bpow_plus. change (bpow radix2 1) with 2. assert (bpow radix2 213 <= bpow radix2 222) by (apply bpow_le; lia).
    apply Rabs_le_inv in Bb. apply Rabs_le. lra. }
  destruct (add_ok b xymax Fb Fx) as (E1 & F1 & _); [eapply Rle_trans; [exact T|apply bpow_le; lia]|].
  destruct (rnd_plus_rel _ _ (rep_B2R b) (rep_B2R xymax)) as (e1 & He1 & R1). rewrite R1 in E1.
  set (s := f64_add b xymax) in *. pose proof u53_small as [U0 U1]. 
  assert (Ts : Rabs (B2R s) <= bpow radix2 224).
  { rewrite E1, Rabs_mult. change 224%Z with (223 + 1)%Z. rewrite bpow_plus. change (bpow radix2 1) with 2. apply Rmult_le_compat; try apply Rabs_pos; auto.
    apply Rabs_le_inv in He1. apply Rabs_le. lra. }
  destruct (div_ok s dxy F1) as (E2 & F2 & _); [fold st; lra| |].
  { fold st. unfold Rdiv. rewrite Rabs_mult, Rabs_inv, (Rabs_pos_eq st) by lra.
    apply Rle_trans with (bpow radix2 224 * bpow radix2 400); [|rewrite <- bpow_plus; apply bpow_le; lia].
    apply Rmult_le_compat; [apply Rabs_pos|apply Rlt_le, Rinv_0_lt_compat; lra|exact Ts|].
    change 400%Z with (- (-400))%Z. rewrite bpow_opp. apply Rinv_le; [apply bpow_gt_0|lra]. }
  fold st in E2. destruct (rnd_err (B2R s / st)) as (e2 & h2 & He2 & Hh2 & R2). rewrite R2 in E2.
  set (d := f64_div s dxy) in *. unfold to_int in H. change (ntrunc (FA L) d) with (f64_trunc d) in H. rewrite (trunc_ok d F2) in H.
  destruct (in_int (Ztrunc (B2R d))) eqn:Ei; cbn [rbind] in H; [|discriminate H].
  exists (B2R d). split; [exact (f_equal (fun r : result Z => match r with Ret w => w | _ => i end) (eq_sym H))|].
  assert (Q : Rabs (B2R d) <= 2147483649).
  { unfold in_int, int_min, int_max in Ei. apply andb_prop in Ei. destruct Ei as [I1 I2]. apply Z.leb_le in I1, I2.
    pose proof (Ztrunc_floor (B2R d)). pose proof (Ztrunc_ceil (B2R d)).
    apply Rabs_le. destruct (Rle_lt_dec 0 (B2R d)) as [P|P].
    - rewrite Ztrunc_floor in I2 by exact P. pose proof (Zfloor_ub (B2R d)). apply IZR_le in I2. lra.
    - rewrite Ztrunc_ceil in I1 by lra. pose proof (Zceil_lb (B2R d)). apply IZR_le in I1. lra. }
  split; [exact Q|]. set (q := B2R d) in *. clearbody q. clear d H Ei F2. set (z := B2R b + B2R xymax) in *. clearbody z.
  apply Rabs_le_inv in He1, He2. assert (Hh : Rabs h2 <= / 1000000000) by (eapply Rle_trans; [exact Hh2|]; apply Rle_trans with (bpow radix2 (-30)); [apply bpow_le; lia|change (bpow radix2 (-30)) with (/ 1073741824); lra]).
  apply Rabs_le_inv in Hh, Q. set (w := B2R s / st) in *. assert (Ew : B2R s = w * st) by (unfold w; field; lra). clearbody w.
  assert (Wb : Rabs w <= 2147483700).
  { assert (W : w * (1 + e2) = q - h2) by lra. 
    assert (I : 1 - / 1000000000000 <= 1 + e2 <= 2) by lra. apply Rabs_le. split; nra. }
  apply Rabs_le_inv in Wb.
  assert (A1 : Rabs (w - q) <= / 400000).
  { rewrite E2. replace (w - (w * (1 + e2) + h2)) with (- (w * e2) - h2) by ring.
    assert (Rabs (w * e2) <= 2147483700 * / 1000000000000000) by (rewrite Rabs_mult; apply Rmult_le_compat; try apply Rabs_pos; apply Rabs_le; lra).
    apply Rabs_le_inv in H. apply Rabs_le. lra. }
  assert (Z1 : z * (1 + e1) = w * st) by lra.
  assert (I : exists f, Rabs f <= / 400000000000000 /\ z = w * st * (1 + f)).
  { exists (/ (1 + e1) - 1). split.
    - replace (/ (1 + e1) - 1) with (- e1 * / (1 + e1)) by (field; lra).
      rewrite Rabs_mult, Rabs_Ropp. assert (I2 : / (1 + e1) <= 2) by (rewrite <- (Rinv_inv 2); apply Rinv_le; lra).
      assert (I0 : 0 < / (1 + e1)) by (apply Rinv_0_lt_compat; lra).
      rewrite (Rabs_pos_eq (/ (1 + e1))) by lra. apply Rle_trans with (/ 1000000000000000 * 2); [|lra]. apply Rmult_le_compat; try lra; [apply Rabs_pos|apply Rabs_le; lra].
    - rewrite <- Z1. field. lra. }
  destruct I as (f & Hf & ->). replace (w * st * (1 + f) - q * st) with ((w - q + w * f) * st) by ring.
  rewrite Rabs_mult, (Rabs_pos_eq st) by lra. apply Rmult_le_compat_r; [lra|].
  eapply Rle_trans; [apply Rabs_triang|]. apply Rle_trans with (/ 400000 + 2147483700 * / 400000000000000); [|lra].
  apply Rplus_le_compat; [exact A1|]. rewrite Rabs_mult. apply Rmult_le_compat; try apply Rabs_pos; [apply Rabs_le; lra|exact Hf].
Qed.

(** The centre of cell i, and how it compares with edges of the box. *)
Let centre_exact (i : Z) : R := (IZR i + / 2) * st - IZR N * st / 2.

Lemma below_box (x r b : f64) i ix (c : R) : near x -> is_finite r = true -> 0 <= B2R r <= bpow radix2 204 ->
  b = f64_sub x r -> cell_index (A:=FA L) dxy xymax N b = Ret i -> (0 <= ix < i)%Z ->
  Rabs (c - centre_exact ix) <= / 1000000 * st -> c <= B2R x - B2R r.
Proof.
  intros [Fxx Bx] Fr Br Eb H Hi Hc. subst b. destruct xym_range as (X1 & X2 & X3).
  assert (T : Rabs (B2R x - B2R r) <= bpow radix2 221).
  { change 221%Z with (1 + 220)%Z. rewrite bpow_plus. change (bpow radix2 1) with 2. assert (bpow radix2 204 <= bpow radix2 220) by (apply bpow_le; lia).
    apply Rabs_le_inv in Bx. apply Rabs_le. lra. }
  destruct (sub_rel x r Fxx Fr) as (e & He & F & E); [eapply Rle_trans; [exact T|apply bpow_le; lia]|].
  set (b := f64_sub x r) in *. pose proof u53_small as [U0 U1]. apply Rabs_le_inv in He.
  destruct (index_err b i F) as (q & Ei & Bq & Eq); [|exact H|].
  { rewrite E, Rabs_mult. change 222%Z with (221 + 1)%Z. rewrite bpow_plus. change (bpow radix2 1) with 2. apply Rmult_le_compat; try apply Rabs_pos; auto. apply Rabs_le; lra. }
  assert (Tq : (ix + 1 <= Ztrunc q)%Z).
  { unfold clip in Ei. destruct (Z.ltb_spec (Ztrunc q) 0); [lia|]. destruct (Z.ltb_spec (N - 1) (Ztrunc q)); lia. }
  assert (Q1 : IZR ix + 1 <= q).
  { rewrite <- plus_IZR. apply Rle_trans with (IZR (Ztrunc q)); [apply IZR_le; exact Tq|].
    destruct (Rle_lt_dec 0 q) as [P|P]; [rewrite Ztrunc_floor by exact P; apply Zfloor_lb|].
    assert (Ztrunc q <= 0)%Z; [|lia]. rewrite Ztrunc_ceil by lra. apply Zceil_glb. lra. }
  apply Rabs_le_inv in Bq, Eq, Hc, X3. unfold centre_exact in Hc.
  assert (QS : (IZR ix + 1) * st <= q * st) by (apply Rmult_le_compat_r; lra).
  assert (QB : - (2147483649 * st) <= q * st <= 2147483649 * st) by nra.
  assert (BB : Rabs (B2R b) <= 2147490000 * st) by (apply Rabs_le; lra).
  assert (ER : Rabs (B2R b - (B2R x - B2R r)) <= / 100000 * st).
  { rewrite E. replace ((B2R x - B2R r) * (1 + e) - (B2R x - B2R r)) with ((B2R x - B2R r) * e) by ring. rewrite Rabs_mult.
    assert (M : Rabs (B2R x - B2R r) <= 2 * (2147490000 * st)).
    { rewrite E, Rabs_mult, (Rabs_pos_eq (1 + e)) in BB by lra. pose proof (Rabs_pos (B2R x - B2R r)). nra. }
    apply Rle_trans with (2 * (2147490000 * st) * / 1000000000000000); [|lra].
    apply Rmult_le_compat; try apply Rabs_pos; auto. apply Rabs_le; lra. }
  apply Rabs_le_inv in ER. lra.
Qed.

Lemma above_box (x r b : f64) i ix (c : R) : near x -> is_finite r = true -> 0 <= B2R r <= bpow radix2 204 ->
  b = f64_add x r -> cell_index (A:=FA L) dxy xymax N b = Ret i -> (i < ix < N)%Z -> (0 <= ix)%Z ->
  Rabs (c - centre_exact ix) <= / 1000000 * st -> B2R x + B2R r <= c.
Proof.
  intros [Fxx Bx] Fr Br Eb H Hi Hi0 Hc. subst b. destruct xym_range as (X1 & X2 & X3).
  assert (T : Rabs (B2R x + B2R r) <= bpow radix2 221).
  { change 221%Z with (1 + 220)%Z. rewrite bpow_plus. change (bpow radix2 1) with 2. assert (bpow radix2 204 <= bpow radix2 220) by (apply bpow_le; lia).
    apply Rabs_le_inv in Bx. apply Rabs_le. lra. }
  destruct (add_ok x r Fxx Fr) as (E & F & _); [eapply Rle_trans; [exact T|apply bpow_le; lia]|].
  destruct (rnd_plus_rel _ _ (rep_B2R x) (rep_B2R r)) as (e & He & R). rewrite R in E.
  set (b := f64_add x r) in *. pose proof u53_small as [U0 U1]. apply Rabs_le_inv in He.
  destruct (index_err b i F) as (q & Ei & Bq & Eq); [|exact H|].
  { rewrite E, Rabs_mult. change 222%Z with (221 + 1)%Z. rewrite bpow_plus. change (bpow radix2 1) with 2. apply Rmult_le_compat; try apply Rabs_pos; auto. apply Rabs_le; lra. }
  assert (Tq : (Ztrunc q <= ix - 1)%Z /\ (1 <= ix)%Z).
  { unfold clip in Ei. destruct (Z.ltb_spec (Ztrunc q) 0); [lia|]. destruct (Z.ltb_spec (N - 1) (Ztrunc q)); lia. }
  assert (Q1 : q <= IZR ix).
  { destruct (Rle_lt_dec 0 q) as [P|P].
    - rewrite Ztrunc_floor in Tq by exact P. pose proof (Zfloor_ub q). destruct Tq as [Tq _]. apply IZR_le in Tq. rewrite minus_IZR in Tq. lra.
    - assert (1 <= IZR ix) by (apply IZR_le; lia). lra. }
  apply Rabs_le_inv in Bq, Eq, Hc, X3. unfold centre_exact in Hc.
  assert (QS : q * st <= IZR ix * st) by (apply Rmult_le_compat_r; lra).
  assert (QB : - (2147483649 * st) <= q * st <= 2147483649 * st) by nra.
  assert (BB : Rabs (B2R b) <= 2147490000 * st) by (apply Rabs_le; lra).
  assert (ER : Rabs (B2R b - (B2R x + B2R r)) <= / 100000 * st).
  { rewrite E. replace ((B2R x + B2R r) * (1 + e) - (B2R x + B2R r)) with ((B2R x + B2R r) * e) by ring. rewrite Rabs_mult.
    assert (M : Rabs (B2R x + B2R r) <= 2 * (2147490000 * st)).
    { rewrite E, Rabs_mult, (Rabs_pos_eq (1 + e)) in BB by lra. pose proof (Rabs_pos (B2R x + B2R r)). nra. }
    apply Rle_trans with (2 * (2147490000 * st) * / 1000000000000000); [|lra].
    apply Rmult_le_compat; try apply Rabs_pos; auto. apply Rabs_le; lra. }
  apply Rabs_le_inv in ER. lra.
Qed.

Variable cfg : config (FA L).
Variable sp : f64.
Let v : f64 := constit_width cfg.
Hypothesis Fv : is_finite v = true.
Hypothesis Bv : bpow radix2 (-20) <= B2R v <= bpow radix2 200.
Let nc := nucleon_common_of cfg sp.
Let V := B2R v.

Lemma radius_v : let r : f64 := nsqrt (FA L) (nc_constituent_radius_sq nc) in
  is_finite r = true /\ 0 <= B2R r <= bpow radix2 204 /\ inner_cut V <= B2R r.
Proof.
  destruct (w5_v v Fv Bv) as (e & He & F5 & E5). destruct (V_range v Bv) as [V0 V2]. fold V in V0, V2, E5.
  pose proof u53_small as [U0 U1]. apply Rabs_le_inv in He.
  assert (BW : bpow radix2 (-20) <= B2R (f64_mul (f64_lit 5 0) v) <= bpow radix2 204).
  { rewrite E5. change 204%Z with (4 + 200)%Z. rewrite bpow_plus. change (bpow radix2 4) with 16. fold V in Bv. pose proof (bpow_gt_0 radix2 (-20)). split; nra. }
  set (w5 := f64_mul (f64_lit 5 0) v) in *.
  change (nsqrt (FA L) (nc_constituent_radius_sq nc)) with (f64_sqrt (f64_mul w5 w5)). cbv zeta.
  pose proof (bpow_gt_0 radix2 (-20)).
  destruct (mul_ok w5 w5 F5 F5) as (S1 & S2 & S3).
  { rewrite Rabs_pos_eq by nra. apply Rle_trans with (bpow radix2 204 * bpow radix2 204); [apply Rmult_le_compat; lra|]. rewrite <- bpow_plus. apply bpow_le. lia. }
  rewrite xorb_nilpotent in S3. destruct (sqrt_ok _ S2 S3) as (Q1 & Q2 & _). 
  assert (E : B2R (f64_sqrt (f64_mul w5 w5)) = B2R w5).
  { rewrite Q1, S1. apply Ieee.sqrt_square; [apply rep_B2R|]. split; (eapply Rle_trans; [|apply BW]) || (eapply Rle_trans; [apply BW|]); apply bpow_le; lia. }
  split; [exact Q2|]. rewrite E. split; [lra|]. rewrite E5. unfold inner_cut.
  assert (E48 : bpow radix2 (-48) = 32 * u53) by (change (-48)%Z with (5 + -53)%Z; rewrite bpow_plus; reflexivity). rewrite E48.
  apply Rmult_le_compat_l; [lra|]. lra.
Qed.

(** Cells outside the box. *)
Lemma outside_box (n : nucleon (FA L)) x0 x1 y0 y1 iy ix (cx cy : f64) : near_nucleon n ->
  box_of (A:=FA L) nc dxy xymax N n x0 x1 y0 y1 -> inside N iy ix -> ~ (y0 <= iy <= y1 /\ x0 <= ix <= x1)%Z ->
  Rabs (B2R cx - centre_exact ix) <= / 1000000 * st -> Rabs (B2R cy - centre_exact iy) <= / 1000000 * st ->
  forall q, In q (n_cons n) -> inner_cut V * inner_cut V <= sq_dist cx cy (q_x q) (q_y q).
Proof.
  intros [_ Hn] (b0 & b1 & b2 & b3 & Eb & E0 & E1 & E2 & E3) [Hy Hx] Ho Cx Cy q Hq.
  unfold boundary in Eb. destruct (n_cons n) as [|q0 qs] eqn:Ec; [discriminate Eb|].
  destruct (fold_left scan (map q_x qs) _) as [xmin xmax] eqn:Sx. destruct (fold_left scan (map q_y qs) _) as [ymin ymax] eqn:Sy.
  destruct radius_v as (Fr & Br & Cr). set (r := nsqrt (FA L) (nc_constituent_radius_sq nc)) in *.
  assert (BE : b0 = f64_sub xmin r /\ b1 = f64_add xmax r /\ b2 = f64_sub ymin r /\ b3 = f64_add ymax r).
  { pose proof (f_equal (fun z : result (num (FA L) * num (FA L) * num (FA L) * num (FA L)) => match z with Ret w => w | _ => (b0, b1, b2, b3) end) Eb) as P.
    cbv beta iota in P. apply pair_equal_spec in P. destruct P as [P P3]. apply pair_equal_spec in P. destruct P as [P P2].
    apply pair_equal_spec in P. destruct P as [P0 P1]. auto. }
  destruct BE as (-> & -> & -> & ->). clear Eb.
  assert (N0 : near (q_x q0) /\ near (q_y q0)) by (destruct (Hn q0 ltac:(simpl; auto)) as (? & ? & _); auto).
  destruct (scan_order L (map q_x qs)) with (5 := Sx) as (NX1 & NX2 & LX & HXX & RX); try apply N0; try lra.
  { intros x Hx'. apply in_map_iff in Hx'. destruct Hx' as (q' & <- & Hq'). apply (Hn q'). simpl. auto. }
  destruct (scan_order L (map q_y qs)) with (5 := Sy) as (NY1 & NY2 & LY & HYY & RY); try apply N0; try lra.
  { intros x Hx'. apply in_map_iff in Hx'. destruct Hx' as (q' & <- & Hq'). apply (Hn q'). simpl. auto. }
  assert (QX : B2R xmin <= B2R (q_x q : f64) <= B2R xmax) by (destruct Hq as [<-|Hq]; [lra|apply RX, in_map, Hq]).
  assert (QY : B2R ymin <= B2R (q_y q : f64) <= B2R ymax) by (destruct Hq as [<-|Hq]; [lra|apply RY, in_map, Hq]).
  assert (CP : 0 < inner_cut V) by (apply (cut_pos v Bv)).
  assert (SQ : forall a, inner_cut V <= a \/ a <= - inner_cut V -> inner_cut V * inner_cut V <= a * a) by (intros a [Ha|Ha]; nra).
  unfold sq_dist.
  assert (G : (ix < x0 \/ x1 < ix \/ iy < y0 \/ y1 < iy)%Z) by lia.
  destruct G as [G|[G|[G|G]]].
  - pose proof (below_box xmin r _ x0 ix (B2R cx) NX1 Fr Br eq_refl E0 ltac:(lia) Cx) as B.
    pose proof (SQ (B2R cx - B2R (q_x q : f64)) ltac:(right; lra)). pose proof (Rle_0_sqr (B2R cy - B2R (q_y q : f64))) as Z. unfold Rsqr in Z. lra.
  - pose proof (above_box xmax r _ x1 ix (B2R cx) NX2 Fr Br eq_refl E1 ltac:(lia) ltac:(lia) Cx) as B.
    pose proof (SQ (B2R cx - B2R (q_x q : f64)) ltac:(left; lra)). pose proof (Rle_0_sqr (B2R cy - B2R (q_y q : f64))) as Z. unfold Rsqr in Z. lra.
  - pose proof (below_box ymin r _ y0 iy (B2R cy) NY1 Fr Br eq_refl E2 ltac:(lia) Cy) as B.
    pose proof (SQ (B2R cy - B2R (q_y q : f64)) ltac:(right; lra)). pose proof (Rle_0_sqr (B2R cx - B2R (q_x q : f64))) as Z. unfold Rsqr in Z. lra.
  - pose proof (above_box ymax r _ y1 iy (B2R cy) NY2 Fr Br eq_refl E3 ltac:(lia) ltac:(lia) Cy) as B.
    pose proof (SQ (B2R cy - B2R (q_y q : f64)) ltac:(left; lra)). pose proof (Rle_0_sqr (B2R cx - B2R (q_x q : f64))) as Z. unfold Rsqr in Z. lra.
Qed.
End Box.
