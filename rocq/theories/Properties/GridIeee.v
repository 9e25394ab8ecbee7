(** C12 and C13 (binary64 half): the grid of an event and the absence of
    undefined behaviour in compute, in IEEE-754 binary64 arithmetic, for every
    libm. *)
From Coq Require Import ZArith Reals Lra Lia Bool List Psatz String.
From Flocq Require Import Core BinarySingleNaN Mult_error.
From Verif.Base Require Import Result Arith FArith RArith.
From Verif.Model Require Import FastExp Config Nucleon Nucleus Event.
From Verif.Spec Require Import Grid Evolved Profile.
From Verif.Proof Require Import Basics RBasics NucleonP GridP EventP DepositR Ieee DecR IeeeInt.
From Verif.Properties Require Import Thickness ImpactIeee ThicknessIeee GridProps.
Import ListNotations.
Local Open Scope R_scope.

(** A grid half-width and step that are finite and of moderate magnitude, with a
    quotient that is well inside int. *)
Definition usable_grid (mx st : f64) : Prop :=
  is_finite mx = true /\ is_finite st = true /\
  bpow radix2 (-400) <= B2R mx <= bpow radix2 400 /\
  bpow radix2 (-400) <= B2R st <= bpow radix2 400 /\
  2 * B2R mx / B2R st <= bpow radix2 30.

Lemma eps_small : 0 < bpow radix2 (-53) <= / 1000000.
Proof.
  split; [apply bpow_gt_0|]. apply Rle_trans with (bpow radix2 (-20)); [apply bpow_le; lia|].
  change (bpow radix2 (-20)) with (/ IZR (2 ^ 20)). apply Rinv_le; [lra|]. apply IZR_le. vm_compute. discriminate.
Qed.

Lemma p30 : bpow radix2 30 = 1073741824. Proof. reflexivity. Qed.

Lemma to_1000 (x : R) e : (e <= 1000)%Z -> Rabs x <= bpow radix2 e -> Rabs x <= bpow radix2 1000.
Proof. intros He H. eapply Rle_trans; [exact H|]. apply bpow_le. exact He. Qed.

Lemma two_v : is_finite (f64_lit 2 0) = true /\ B2R (f64_lit 2 0) = 2.
Proof.
  split; [vm_compute; reflexivity|].
  rewrite (B2R_SF (f64_lit 2 0) (SpecFloat.S754_finite false 4503599627370496 (-51))) by (vm_compute; reflexivity).
  unfold SF2R, F2R, Defs.Fnum, Defs.Fexp, cond_Zopp. change (bpow radix2 (-51)) with (/ IZR (2 ^ 51)). 
  change (IZR (2 ^ 51)) with 2251799813685248. lra.
Qed.


Lemma rnd_double x : rep x -> rnd (2 * x) = 2 * x.
Proof.
  intros H. apply rnd_id. replace (2 * x) with (x * bpow radix2 1) by (simpl; lra).
  apply mult_bpow_pos_exact_FLT; [exact H|lia].
Qed.

(** The constructor on a usable grid: its number of steps and half-width. *)
Lemma event_new_ieee (L : Libm) (cfg : config (FA L)) :
  usable_grid (grid_max cfg) (grid_step cfg) ->
  let mx := B2R (grid_max cfg : f64) in
  let st := B2R (grid_step cfg : f64) in
  exists ev, event_new cfg = Ret ev /\
    ev_nsteps ev = Zceil (rnd (2 * mx / st)) /\
    ev_dxy ev = grid_step cfg /\
    is_finite (ev_xymax ev : f64) = true /\
    B2R (ev_xymax ev : f64) = rnd (IZR (ev_nsteps ev) / 2 * st) /\
    square (ev_nsteps ev) (ev_TA ev) /\ square (ev_nsteps ev) (ev_TB ev) /\ square (ev_nsteps ev) (ev_TR ev).
Proof.
  intros (Fm & Fs & Bm & Bs & Bq). intros mx st. fold mx in Bm, Bq. fold st in Bs, Bq.
  assert (Pm : 0 < mx) by (pose proof (bpow_gt_0 radix2 (-400)); lra).
  assert (Ps : 0 < st) by (pose proof (bpow_gt_0 radix2 (-400)); lra).
  destruct two_v as [F2 V2]. destruct half_v as [Fh Vh].
  destruct (mul_ok (f64_lit 2 0) (grid_max cfg) F2 Fm) as (M1 & M2 & _).
  { rewrite V2. fold mx. rewrite Rabs_pos_eq by lra. apply Rle_trans with (bpow radix2 401); [|apply bpow_le; lia].
    replace (bpow radix2 401) with (2 * bpow radix2 400) by (change 401%Z with (1 + 400)%Z; rewrite bpow_plus; reflexivity). lra. }
  rewrite V2 in M1. fold mx in M1. rewrite rnd_double in M1 by apply rep_B2R.
  assert (Q0 : 0 < 2 * mx / st) by (apply Rdiv_lt_0_compat; lra).
  destruct (div_ok (f64_mul (f64_lit 2 0) (grid_max cfg)) (grid_step cfg) M2) as (D1 & D2 & _).
  { fold st. lra. }
  { rewrite M1. fold st. rewrite Rabs_pos_eq by lra. apply Rle_trans with (bpow radix2 30); [exact Bq|]. apply bpow_le. lia. }
  rewrite M1 in D1. fold st in D1.
  assert (R0 : 0 <= rnd (2 * mx / st) <= bpow radix2 30).
  { apply rnd_between; [apply rep_0|apply rep_bpow; lia|lra]. }
  assert (C : f64_trunc (f64_ceil (f64_div (f64_mul (f64_lit 2 0) (grid_max cfg)) (grid_step cfg))) = Some (Zceil (rnd (2 * mx / st)))).
  { rewrite <- D1. apply ceil_trunc_ok; [exact D2|]. rewrite D1. rewrite Rabs_pos_eq by lra.
    rewrite p30 in R0. apply Rle_trans with 1073741824; [lra|]. apply IZR_le. vm_compute. discriminate. }
  set (N := Zceil (rnd (2 * mx / st))) in *.
  assert (N0 : (0 <= N <= 1073741824)%Z).
  { split; [|apply Zceil_glb; rewrite p30 in R0; lra]. apply le_IZR. pose proof (Zceil_ub (rnd (2 * mx / st))) as U. fold N in U. simpl. lra. }
  assert (TI : to_int (A:=FA L) (nceil (FA L) (ndiv (FA L) (nmul (FA L) (nlit (FA L) 2 0) (grid_max cfg)) (grid_step cfg))) = Ret N).
  { unfold to_int. change (ntrunc (FA L) _) with (f64_trunc (f64_ceil (f64_div (f64_mul (f64_lit 2 0) (grid_max cfg)) (grid_step cfg)))).
    rewrite C. assert (IN : in_int N = true).
    { unfold in_int, int_min, int_max. apply andb_true_iff. rewrite !Z.leb_le. lia. }
    rewrite IN. reflexivity. }
  unfold event_new. rewrite TI. cbn [rbind]. eexists. split; [reflexivity|].
  cbn [ev_nsteps ev_dxy ev_xymax ev_TA ev_TB ev_TR].
  split; [reflexivity|]. split; [reflexivity|].
  destruct (ofZ_ok N) as [Fn Vn]; [lia|].
  assert (HN : Rabs (B2R (f64_lit 5 (-1)) * B2R (f64_ofZ N)) <= bpow radix2 1000).
  { rewrite Vh, Vn. destruct N0 as [Na Nb]. apply IZR_le in Na. apply IZR_le in Nb. apply to_1000 with 30%Z; [lia|].
    rewrite p30. rewrite Rabs_pos_eq by lra. lra. }
  destruct (mul_ok (f64_lit 5 (-1)) (f64_ofZ N) Fh Fn HN) as (H1 & H2 & _).
  rewrite Vh, Vn in H1.
  assert (H3 : rnd (/ 2 * IZR N) = IZR N / 2).
  { rewrite rnd_id; [field|]. replace (/ 2 * IZR N) with (IZR N / IZR (2 ^ 1)) by (change (IZR (2 ^ 1)) with 2; lra). apply rep_frac; lia. }
  rewrite H3 in H1.
  destruct (mul_ok (f64_mul (f64_lit 5 (-1)) (f64_ofZ N)) (grid_step cfg) H2 Fs) as (X1 & X2 & _).
  { rewrite H1. fold st. destruct N0 as [Na Nb]. apply IZR_le in Na. apply IZR_le in Nb. apply to_1000 with (30 + 400)%Z; [lia|].
    rewrite bpow_plus, p30. rewrite Rabs_pos_eq by nra. apply Rmult_le_compat; lra. }
  rewrite H1 in X1. split; [exact X2|]. split; [exact X1|].
  split; [apply zeros_square|]. split; apply zeros_square.
Qed.

Lemma ceil_rnd_le x : 0 <= x <= bpow radix2 30 -> (Zceil (rnd x) <= Zceil x)%Z.
Proof.
  intros H. apply Zceil_glb. rewrite p30 in H.
  assert (K : rep (IZR (Zceil x))).
  { apply rep_Z. assert (0 <= Zceil x <= 1073741824)%Z; [|lia]. split.
    - apply le_IZR. pose proof (Zceil_ub x). simpl. lra.
    - apply Zceil_glb. lra. }
  rewrite <- (rnd_id _ K). apply rnd_le. apply Zceil_ub.
Qed.

Lemma floor_rnd_ge x : 0 <= x <= bpow radix2 30 -> IZR (Zceil x) - 1 <= rnd x.
Proof.
  intros H. rewrite p30 in H. rewrite <- minus_IZR.
  assert (K : rep (IZR (Zceil x - 1))).
  { apply rep_Z. assert (0 <= Zceil x <= 1073741824)%Z; [|lia]. split.
    - apply le_IZR. pose proof (Zceil_ub x). simpl. lra.
    - apply Zceil_glb. lra. }
  rewrite <- (rnd_id _ K). apply rnd_le. rewrite minus_IZR. pose proof (Zceil_lb x). lra.
Qed.

(** ** C12 in binary64 *)

(** For every libm and every usable grid, the constructor returns; the grid is
    N x N where N is ceil(2 max/step) of the exact quotient of the two doubles or,
    when that quotient exceeds an integer by less than a relative 2^-52, that
    integer (so the grid never has more cells than the exact formula and covers
    [-max, max] up to a relative 2^-52); the half-width and all cell centres are
    within rounding of N step/2 and (i+1/2) step - N step/2. *)
Theorem C12_ieee :
  forall (L : Libm) (cfg : config (FA L)),
  usable_grid (grid_max cfg) (grid_step cfg) ->
  let mx := B2R (grid_max cfg : f64) in
  let st := B2R (grid_step cfg : f64) in
  let q := 2 * mx / st in
  exists ev, event_new cfg = Ret ev /\
    let N := ev_nsteps ev in
    square N (ev_TA ev) /\ square N (ev_TB ev) /\ square N (ev_TR ev) /\
    (1 <= N)%Z /\ (N = Zceil q \/ N = (Zceil q - 1)%Z) /\
    q <= IZR N * (1 + bpow radix2 (-52)) /\
    ev_dxy ev = grid_step cfg /\
    is_finite (ev_xymax ev : f64) = true /\
    Rabs (B2R (ev_xymax ev : f64) - IZR N * st / 2) <= bpow radix2 (-53) * (IZR N * st / 2) /\
    mx * (1 - bpow radix2 (-51)) <= B2R (ev_xymax ev : f64) <= (mx + st / 2) * (1 + bpow radix2 (-51)) /\
    (forall i, (0 <= i < N)%Z ->
       let c := cell_centre (ev_dxy ev) (ev_xymax ev) i : f64 in
       is_finite c = true /\
       Rabs (B2R c - ((IZR i + / 2) * st - IZR N * st / 2)) <= bpow radix2 (-51) * (IZR N * st)).
Proof.
  intros L cfg U mx st q. destruct (event_new_ieee L cfg U) as (ev & E & EN & ED & FX & EX & S1 & S2 & S3).
  fold mx st q in EN. fold st in EX.
  destruct U as (Fm & Fs & Bm & Bs & Bq). fold mx in Bm, Bq. fold st in Bs, Bq. fold q in Bq.
  exists ev. split; [exact E|]. intros N. fold N in EN, EX, S1, S2, S3.
  assert (Pm : 0 < mx) by (pose proof (bpow_gt_0 radix2 (-400)); lra).
  assert (Ps : 0 < st) by (pose proof (bpow_gt_0 radix2 (-400)); lra).
  assert (Eq : q * st = 2 * mx) by (unfold q; field; lra).
  assert (Q0 : 0 < q) by (unfold q; apply Rdiv_lt_0_compat; lra).
  destruct eps_small as [e0 e1].
  assert (e52 : bpow radix2 (-52) = 2 * bpow radix2 (-53)) by (change (-52)%Z with (1 + -53)%Z; rewrite bpow_plus; reflexivity).
  assert (e51 : bpow radix2 (-51) = 4 * bpow radix2 (-53)) by (change (-51)%Z with (2 + -53)%Z; rewrite bpow_plus; reflexivity).
  rewrite e52, e51. 
  assert (Ql : bpow radix2 (-800) <= q).
  { unfold q. apply Rmult_le_reg_r with st; [exact Ps|]. replace (2 * mx / st * st) with (2 * mx) by (field; lra).
    apply Rle_trans with (bpow radix2 (-400)); [|lra]. replace (bpow radix2 (-400)) with (bpow radix2 (-800) * bpow radix2 400) by (rewrite <- bpow_plus; reflexivity).
    apply Rmult_le_compat_l; [apply bpow_ge_0|lra]. }
  destruct (rnd_rel q) as (d & Hd & Eqd).
  { rewrite Rabs_pos_eq by lra. apply Rle_trans with (bpow radix2 (-800)); [apply bpow_le; lia|exact Ql]. }
  apply Rabs_le_inv in Hd.
  assert (rq : 0 < rnd q) by (rewrite Eqd; apply Rmult_lt_0_compat; lra).
  pose proof (Zceil_ub (rnd q)) as UN. rewrite <- EN in UN.
  assert (N1 : (1 <= N)%Z). { assert (0 < N)%Z; [|lia]. apply lt_IZR. simpl. lra. }
  pose proof (ceil_rnd_le q ltac:(lra)) as CL. rewrite <- EN in CL.
  pose proof (floor_rnd_ge q ltac:(lra)) as CG.
  assert (CG' : (Zceil q - 1 <= N)%Z). { apply le_IZR. rewrite minus_IZR. simpl. lra. }
  assert (N30 : (N <= 1073741824)%Z). { eapply Z.le_trans; [exact CL|]. apply Zceil_glb. rewrite p30 in Bq. exact Bq. }
  assert (N1' : 1 <= IZR N <= 1073741824) by (split; apply IZR_le; lia).
  assert (QN : q <= IZR N * (1 + 2 * bpow radix2 (-53))).
  { set (e := bpow radix2 (-53)) in *. rewrite Eqd in UN.
    assert (q * (1 - e) <= IZR N) by nra. assert (0 < IZR N) by lra.
    apply Rmult_le_reg_r with (1 - e); [lra|]. apply Rle_trans with (IZR N); [lra|].
    assert (1 <= (1 + 2 * e) * (1 - e)) by nra. nra. }
  split; [exact S1|]. split; [exact S2|]. split; [exact S3|]. split; [exact N1|]. split; [lia|]. split; [exact QN|].
  split; [exact ED|]. split; [exact FX|].
  assert (NS0 : 0 < IZR N / 2 * st) by nra.
  destruct (rnd_rel (IZR N / 2 * st)) as (dx & Hdx & Edx).
  { rewrite Rabs_pos_eq by lra. apply Rle_trans with (bpow radix2 (-401)); [apply bpow_le; lia|].
    replace (bpow radix2 (-401)) with (/ 2 * bpow radix2 (-400)) by (change (-401)%Z with (-1 + -400)%Z; rewrite bpow_plus; reflexivity). nra. }
  rewrite Edx in EX. pose proof (Rabs_le_inv _ _ Hdx) as Hdx'.
  assert (AX : Rabs (B2R (ev_xymax ev : f64) - IZR N * st / 2) <= bpow radix2 (-53) * (IZR N * st / 2)).
  { rewrite EX. replace (IZR N / 2 * st * (1 + dx) - IZR N * st / 2) with (dx * (IZR N * st / 2)) by field.
    rewrite Rabs_mult, (Rabs_pos_eq (IZR N * st / 2)) by nra. apply Rmult_le_compat_r; [nra|exact Hdx]. }
  split; [exact AX|].
  set (e := bpow radix2 (-53)) in *.
  assert (LN : IZR N < q * (1 + e) + 1).
  { pose proof (Zceil_lb (rnd q)) as LB. rewrite <- EN, Eqd in LB. nra. }
  split.
  { rewrite EX. assert (2 * mx <= IZR N * st * (1 + 2 * e)) by (rewrite <- Eq; nra).
    assert (IZR N * st <= 2 * mx * (1 + e) + st) by (rewrite <- Eq; nra).
    set (K := IZR N * st) in *. replace (IZR N / 2 * st) with (K / 2) by (unfold K; field). clearbody K. clear - Pm Ps e0 e1 H H0 Hdx'.
    assert (0 < K) by nra. split.
    - apply Rle_trans with (K / 2 * (1 - e)); [|nra].
      apply Rmult_le_reg_r with (1 + 2 * e); [lra|].
      apply Rle_trans with (mx * (1 - e)); [|nra]. 
      assert ((1 - 4 * e) * (1 + 2 * e) <= 1 - e) by nra. nra.
    - apply Rle_trans with (K / 2 * (1 + e)); [nra|].
      apply Rle_trans with ((mx * (1 + e) + st / 2) * (1 + e)); [nra|].
      apply Rle_trans with ((mx + st / 2) * (1 + e) * (1 + e)); [nra|].
      assert ((1 + e) * (1 + e) <= 1 + 4 * e) by nra. nra. }
  intros i Hi. unfold cell_centre. rewrite ED.
  change (nsub (FA L) (nmul (FA L) (nadd (FA L) (nofZ (FA L) i) (nlit (FA L) 5 (-1))) (grid_step cfg)) (ev_xymax ev))
    with (f64_sub (f64_mul (f64_add (f64_ofZ i) (f64_lit 5 (-1))) (grid_step cfg)) (ev_xymax ev)).
  destruct half_v as [Fh Vh]. destruct (ofZ_ok i) as [Fi Vi]; [lia|].
  assert (I0 : 0 <= IZR i <= IZR N - 1). { rewrite <- minus_IZR. split; apply IZR_le; lia. }
  destruct (add_ok (f64_ofZ i) (f64_lit 5 (-1)) Fi Fh) as (A1 & A2 & _).
  { rewrite Vi, Vh. apply to_1000 with 31%Z; [lia|]. change (bpow radix2 31) with 2147483648. rewrite Rabs_pos_eq by lra. lra. }
  rewrite Vi, Vh in A1.
  rewrite rnd_id in A1; [|replace (IZR i + / 2) with (IZR (2 * i + 1) / IZR (2 ^ 1)) by (rewrite plus_IZR, mult_IZR; change (IZR (2 ^ 1)) with 2; lra); apply rep_frac; lia].
  assert (IS : 0 < (IZR i + / 2) * st <= IZR N * st) by (split; nra).
  assert (NSb : IZR N * st <= bpow radix2 430).
  { change 430%Z with (30 + 400)%Z. rewrite bpow_plus, p30. apply Rmult_le_compat; lra. }
  assert (P431 : bpow radix2 432 = 4 * bpow radix2 430) by (change 432%Z with (2 + 430)%Z; rewrite bpow_plus; reflexivity).
  destruct (mul_ok (f64_add (f64_ofZ i) (f64_lit 5 (-1))) (grid_step cfg) A2 Fs) as (M1 & M2 & _).
  { rewrite A1. fold st. apply to_1000 with 430%Z; [lia|]. rewrite Rabs_pos_eq by lra. lra. }
  rewrite A1 in M1. fold st in M1.
  destruct (rnd_rel ((IZR i + / 2) * st)) as (d1 & Hd1 & E1).
  { rewrite Rabs_pos_eq by lra. apply Rle_trans with (bpow radix2 (-401)); [apply bpow_le; lia|].
    replace (bpow radix2 (-401)) with (/ 2 * bpow radix2 (-400)) by (change (-401)%Z with (-1 + -400)%Z; rewrite bpow_plus; reflexivity). nra. }
  rewrite E1 in M1. apply Rabs_le_inv in Hd1. apply Rabs_le_inv in AX.
  set (K := IZR N * st) in *. fold e in Hd1.
  set (c1 := B2R (f64_mul (f64_add (f64_ofZ i) (f64_lit 5 (-1))) (grid_step cfg))) in *.
  set (X := B2R (ev_xymax ev : f64)) in *. set (a := (IZR i + / 2) * st) in *.
  assert (C1 : - (e * K) <= c1 - a <= e * K).
  { rewrite M1. replace (a * (1 + d1) - a) with (a * d1) by ring. split; nra. }
  assert (K0 : 0 < K) by lra.
  assert (CX : - (51 / 100 * K) <= c1 - X <= 51 / 100 * K).
  { assert (e * K <= / 1000000 * K) by (apply Rmult_le_compat_r; lra).
    assert (a <= K - st / 2) by (unfold a, K; nra). assert (0 <= a) by lra. split; lra. }
  destruct (sub_ok _ _ M2 FX) as (T1 & T2 & _).
  { fold c1 X. apply to_1000 with 432%Z; [lia|]. apply Rabs_le. lra. }
  split; [exact T2|]. fold c1 X in T1. rewrite T1.
  destruct (rnd_plus_rel c1 (- X)) as (d2 & Hd2 & E2).
  { apply rep_B2R. }
  { apply generic_format_opp. apply rep_B2R. }
  change (c1 + - X) with (c1 - X) in E2. rewrite E2. apply Rabs_le_inv in Hd2. fold e in Hd2.
  apply Rabs_le. clear - C1 CX AX Hd2 K0 e0 e1.
  assert (- (e * (51 / 100 * K)) <= (c1 - X) * d2 <= e * (51 / 100 * K)).
  { apply Rabs_le_inv. rewrite Rabs_mult, (Rmult_comm e). apply Rmult_le_compat; try apply Rabs_pos; apply Rabs_le; lra. }
  assert (0 < e * K) by nra. split; nra.
Qed.

(** ** C13 in binary64 *)

(** Returns, or throws std::out_of_range. *)
Definition settled {X} (r : result X) (P : X -> Prop) : Prop :=
  (exists x, r = Ret x /\ P x) \/ (exists m, r = Throw (OutOfRange m)).

Lemma rfold_settled {S X} (f : S -> X -> result S) (P : S -> Prop) (l : list X) :
  (forall s x, In x l -> P s -> settled (f s x) P) -> forall s, P s -> settled (rfold f l s) P.
Proof.
  induction l as [|x l IH]; intros Hf s Hs; cbn [rfold]; [left; exists s; auto|].
  destruct (Hf s x (or_introl eq_refl) Hs) as [(s1 & -> & P1)|(m & ->)]; cbn [rbind].
  - apply IH; auto. intros; apply Hf; simpl; auto.
  - right. exists m. reflexivity.
Qed.

Section Settled.
Context {A : Arith}.

Lemma deposit_settled dbg nc dxy xymax N n (g : grid A) :
  (0 < N)%Z -> square N g ->
  (exists b0 b1 b2 b3, boundary nc n = Ret (b0, b1, b2, b3) /\
     forall b, b = b0 \/ b = b1 \/ b = b2 \/ b = b3 -> exists i, to_int (ndiv A (nadd A b xymax) dxy) = Ret i) ->
  (forall x y, settled (thickness dbg nc n x y) (fun _ => True)) ->
  settled (deposit dbg nc dxy xymax N n g) (square N).
Proof.
  intros HN Sg (b0 & b1 & b2 & b3 & Eb & Hi) Ht.
  assert (HI : forall b, b = b0 \/ b = b1 \/ b = b2 \/ b = b3 ->
               exists i, cell_index dxy xymax N b = Ret i /\ (0 <= i < N)%Z).
  { intros b Hb. destruct (Hi b Hb) as (i & E). exists (clip i 0 (N - 1)). unfold cell_index. rewrite E. split; [reflexivity|]. apply clip_range; auto. }
  destruct (HI b0) as (x0 & E0 & R0); auto. destruct (HI b1) as (x1 & E1 & R1); auto.
  destruct (HI b2) as (y0 & E2 & R2); auto. destruct (HI b3) as (y1 & E3 & R3); auto.
  unfold deposit. rewrite Eb. cbn [rbind]. rewrite E0, E1, E2, E3. cbn [rbind].
  apply rfold_settled; [|exact Sg]. intros g1 iy Hy S1. apply in_zrange in Hy.
  apply rfold_settled; [|exact S1]. intros g2 ix Hx S2. apply in_zrange in Hx.
  assert (I : inside N iy ix) by (split; lia).
  rewrite (grid_get_cell N) by auto. cbn [rbind].
  destruct (Ht (cell_centre dxy xymax ix) (cell_centre dxy xymax iy)) as [(t & -> & _)|(m & ->)]; cbn [rbind]; [|right; eauto].
  destruct (grid_set_ok N g2 iy ix (nadd A (cell g2 iy ix) t) S2 I) as (g3 & -> & S3 & _).
  left. exists g3. auto.
Qed.

Lemma event_compute_settled dbg (ev : event A) As Bs nc :
  ready ev -> (0 < ev_nsteps ev)%Z ->
  (forall n, In n As \/ In n Bs -> n_part n = true ->
     (exists b0 b1 b2 b3, boundary nc n = Ret (b0, b1, b2, b3) /\
       forall b, b = b0 \/ b = b1 \/ b = b2 \/ b = b3 -> exists i, to_int (ndiv A (nadd A b (ev_xymax ev)) (ev_dxy ev)) = Ret i) /\
     (forall x y, settled (thickness dbg nc n x y) (fun _ => True))) ->
  settled (event_compute dbg ev As Bs nc) (fun _ => True).
Proof.
  intros [ST HE] HN H. unfold event_compute.
  assert (K : forall l k, (forall n, In n l -> In n As \/ In n Bs) ->
    settled (compute_nuclear_thickness dbg nc (ev_dxy ev) (ev_xymax ev) (ev_nsteps ev) l k) (fun _ => True)).
  { intros l k Hl. unfold compute_nuclear_thickness.
    assert (G : settled (rfold (fun acc n => let '(g, k) := acc in
        if n_part n then letr g' := deposit dbg nc (ev_dxy ev) (ev_xymax ev) (ev_nsteps ev) n g in Ret (g', (k + 1)%Z)
        else Ret (g, k)) l (zeros (ev_nsteps ev), k)) (fun gk => square (ev_nsteps ev) (fst gk))).
    { apply rfold_settled; [|apply zeros_square]. intros [g j] n Hn Sg. cbn [fst] in Sg.
      destruct (n_part n) eqn:Hp; [|left; eexists; split; [reflexivity|exact Sg]].
      destruct (H n (Hl n Hn) Hp) as [H1 H2].
      destruct (deposit_settled dbg nc (ev_dxy ev) (ev_xymax ev) (ev_nsteps ev) n g HN Sg H1 H2) as [(g1 & -> & S1)|(m & ->)]; cbn [rbind].
      - left. eexists. split; [reflexivity|exact S1].
      - right. eexists. reflexivity. }
    destruct G as [(x & G & _)|G]; [left; exists x; auto|right; exact G]. }
  destruct (K As 0%Z) as [([TA k] & EA & _)|(m & EA)]; [auto| |rewrite EA; right; eexists; reflexivity].
  rewrite EA. cbn [rbind].
  destruct (K Bs k) as [([TB k'] & EB & _)|(m & EB)]; [auto| |rewrite EB; right; eexists; reflexivity].
  rewrite EB. cbn [rbind].
  pose proof (nuclear_thickness_square _ _ _ _ _ _ _ _ _ EA) as SA.
  pose proof (nuclear_thickness_square _ _ _ _ _ _ _ _ _ EB) as SB.
  destruct (reduced_thickness_spec ev TA TB SA SB ST) as (TR & -> & SR & _). cbn [rbind].
  destruct (observables_spec (ev_nsteps ev) TR
     (ndiv A (fold_left (fun a c => nadd A a (nmul A (rt (ev_mean ev) (ev_norm ev) TA TB c) (nofZ A (snd c)))) (cells (ev_nsteps ev)) (nlit A 0 0))
             (fold_left (fun a c => nadd A a (rt (ev_mean ev) (ev_norm ev) TA TB c)) (cells (ev_nsteps ev)) (nlit A 0 0)))
     (ndiv A (fold_left (fun a c => nadd A a (nmul A (rt (ev_mean ev) (ev_norm ev) TA TB c) (nofZ A (fst c)))) (cells (ev_nsteps ev)) (nlit A 0 0))
             (fold_left (fun a c => nadd A a (rt (ev_mean ev) (ev_norm ev) TA TB c)) (cells (ev_nsteps ev)) (nlit A 0 0)))
     SR) as ([[[e2 e3] e4] e5] & Ee & _).
  rewrite Ee. cbn [rbind]. left. eauto.
Qed.

Lemma scan_any (P : num A -> Prop) (l : list (num A)) : (forall x, In x l -> P x) ->
  forall lo hi lo' hi', P lo -> P hi -> fold_left scan l (lo, hi) = (lo', hi') -> P lo' /\ P hi'.
Proof.
  induction l as [|x l IH]; intros Hl lo hi lo' hi' H1 H2; cbn [fold_left]; [intros [= <- <-]; auto|].
  assert (Px : P x) by (apply Hl; simpl; auto).
  unfold scan at 2. destruct (nltb A x lo); [|destruct (nltb A hi x)]; apply IH; auto; intros; apply Hl; simpl; auto.
Qed.
End Settled.

(** Doubles of bounded magnitude. *)
Definition within (x : f64) (b : R) : Prop := is_finite x = true /\ Rabs (B2R x) <= b.

(** sqrt(radius^2) of a usable width is at most 5.01 times the width. *)
Lemma radius_ieee (v : f64) : usable_width v ->
  let w5 := f64_mul (f64_lit 5 0) v in
  within (f64_sqrt (f64_mul w5 w5)) (501 / 100 * Rabs (B2R v)).
Proof.
  intros [Fv Hv] w5. destruct five_v as [F5 V5]. destruct eps_small as [e0 e1].
  assert (Bv : Rabs (5 * B2R v) <= bpow radix2 493).
  { rewrite Rabs_mult, (Rabs_pos_eq 5) by lra. change 493%Z with (3 + 490)%Z. rewrite bpow_plus. change (bpow radix2 3) with 8.
    pose proof (bpow_gt_0 radix2 490). destruct Hv as [->|Hv]; [rewrite Rabs_R0; lra|]. lra. }
  destruct (mul_ok (f64_lit 5 0) v F5 Fv) as (M1 & M2 & _).
  { rewrite V5. eapply to_1000; [|exact Bv]. lia. }
  fold w5 in M1, M2. rewrite V5 in M1.
  assert (B5 : Rabs (B2R w5) <= bpow radix2 493).
  { rewrite M1. apply abs_round_le_generic; try exact Bv; try typeclasses eauto. apply rep_bpow. lia. }
  destruct (mul_ok w5 w5 M2 M2) as (S1 & S2 & S3).
  { rewrite Rabs_mult. apply Rle_trans with (bpow radix2 (493 + 493)); [|apply bpow_le; lia]. rewrite bpow_plus.
    apply Rmult_le_compat; try apply Rabs_pos; exact B5. }
  rewrite xorb_nilpotent in S3.
  destruct (sqrt_ok _ S2 S3) as (Q1 & Q2 & _). split; [exact Q2|]. rewrite Q1, S1.
  destruct Hv as [Hv|Hv].
  - assert (Z5 : B2R w5 = 0) by (rewrite M1, Hv, Rmult_0_r; apply rnd_0).
    rewrite Z5, Rmult_0_l, rnd_0, sqrt_0, rnd_0, Rabs_R0, Hv, Rabs_R0. lra.
  - destruct (rnd_rel (5 * B2R v)) as (d & Hd & Ed).
    { rewrite Rabs_mult, (Rabs_pos_eq 5) by lra. pose proof (bpow_gt_0 radix2 (-500)). apply Rle_trans with (bpow radix2 (-500)); [apply bpow_le; lia|]. lra. }
    rewrite Ed in M1. apply Rabs_le_inv in Hd.
    assert (A5 : Rabs (B2R w5) = 5 * Rabs (B2R v) * (1 + d)).
    { rewrite M1, !Rabs_mult, (Rabs_pos_eq 5), (Rabs_pos_eq (1 + d)) by lra. reflexivity. }
    replace (B2R w5 * B2R w5) with (Rabs (B2R w5) * Rabs (B2R w5)) by (rewrite <- Rabs_mult; apply Rabs_pos_eq; nra).
    rewrite Ieee.sqrt_square.
    + rewrite Rabs_Rabsolu, A5. pose proof (Rabs_pos (B2R v)). nra.
    + apply generic_format_abs. apply rep_B2R.
    + split; [|eapply Rle_trans; [exact B5|]; apply bpow_le; lia].
      rewrite A5. pose proof (bpow_gt_0 radix2 (-500)). nra.
Qed.

(** A participant whose constituents are at finite positions of magnitude at most
    [X]. *)
Definition placed {L : Libm} (X : R) (n : nucleon (FA L)) : Prop :=
  n_cons n <> [] /\ forall q, In q (n_cons n) -> within (q_x q) X /\ within (q_y q) X.

Lemma edge_ieee (x r xym st : f64) (X : R) (sub : bool) :
  is_finite xym = true -> is_finite st = true -> 0 < B2R st <= bpow radix2 400 ->
  within x X -> within r X -> Rabs (B2R xym) <= X -> 4 * X <= bpow radix2 30 * B2R st ->
  exists i, f64_trunc (f64_div (f64_add (if sub then f64_sub x r else f64_add x r) xym) st) = Some i /\ in_int i = true.
Proof.
  intros Fm Fs Bs [Fx Hx] [Fr Hr] Hm HX.
  destruct eps_small as [e0 e1]. set (e := bpow radix2 (-53)) in *.
  assert (X0 : 0 <= X) by (eapply Rle_trans; [apply Rabs_pos|exact Hx]).
  assert (XB : X <= bpow radix2 430).
  { change 430%Z with (30 + 400)%Z. rewrite bpow_plus. assert (bpow radix2 30 * B2R st <= bpow radix2 30 * bpow radix2 400) by (apply Rmult_le_compat_l; [apply bpow_ge_0|lra]). lra. }
  assert (P434 : bpow radix2 434 = 16 * bpow radix2 430) by (change 434%Z with (4 + 430)%Z; rewrite bpow_plus; reflexivity).
  set (b := if sub then f64_sub x r else f64_add x r).
  assert (Hb : within b (201 / 100 * X)).
  { apply Rabs_le_inv in Hx. apply Rabs_le_inv in Hr. unfold b. destruct sub.
    - destruct (sub_ok x r Fx Fr) as (T1 & T2 & _); [apply to_1000 with 434%Z; [lia|]; apply Rabs_le; lra|].
      split; [exact T2|]. rewrite T1. destruct (rnd_plus_rel (B2R x) (- B2R r)) as (d & Hd & Ed); [apply rep_B2R|apply generic_format_opp, rep_B2R|].
      change (B2R x + - B2R r) with (B2R x - B2R r) in Ed. rewrite Ed. rewrite Rabs_mult. fold e in Hd. apply Rabs_le_inv in Hd.
      apply Rle_trans with (2 * X * (1005 / 1000)); [|lra]. apply Rmult_le_compat; try apply Rabs_pos; apply Rabs_le; lra.
    - destruct (add_ok x r Fx Fr) as (T1 & T2 & _); [apply to_1000 with 434%Z; [lia|]; apply Rabs_le; lra|].
      split; [exact T2|]. rewrite T1. destruct (rnd_plus_rel (B2R x) (B2R r)) as (d & Hd & Ed); [apply rep_B2R|apply rep_B2R|].
      rewrite Ed. rewrite Rabs_mult. fold e in Hd. apply Rabs_le_inv in Hd.
      apply Rle_trans with (2 * X * (1005 / 1000)); [|lra]. apply Rmult_le_compat; try apply Rabs_pos; apply Rabs_le; lra. }
  clearbody b. destruct Hb as [Fb Hb]. apply Rabs_le_inv in Hb. apply Rabs_le_inv in Hm.
  destruct (add_ok b xym Fb Fm) as (T1 & T2 & _); [apply to_1000 with 434%Z; [lia|]; apply Rabs_le; lra|].
  destruct (rnd_plus_rel (B2R b) (B2R xym)) as (d & Hd & Ed); [apply rep_B2R|apply rep_B2R|].
  rewrite Ed in T1. fold e in Hd. apply Rabs_le_inv in Hd.
  assert (Hs : Rabs (B2R (f64_add b xym)) <= 4 * X).
  { rewrite T1, Rabs_mult. apply Rle_trans with (301 / 100 * X * (1005 / 1000)); [|lra]. apply Rmult_le_compat; try apply Rabs_pos; apply Rabs_le; lra. }
  set (s := f64_add b xym) in *.
  assert (Hq : Rabs (B2R s / B2R st) <= bpow radix2 30).
  { unfold Rdiv. rewrite Rabs_mult, (Rabs_pos_eq (/ B2R st)) by (left; apply Rinv_0_lt_compat; lra).
    apply Rmult_le_reg_r with (B2R st); [lra|]. rewrite Rmult_assoc, Rinv_l by lra. lra. }
  destruct (div_ok s st T2) as (D1 & D2 & _); [lra|apply to_1000 with 30%Z; [lia|exact Hq]|].
  assert (HD : Rabs (B2R (f64_div s st)) <= bpow radix2 30).
  { rewrite D1. apply abs_round_le_generic; try exact Hq; try typeclasses eauto. apply rep_bpow. lia. }
  exists (Ztrunc (B2R (f64_div s st))). split; [apply trunc_ok; exact D2|].
  rewrite p30 in HD. apply Rabs_le_inv in HD.
  assert ((-1073741824 <= Ztrunc (B2R (f64_div s st)) <= 1073741824)%Z).
  { split.
    - rewrite <- (Ztrunc_IZR (-1073741824)). apply Ztrunc_le. lra.
    - rewrite <- (Ztrunc_IZR 1073741824). apply Ztrunc_le. lra. }
  unfold in_int, int_min, int_max. apply andb_true_iff. rewrite !Z.leb_le. lia.
Qed.

(** Binary64, every libm: on a usable grid with a usable constituent width, if
    every participant has at least one constituent and all of them are at finite
    positions such that 8 (|position| + max + step + 6 |v|) / step stays within
    2^30, then compute of a release build returns, and compute of a debug build
    returns or throws out_of_range: no undefined behaviour, whatever the
    histories, fluctuations (NaN and infinities included) and p, norm. *)
Theorem C13_ieee :
  forall (L : Libm) (cfg : config (FA L)) (sp : f64) (ev : event (FA L)) (nA nB : list (nucleon (FA L))) (X : R),
  usable_grid (grid_max cfg) (grid_step cfg) -> usable_width (constit_width cfg) ->
  evolved cfg ev ->
  8 * (X + B2R (grid_max cfg : f64) + B2R (grid_step cfg : f64) + 6 * Rabs (B2R (constit_width cfg : f64)))
    <= bpow radix2 30 * B2R (grid_step cfg : f64) ->
  (forall n, In n nA \/ In n nB -> n_part n = true -> placed X n) ->
  (exists ev', event_compute false ev nA nB (nucleon_common_of cfg sp) = Ret ev') /\
  ((exists ev', event_compute true ev nA nB (nucleon_common_of cfg sp) = Ret ev') \/
   (exists m, event_compute true ev nA nB (nucleon_common_of cfg sp) = Throw (OutOfRange m))).
Proof.
  intros L cfg sp ev nA nB X UG UW He HX HP.
  destruct (C12_ieee L cfg UG) as (ev0 & E0 & _ & _ & _ & N1 & _ & _ & ED & FX & _ & BX & _).
  destruct (evolved_params _ _ He) as (ev1 & E1 & (_ & _ & Pd & Pn & Px)).
  assert (ev1 = ev0) by congruence. subst ev1.
  pose proof (evolved_ready _ _ He) as Hr.
  destruct UG as (Fm & Fs & Bm & Bs & Bq). set (mx := B2R (grid_max cfg : f64)) in *. set (st := B2R (grid_step cfg : f64)) in *.
  assert (Pm : 0 < mx) by (pose proof (bpow_gt_0 radix2 (-400)); lra).
  assert (Ps : 0 < st) by (pose proof (bpow_gt_0 radix2 (-400)); lra).
  pose proof (radius_ieee _ UW) as [Fr Br]. set (av := Rabs (B2R (constit_width cfg : f64))) in *.
  assert (Pv : 0 <= av) by apply Rabs_pos.
  assert (G : forall dbg n, In n nA \/ In n nB -> n_part n = true ->
     (exists b0 b1 b2 b3, boundary (nucleon_common_of cfg sp) n = Ret (b0, b1, b2, b3) /\
       forall b, b = b0 \/ b = b1 \/ b = b2 \/ b = b3 -> exists i, to_int (ndiv (FA L) (nadd (FA L) b (ev_xymax ev)) (ev_dxy ev)) = Ret i) /\
     (forall x y, settled (thickness dbg (nucleon_common_of cfg sp) n x y) (fun _ => True))).
  { intros dbg n Hn Hp. destruct (HP n Hn Hp) as [Hc Hq]. split.
    - destruct (n_cons n) as [|q qs] eqn:Eq; [congruence|].
      destruct (fold_left (scan (A:=FA L)) (map q_x qs) (q_x q, q_x q)) as [x0 x1] eqn:Ex.
      destruct (fold_left (scan (A:=FA L)) (map q_y qs) (q_y q, q_y q)) as [y0 y1] eqn:Ey.
      assert (Qx : within x0 X /\ within x1 X).
      { eapply (scan_any (A:=FA L) (fun x => within x X)); [| | |exact Ex]; [|apply Hq; simpl; auto..].
        intros x Hx. apply in_map_iff in Hx. destruct Hx as (c & <- & Hc'). apply Hq. simpl; auto. }
      assert (Qy : within y0 X /\ within y1 X).
      { eapply (scan_any (A:=FA L) (fun x => within x X)); [| | |exact Ey]; [|apply Hq; simpl; auto..].
        intros x Hx. apply in_map_iff in Hx. destruct Hx as (c & <- & Hc'). apply Hq. simpl; auto. }
      set (w5 := f64_mul (f64_lit 5 0) (constit_width cfg)) in *. set (r := f64_sqrt (f64_mul w5 w5)) in *.
      set (M := X + mx + st + 6 * av) in *.
      assert (X0 : 0 <= X) by (destruct Qx as [[_ Q] _]; eapply Rle_trans; [apply Rabs_pos|exact Q]).
      assert (M0 : 0 <= M) by (unfold M; lra).
      assert (Wr : within r M) by (split; [exact Fr|unfold M; lra]).
      assert (W : forall x, within x X -> within x M) by (intros x [F B]; split; [exact F|unfold M; lra]).
      assert (BM : Rabs (B2R (ev_xymax ev : f64)) <= 2 * M).
      { rewrite <- Px. destruct eps_small as [e0 e1]. assert (e51 : bpow radix2 (-51) = 4 * bpow radix2 (-53)) by (change (-51)%Z with (2 + -53)%Z; rewrite bpow_plus; reflexivity).
        rewrite e51 in BX. set (e := bpow radix2 (-53)) in *. apply Rabs_le. unfold M. split; nra. }
      exists (f64_sub x0 r), (f64_add x1 r), (f64_sub y0 r), (f64_add y1 r). split.
      { unfold boundary. rewrite Eq, Ex, Ey. reflexivity. }
      intros b Hb.
      assert (K : forall (x : f64) (s : bool), within x X -> b = (if s then f64_sub x r else f64_add x r) ->
        exists i, to_int (A:=FA L) (ndiv (FA L) (nadd (FA L) b (ev_xymax ev)) (ev_dxy ev)) = Ret i).
      { intros x s Wx Ebx. destruct (edge_ieee x r (ev_xymax ev) (grid_step cfg) (2 * M) s) as (i & Ei & In).
        - rewrite <- Px. exact FX.
        - exact Fs.
        - fold st. lra.
        - destruct (W x Wx) as [F B]. split; [exact F|lra].
        - destruct Wr as [F B]. split; [exact F|lra].
        - exact BM.
        - fold st. lra.
        - exists i. unfold to_int. rewrite <- Pd, ED, Ebx.
          change (ntrunc (FA L) _) with (f64_trunc (f64_div (f64_add (if s then f64_sub x r else f64_add x r) (ev_xymax ev)) (grid_step cfg))).
          rewrite Ei, In. reflexivity. }
      destruct Hb as [Hb|[Hb|[Hb|Hb]]]; [eapply (K x0 true)|eapply (K x1 false)|eapply (K y0 true)|eapply (K y1 false)]; tauto.
    - intros x y. destruct (C25_ieee L cfg sp n x y UW) as [(t & T1) T2]. destruct dbg.
      + destruct T2 as [(t' & T2)|T2]; [left; eauto|right; exact T2].
      + left. eauto. }
  assert (N1' : (0 < ev_nsteps ev)%Z) by (rewrite <- Pn; lia).
  split.
  - apply (event_compute_returns false ev nA nB _ Hr N1'). intros n Hn Hp. destruct (G false n Hn Hp) as [G1 _].
    split; [exact G1|]. intros ix iy _. apply (C25_ieee L cfg sp n _ _ UW).
  - destruct (event_compute_settled true ev nA nB _ Hr N1' (G true)) as [(ev' & E & _)|E]; [left; eauto|right; exact E].
Qed.

(** A case: grid of half-width 1 and step 0.5, width 0.49; a participant with a
    constituent at (1, 0.5) whose fluctuation is NaN, and a spectator. *)
Lemma usable_grid_049 (L : Libm) : usable_grid (grid_max (width_049 L)) (grid_step (width_049 L)).
Proof.
  unfold usable_grid, width_049. cbn [grid_max grid_step]. destruct half_v as [Fh Vh]. rewrite Vh.
  change (f64_lit 1 0 : f64) with (f64_lit 1 0). rewrite B2R_one.
  assert (P1 : bpow radix2 (-400) <= / 2). { change (/ 2) with (bpow radix2 (-1)). apply bpow_le. lia. }
  assert (P2 : 1 <= bpow radix2 400). { change 1 with (bpow radix2 0). apply bpow_le. lia. }
  split; [vm_compute; reflexivity|]. split; [exact Fh|]. split; [lra|]. split; [lra|]. rewrite p30. lra.
Qed.

Definition one_participant (L : Libm) : list (nucleon (FA L)) :=
  [@Nucleon (FA L) (f64_lit 1 0) (f64_lit 5 (-1)) (f64_lit 0 0) true true
     [@Constituent (FA L) (f64_lit 1 0) (f64_lit 5 (-1)) B754_nan];
   @Nucleon (FA L) B754_nan B754_nan B754_nan false false []].

Theorem C13_ieee_instance : forall (L : Libm) (sp : f64),
  exists ev, event_new (width_049 L) = Ret ev /\ (3 <= ev_nsteps ev <= 4)%Z /\
  exists ev', event_compute false ev (one_participant L) (one_participant L) (nucleon_common_of (width_049 L) sp) = Ret ev'.
Proof.
  intros L sp. pose proof (usable_grid_049 L) as UG.
  destruct (C12_ieee L (width_049 L) UG) as (ev & E & _ & _ & _ & N1 & N2 & _).
  exists ev. split; [exact E|]. destruct half_v as [Fh Vh]. split.
  { change (B2R (grid_max (width_049 L) : f64)) with (B2R (f64_lit 1 0)) in N2.
    change (B2R (grid_step (width_049 L) : f64)) with (B2R (f64_lit 5 (-1))) in N2. rewrite Vh, B2R_one in N2.
    replace (2 * 1 / / 2) with (IZR 4) in N2 by (simpl; lra). rewrite Zceil_IZR in N2. lia. }
  destruct (C13_ieee L (width_049 L) sp ev (one_participant L) (one_participant L) 1) as [R _]; auto.
  - exact usable_049.
  - constructor. exact E.
  - change (B2R (grid_max (width_049 L) : f64)) with (B2R (f64_lit 1 0)).
    change (B2R (grid_step (width_049 L) : f64)) with (B2R (f64_lit 5 (-1))). rewrite Vh, B2R_one.
    change (B2R (constit_width (width_049 L) : f64)) with (B2R (f64_lit 49 (-2))). rewrite (proj2 v049), p30.
    rewrite Rabs_pos_eq by lra. lra.
  - intros n Hn Hp.
    assert (Hn' : In n (one_participant L)) by (destruct Hn; assumption). clear Hn.
    unfold one_participant in Hn'. cbn [In] in Hn'. destruct Hn' as [Hn|[Hn|[]]].
    + subst n. split; [cbn [n_cons]; congruence|]. intros q Hq. cbn [n_cons In] in Hq. destruct Hq as [<-|[]]. cbn [q_x q_y]. split.
      * split; [vm_compute; reflexivity|]. change (B2R (f64_lit 1 0 : num (FA L))) with (B2R (f64_lit 1 0)). rewrite B2R_one, Rabs_R1. lra.
      * split; [exact Fh|]. change (B2R (f64_lit 5 (-1) : num (FA L))) with (B2R (f64_lit 5 (-1))). rewrite Vh, Rabs_pos_eq by lra. lra.
    + exfalso. rewrite <- Hn in Hp. cbn [n_part] in Hp. congruence.
Qed.
