(** Rounding errors of binary64 expressions and of long sums. *)
From Coq Require Import ZArith Reals Lra Lia Bool List Psatz.
From Flocq Require Import Core BinarySingleNaN Relative Mult_error.
From Verif.Base Require Import Result Arith FArith.
From Verif.Proof Require Import Ieee IeeeInt.
Local Open Scope R_scope.

Notation u53 := (bpow radix2 (-53)).

Lemma u53_small : 0 < u53 <= / 1000000000000000.
Proof.
  split; [apply bpow_gt_0|]. change u53 with (/ IZR (2 ^ 53)). apply Rinv_le; [lra|]. apply IZR_le. vm_compute. discriminate.
Qed.

(** x rounded: a relative error or an underflow error. *)
Lemma rnd_err x : exists e h, Rabs e <= u53 /\ Rabs h <= bpow radix2 (-1075) /\ rnd x = x * (1 + e) + h.
Proof.
  destruct (error_N_FLT radix2 (-1074) 53 ltac:(lia) (fun z => negb (Z.even z)) x) as (e & h & He & Hh & _ & E).
  exists e, h. split; [|split; [|exact E]].
  - eapply Rle_trans; [exact He|]. change (- (53) + 1)%Z with (1 + -53)%Z. rewrite (bpow_plus radix2 1 (-53)). change (bpow radix2 1) with 2. lra.
  - eapply Rle_trans; [exact Hh|]. change (-1074)%Z with (1 + -1075)%Z. rewrite bpow_plus. change (bpow radix2 1) with 2. lra.
Qed.

Lemma rnd_abs x M : Rabs x <= M -> bpow radix2 (-1022) <= M -> Rabs (rnd x - x) <= 2 * u53 * M.
Proof.
  intros Hx HM. destruct (rnd_err x) as (e & h & He & Hh & E). rewrite E.
  replace (x * (1 + e) + h - x) with (x * e + h) by ring.
  eapply Rle_trans; [apply Rabs_triang|]. rewrite Rabs_mult.
  assert (Rabs h <= u53 * M).
  { eapply Rle_trans; [exact Hh|]. change (-1075)%Z with (-53 + -1022)%Z. rewrite bpow_plus.
    apply Rmult_le_compat_l; [apply bpow_ge_0|exact HM]. }
  assert (Rabs x * Rabs e <= M * u53) by (apply Rmult_le_compat; auto; apply Rabs_pos). lra.
Qed.

(** h approximates v: |v| <= M, the error is at most k units of M 2^-53, and
    2^lo <= M <= 2^hi. *)
Definition ap (h : f64) (v M : R) (k lo hi : Z) : Prop :=
  is_finite h = true /\ Rabs v <= M /\ Rabs (B2R h - v) <= IZR k * u53 * M /\
  bpow radix2 lo <= M <= bpow radix2 hi /\ (0 <= k <= 1000)%Z.

Lemma ap_fine h v M k lo hi : ap h v M k lo hi -> Rabs (B2R h) <= 2 * M /\ 0 < M.
Proof.
  intros (F & V & E & (L & _) & K). pose proof (bpow_gt_0 radix2 lo).
  split; [|lra]. pose proof u53_small as [U0 U1].
  assert (IZR k <= 1000) by (apply IZR_le; lia). assert (0 <= IZR k) by (apply IZR_le; lia).
  replace (B2R h) with (v + (B2R h - v)) by ring. eapply Rle_trans; [apply Rabs_triang|].
  assert (IZR k * u53 <= 1) by nra.
  assert (IZR k * u53 * M <= 1 * M) by (apply Rmult_le_compat_r; lra). lra.
Qed.

Lemma to1000 x y e : Rabs x <= y -> y <= bpow radix2 e -> (e <= 1000)%Z -> Rabs x <= bpow radix2 1000.
Proof. intros. eapply Rle_trans; [eassumption|]. eapply Rle_trans; [eassumption|]. apply bpow_le. assumption. Qed.

Lemma ap_mul a b v w M M' k k' lo lo' hi hi' :
  ap a v M k lo hi -> ap b w M' k' lo' hi' ->
  (-1022 <= lo + lo')%Z -> (hi + hi' <= 990)%Z -> (k + k' + 3 <= 1000)%Z ->
  ap (f64_mul a b) (v * w) (M * M') (k + k' + 3) (lo + lo') (hi + hi').
Proof.
  intros A1 A2 Hlo Hhi Hk. destruct (ap_fine _ _ _ _ _ _ A1) as [Fa Ma]. destruct (ap_fine _ _ _ _ _ _ A2) as [Fb Mb].
  destruct A1 as (F1 & V1 & E1 & (L1 & H1) & K1). destruct A2 as (F2 & V2 & E2 & (L2 & H2) & K2).
  pose proof (bpow_gt_0 radix2 lo). pose proof (bpow_gt_0 radix2 lo').
  assert (MM : bpow radix2 (lo + lo') <= M * M' <= bpow radix2 (hi + hi')).
  { rewrite !bpow_plus. split; apply Rmult_le_compat; lra. }
  assert (P : Rabs (B2R a * B2R b) <= 4 * (M * M')).
  { rewrite Rabs_mult. replace (4 * (M * M')) with (2 * M * (2 * M')) by ring. apply Rmult_le_compat; auto; apply Rabs_pos. }
  destruct (mul_ok a b F1 F2) as (E & F & _).
  { apply to1000 with (4 * (M * M')) (2 + (hi + hi'))%Z; [exact P| |lia]. rewrite (bpow_plus radix2 2). change (bpow radix2 2) with 4. lra. }
  split; [exact F|]. split; [rewrite Rabs_mult; apply Rmult_le_compat; auto; apply Rabs_pos|].
  split; [|split; [exact MM|lia]].
  rewrite E. destruct (rnd_err (B2R a * B2R b)) as (e & h & He & Hh & R). rewrite R.
  pose proof u53_small as [U0 U1]. set (u := u53) in *.
  assert (Hh' : Rabs h <= u * (M * M')).
  { eapply Rle_trans; [exact Hh|]. change (-1075)%Z with (-53 + -1022)%Z. rewrite bpow_plus. fold u.
    apply Rmult_le_compat_l; [lra|]. eapply Rle_trans; [|apply MM]. apply bpow_le. lia. }
  set (da := B2R a - v) in *. set (db := B2R b - w) in *.
  assert (k0 : 0 <= IZR k <= 1000) by (split; apply IZR_le; lia).
  assert (k0' : 0 <= IZR k' <= 1000) by (split; apply IZR_le; lia).
  assert (ku : 0 <= IZR k * u <= / 1000000000000) by nra.
  assert (ku' : 0 <= IZR k' * u <= / 1000000000000) by nra.
  replace (B2R a * B2R b * (1 + e) + h - v * w) with (v * db + da * w + da * db + (v + da) * (w + db) * e + h) by (unfold da, db; ring).
  set (x := IZR k * u) in *. set (y := IZR k' * u) in *.
  assert (T1 : Rabs (v * db) <= M * (y * M')) by (rewrite Rabs_mult; apply Rmult_le_compat; auto; apply Rabs_pos).
  assert (T2 : Rabs (da * w) <= x * M * M') by (rewrite Rabs_mult; apply Rmult_le_compat; auto; apply Rabs_pos).
  assert (T3 : Rabs (da * db) <= (x * M) * (y * M')) by (rewrite Rabs_mult; apply Rmult_le_compat; auto; apply Rabs_pos).
  assert (T4 : Rabs ((v + da) * (w + db) * e) <= (M + x * M) * (M' + y * M') * u).
  { rewrite !Rabs_mult. apply Rmult_le_compat; auto; [apply Rmult_le_pos; apply Rabs_pos|apply Rabs_pos|].
    apply Rmult_le_compat; try apply Rabs_pos; (eapply Rle_trans; [apply Rabs_triang|]; lra). }
  assert (Tot : Rabs (v * db + da * w + da * db + (v + da) * (w + db) * e + h)
     <= M * (y * M') + x * M * M' + x * M * (y * M') + (M + x * M) * (M' + y * M') * u + u * (M * M')).
  { repeat (eapply Rle_trans; [apply Rabs_triang|]; apply Rplus_le_compat; auto). }
  eapply Rle_trans; [exact Tot|]. rewrite !plus_IZR. 
  replace (M * (y * M') + x * M * M' + x * M * (y * M') + (M + x * M) * (M' + y * M') * u + u * (M * M'))
    with ((y + x + x * y + (1 + x) * (1 + y) * u + u) * (M * M')) by ring.
  apply Rmult_le_compat_r; [apply Rmult_le_pos; lra|].
  replace ((IZR k + IZR k' + 3) * u) with (x + y + 3 * u) by (unfold x, y; ring).
  assert (x * y <= / 1000000000 * u). { unfold y. assert (x * IZR k' <= / 1000000000) by nra. nra. }
  assert ((1 + x) * (1 + y) <= 3 / 2) by nra. nra.
Qed.

Lemma ap_sum (sub : bool) a b v w M M' k k' lo lo' hi hi' :
  ap a v M k lo hi -> ap b w M' k' lo' hi' ->
  (Z.max hi hi' + 1 <= 990)%Z -> (Z.max k k' + 2 <= 1000)%Z ->
  ap (if sub then f64_sub a b else f64_add a b) (if sub then v - w else v + w) (M + M') (Z.max k k' + 2) (Z.max lo lo') (Z.max hi hi' + 1).
Proof.
  intros A1 A2 Hhi Hk. destruct (ap_fine _ _ _ _ _ _ A1) as [Fa Ma]. destruct (ap_fine _ _ _ _ _ _ A2) as [Fb Mb].
  destruct A1 as (F1 & V1 & E1 & (L1 & H1) & K1). destruct A2 as (F2 & V2 & E2 & (L2 & H2) & K2).
  pose proof (bpow_gt_0 radix2 lo). pose proof (bpow_gt_0 radix2 lo').
  assert (MM : bpow radix2 (Z.max lo lo') <= M + M' <= bpow radix2 (Z.max hi hi' + 1)).
  { split; [destruct (Z.max_spec lo lo') as [[_ ->]|[_ ->]]; lra|].
    rewrite bpow_plus. change (bpow radix2 1) with 2.
    assert (bpow radix2 hi <= bpow radix2 (Z.max hi hi')) by (apply bpow_le; lia).
    assert (bpow radix2 hi' <= bpow radix2 (Z.max hi hi')) by (apply bpow_le; lia). lra. }
  set (s := if sub then - 1 else 1). assert (Hs : Rabs s = 1) by (unfold s; destruct sub; [rewrite Rabs_left; lra|apply Rabs_R1]).
  assert (P : Rabs (B2R a + s * B2R b) <= 2 * (M + M')).
  { eapply Rle_trans; [apply Rabs_triang|]. rewrite Rabs_mult, Hs. lra. }
  assert (P' : Rabs (B2R a + s * B2R b) <= bpow radix2 1000).
  { apply to1000 with (2 * (M + M')) (1 + (Z.max hi hi' + 1))%Z; [exact P| |lia]. rewrite (bpow_plus radix2 1). change (bpow radix2 1) with 2 at 1. lra. }
  match goal with |- ap ?o _ _ _ _ _ => set (op := o) end.
  assert (OP : exists e, Rabs e <= u53 /\ is_finite op = true /\ B2R op = (B2R a + s * B2R b) * (1 + e)).
  { unfold s, op in *. destruct sub.
    - replace (B2R a + - 1 * B2R b) with (B2R a + - B2R b) in * by ring.
      destruct (rnd_plus_rel (B2R a) (- B2R b) (rep_B2R a)) as (e & He & R); [apply generic_format_opp, rep_B2R|].
      destruct (sub_ok a b F1 F2) as (E & F & _); [exact P'|]. exists e. split; [exact He|]. split; [exact F|]. rewrite E. exact R.
    - replace (B2R a + 1 * B2R b) with (B2R a + B2R b) in * by ring.
      destruct (rnd_plus_rel (B2R a) (B2R b) (rep_B2R a) (rep_B2R b)) as (e & He & R).
      destruct (add_ok a b F1 F2) as (E & F & _); [exact P'|]. exists e. split; [exact He|]. split; [exact F|]. rewrite E. exact R. }
  destruct OP as (e & He & F & R). split; [exact F|].
  replace (if sub then v - w else v + w) with (v + s * w) by (unfold s; destruct sub; ring).
  split; [eapply Rle_trans; [apply Rabs_triang|]; rewrite Rabs_mult, Hs; lra|].
  split; [|split; [exact MM|lia]].
  rewrite R. pose proof u53_small as [U0 U1]. set (u := u53) in *.
  replace ((B2R a + s * B2R b) * (1 + e) - (v + s * w)) with ((B2R a - v) + s * (B2R b - w) + (B2R a + s * B2R b) * e) by ring.
  assert (T1 : Rabs (s * (B2R b - w)) <= IZR k' * u * M') by (rewrite Rabs_mult, Hs; lra).
  assert (T2 : Rabs ((B2R a + s * B2R b) * e) <= 2 * (M + M') * u).
  { rewrite Rabs_mult. apply Rmult_le_compat; auto; apply Rabs_pos. }
  eapply Rle_trans; [apply Rabs_triang|]. eapply Rle_trans; [apply Rplus_le_compat; [apply Rabs_triang|exact T2]|].
  rewrite plus_IZR. 
  assert (IZR k <= IZR (Z.max k k')) by (apply IZR_le; lia). assert (IZR k' <= IZR (Z.max k k')) by (apply IZR_le; lia).
  set (m := IZR (Z.max k k')) in *.
  assert (IZR k * u * M <= m * u * M) by (apply Rmult_le_compat_r; [lra|]; apply Rmult_le_compat_r; lra).
  assert (IZR k' * u * M' <= m * u * M') by (apply Rmult_le_compat_r; [lra|]; apply Rmult_le_compat_r; lra).
  lra.
Qed.
Lemma ap_add a b v w M M' k k' lo lo' hi hi' :
  ap a v M k lo hi -> ap b w M' k' lo' hi' ->
  (Z.max hi hi' + 1 <= 990)%Z -> (Z.max k k' + 2 <= 1000)%Z ->
  ap (f64_add a b) (v + w) (M + M') (Z.max k k' + 2) (Z.max lo lo') (Z.max hi hi' + 1).
Proof. apply (ap_sum false). Qed.
Lemma ap_sub a b v w M M' k k' lo lo' hi hi' :
  ap a v M k lo hi -> ap b w M' k' lo' hi' ->
  (Z.max hi hi' + 1 <= 990)%Z -> (Z.max k k' + 2 <= 1000)%Z ->
  ap (f64_sub a b) (v - w) (M + M') (Z.max k k' + 2) (Z.max lo lo') (Z.max hi hi' + 1).
Proof. apply (ap_sum true). Qed.

Lemma ap_exact h v M lo hi : is_finite h = true -> B2R h = v -> Rabs v <= M -> bpow radix2 lo <= M <= bpow radix2 hi -> ap h v M 0 lo hi.
Proof.
  intros F E A B. split; [exact F|]. split; [exact A|]. split; [rewrite E, Rminus_eq_0, Rabs_R0; lra|]. split; [exact B|lia].
Qed.

(** sqrt(x^2 + y^2) *)
Lemma hypot_ok x y : is_finite x = true -> is_finite y = true ->
  Rabs (B2R x) <= bpow radix2 400 -> Rabs (B2R y) <= bpow radix2 400 ->
  let h := f64_sqrt (f64_add (f64_mul x x) (f64_mul y y)) in
  let r := sqrt (B2R x * B2R x + B2R y * B2R y) in
  is_finite h = true /\ Bsign h = false /\ Rabs (B2R h - r) <= 3 * u53 * r + bpow radix2 (-530).
Proof.
  intros Fx Fy Bx By h r.
  assert (Sq : forall z : f64, Rabs (B2R z) <= bpow radix2 400 -> 0 <= B2R z * B2R z <= bpow radix2 800).
  { intros z Hz. split; [nra|]. rewrite <- (Rabs_pos_eq (B2R z * B2R z)) by nra. rewrite Rabs_mult.
    change 800%Z with (400 + 400)%Z. rewrite bpow_plus. apply Rmult_le_compat; auto; apply Rabs_pos. }
  pose proof (Sq x Bx) as X2. pose proof (Sq y By) as Y2.
  destruct (mul_ok x x Fx Fx) as (Ex & FX & SX). { rewrite Rabs_pos_eq by lra. eapply Rle_trans; [apply X2|apply bpow_le; lia]. }
  destruct (mul_ok y y Fy Fy) as (Ey & FY & SY). { rewrite Rabs_pos_eq by lra. eapply Rle_trans; [apply Y2|apply bpow_le; lia]. }
  rewrite xorb_nilpotent in SX, SY.
  set (p := f64_mul x x) in *. set (q := f64_mul y y) in *.
  assert (BP : forall z, 0 <= z <= bpow radix2 800 -> 0 <= rnd z <= bpow radix2 800).
  { intros z [A B]. split; [apply rnd_nonneg; exact A|]. rewrite <- (rnd_id (bpow radix2 800)) by (apply rep_bpow; lia). apply rnd_le. exact B. }
  pose proof (BP _ X2) as P2. pose proof (BP _ Y2) as Q2. rewrite <- Ex in P2. rewrite <- Ey in Q2.
  assert (B8 : bpow radix2 800 + bpow radix2 800 = bpow radix2 801) by (change 801%Z with (1 + 800)%Z; rewrite bpow_plus; change (bpow radix2 1) with 2; ring).
  destruct (add_ok p q FX FY) as (Es & FS & SS). { rewrite Rabs_pos_eq by lra. apply Rle_trans with (bpow radix2 801); [lra|apply bpow_le; lia]. }
  set (s := f64_add p q) in *.
  assert (Ss : Bsign s = false). { rewrite SS, SX, SY. destruct (Rcompare_spec (B2R p + B2R q) 0); auto. lra. }
  destruct (sqrt_ok s FS Ss) as (Eh & Fh & Sh). fold h in Eh, Fh, Sh.
  split; [exact Fh|]. split; [exact Sh|].
  destruct (rnd_err (B2R x * B2R x)) as (e1 & h1 & He1 & Hh1 & R1). rewrite <- Ex in R1.
  destruct (rnd_err (B2R y * B2R y)) as (e2 & h2 & He2 & Hh2 & R2). rewrite <- Ey in R2.
  destruct (rnd_plus_rel (B2R p) (B2R q) (rep_B2R p) (rep_B2R q)) as (e3 & He3 & R3). rewrite <- Es in R3.
  apply Rabs_le_inv in He1, He2, He3, Hh1, Hh2.
  pose proof u53_small as [U0 U1]. set (u := u53) in *.
  assert (Eps : bpow radix2 (-535) * bpow radix2 (-535) = 32 * bpow radix2 (-1075)).
  { rewrite <- bpow_plus. change (-535 + -535)%Z with (5 + -1075)%Z. rewrite bpow_plus. reflexivity. }
  set (eta := bpow radix2 (-1075)) in *. set (ep := bpow radix2 (-535)) in *.
  assert (eta0 : 0 < eta) by apply bpow_gt_0. assert (ep0 : 0 < ep) by apply bpow_gt_0.
  set (A := B2R x * B2R x) in *. set (B := B2R y * B2R y) in *. set (w := B2R s) in *.
  assert (W0 : 0 <= w) by (unfold w; apply sign_nonneg; auto).
  assert (W1 : w <= (1 + u) * (1 + u) * (A + B) + 4 * eta).
  { rewrite R3, R1, R2. assert (A * (1 + e1) <= A * (1 + u)) by (apply Rmult_le_compat_l; lra).
    assert (B * (1 + e2) <= B * (1 + u)) by (apply Rmult_le_compat_l; lra).
    apply Rle_trans with ((A * (1 + e1) + h1 + (B * (1 + e2) + h2)) * (1 + u)).
    - apply Rmult_le_compat_l; [rewrite <- R1, <- R2; lra|lra].
    - apply Rle_trans with ((A * (1 + u) + B * (1 + u) + 2 * eta) * (1 + u)); [apply Rmult_le_compat_r; lra|]. nra. }
  assert (W2 : (1 - u) * (1 - u) * (A + B) - 4 * eta <= w).
  { rewrite R3, R1, R2. assert (A * (1 - u) <= A * (1 + e1)) by (apply Rmult_le_compat_l; lra).
    assert (B * (1 - u) <= B * (1 + e2)) by (apply Rmult_le_compat_l; lra).
    apply Rle_trans with ((A * (1 + e1) + h1 + (B * (1 + e2) + h2)) * (1 - u)).
    - apply Rle_trans with ((A * (1 - u) + B * (1 - u) - 2 * eta) * (1 - u)); [nra|apply Rmult_le_compat_r; lra].
    - apply Rmult_le_compat_l; [rewrite <- R1, <- R2; lra|lra]. }
  assert (R0 : 0 <= r) by apply sqrt_pos.
  assert (RR : r * r = A + B) by (apply sqrt_sqrt; lra).
  rewrite <- RR in W1, W2.
  assert (Q1 : sqrt w <= (1 + u) * r + ep).
  { apply Rsqr_incr_0; [|apply sqrt_pos|nra]. unfold Rsqr. rewrite sqrt_sqrt by exact W0. 
    assert (0 <= r * ep) by nra. nra. }
  assert (Q3 : (1 - u) * r - ep <= sqrt w).
  { destruct (Rle_lt_dec ((1 - u) * r - ep) 0) as [Neg|Pos]; [eapply Rle_trans; [exact Neg|apply sqrt_pos]|].
    apply Rsqr_incr_0; [|lra|apply sqrt_pos]. unfold Rsqr. rewrite sqrt_sqrt by exact W0.
    assert (ep * ep <= (1 - u) * r * ep) by (apply Rmult_le_compat_r; lra). nra. }
  destruct (rnd_err (sqrt w)) as (e4 & h4 & He4 & Hh4 & R4). rewrite <- Eh in R4. apply Rabs_le_inv in He4, Hh4.
  fold u eta in He4, Hh4.
  assert (E30 : bpow radix2 (-530) = 32 * ep) by (unfold ep; change (-530)%Z with (5 + -535)%Z; rewrite bpow_plus; reflexivity).
  rewrite E30. rewrite R4.
  assert (etaep : eta <= ep) by (unfold eta, ep; apply bpow_le; lia).
  pose proof (sqrt_pos w) as Sw.
  assert (sqrt w * (1 - u) <= sqrt w * (1 + e4) <= sqrt w * (1 + u)) by (split; apply Rmult_le_compat_l; lra).
  assert (sqrt w * (1 + u) <= ((1 + u) * r + ep) * (1 + u)) by (apply Rmult_le_compat_r; lra).
  assert (((1 - u) * r - ep) * (1 - u) <= sqrt w * (1 - u)) by (apply Rmult_le_compat_r; lra).
  assert (((1 + u) * r + ep) * (1 + u) <= r + 3 * u * r + 2 * ep).
  { assert (0 <= u * r) by nra. assert (u * (u * r) <= u * r) by nra. nra. }
  assert (r - 3 * u * r - 2 * ep <= ((1 - u) * r - ep) * (1 - u)) by nra.
  apply Rabs_le. lra.
Qed.

(** ** Sums *)

(** a is the running total after at most k additions of terms with sum S and sum
    of magnitudes at most T. *)
Definition tracks (k : Z) (a : f64) (S T : R) : Prop :=
  is_finite a = true /\ Rabs S <= T /\ Rabs (B2R a - S) <= 2 * IZR k * u53 * T /\ (0 <= k)%Z.

Lemma tracks_weaken k k' a S T T' : tracks k a S T -> (k <= k')%Z -> T <= T' -> tracks k' a S T'.
Proof.
  intros (F & V & E & K) H HT. split; [exact F|]. split; [lra|]. split; [|lia].
  eapply Rle_trans; [exact E|]. pose proof u53_small as [U0 U1].
  assert (0 <= IZR k) by (apply IZR_le; lia). assert (IZR k <= IZR k') by (apply IZR_le; lia).
  assert (0 <= T) by (pose proof (Rabs_pos S); lra).
  apply Rmult_le_compat; [nra|lra|nra|lra].
Qed.

Lemma tracks_zero a : is_finite a = true -> B2R a = 0 -> tracks 0 a 0 0.
Proof.
  intros F E. split; [exact F|]. split; [rewrite Rabs_R0; lra|]. split; [|lia].
  rewrite E, Rminus_0_r, Rabs_R0. lra.
Qed.

Lemma tracks_bound k a S T : tracks k a S T -> (k <= 2 ^ 40)%Z -> Rabs (B2R a) <= 2 * T.
Proof.
  intros (F & V & E & K) Hk. pose proof u53_small as [U0 U1].
  assert (0 <= IZR k <= 1099511627776) by (split; apply IZR_le; lia).
  assert (0 <= T) by (pose proof (Rabs_pos S); lra).
  replace (B2R a) with (S + (B2R a - S)) by ring. eapply Rle_trans; [apply Rabs_triang|].
  assert (2 * IZR k * u53 * T <= 1 * T); [|lra]. apply Rmult_le_compat_r; [lra|]. nra.
Qed.

Lemma tracks_add k a S T b Tb : tracks k a S T -> is_finite b = true -> Rabs (B2R b) <= Tb ->
  (k < 2 ^ 40)%Z -> T + Tb <= bpow radix2 900 ->
  tracks (k + 1) (f64_add a b) (S + B2R b) (T + Tb).
Proof.
  intros HT Fb Bb Hk Hb. pose proof (tracks_bound _ _ _ _ HT ltac:(lia)) as BA. destruct HT as (F & V & E & K).
  assert (T0 : 0 <= T) by (pose proof (Rabs_pos S); lra). assert (Tb0 : 0 <= Tb) by (pose proof (Rabs_pos (B2R b)); lra).
  assert (P : Rabs (B2R a + B2R b) <= 2 * (T + Tb)) by (eapply Rle_trans; [apply Rabs_triang|]; lra).
  destruct (add_ok a b F Fb) as (Ea & Fa & _).
  { apply to1000 with (2 * (T + Tb)) (1 + 900)%Z; [exact P| |lia]. rewrite (bpow_plus radix2 1 900). change (bpow radix2 1) with 2. lra. }
  destruct (rnd_plus_rel (B2R a) (B2R b) (rep_B2R a) (rep_B2R b)) as (e & He & R).
  split; [exact Fa|]. split; [eapply Rle_trans; [apply Rabs_triang|]; lra|]. split; [|lia].
  rewrite Ea, R. replace ((B2R a + B2R b) * (1 + e) - (S + B2R b)) with ((B2R a - S) + (B2R a + B2R b) * e) by ring.
  eapply Rle_trans; [apply Rabs_triang|]. rewrite Rabs_mult.
  pose proof u53_small as [U0 U1].
  assert (Rabs (B2R a + B2R b) * Rabs e <= 2 * (T + Tb) * u53) by (apply Rmult_le_compat; auto; apply Rabs_pos).
  rewrite plus_IZR. assert (0 <= IZR k) by (apply IZR_le; lia).
  assert (2 * IZR k * u53 * T <= 2 * IZR k * u53 * (T + Tb)) by (apply Rmult_le_compat_l; nra). lra.
Qed.
