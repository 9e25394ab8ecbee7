(** The state of a CyclicNormal after any number of draws. *)
From Coq Require Import Permutation.
From Verif.Base Require Import Result Arith Rng.
From Verif.Model Require Import Random.
From Verif.Spec Require Import Cyclic.
From Verif.Proof Require Import Basics.

Section C.
Context {A : Arith} (R : Rng A).
Hypothesis Hperm : forall l e, Permutation l (fst (shuffle R l e)).

Lemma cyclic_new_run mean sd size nl e :
  cyclic_new R mean sd size nl e
  = (Ret (Cyclic (fst (shuffled R (quantiles A mean sd size) e 0)) nl 0 0), snd (shuffled R (quantiles A mean sd size) e 0)).
Proof.
  unfold cyclic_new. cbn [shuffled].
  change (map (cyclic_entry mean sd size) (zrange 1 size)) with (quantiles A mean sd size).
  destruct (shuffle R (quantiles A mean sd size) e). reflexivity.
Qed.

Lemma shuffled_perm l e v : Permutation l (fst (shuffled R l e v)).
Proof.
  induction v as [|v IH]; [apply Hperm|]. simpl. destruct (shuffled R l e v) as [l' e']. cbn [fst] in IH.
  eapply perm_trans; [exact IH|apply Hperm].
Qed.
Lemma shuffled_length l e v : length (fst (shuffled R l e v)) = length l.
Proof. symmetry. apply Permutation_length, shuffled_perm. Qed.

(** Any draw from a non-empty cache returns one of its elements. *)
Lemma draw_any c e : cy_cache c <> [] -> (cy_iter c <= length (cy_cache c))%nat ->
  exists x c' e', cyclic_draw R c e = (Ret (x, c'), e') /\ In x (cy_cache c) /\
    Permutation (cy_cache c) (cy_cache c') /\ (cy_iter c' <= length (cy_cache c'))%nat.
Proof.
  intros Hne Hit. unfold cyclic_draw.
  assert (G : exists c1 e1, (if (cy_nloops c <? cy_loop c)%Z
      then let (cache', e') := shuffle R (cy_cache c) e in (Cyclic cache' (cy_nloops c) 0 (cy_iter c), e')
      else (c, e)) = (c1, e1) /\ Permutation (cy_cache c) (cy_cache c1) /\ cy_iter c1 = cy_iter c).
  { destruct (_ <? _)%Z; [|eauto 6]. pose proof (Hperm (cy_cache c) e) as P.
    destruct (shuffle R (cy_cache c) e). cbn [fst] in P. do 2 eexists. split; [reflexivity|]. auto. }
  destruct G as (c1 & e1 & -> & P & I).
  assert (L : length (cy_cache c1) = length (cy_cache c)) by (symmetry; apply Permutation_length; exact P).
  set (c2 := if Nat.eqb (cy_iter c1) (length (cy_cache c1)) then _ else c1).
  assert (C : cy_cache c2 = cy_cache c1 /\ (cy_iter c2 < length (cy_cache c1))%nat).
  { unfold c2. destruct (Nat.eqb_spec (cy_iter c1) (length (cy_cache c1))); cbn [cy_cache cy_iter].
    - split; [reflexivity|]. destruct (cy_cache c); [contradiction|]. rewrite L. simpl. lia.
    - split; [reflexivity|]. rewrite L, I in *. lia. }
  destruct C as [C1 C2]. rewrite C1.
  destruct (nth_error (cy_cache c1) (cy_iter c2)) as [x|] eqn:N.
  - do 3 eexists. split; [reflexivity|]. cbn [cy_cache cy_iter]. split; [|split; [exact P|lia]].
    eapply Permutation_in; [apply Permutation_sym; exact P|]. eapply nth_error_In; eauto.
  - apply nth_error_None in N. lia.
Qed.

Lemma draws_any k : forall c e, cy_cache c <> [] -> (cy_iter c <= length (cy_cache c))%nat ->
  exists xs c' e', draws R k c e = (Ret (xs, c'), e') /\ length xs = k /\ (forall x, In x xs -> In x (cy_cache c)).
Proof.
  induction k as [|k IH]; intros c e Hn Hi.
  - exists [], c, e. repeat split. intros x [].
  - destruct (draw_any c e Hn Hi) as (x & c1 & e1 & E & X & P & I).
    destruct (IH c1 e1) as (xs & c2 & e2 & E2 & L & F).
    { intros Z. rewrite Z in P. apply Permutation_sym, Permutation_nil in P. contradiction. }
    { exact I. }
    exists (x :: xs), c2, e2. split; [|split; [simpl; congruence|]].
    + simpl. rewrite (bind_run _ _ _ _ _ E), (bind_run _ _ _ _ _ E2). reflexivity.
    + intros y [<-|Hy]; [exact X|]. eapply Permutation_in; [apply Permutation_sym; exact P|]. apply F. exact Hy.
Qed.

(** ** The schedule *)
Variables (l : list (num A)) (e : engine R) (nl : Z).
Hypothesis (Hn : (2 <= length l)%nat) (Hnl : (0 <= nl)%Z).
Let n := length l.
Let L := S (Z.to_nat nl).

(** State after [t] draws. *)
Definition at_draw (t : nat) : cyclic * engine R :=
  let v := reshuffles L n (t - 1) in
  (Cyclic (fst (shuffled R l e v)) nl (Z.of_nat ((t - 1) / n - L * v))
          (match t with O => 0 | S t' => S (t' mod n) end)%nat,
   snd (shuffled R l e v)).

Lemma reshuffle_step t : (1 <= t)%nat ->
  let w := ((t - 1) / n)%nat in let v := reshuffles L n (t - 1) in
  (reshuffles L n t = v /\ (L * v <= w < L * v + L)%nat) \/
  (reshuffles L n t = S v /\ w = (L * v + L)%nat /\ (t - 1) mod n = 0%nat).
Proof.
  intros Ht w v. unfold v, reshuffles.
  assert (Hn0 : n <> 0%nat) by (unfold n; lia). assert (HL0 : L <> 0%nat) by (unfold L; lia).
  assert (W : ((t - 1) / (L * n) = w / L)%nat) by (unfold w; rewrite Nat.div_div by assumption; f_equal; lia).
  pose proof (Nat.div_mod (t - 1) n Hn0) as D1. fold w in D1.
  pose proof (Nat.div_mod w L HL0) as D2. pose proof (Nat.mod_upper_bound w L HL0) as B2.
  pose proof (Nat.mod_upper_bound (t - 1) n Hn0) as B1.
  set (q := (w / L)%nat) in *. rewrite W.
  assert (LN : (L * n <> 0)%nat) by (apply Nat.neq_mul_0; auto).
  assert (T : (t - 1 = q * (L * n) + (w mod L * n + (t - 1) mod n))%nat) by nia.
  destruct (Nat.eq_dec (w mod L * n + (t - 1) mod n) 0) as [Z0|NZ].
  - destruct q as [|q'].
    + left. assert (t = 1)%nat by lia. subst t. simpl (1 - 1 - 1)%nat. rewrite Nat.div_0_l by exact LN. split; [reflexivity|]. nia.
    + right. assert (E : ((t - 1 - 1) / (L * n) = q')%nat).
      { symmetry. apply Nat.div_unique with (r := (L * n - 1)%nat); nia. }
      rewrite E. split; [reflexivity|]. split; [nia|lia].
  - left. assert (E : ((t - 1 - 1) / (L * n) = q)%nat).
    { symmetry. apply Nat.div_unique with (r := (w mod L * n + (t - 1) mod n - 1)%nat); nia. }
    rewrite E. split; [reflexivity|]. nia.
Qed.

Lemma draw_step t : exists x,
  cyclic_draw R (fst (at_draw t)) (snd (at_draw t)) = (Ret (x, fst (at_draw (S t))), snd (at_draw (S t))) /\
  nth_error (fst (shuffled R l e (reshuffles L n t))) (t mod n) = Some x.
Proof.
  assert (Hn0 : n <> 0%nat) by (unfold n; lia).
  assert (NE : exists x, nth_error (fst (shuffled R l e (reshuffles L n t))) (t mod n) = Some x).
  { pose proof (Nat.mod_upper_bound t n Hn0).
    destruct (nth_error (fst (shuffled R l e (reshuffles L n t))) (t mod n)) eqn:N; [eauto|].
    apply nth_error_None in N. rewrite shuffled_length in N. fold n in N. lia. }
  destruct NE as [x Hx]. exists x. split; [|exact Hx].
  destruct t as [|t'].
  - unfold at_draw. replace (0 - 1)%nat with 0%nat by lia. replace (1 - 1)%nat with 0%nat by lia.
    unfold reshuffles in *. simpl (0 - 1)%nat in *. rewrite Nat.div_0_l in * by (apply Nat.neq_mul_0; unfold L; auto with arith).
    rewrite Nat.div_0_l by exact Hn0. rewrite Nat.mod_0_l in * by exact Hn0. simpl (0 - _)%nat.
    cbn [fst snd]. unfold cyclic_draw. cbn [cy_nloops cy_loop cy_cache cy_iter].
    destruct (Z.ltb_spec nl (Z.of_nat 0)); [lia|]. cbn [cy_iter cy_cache].
    destruct (Nat.eqb_spec 0 (length (fst (shuffled R l e 0)))) as [K|K]; [rewrite shuffled_length in K; fold n in K; lia|].
    cbn [cy_iter cy_cache cy_nloops cy_loop]. rewrite Hx. reflexivity.
  - set (t := S t') in *. assert (Ht : (1 <= t)%nat) by (unfold t; lia).
    pose proof (reshuffle_step t Ht) as RS. cbv zeta in RS.
    set (v := reshuffles L n (t - 1)) in *. set (w := ((t - 1) / n)%nat) in *.
    assert (Et : (t - 1 = t')%nat) by (unfold t; lia).
    pose proof (Nat.div_mod (t - 1) n Hn0) as D1. fold w in D1.
    pose proof (Nat.mod_upper_bound (t - 1) n Hn0) as B1.
    pose proof (Nat.div_mod t n Hn0) as D3. pose proof (Nat.mod_upper_bound t n Hn0) as B3.
    assert (AT : at_draw t = (Cyclic (fst (shuffled R l e v)) nl (Z.of_nat (w - L * v)) (S ((t - 1) mod n)), snd (shuffled R l e v))).
    { unfold w, v. rewrite Et. unfold at_draw, t. replace (S t' - 1)%nat with t' by lia. reflexivity. }
    assert (AS : at_draw (S t) = (Cyclic (fst (shuffled R l e (reshuffles L n t))) nl (Z.of_nat (t / n - L * reshuffles L n t)) (S (t mod n)), snd (shuffled R l e (reshuffles L n t)))).
    { unfold at_draw. replace (S t - 1)%nat with t by lia. reflexivity. }
    rewrite AT, AS. cbn [fst snd]. unfold cyclic_draw. cbn [cy_nloops cy_loop cy_cache cy_iter].
    destruct RS as [[E1 E2]|(E1 & E2 & E3)].
    + destruct (Z.ltb_spec nl (Z.of_nat (w - L * v))); [unfold L in *; lia|].
      cbn [cy_iter cy_cache cy_nloops cy_loop]. rewrite shuffled_length. fold n. rewrite E1 in *.
      destruct (Nat.eqb_spec (S ((t - 1) mod n)) n) as [Wr|Wr]; cbn [cy_iter cy_cache cy_nloops cy_loop].
      * assert (Dt : (t / n = w + 1)%nat).
        { symmetry. apply Nat.div_unique with (r := 0%nat); lia. }
        assert (Mt : (t mod n = 0)%nat) by (rewrite Dt in D3; lia).
        rewrite Mt in Hx |- *. rewrite Hx. rewrite Dt. do 3 f_equal. f_equal. lia.
      * assert (Dt : (t / n = w)%nat).
        { symmetry. apply Nat.div_unique with (r := S ((t - 1) mod n)); lia. }
        assert (Mt : (t mod n = S ((t - 1) mod n))%nat) by (rewrite Dt in D3; lia).
        rewrite <- Mt, Hx. rewrite Dt. reflexivity.
    + destruct (Z.ltb_spec nl (Z.of_nat (w - L * v))); [|unfold L in *; lia].
      rewrite E1 in *. cbn [shuffled] in *.
      destruct (shuffled R l e v) as [l1 e1] eqn:SV. cbn [fst snd] in *.
      destruct (shuffle R l1 e1) as [l2 e2] eqn:SH. cbn [fst snd cy_iter cy_cache cy_nloops cy_loop] in *.
      assert (Ln : length l2 = n).
      { pose proof (shuffled_length l e (S v)) as Y. cbn [shuffled] in Y. rewrite SV, SH in Y. exact Y. }
      rewrite Ln. destruct (Nat.eqb_spec (S ((t - 1) mod n)) n) as [Wr|Wr]; [unfold n in *; lia|].
      cbn [cy_iter cy_cache cy_nloops cy_loop].
      assert (Dt : (t / n = w)%nat).
      { symmetry. apply Nat.div_unique with (r := S ((t - 1) mod n)); lia. }
      assert (Mt : (t mod n = S ((t - 1) mod n))%nat) by (rewrite Dt in D3; lia).
      rewrite <- Mt, Hx. rewrite Dt. do 3 f_equal. f_equal. nia.
Qed.

Lemma draws_from k : forall t, exists xs,
  draws R k (fst (at_draw t)) (snd (at_draw t)) = (Ret (xs, fst (at_draw (t + k))), snd (at_draw (t + k))) /\
  length xs = k /\
  forall j, (j < k)%nat -> nth_error xs j = nth_error (fst (shuffled R l e (reshuffles L n (t + j)))) ((t + j) mod n).
Proof.
  induction k as [|k IH]; intros t.
  - exists []. rewrite Nat.add_0_r. split; [reflexivity|]. split; [reflexivity|]. intros; lia.
  - destruct (draw_step t) as (x & E & Hx). destruct (IH (S t)) as (xs & E2 & Lx & Hxs).
    exists (x :: xs). split; [|split; [simpl; congruence|]].
    + simpl. rewrite (bind_run _ _ _ _ _ E), (bind_run _ _ _ _ _ E2). replace (S t + k)%nat with (t + S k)%nat by lia. reflexivity.
    + intros [|j] Hj; simpl.
      * rewrite Nat.add_0_r. symmetry. exact Hx.
      * rewrite Hxs by lia. replace (S t + j)%nat with (t + S j)%nat by lia. reflexivity.
Qed.
End C.
