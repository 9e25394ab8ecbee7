(** The estimator loop. *)
From Coq Require Import Permutation.
From Verif.Base Require Import Result Arith Rng.
From Verif.Model Require Import Random CrossSection.
From Verif.Spec Require Import Cyclic MonteCarlo.
From Verif.Proof Require Import Basics CyclicP.

Section MC.
Context {A : Arith} (R : Rng A).

Lemma machine_ext (E E' : nat -> num A) n : (forall i, (i < n)%nat -> E i = E' i) -> machine E n = machine E' n.
Proof.
  induction n as [|n IH]; intros H; simpl; [reflexivity|]. rewrite IH by (intros; apply H; lia).
  rewrite (H n) by lia. reflexivity.
Qed.

Lemma machine_window (E : nat -> num A) n : let (ref, pass) := machine E n in
  (pass <= n)%nat /\ (forall i, (n - pass <= i < n)%nat -> near (E i) ref = true) /\
  ((pass = n /\ ref = nlit A 0 0) \/ ((pass < n)%nat /\ ref = E (n - pass - 1)%nat)).
Proof.
  induction n as [|n IH]; simpl.
  - split; [lia|]. split; [intros; lia|left; auto].
  - destruct (machine E n) as [ref pass]. destruct IH as (H1 & H2 & H3). destruct (near (E n) ref) eqn:N.
    + split; [lia|]. split.
      * intros i Hi. destruct (Nat.eq_dec i n) as [->|]; [exact N|apply H2; lia].
      * destruct H3 as [[H3 H4]|[H3 H4]]; [left; split; [lia|exact H4]|right]. split; [lia|]. rewrite H4. f_equal; lia.
    + split; [lia|]. split; [intros; lia|]. right. split; [lia|]. f_equal; lia.
Qed.

(** From index [a] with all estimates near the reference. *)
Lemma machine_near (E : nat -> num A) ref a k pass : machine E a = (ref, pass) -> (forall i, (a <= i < a + k)%nat -> near (E i) ref = true) ->
  machine E (a + k) = (ref, (pass + k)%nat).
Proof.
  intros H. induction k as [|k IH]; intros Hn.
  - rewrite !Nat.add_0_r. exact H.
  - replace (a + S k)%nat with (S (a + k)) by lia. simpl. rewrite IH by (intros; apply Hn; lia).
    rewrite Hn by lia. f_equal. lia.
Qed.

(** A long enough window of mutually near estimates ends the loop. *)
Lemma machine_stops (E : nat -> num A) r K : (forall i j, (r <= j < i)%nat -> (i <= r + (2 * K - 1))%nat -> near (E i) (E j) = true) -> (1 <= K)%nat ->
  exists n, (r < n <= r + 2 * K)%nat /\ (K <= snd (machine E n))%nat.
Proof.
  intros Hw HK.
  assert (C : (forall i, (r <= i < r + K)%nat -> near (E i) (fst (machine E r)) = true) \/
              exists s, (r <= s < r + K)%nat /\ near (E s) (fst (machine E r)) = false /\
                forall i, (r <= i < s)%nat -> near (E i) (fst (machine E r)) = true).
  { clear Hw HK. induction K as [|K IH]; [left; intros; lia|].
    destruct IH as [IH|(s & H1 & H2)]; [|right; exists s; split; [lia|exact H2]].
    destruct (near (E (r + K)%nat) (fst (machine E r))) eqn:N.
    - left. intros i Hi. destruct (Nat.eq_dec i (r + K)) as [->|]; [exact N|apply IH; lia].
    - right. exists (r + K)%nat. split; [lia|]. split; [exact N|]. intros i Hi. apply IH. lia. }
  destruct (machine E r) as [ref pass] eqn:M. cbn [fst] in C. destruct C as [C|(s & H1 & H2 & H3)].
  - exists (r + K)%nat. split; [lia|]. rewrite (machine_near E ref r K pass M C). simpl. lia.
  - assert (Ms : machine E s = (ref, (pass + (s - r))%nat)).
    { replace s with (r + (s - r))%nat by lia. replace (r + (s - r) - r)%nat with (s - r)%nat by lia.
      apply machine_near; [exact M|]. intros i Hi. apply H3. lia. }
    assert (MS : machine E (S s) = (E s, 0%nat)) by (simpl; rewrite Ms, H2; reflexivity).
    exists (S s + K)%nat. split; [lia|].
    rewrite (machine_near E (E s) (S s) K 0 MS); [simpl; lia|].
    intros i Hi. apply Hw; lia.
Qed.

(** ** Totality of the samples *)
Definition usable (c : cyclic (A:=A)) : Prop := cy_cache c <> [] /\ (cy_iter c <= length (cy_cache c))%nat.
Hypothesis Hperm : forall l e, Permutation l (fst (shuffle R l e)).

Lemma draw_usable c e : usable c -> exists x c' e', cyclic_draw R c e = (Ret (x, c'), e') /\ usable c'.
Proof.
  intros [H1 H2]. destruct (draw_any R Hperm c e H1 H2) as (x & c' & e' & E & _ & P & I).
  exists x, c', e'. split; [exact E|]. split; [|exact I].
  intros Z. rewrite Z in P. apply Permutation_sym, Permutation_nil in P. contradiction.
Qed.
Lemma mc_draw_usable k : forall c e, usable c -> exists qs c' e', mc_draw R k c e = (Ret (qs, c'), e') /\ usable c' /\ length qs = k.
Proof.
  induction k as [|k IH]; intros c e H.
  - exists [], c, e. auto.
  - destruct (draw_usable c e H) as (x & c1 & e1 & E1 & U1). destruct (draw_usable c1 e1 U1) as (y & c2 & e2 & E2 & U2).
    destruct (IH c2 e2 U2) as (qs & c3 & e3 & E3 & U3 & L). exists ((x, y) :: qs), c3, e3.
    split; [|split; [exact U3|simpl; congruence]]. simpl. rewrite (bind_run _ _ _ _ _ E1), (bind_run _ _ _ _ _ E2), (bind_run _ _ _ _ _ E3). reflexivity.
Qed.
Lemma mc_sample_usable m sp c e : usable c -> exists x c' e', mc_sample R m sp c e = (Ret (x, c'), e') /\ usable c'.
Proof.
  intros H. unfold mc_sample, draw_canonical, act. unfold bind at 1. destruct (canonical R e) as [u e1].
  destruct (mc_draw_usable (Z.to_nat (mc_number m)) c e1 H) as (qA & c1 & e2 & E1 & U1 & _).
  destruct (mc_draw_usable (Z.to_nat (mc_number m)) c1 e2 U1) as (qB & c2 & e3 & E2 & U2 & _).
  do 3 eexists. split; [|exact U2]. rewrite (bind_run _ _ _ _ _ E1), (bind_run _ _ _ _ _ E2). reflexivity.
Qed.

(** ** The loop *)
Lemma estimate_prefix (m : mc A) xs ys i : (i < length xs)%nat -> estimate m (xs ++ ys) i = estimate m xs i.
Proof.
  intros H. unfold estimate. rewrite firstn_app. replace (S i - length xs)%nat with 0%nat by lia.
  cbn [firstn]. rewrite app_nil_r. reflexivity.
Qed.
Lemma machine_prefix (m : mc A) xs ys n : (n <= length xs)%nat -> machine (estimate m (xs ++ ys)) n = machine (estimate m xs) n.
Proof. intros H. apply machine_ext. intros i Hi. apply estimate_prefix. lia. Qed.

Lemma mc_loop_run m sp todo : forall xs c e, usable c ->
  let E ys := estimate m (xs ++ ys) in
  (forall k, (k <= length xs)%nat -> (Z.of_nat (snd (machine (E []) k)) <= 10000)%Z) ->
  exists ys c' e', samples R m sp (length ys) c e = (Ret (ys, c'), e') /\
   ((exists msg, mc_loop R m sp todo (Z.of_nat (length xs)) c (fst (machine (E []) (length xs))) (total xs)
        (Z.of_nat (snd (machine (E []) (length xs)))) e = (Throw (OutOfRange msg), e') /\ length ys = todo /\
        forall k, (k <= length (xs ++ ys))%nat -> (Z.of_nat (snd (machine (E ys) k)) <= 10000)%Z) \/
    (mc_loop R m sp todo (Z.of_nat (length xs)) c (fst (machine (E []) (length xs))) (total xs)
        (Z.of_nat (snd (machine (E []) (length xs)))) e = (Ret (E ys (length (xs ++ ys) - 1)%nat), e') /\
        (1 <= length ys <= todo)%nat /\ Z.of_nat (snd (machine (E ys) (length (xs ++ ys)))) = 10001%Z /\
        forall k, (k < length (xs ++ ys))%nat -> (Z.of_nat (snd (machine (E ys) k)) <= 10000)%Z)).
Proof.
  induction todo as [|todo IH]; intros xs c e Hu E H0; cbn [mc_loop].
  - exists [], c, e. split; [reflexivity|]. left. eexists. split; [reflexivity|]. split; [reflexivity|].
    intros k Hk. unfold E in *. rewrite app_nil_r in *. apply H0. exact Hk.
  - destruct (mc_sample_usable m sp c e Hu) as (x & c1 & e1 & E1 & U1).
    rewrite (bind_run _ _ _ _ _ E1). cbv beta iota.
    unfold E in *. rewrite app_nil_r in *.
    assert (T : nadd A (total xs) x = total (xs ++ [x])) by (unfold total; rewrite fold_left_app; reflexivity).
    rewrite T.
    assert (EST : mc_estimate m (Z.of_nat (length xs)) (total (xs ++ [x])) = estimate m (xs ++ [x]) (length xs)).
    { unfold estimate. rewrite firstn_all2 by (rewrite app_length; simpl; lia). reflexivity. }
    rewrite EST.
    assert (MP : forall k, (k <= length xs)%nat -> machine (estimate m (xs ++ [x])) k = machine (estimate m xs) k) by (intros k Hk; apply machine_prefix; exact Hk).
    assert (MS : machine (estimate m (xs ++ [x])) (S (length xs)) =
      let (ref, pass) := machine (estimate m xs) (length xs) in
      if near (estimate m (xs ++ [x]) (length xs)) ref then (ref, S pass) else (estimate m (xs ++ [x]) (length xs), 0%nat)).
    { cbn [machine]. rewrite MP by lia. reflexivity. }
    assert (LX : length (xs ++ [x]) = S (length xs)) by (rewrite app_length; simpl; lia).
    pose proof (H0 (length xs) (le_n _)) as HP.
    destruct (machine (estimate m xs) (length xs)) as [ref pass] eqn:MX. cbn [fst snd] in *.
    change (nltb A (nabs A (nsub A (estimate m (xs ++ [x]) (length xs)) ref)) mc_tolerance)
      with (near (estimate m (xs ++ [x]) (length xs)) ref).
    set (p' := snd (machine (estimate m (xs ++ [x])) (S (length xs)))).
    assert (PZ : (if near (estimate m (xs ++ [x]) (length xs)) ref then (Z.of_nat pass + 1)%Z else 0%Z) = Z.of_nat p').
    { unfold p'. rewrite MS. destruct (near _ ref); cbn [snd]; lia. }
    assert (RZ : (if near (estimate m (xs ++ [x]) (length xs)) ref then ref else estimate m (xs ++ [x]) (length xs))
                 = fst (machine (estimate m (xs ++ [x])) (S (length xs)))).
    { rewrite MS. destruct (near _ ref); reflexivity. }
    rewrite PZ, RZ.
    assert (PB : (Z.of_nat p' <= 10001)%Z) by (unfold p'; rewrite MS; destruct (near _ ref); cbn [snd]; lia).
    destruct (Z.ltb_spec mc_n_pass (Z.of_nat p')) as [Hp|Hp]; unfold mc_n_pass in Hp.
    + exists [x], c1, e1. split; [cbn [samples length]; rewrite (bind_run _ _ _ _ _ E1); reflexivity|]. right.
      split; [rewrite LX; cbn [Nat.sub]; rewrite Nat.sub_0_r; reflexivity|]. split; [simpl; lia|]. rewrite LX. split; [unfold p' in *; lia|].
      intros k Hk. rewrite MP by lia. apply H0. lia.
    + destruct (IH (xs ++ [x]) c1 e1 U1) as (ys & c' & e' & ES & D).
      { rewrite app_nil_r. intros k Hk. rewrite LX in Hk. destruct (Nat.eq_dec k (S (length xs))) as [->|]; [unfold p' in *; lia|].
        rewrite MP by lia. apply H0. lia. }
      rewrite app_nil_r in D. rewrite LX in D. unfold p'.
      replace (Z.of_nat (length xs) + 1)%Z with (Z.of_nat (S (length xs))) by lia.
      assert (AP : (xs ++ [x]) ++ ys = xs ++ x :: ys) by (rewrite <- app_assoc; reflexivity).
      rewrite AP in D.
      exists (x :: ys), c', e'. split; [cbn [samples length]; rewrite (bind_run _ _ _ _ _ E1), (bind_run _ _ _ _ _ ES); reflexivity|].
      destruct D as [(msg & D1 & D2 & D3)|(D1 & D2 & D3 & D4)].
      * left. exists msg. split; [exact D1|]. split; [simpl; lia|exact D3].
      * right. split; [exact D1|]. split; [simpl; lia|]. split; [exact D3|exact D4].
Qed.
End MC.
