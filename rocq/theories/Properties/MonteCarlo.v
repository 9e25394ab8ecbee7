(** C40: the Monte-Carlo cross-section estimator. *)
From Coq Require Import Permutation Reals Lra.
From Verif.Base Require Import Result Arith RArith Rng.
From Verif.Model Require Import Random Config Nucleon CrossSection.
From Verif.Spec Require Import Contract Cyclic MonteCarlo.
From Verif.Proof Require Import Basics RBasics CyclicP MonteCarloP.
From Verif.Properties Require Import CyclicNormal.

Section Any.
Variables (A : Arith) (R : Rng A) (m : mc A) (sp : num A) (e : engine R).
Hypothesis Hs : shuffles R.

Lemma new_usable mean sd nl size e1 : (1 <= size)%Z -> usable (Cyclic (fst (shuffled R (quantiles A mean sd size) e1 0)) nl 0 0).
Proof.
  intros H. split; [|cbn; lia]. cbn [cy_cache]. intros Z.
  pose proof (shuffled_length R Hs (quantiles A mean sd size) e1 0) as L. rewrite Z, quantiles_length in L. simpl in L. lia.
Qed.

(** The exact stopping rule: it stops at the first sample at which 10001
    successive estimates were near the current reference, and throws out_of_range
    iff that happens for none of the 10^7 samples. *)
Theorem C40_rule : exists c e0 xs c' e',
  cyclic_new R (nlit A 0 0) (mc_sampling_width m) mc_cache_size mc_n_loops e = (Ret c, e0) /\
  samples R m sp (length xs) c e0 = (Ret (xs, c'), e') /\
  ((exists msg, mc_cross_section R m sp e = (Throw (OutOfRange msg), e') /\ length xs = Z.to_nat mc_n_max /\
      forall k, (k <= length xs)%nat -> (Z.of_nat (snd (machine (estimate m xs) k)) <= 10000)%Z) \/
   (mc_cross_section R m sp e = (Ret (estimate m xs (length xs - 1)), e') /\
      (1 <= length xs <= Z.to_nat mc_n_max)%nat /\
      Z.of_nat (snd (machine (estimate m xs) (length xs))) = 10001%Z /\
      forall k, (k < length xs)%nat -> (Z.of_nat (snd (machine (estimate m xs) k)) <= 10000)%Z)).
Proof.
  unfold mc_cross_section. rewrite (bind_run _ _ _ _ _ (cyclic_new_run R _ _ _ _ e)).
  pose proof (cyclic_new_run R (nlit A 0 0) (mc_sampling_width m) mc_cache_size mc_n_loops e) as N.
  set (c := Cyclic (fst (shuffled R (quantiles A (nlit A 0 0) (mc_sampling_width m) mc_cache_size) e 0)) mc_n_loops 0 0) in *.
  set (e0 := snd (shuffled R (quantiles A (nlit A 0 0) (mc_sampling_width m) mc_cache_size) e 0)) in *.
  assert (U : usable c) by (apply new_usable; unfold mc_cache_size; lia).
  destruct (mc_loop_run R Hs m sp (Z.to_nat mc_n_max) [] c e0 U) as (xs & c' & e' & S & D).
  { intros k Hk. simpl in Hk. replace k with 0%nat by lia. simpl. lia. }
  exists c, e0, xs, c', e'. split; [exact N|]. split; [exact S|]. cbn [app length machine fst snd Z.of_nat] in D.
  destruct D as [(msg & D1 & D2 & D3)|(D1 & D2 & D3 & D4)].
  - left. exists msg. split; [exact D1|]. split; [exact D2|exact D3].
  - right. split; [exact D1|]. split; [exact D2|]. split; [exact D3|exact D4].
Qed.

(** When it returns, the value is the estimate after its last sample, at most
    10^7 samples were drawn, the last 10001 estimates are all within 0.001 of one
    reference estimate. *)
Theorem C40_returns : forall est e', mc_cross_section R m sp e = (Ret est, e') ->
  exists c e0 xs c' n,
    cyclic_new R (nlit A 0 0) (mc_sampling_width m) 1000000 10 e = (Ret c, e0) /\
    samples R m sp (S n) c e0 = (Ret (xs, c'), e') /\ length xs = S n /\ (Z.of_nat n < 10000000)%Z /\
    est = estimate m xs n /\ settled (estimate m xs) n.
Proof.
  intros est e' H. destruct C40_rule as (c & e0 & xs & c' & e1 & N & S & [(msg & D1 & _)|(D1 & D2 & D3 & D4)]); [congruence|].
  rewrite D1 in H. apply pair_Ret_inj in H. destruct H as [<- <-].
  exists c, e0, xs, c', (length xs - 1)%nat.
  replace (Datatypes.S (length xs - 1)) with (length xs) by lia.
  split; [exact N|]. split; [exact S|]. split; [reflexivity|]. split; [unfold mc_n_max in D2; lia|]. split; [reflexivity|].
  pose proof (machine_window (estimate m xs) (length xs)) as W.
  destruct (machine (estimate m xs) (length xs)) as [ref pass]. cbn [snd] in D3. destruct W as (W1 & W2 & W3).
  exists ref. split.
  - destruct W3 as [[W3 W4]|[W3 W4]]; [left; split; [lia|exact W4]|right]. split; [lia|]. rewrite W4. f_equal. lia.
  - intros i Hi. apply W2. lia.
Qed.

(** It either returns or throws out_of_range (the samples themselves never fail);
    in the second case all 10^7 samples were drawn and among the estimates there
    is no window of 20002 consecutive ones that are all within 0.001 of each
    other. *)
Theorem C40_fails : forall r e', mc_cross_section R m sp e = (r, e') -> (forall est, r <> Ret est) ->
  (exists msg, r = Throw (OutOfRange msg)) /\
  exists c e0 xs c',
    cyclic_new R (nlit A 0 0) (mc_sampling_width m) 1000000 10 e = (Ret c, e0) /\
    samples R m sp (length xs) c e0 = (Ret (xs, c'), e') /\ Z.of_nat (length xs) = 10000000%Z /\
    (forall k, (k < length xs)%nat -> ~ (forall i j, (k <= j < i)%nat -> (Z.of_nat i <= Z.of_nat k + 20001 < 10000000)%Z ->
        near (estimate m xs i) (estimate m xs j) = true) \/ (10000000 <= Z.of_nat k + 20001)%Z).
Proof.
  intros r e' H Hr. destruct C40_rule as (c & e0 & xs & c' & e1 & N & S & [(msg & D1 & D2 & D3)|(D1 & _)]).
  2:{ rewrite D1 in H. exfalso. apply (Hr (estimate m xs (length xs - 1))). congruence. }
  rewrite D1 in H. assert (r = Throw (OutOfRange msg) /\ e' = e1) as [-> ->] by (split; congruence).
  split; [eauto|]. exists c, e0, xs, c'. split; [exact N|]. split; [exact S|].
  assert (LX : Z.of_nat (length xs) = 10000000%Z) by (unfold mc_n_max in D2; lia). split; [exact LX|].
  intros k Hk. destruct (Z_lt_ge_dec (Z.of_nat k + 20001) 10000000) as [Hlt|Hge]; [left|right; lia].
  intros W. destruct (machine_stops (estimate m xs) k (Z.to_nat 10001)) as (n & Hn1 & Hn2).
  - intros i j Hij Hi. apply W; [exact Hij|lia].
  - lia.
  - pose proof (D3 n ltac:(lia)). lia.
Qed.
End Any.

(** ** The estimate (real arithmetic) *)
Local Open Scope R_scope.
Section Real.
Variables (Ei erfinv : R -> R).
Let A := RA_with Ei erfinv.

Lemma total_Rsum (xs : list R) : total (A:=A) xs = Rsum (fun x => x) xs.
Proof. unfold total. change (nadd A) with Rplus. change (nlit A 0 0) with (Rlit 0 0). rewrite (fold_left_Rsum (fun x : R => x)). change (nlit A 0 0) with (Rlit 0 0). rewrite Rlit_0. apply Rplus_0_l. Qed.

Lemma estimate_R (m : mc A) xs n : estimate (A:=A) m xs n
  = PI * (mc_max_impact m * mc_max_impact m) * (1 - Rsum (fun x => x) (firstn (S n) xs) / INR n).
Proof.
  unfold estimate. rewrite total_Rsum. cbn [A RA_with nmul nsub ndiv nlit nofZ npi num]. rlits. rewrite <- INR_IZR_INZ. reflexivity.
Qed.

(** The estimate divides the sum S of n+1 samples by n: compared with the
    average of the samples it is too small by (S/n)/(n+1) of the disc area, which
    is at most 1/n of it for samples in [0,1]; it is negative exactly when S > n. *)
Theorem C40_bias : forall (m : mc A) xs n, (1 <= n)%nat -> length xs = S n -> 0 < mc_max_impact m ->
  let area := PI * (mc_max_impact m * mc_max_impact m) in
  let S := Rsum (fun x => x) xs in
  estimate (A:=A) m xs n = area * (1 - S / INR (n + 1)) - area * (S / INR n / INR (n + 1)) /\
  (estimate (A:=A) m xs n < 0 <-> INR n < S) /\
  ((forall x, In x xs -> 0 <= x <= 1) -> 0 <= area * (S / INR n / INR (n + 1)) <= area / INR n).
Proof.
  intros m xs n Hn HL Hb area S. rewrite estimate_R. rewrite firstn_all2 by exact (Nat.eq_le_incl _ _ HL). fold S. fold area.
  assert (N1 : 0 < INR n) by (apply lt_0_INR; lia). assert (N2 : INR (n + 1) = INR n + 1) by (rewrite plus_INR; reflexivity).
  assert (AP : 0 < area) by (unfold area; pose proof PI_RGT_0; apply Rmult_lt_0_compat; [lra|apply Rmult_lt_0_compat; assumption]).
  split; [|split].
  - change (@eq (num A)) with (@eq R). rewrite N2. field. lra.
  - split.
    + intros H. assert (1 - S / INR n < 0) by (destruct (Rle_or_lt 0 (1 - S / INR n)) as [Z|Z]; [|exact Z]; pose proof (Rmult_le_pos area _ (Rlt_le _ _ AP) Z); lra).
      assert (E : S = S / INR n * INR n) by (field; lra). rewrite E. assert (1 < S / INR n) by lra. nra.
    + intros H. assert (1 < S / INR n) by (apply Rmult_lt_reg_r with (INR n); [lra|]; unfold Rdiv; rewrite Rmult_assoc, Rinv_l by lra; lra).
      assert (area * (S / INR n - 1) > 0) by (apply Rmult_lt_0_compat; lra). lra.
  - intros Hx. assert (S0 : 0 <= S) by (apply Rsum_nonneg; intros x Hin; apply Hx; exact Hin).
    assert (S1 : S <= INR (n + 1)).
    { unfold S. apply Rle_trans with (Rsum (fun _ : R => 1) xs); [apply Rsum_le; intros x Hin; apply Hx; exact Hin|].
      rewrite Rsum_const, HL. replace (Datatypes.S n) with (n + 1)%nat by lia. lra. }
    assert (Q : 0 <= S / INR (n + 1) <= 1).
    { rewrite N2 in *. split; [apply Rmult_le_pos; [lra|left; apply Rinv_0_lt_compat; lra]|].
      apply Rmult_le_reg_r with (INR n + 1); [lra|]. unfold Rdiv. rewrite Rmult_assoc, Rinv_l by lra. lra. }
    replace (area * (S / INR n / INR (n + 1))) with (area / INR n * (S / INR (n + 1))) by (rewrite N2; field; lra).
    assert (0 < area / INR n) by (apply Rmult_lt_0_compat; [exact AP|apply Rinv_0_lt_compat; lra]). split; nra.
Qed.
End Real.
