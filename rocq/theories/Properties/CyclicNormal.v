(** C41: CyclicNormal. *)
From Coq Require Import Permutation Reals Lra.
From Verif.Base Require Import Result Arith RArith Rng.
From Verif.Model Require Import Random.
From Verif.Spec Require Import Contract Cyclic.
From Verif.Proof Require Import Basics RBasics CyclicP.

(** Shuffling permutes (part of [rng_ok]). *)
Definition shuffles {A} (R : Rng A) : Prop := forall l e, Permutation l (fst (shuffle R l e)).

Lemma quantiles_length A mean sd n : length (quantiles A mean sd n) = Z.to_nat n.
Proof. unfold quantiles. rewrite map_length, zrange_length. f_equal. lia. Qed.

Section Any.
Variables (A : Arith) (R : Rng A) (mean sd : num A) (size nl : Z) (e : engine R).
Hypothesis Hs : shuffles R.

(** For a non-empty table every draw returns (no access out of bounds), and
    returns one of the quantiles. *)
Theorem C41_values : (1 <= size)%Z -> forall k, exists c e0 xs c' e',
  cyclic_new R mean sd size nl e = (Ret c, e0) /\ draws R k c e0 = (Ret (xs, c'), e') /\ length xs = k /\
  forall x, In x xs -> exists i, (1 <= i <= size)%Z /\ x = quantile A mean sd size i.
Proof.
  intros Hsize k. rewrite cyclic_new_run. do 2 eexists.
  pose proof (shuffled_perm R Hs (quantiles A mean sd size) e 0) as P.
  set (c := Cyclic (fst (shuffled R (quantiles A mean sd size) e 0)) nl 0 0).
  destruct (draws_any R Hs k c (snd (shuffled R (quantiles A mean sd size) e 0))) as (xs & c' & e' & E & L & F).
  - cbn [c cy_cache]. intros Z. rewrite Z in P. apply Permutation_sym, Permutation_nil in P.
    pose proof (quantiles_length A mean sd size) as Q. rewrite P in Q. simpl in Q. lia.
  - cbn [c cy_iter]. lia.
  - exists xs, c', e'. split; [reflexivity|]. split; [exact E|]. split; [exact L|].
    intros x Hx. apply F in Hx. cbn [c cy_cache] in Hx.
    apply (Permutation_in _ (Permutation_sym P)) in Hx. unfold quantiles in Hx. apply in_map_iff in Hx.
    destruct Hx as (i & <- & Hi). apply in_zrange in Hi. eauto.
Qed.

(** The exact schedule: draw [j] is element [j mod n] of the list after
    [reshuffles (n_loops+1) n j] reshuffles, and each reshuffle shuffles the
    previous list; no other random number is used. *)
Theorem C41_schedule : (2 <= size)%Z -> (0 <= nl)%Z -> forall k, exists c e0 xs c' e',
  cyclic_new R mean sd size nl e = (Ret c, e0) /\ draws R k c e0 = (Ret (xs, c'), e') /\ length xs = k /\
  (forall v, Permutation (quantiles A mean sd size) (fst (shuffled R (quantiles A mean sd size) e v))) /\
  (forall j, (j < k)%nat -> nth_error xs j =
     nth_error (fst (shuffled R (quantiles A mean sd size) e (reshuffles (Z.to_nat (nl + 1)) (Z.to_nat size) j)))
               (Nat.modulo j (Z.to_nat size))) /\
  e' = snd (shuffled R (quantiles A mean sd size) e (reshuffles (Z.to_nat (nl + 1)) (Z.to_nat size) (k - 1))).
Proof.
  intros Hsize Hnl k. rewrite cyclic_new_run.
  set (l := quantiles A mean sd size). assert (Hl : length l = Z.to_nat size) by apply quantiles_length.
  assert (H2 : (2 <= length l)%nat) by lia.
  destruct (draws_from R Hs l e nl H2 Hnl k 0) as (xs & E & L & F).
  assert (HL : S (Z.to_nat nl) = Z.to_nat (nl + 1)) by lia.
  assert (A0 : at_draw R l e nl 0 = (Cyclic (fst (shuffled R l e 0)) nl 0 0, snd (shuffled R l e 0))).
  { unfold at_draw, reshuffles. replace (0 - 1)%nat with 0%nat by lia. replace (0 - 1)%nat with 0%nat by lia.
    rewrite !Nat.div_0_l by (rewrite ?Hl; try apply Nat.neq_mul_0; lia). reflexivity. }
  rewrite A0 in E. cbn [fst snd] in E. rewrite HL, Hl in F. simpl (0 + k)%nat in E.
  do 5 eexists. split; [reflexivity|]. split; [exact E|]. split; [exact L|]. split; [|split].
  - intros v. apply shuffled_perm. exact Hs.
  - intros j Hj. rewrite (F j Hj). reflexivity.
  - unfold at_draw. cbn [snd]. rewrite HL, Hl. reflexivity.
Qed.
End Any.

Lemma reshuffles_in_cycle L n q i : (1 <= L)%nat -> (1 <= n)%nat -> (i < n)%nat -> (q = 0 \/ q mod L <> 0)%nat ->
  reshuffles L n (q * n + i) = (q / L)%nat.
Proof.
  intros HL Hn Hi Hq. unfold reshuffles. pose proof (Nat.div_mod q L ltac:(lia)) as D.
  pose proof (Nat.mod_upper_bound q L ltac:(lia)) as B.
  destruct Hq as [->|Hq].
  - simpl (0 * n)%nat. rewrite Nat.div_0_l by lia. apply Nat.div_small. nia.
  - symmetry. apply Nat.div_unique with (r := ((q mod L) * n + i - 1)%nat); nia.
Qed.

Lemma reshuffles_at L n v i : (1 <= L)%nat -> (1 <= n)%nat -> (i < n)%nat ->
  reshuffles L n (L * S v * n + i) = if Nat.eqb i 0 then v else S v.
Proof.
  intros HL Hn Hi. unfold reshuffles. destruct (Nat.eqb_spec i 0) as [->|Hi0].
  - symmetry. apply Nat.div_unique with (r := (L * n - 1)%nat); nia.
  - symmetry. apply Nat.div_unique with (r := (i - 1)%nat); nia.
Qed.

Lemma nth_error_skipn {X} (l : list X) k j : nth_error (skipn k l) j = nth_error l (k + j).
Proof. revert l. induction k as [|k IH]; intros l; [reflexivity|]. destruct l; simpl; [destruct j; reflexivity|apply IH]. Qed.
Lemma nth_error_same {X} (l l' : list X) : length l = length l' -> (forall j, (j < length l)%nat -> nth_error l j = nth_error l' j) -> l = l'.
Proof.
  revert l'. induction l as [|x l IH]; intros [|y l'] HL H; simpl in HL; try lia; [reflexivity|].
  pose proof (H 0%nat ltac:(simpl; lia)) as E. simpl in E. f_equal; [congruence|].
  apply IH; [lia|]. intros j Hj. apply (H (S j)). simpl. lia.
Qed.

Section Cycles.
Variables (A : Arith) (R : Rng A) (mean sd : num A) (size nl : Z) (e : engine R).
Hypotheses (Hs : shuffles R) (Hsize : (2 <= size)%Z) (Hnl : (0 <= nl)%Z).
Let n := Z.to_nat size.
Let L := Z.to_nat (nl + 1).

(** Cycle [q] (draws q n, ..., q n + n - 1): when no reshuffle falls into it it
    visits every quantile exactly once; a reshuffle falls exactly into the cycles
    number n_loops+1, 2 (n_loops+1), ..., one draw after their beginning. *)
Theorem C41_cycles : forall q, exists c e0 xs c' e',
  cyclic_new R mean sd size nl e = (Ret c, e0) /\ draws R (q * n + n) c e0 = (Ret (xs, c'), e') /\
  (q = 0%nat \/ (q mod L <> 0)%nat -> Permutation (quantiles A mean sd size) (skipn (q * n) xs)) /\
  (forall v, q = (L * S v)%nat ->
     skipn (q * n) xs = firstn 1 (fst (shuffled R (quantiles A mean sd size) e v)) ++
                        skipn 1 (fst (shuffled R (quantiles A mean sd size) e (S v)))).
Proof.
  intros q. destruct (C41_schedule A R mean sd size nl e Hs Hsize Hnl (q * n + n)) as (c & e0 & xs & c' & e' & E1 & E2 & Lx & P & F & _).
  fold n L in F. exists c, e0, xs, c', e'. split; [exact E1|]. split; [exact E2|].
  assert (Hn : (2 <= n)%nat) by (unfold n; lia). assert (HL : (1 <= L)%nat) by (unfold L; lia).
  assert (LS : forall v, length (fst (shuffled R (quantiles A mean sd size) e v)) = n).
  { intros v. rewrite (shuffled_length R Hs). apply quantiles_length. }
  assert (SK : length (skipn (q * n) xs) = n) by (rewrite skipn_length, Lx; lia).
  assert (G : forall i, (i < n)%nat -> nth_error (skipn (q * n) xs) i =
    nth_error (fst (shuffled R (quantiles A mean sd size) e (reshuffles L n (q * n + i)))) i).
  { intros i Hi. rewrite nth_error_skipn, F by lia. f_equal. rewrite Nat.add_comm, Nat.mod_add by lia. apply Nat.mod_small. exact Hi. }
  split.
  - intros Hq. replace (skipn (q * n) xs) with (fst (shuffled R (quantiles A mean sd size) e (q / L))); [apply P|].
    apply nth_error_same; [rewrite LS, SK; reflexivity|]. intros j Hj. rewrite LS in Hj.
    rewrite (G j Hj), reshuffles_in_cycle by (lia || assumption). reflexivity.
  - intros v Hq. apply nth_error_same.
    + rewrite SK, app_length, firstn_length, skipn_length, !LS. lia.
    + rewrite SK. intros j Hj. rewrite (G j Hj), Hq, reshuffles_at by lia.
      destruct (Nat.eqb_spec j 0) as [->|Hj0].
      * pose proof (LS v). destruct (fst (shuffled R (quantiles A mean sd size) e v)); [simpl in *; lia|reflexivity].
      * rewrite nth_error_app2; rewrite firstn_length, LS; [|lia].
        rewrite nth_error_skipn. f_equal. lia.
Qed.
End Cycles.

(** ** The cycle with the reshuffle *)

(** A generator whose shuffle reverses the list. *)
Definition reversing (A : Arith) (R : Rng A) : Rng A :=
  MkRng A (engine R) (eng_seed R) (canonical R) (nstate R) (ninit R) (ndraw R) (gstate R) (ginit R) (gdraw R)
    (pwl R) (unif_int R) (fun l e => (rev l, e)) (sort_num R) (sort_fst R).
Lemma reversing_shuffles A (R : Rng A) : shuffles (reversing A R).
Proof. intros l e. apply Permutation_rev. Qed.

(** With it, in the first cycle with a reshuffle the first value comes again as
    the last, and (when the quantiles are distinct) one is skipped. *)
Theorem C41_repeat : forall (A : Arith) (R : Rng A) mean sd size nl e, (2 <= size)%Z -> (0 <= nl)%Z ->
  exists c e0 xs c' e', let q := Z.to_nat (nl + 1) in let n := Z.to_nat size in
    cyclic_new (reversing A R) mean sd size nl e = (Ret c, e0) /\
    draws (reversing A R) (q * n + n) c e0 = (Ret (xs, c'), e') /\
    nth_error xs (q * n) = Some (quantile A mean sd size size) /\
    nth_error xs (q * n + (n - 1)) = Some (quantile A mean sd size size) /\
    (NoDup (quantiles A mean sd size) -> ~ In (quantile A mean sd size 1) (skipn (q * n) xs)).
Proof.
  intros A R mean sd size nl e Hsize Hnl.
  destruct (C41_cycles A (reversing A R) mean sd size nl e (reversing_shuffles A R) Hsize Hnl (Z.to_nat (nl + 1)))
    as (c & e0 & xs & c' & e' & E1 & E2 & _ & F).
  exists c, e0, xs, c', e'. cbv zeta. split; [exact E1|]. split; [exact E2|].
  specialize (F 0%nat ltac:(lia)). cbn [shuffled shuffle reversing fst snd] in F. rewrite rev_involutive in F.
  set (l := quantiles A mean sd size) in *.
  assert (LL : length l = Z.to_nat size) by apply quantiles_length.
  assert (HL : exists m, l = (quantile A mean sd size 1 :: m ++ [quantile A mean sd size size])).
  { unfold l, quantiles. rewrite zrange_cons by lia. rewrite zrange_snoc by lia. simpl. rewrite map_app. simpl. eauto. }
  destruct HL as [m HL]. rewrite HL in F at 1 2. simpl rev in F. rewrite rev_app_distr in F. simpl in F.
  assert (Lm : length m = (Z.to_nat size - 2)%nat).
  { rewrite HL in LL. simpl in LL. rewrite app_length in LL. simpl in LL. lia. }
  split; [|split].
  - rewrite <- (Nat.add_0_r (_ * _)), <- nth_error_skipn, F. reflexivity.
  - rewrite <- nth_error_skipn, F. replace (Z.to_nat size - 1)%nat with (S (length m)) by lia. simpl.
    rewrite nth_error_app2 by lia. rewrite Nat.sub_diag. reflexivity.
  - intros ND. rewrite F, HL in *. inversion ND as [|? ? N1 N2]; subst. intros [H|H].
    + apply N1. apply in_or_app. right. left. exact H.
    + contradiction.
Qed.

(** ** Symmetry *)
Theorem C41_symmetric : forall Ei erfinv mean sd size i,
  (forall x, erfinv (- x) = - erfinv x)%R -> (1 <= size)%Z -> (1 <= i <= size)%Z ->
  (quantile (RA_with Ei erfinv) mean sd size i + quantile (RA_with Ei erfinv) mean sd size (size + 1 - i) = 2 * mean)%R.
Proof.
  intros Ei erfinv mean sd size i Hodd Hsize Hi. unfold quantile. cbn [num RA_with nadd nsub nmul ndiv nneg nlit nofZ nroot_two nerfinv].
  rlits. assert (Hp : (IZR (size + 1) <> 0)%R) by (apply not_0_IZR; lia).
  replace (- (1) + 2 * IZR (size + 1 - i) / IZR (size + 1))%R with (- (- (1) + 2 * IZR i / IZR (size + 1)))%R.
  - rewrite Hodd. ring.
  - rewrite minus_IZR. field. exact Hp.
Qed.

(** ** Instances: the program's table (10^6 quantiles, 10 loops) and generator [toy]. *)
Example C41_instance : forall (A : Arith) (f : nat -> num A),
  shuffles (toy A f) /\ (2 <= 1000000)%Z /\ (0 <= 10)%Z /\ (11 mod Z.to_nat (10 + 1) = 0)%nat /\ (12 mod Z.to_nat (10 + 1) <> 0)%nat.
Proof.
  intros A f. split; [intros l e; apply Permutation_refl|]. split; [lia|]. split; [lia|]. split; [reflexivity|discriminate].
Qed.
