(** What the C++ standard promises about the random draws, sort and shuffle, as
    a predicate on [Rng]; theorems that need it take it as a hypothesis.  [toy]
    is an instance that meets it. *)
From Coq Require Import Permutation Sorted Reals Lra.
From Verif.Base Require Import Result Arith RArith Rng.

Record rng_ok {A} (R : Rng A) : Prop := RngOk {
  (* generate_canonical: in [0, 1) *)
  ok_canonical : forall e,
    nltb A (fst (canonical R e)) (nofZ A 0) = false /\
    nltb A (fst (canonical R e)) (nofZ A 1) = true;
  (* piecewise_linear_distribution: in [xmin, xmax] *)
  ok_pwl : forall n lo hi w e, nltb A hi lo = false ->
    nltb A (fst (pwl R n lo hi w e)) lo = false /\ nltb A hi (fst (pwl R n lo hi w e)) = false;
  (* uniform_int_distribution: in [a, b] *)
  ok_unif : forall a b e, (a <= b)%Z -> (a <= fst (unif_int R a b e) <= b)%Z;
  (* gamma_distribution: non-negative *)
  ok_gamma : forall g e, nltb A (fst (fst (gdraw R g e))) (nofZ A 0) = false;
  (* shuffle and sort: permutations, and sort sorts *)
  ok_shuffle : forall l e, Permutation l (fst (shuffle R l e));
  ok_sort_num : forall l, Permutation l (sort_num R l);
  ok_sort_fst : forall l, Permutation l (sort_fst R l);
  ok_sorted_num : forall l, StronglySorted (fun x y => nltb A y x = false) (sort_num R l);
  ok_sorted_fst : forall l, StronglySorted (fun p q => nltb A (fst q) (fst p) = false) (sort_fst R l)
}.

(** Insertion sort on keys. *)
Fixpoint insert_by {X} (lt : X -> X -> bool) (x : X) (l : list X) : list X :=
  match l with
  | [] => [x]
  | y :: l' => if lt y x then y :: insert_by lt x l' else x :: l
  end.
Definition sort_by {X} (lt : X -> X -> bool) (l : list X) : list X :=
  fold_right (insert_by lt) [] l.

(** A deterministic generator: the k-th canonical draw is [f k]; normal draws
    are 0, gamma draws 1, the other distributions return their lower bound. *)
Definition toy (A : Arith) (f : nat -> num A) : Rng A := {|
  engine := nat;
  eng_seed := fun z => Z.to_nat z;
  canonical := fun e => (f e, S e);
  nstate := unit; ninit := fun _ _ => tt; ndraw := fun n e => (nofZ A 0, n, S e);
  gstate := unit; ginit := fun _ _ => tt; gdraw := fun g e => (nofZ A 1, g, S e);
  pwl := fun _ lo _ _ e => (lo, S e);
  unif_int := fun a _ e => (a, S e);
  shuffle := fun l e => (l, S e);
  sort_num := sort_by (nltb A);
  sort_fst := sort_by (fun p q => nltb A (fst p) (fst q))
|}.

Lemma insert_by_perm {X} (lt : X -> X -> bool) x l : Permutation (x :: l) (insert_by lt x l).
Proof.
  induction l as [|y l IH]; simpl; auto. destruct (lt y x); auto.
  eapply perm_trans; [apply perm_swap|]. constructor. exact IH.
Qed.

Lemma sort_by_perm {X} (lt : X -> X -> bool) l : Permutation l (sort_by lt l).
Proof.
  induction l as [|x l IH]; simpl; auto.
  eapply perm_trans; [|apply insert_by_perm]. constructor. exact IH.
Qed.

Lemma sort_by_sorted {X} (lt : X -> X -> bool) (k : X -> R) l :
  (forall x y, lt x y = Rltb (k x) (k y)) ->
  StronglySorted (fun x y => lt y x = false) (sort_by lt l).
Proof.
  intros Hk. induction l as [|x l IH]; simpl; [constructor|].
  assert (G : forall s, StronglySorted (fun x y => lt y x = false) s ->
              StronglySorted (fun x y => lt y x = false) (insert_by lt x s)).
  { clear IH l. induction s as [|y s IH]; intros Hs; simpl; [repeat constructor|].
    inversion Hs as [|? ? Hs1 Hs2]; subst. destruct (lt y x) eqn:E.
    - constructor; [apply IH; auto|].
      apply Forall_forall. intros z Hz.
      apply (Permutation_in _ (Permutation_sym (insert_by_perm lt x s))) in Hz.
      destruct Hz as [->|Hz].
      + rewrite Hk in *. apply Rltb_true in E. apply Rltb_false. lra.
      + rewrite Forall_forall in Hs2. auto.
    - constructor; auto. constructor; auto.
      apply Forall_forall. intros z Hz. rewrite Forall_forall in Hs2. specialize (Hs2 z Hz).
      rewrite Hk in *. apply Rltb_false in E. apply Rltb_false in Hs2. apply Rltb_false. lra. }
  apply G. exact IH.
Qed.

Lemma toy_ok Ei erfinv (f : nat -> R) :
  (forall k, 0 <= f k < 1)%R -> rng_ok (toy (RA_with Ei erfinv) f).
Proof.
  intros Hf. constructor; intros; cbn; auto using sort_by_perm.
  - specialize (Hf e). split; [apply Rltb_false|apply Rltb_true]; lra.
  - split; [apply Rltb_false; lra|exact H].
  - lia.
  - apply Rltb_false; lra.
  - apply (sort_by_sorted Rltb (fun x => x)). reflexivity.
  - apply (sort_by_sorted _ fst). reflexivity.
Qed.
