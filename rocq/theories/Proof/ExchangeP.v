(** Independent trials in another order, and under other labels. *)
From Coq Require Import Reals Lra ZArith Lia List Permutation Bool.
From Verif.Base Require Import Result Arith RArith.
From Verif.Model Require Import Nucleon Config.
From Verif.Spec Require Import Profile Law History Glauber Exchange.
From Verif.Proof Require Import RBasics GlauberP.
Import ListNotations.
Local Open Scope R_scope.

Lemma trials_perm {X} (q : X -> R) ps ps' : Permutation ps ps' -> forall F : list (X * bool) -> R,
  (forall l l', Permutation l l' -> F l = F l') ->
  trials (map q ps) (fun hs => F (combine ps hs)) = trials (map q ps') (fun hs => F (combine ps' hs)).
Proof.
  induction 1 as [|x l l' _ IH|x y l|l l' l'' _ IH1 _ IH2]; intros F HF.
  - reflexivity.
  - cbn [map trials combine]. rewrite (IH (fun m => F ((x, true) :: m))), (IH (fun m => F ((x, false) :: m))); [reflexivity| |];
      intros m m' P; apply HF; constructor; exact P.
  - cbn [map trials combine].
    assert (S : forall h k, trials (map q l) (fun hs => F ((y, h) :: (x, k) :: combine l hs)) = trials (map q l) (fun hs => F ((x, k) :: (y, h) :: combine l hs))).
    { intros h k. apply trials_ext. intros hs _. apply HF. apply perm_swap. }
    rewrite !S. ring.
  - rewrite (IH1 F HF). apply IH2. exact HF.
Qed.

Lemma combine_map_l {X Y Z} (h : X -> Y) (l : list X) (m : list Z) : combine (map h l) m = map (fun p => (h (fst p), snd p)) (combine l m).
Proof. revert m. induction l as [|x l IH]; intros [|z m]; cbn; [reflexivity..|]. rewrite IH. reflexivity. Qed.

Lemma combine_snd {X Y} (l : list X) (m : list Y) : length m = length l -> map snd (combine l m) = m.
Proof. revert m. induction l as [|x l IH]; intros [|y m] E; try discriminate; [reflexivity|]. cbn. f_equal. apply IH. injection E; auto. Qed.

Lemma existsb_map {X Y} (h : X -> Y) (f : Y -> bool) l : existsb f (map h l) = existsb (fun x => f (h x)) l.
Proof. induction l as [|x l IH]; [reflexivity|]. cbn. rewrite IH. reflexivity. Qed.

Lemma existsb_perm {X} (f : X -> bool) l l' : Permutation l l' -> existsb f l = existsb f l'.
Proof.
  intros P. destruct (existsb f l) eqn:E; symmetry.
  - apply existsb_exists in E. destruct E as (x & I & H). apply existsb_exists. exists x. split; [eapply Permutation_in; eauto|exact H].
  - apply not_true_is_false. intros E'. apply existsb_exists in E'. destruct E' as (x & I & H).
    assert (existsb f l = true); [apply existsb_exists; exists x; split; [eapply Permutation_in; [symmetry; exact P|exact I]|exact H]|congruence].
Qed.

Lemma existsb_same {X} (f g : X -> bool) l : (forall x, In x l -> f x = g x) -> existsb f l = existsb g l.
Proof. induction l as [|x l IH]; intros H; [reflexivity|]. cbn. rewrite H by (left; reflexivity). rewrite IH; [reflexivity|]. intros; apply H; right; assumption. Qed.

Lemma filter_perm {X} (f : X -> bool) l l' : Permutation l l' -> Permutation (filter f l) (filter f l').
Proof. induction 1; cbn [filter]; auto; [destruct (f x)|destruct (f x), (f y)|eapply Permutation_trans; eauto]; auto using perm_swap. Qed.

Lemma count_perm hs hs' : Permutation hs hs' -> count_true hs = count_true hs'.
Proof. intros P. unfold count_true. rewrite (Permutation_length (filter_perm _ _ _ P)). reflexivity. Qed.

(** Outcomes of labelled pairs. *)
Notation npair := (nat * nat)%type.
Definition flags_A (p : list nat) (L : list (npair * bool)) : list bool := map (fun i => existsb (fun ph => Nat.eqb (fst (fst ph)) i && snd ph) L) p.
Definition flags_B (r : list nat) (L : list (npair * bool)) : list bool := map (fun j => existsb (fun ph => Nat.eqb (snd (fst ph)) j && snd ph) L) r.
Definition seen_of (f : list bool -> list bool -> Z -> bool -> R) (p r : list nat) (L : list (npair * bool)) : R :=
  f (flags_A p L) (flags_B r L) (count_true (map snd L)) (any (map snd L)).

Lemma seen_of_perm f p r L L' : Permutation L L' -> seen_of f p r L = seen_of f p r L'.
Proof.
  intros P. pose proof (Permutation_map snd P) as Q. unfold seen_of. f_equal.
  - apply map_ext. intros i. apply existsb_perm, P.
  - apply map_ext. intros j. apply existsb_perm, P.
  - apply count_perm, Q.
  - unfold any. apply existsb_perm, Q.
Qed.

(** The pairs of the labels [p] and [r], in the order of the loops. *)
Definition pairs_of (p r : list nat) : list npair := flat_map (fun i => map (fun j => (i, j)) r) p.

Lemma in_pairs_of p r x : In x (pairs_of p r) <-> In (fst x) p /\ In (snd x) r.
Proof.
  destruct x as [i j]. unfold pairs_of. rewrite in_flat_map. cbn [fst snd]. split.
  - intros (k & Hk & H). apply in_map_iff in H. destruct H as (l & E & Hl). injection E as -> ->. auto.
  - intros [Hi Hj]. exists i. split; [exact Hi|]. apply in_map_iff. eauto.
Qed.

Lemma pairs_of_length p r : length (pairs_of p r) = (length p * length r)%nat.
Proof.
  induction p as [|i p IH]; [reflexivity|]. change (pairs_of (i :: p) r) with (map (fun j => (i, j)) r ++ pairs_of p r)%list.
  rewrite app_length, map_length, IH. reflexivity.
Qed.

Lemma pairs_of_nodup p r : NoDup p -> NoDup r -> NoDup (pairs_of p r).
Proof.
  intros P R. induction P as [|i p Hi _ IH]; [constructor|]. change (pairs_of (i :: p) r) with (map (fun j => (i, j)) r ++ pairs_of p r)%list.
  assert (A : NoDup (map (fun j => (i, j)) r)) by (apply FinFun.Injective_map_NoDup; [intros a b E; congruence|exact R]).
  assert (B : forall x, In x (map (fun j => (i, j)) r) -> ~ In x (pairs_of p r)).
  { intros x Hx Hy. apply in_map_iff in Hx. destruct Hx as (j & <- & _). apply in_pairs_of in Hy. cbn [fst] in Hy. tauto. }
  revert A B. generalize (map (fun j : nat => (i, j)) r). intros l A B. induction A as [|x l Hx _ IH2]; [exact IH|].
  cbn [app]. constructor.
  - rewrite in_app_iff. intros [H|H]; [exact (Hx H)|exact (B x (or_introl eq_refl) H)].
  - apply IH2. intros y Hy. apply B. right. exact Hy.
Qed.

Lemma pairs_of_perm p p' r r' : NoDup p -> NoDup r -> Permutation p p' -> Permutation r r' -> Permutation (pairs_of p r) (pairs_of p' r').
Proof.
  intros Np Nr P R. apply NoDup_Permutation; [apply pairs_of_nodup; assumption|apply pairs_of_nodup|].
  - eapply Permutation_NoDup; eauto.
  - eapply Permutation_NoDup; eauto.
  - intros x. rewrite !in_pairs_of. split; intros [A B]; split;
      [eapply Permutation_in; eauto|eapply Permutation_in; eauto|eapply Permutation_in; [symmetry; eauto|eauto]|eapply Permutation_in; [symmetry; eauto|eauto]].
Qed.

(** Numbering by position. *)
Definition relabel (p r : list nat) (x : npair) : npair := (nth (fst x) p 0%nat, nth (snd x) r 0%nat).

Lemma map_nth_seq {X} (l : list X) d : map (fun i => nth i l d) (seq 0 (length l)) = l.
Proof.
  induction l as [|x l IH]; [reflexivity|]. cbn [length seq map nth]. f_equal. rewrite <- seq_shift, map_map. exact IH.
Qed.

Lemma pairs_of_relabel p r : map (relabel p r) (all_pairs (length p) (length r)) = pairs_of p r.
Proof.
  assert (G : forall ks, map (relabel p r) (flat_map (fun i => map (fun j => (i, j)) (seq 0 (length r))) ks) = pairs_of (map (fun i => nth i p 0%nat) ks) r).
  { induction ks as [|k ks IH]; [reflexivity|]. cbn [flat_map map pairs_of]. rewrite map_app. fold (pairs_of (map (fun i => nth i p 0%nat) ks) r). rewrite IH. f_equal.
    transitivity (map (fun j => (nth k p 0%nat, j)) (map (fun i => nth i r 0%nat) (seq 0 (length r)))); [rewrite !map_map; reflexivity|rewrite map_nth_seq; reflexivity]. }
  unfold all_pairs. rewrite G, map_nth_seq. reflexivity.
Qed.

Lemma all_pairs_in a b x : In x (all_pairs a b) <-> (fst x < a /\ snd x < b)%nat.
Proof.
  change (all_pairs a b) with (pairs_of (seq 0 a) (seq 0 b)). rewrite in_pairs_of, !in_seq. lia.
Qed.

Lemma relabel_flags p r hs f : NoDup p -> NoDup r -> length hs = (length p * length r)%nat ->
  f (hit_in_A (length p) (length r) hs) (hit_in_B (length p) (length r) hs) (count_true hs) (any hs) = seen_of f p r (combine (pairs_of p r) hs).
Proof.
  intros Np Nr Lh. unfold seen_of. rewrite combine_snd by (rewrite pairs_of_length; exact Lh).
  rewrite <- pairs_of_relabel, combine_map_l.
  assert (I : forall ph, In ph (combine (all_pairs (length p) (length r)) hs) -> (fst (fst ph) < length p /\ snd (fst ph) < length r)%nat).
  { intros [x h] H. apply in_combine_l in H. apply all_pairs_in in H. exact H. }
  f_equal.
  - unfold hit_in_A, flags_A. match goal with |- _ = map ?g p => transitivity (map g (map (fun i => nth i p 0%nat) (seq 0 (length p)))); [|rewrite map_nth_seq; reflexivity] end.
    rewrite map_map. apply map_ext_in. intros k Hk. apply in_seq in Hk.
    rewrite existsb_map. apply existsb_same. intros ph Hp. apply I in Hp. cbn [fst snd relabel]. f_equal.
    apply eq_true_iff_eq. rewrite !Nat.eqb_eq. split; [intros ->; reflexivity|]. intros E. apply (proj1 (NoDup_nth p 0%nat) Np); [lia|lia|exact E].
  - unfold hit_in_B, flags_B. match goal with |- _ = map ?g r => transitivity (map g (map (fun i => nth i r 0%nat) (seq 0 (length r)))); [|rewrite map_nth_seq; reflexivity] end.
    rewrite map_map. apply map_ext_in. intros k Hk. apply in_seq in Hk.
    rewrite existsb_map. apply existsb_same. intros ph Hp. apply I in Hp. cbn [fst snd relabel]. f_equal.
    apply eq_true_iff_eq. rewrite !Nat.eqb_eq. split; [intros ->; reflexivity|]. intros E. apply (proj1 (NoDup_nth r 0%nat) Nr); [lia|lia|exact E].
Qed.

Section Law.
Variables (w v sp : R) (gA gB : nat -> nucleon RA).
Definition chance (x : npair) : R := miss w v sp (gA (fst x)) (gB (snd x)).

Lemma misses_map p r : misses w v sp (map gA p) (map gB r) = map chance (pairs_of p r).
Proof.
  induction p as [|i p IH]; [reflexivity|]. change (pairs_of (i :: p) r) with (map (fun j => (i, j)) r ++ pairs_of p r)%list.
  rewrite map_app, <- IH, map_map. unfold misses. cbn [map flat_map]. rewrite map_map. reflexivity.
Qed.

Lemma law_labelled p r f : NoDup p -> NoDup r ->
  trials (misses w v sp (map gA p) (map gB r)) (fun hs => f (hit_in_A (length p) (length r) hs) (hit_in_B (length p) (length r) hs) (count_true hs) (any hs)) =
  trials (map chance (pairs_of p r)) (fun hs => seen_of f p r (combine (pairs_of p r) hs)).
Proof.
  intros Np Nr. rewrite misses_map. apply trials_ext. intros hs Lh. rewrite map_length, pairs_of_length in Lh. apply relabel_flags; assumption.
Qed.

Lemma law_order p p' r r' f : symmetric f -> NoDup p -> NoDup r -> Permutation p p' -> Permutation r r' ->
  trials (map chance (pairs_of p r)) (fun hs => seen_of f p r (combine (pairs_of p r) hs)) =
  trials (map chance (pairs_of p' r')) (fun hs => seen_of f p' r' (combine (pairs_of p' r') hs)).
Proof.
  intros S Np Nr P R. rewrite (trials_perm chance _ _ (pairs_of_perm _ _ _ _ Np Nr P R) (seen_of f p r) (seen_of_perm f p r)).
  apply trials_ext. intros hs _. unfold seen_of. apply S; apply Permutation_map; assumption.
Qed.
End Law.

Lemma miss_sym w v sp a b : miss w v sp a b = miss w v sp b a.
Proof.
  unfold miss, gauss2.
  replace ((n_x b - n_x a) ^ 2) with ((n_x a - n_x b) ^ 2) by ring. replace ((n_y b - n_y a) ^ 2) with ((n_y a - n_y b) ^ 2) by ring. reflexivity.
Qed.

Definition swap (x : npair) : npair := (snd x, fst x).

Lemma pairs_swap p r : NoDup p -> NoDup r -> Permutation (pairs_of p r) (map swap (pairs_of r p)).
Proof.
  intros Np Nr. apply NoDup_Permutation; [apply pairs_of_nodup; assumption| |].
  - apply FinFun.Injective_map_NoDup; [intros [a b] [c d] E; unfold swap in E; cbn [fst snd] in E; congruence|apply pairs_of_nodup; assumption].
  - intros x. rewrite in_pairs_of, in_map_iff. split.
    + intros [A B]. exists (swap x). split; [destruct x; reflexivity|]. apply in_pairs_of. destruct x. split; assumption.
    + intros (y & <- & H). apply in_pairs_of in H. destruct y. cbn [swap fst snd] in *. tauto.
Qed.

Lemma law_swap w v sp gA gB p r f : NoDup p -> NoDup r ->
  trials (map (chance w v sp gA gB) (pairs_of p r)) (fun hs => seen_of f p r (combine (pairs_of p r) hs)) =
  trials (map (chance w v sp gB gA) (pairs_of r p)) (fun hs => seen_of (fun fb fa n c => f fa fb n c) r p (combine (pairs_of r p) hs)).
Proof.
  intros Np Nr. rewrite (trials_perm (chance w v sp gA gB) _ _ (pairs_swap p r Np Nr) (seen_of f p r) (seen_of_perm f p r)).
  rewrite map_map. rewrite (map_ext (fun x => chance w v sp gA gB (swap x)) (chance w v sp gB gA)) by (intros x; apply miss_sym).
  apply trials_ext. intros hs _. rewrite combine_map_l. unfold seen_of, flags_A, flags_B. rewrite map_map.
  f_equal.
  - apply map_ext. intros i. rewrite existsb_map. reflexivity.
  - apply map_ext. intros i. rewrite existsb_map. reflexivity.
Qed.
