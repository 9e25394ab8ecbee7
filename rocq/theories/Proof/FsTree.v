(** Lemmas on file-system trees. *)
From Coq Require Import Ascii.
From Verif.Base Require Import Result Arith.
From Verif.Model Require Import Files.
From Verif.Spec Require Import FileTree.
From Verif.Proof Require Import Basics FsP Writers.
Local Open Scope string_scope.

Lemma prefix_iff p k : String.prefix p k = true <-> exists r, k = p ++ r.
Proof.
  revert k. induction p as [|c p IH]; intros k; simpl.
  - split; [exists k; reflexivity|destruct k; reflexivity].
  - destruct k as [|c' k]; [split; [discriminate|intros (r & E); discriminate E]|]. simpl.
    destruct (ascii_dec c c') as [->|N].
    + specialize (IH k). split; [intros H; apply IH in H; destruct H as (r & ->); exists r; reflexivity|intros (r & E); apply IH; exists r; congruence].
    + split; [discriminate|intros (r & E); congruence].
Qed.
Lemma below_iff p k : below p k <-> exists r, k = norm p ++ "/" ++ r.
Proof. unfold below. rewrite prefix_iff. split; intros (r & E); exists r; rewrite E, ?append_assoc; reflexivity. Qed.

Lemma norm_idem p : norm (norm p) = norm p.
Proof.
  induction p as [|c p IH]; [reflexivity|]. cbn [norm]. destruct (norm p) eqn:E.
  - destruct (is_slash c) eqn:S; [reflexivity|]. cbn [norm]. rewrite S. reflexivity.
  - cbn [norm] in *. rewrite IH. reflexivity.
Qed.

(** A normalised path does not end in a slash. *)
Lemma norm_no_slash p q : norm p <> q ++ "/".
Proof.
  intros E. pose proof (norm_idem p) as H. rewrite E, norm_slash in H.
  assert (L : (String.length (norm q) <= String.length q)%nat).
  { clear. induction q as [|c q IH]; [reflexivity|]. cbn [norm]. destruct (norm q); [destruct (is_slash c); cbn; lia|cbn in *; lia]. }
  rewrite H in L. clear - L. induction q as [|c q IH]; cbn in *; lia.
Qed.

(** Only slashes. *)
Fixpoint srun (k : nat) : string := match k with O => "" | S k => String "/" (srun k) end.
Lemma iter_slash_end k : srun k ++ "/" = srun (S k).
Proof. induction k as [|k IH]; [reflexivity|]. cbn [srun append] in *. rewrite IH. reflexivity. Qed.
Lemma norm_rest p : exists k, p = norm p ++ srun k.
Proof.
  induction p as [|c p (k & IH)]; [exists 0%nat; reflexivity|]. cbn [norm]. destruct (norm p) eqn:E.
  - unfold is_slash. destruct (Ascii.eqb_spec c "/") as [->|N].
    + exists (S k). cbn [append] in *. rewrite IH at 1. reflexivity.
    + exists k. cbn [append] in *. rewrite IH at 1. reflexivity.
  - exists k. rewrite IH at 1. reflexivity.
Qed.

(** Cancel a common prefix: two decompositions of a string. *)
Lemma app_split a b c d : a ++ b = c ++ d -> (exists e, c = a ++ e /\ b = e ++ d) \/ (exists e, a = c ++ e /\ d = e ++ b).
Proof.
  revert c. induction a as [|x a IH]; intros c E; cbn [append] in E.
  - left. exists c. split; [reflexivity|exact E].
  - destruct c as [|y c]; cbn [append] in E.
    + right. exists (String x a). split; [reflexivity|symmetry; exact E].
    + injection E as -> E. destruct (IH c E) as [(e & -> & ->)|(e & -> & ->)]; [left|right]; exists e; split; reflexivity.
Qed.
Lemma iter_slash_split k u v : srun k = u ++ v -> exists j, u = srun j.
Proof.
  revert u. induction k as [|k IH]; intros u E.
  - destruct u; [exists 0%nat; reflexivity|discriminate E].
  - destruct u as [|c u]; [exists 0%nat; reflexivity|]. cbn in E. injection E as <- E. destruct (IH u E) as (j & ->). exists (S j). reflexivity.
Qed.
Lemma norm_ends_slash p q k : norm p = q ++ srun k -> norm p = q.
Proof.
  destruct k as [|k]; [cbn; rewrite append_nil_r; auto|]. intros E. rewrite <- iter_slash_end, <- append_assoc in E. destruct (norm_no_slash _ _ E).
Qed.

(** A path above d/last is the (normalised) d or above it. *)
Lemma below_parent q d last : norm q <> "" -> existsb is_slash (list_ascii_of_string last) = false -> below q (d ++ "/" ++ last) ->
  norm q = norm d \/ below q (norm d).
Proof.
  intros Q0 PL B. apply below_iff in B. destruct B as (r & E).
  destruct (norm_rest d) as (k & Ed). set (nd := norm d) in *. rewrite Ed in E.
  assert (E' : nd ++ (srun (S k) ++ last) = norm q ++ "/" ++ r).
  { rewrite <- E, <- iter_slash_end, !append_assoc. reflexivity. }
  apply app_split in E'. destruct E' as [(e & E1 & E2)|(e & E1 & E2)].
  - (* norm q = nd ++ e *)
    left. apply app_split in E2. destruct E2 as [(g & G1 & G2)|(g & G1 & G2)].
    + exfalso. (* last contains a slash *)
      rewrite G2 in PL. rewrite <- append_assoc in PL. clear - PL. 
      assert (X : existsb is_slash (list_ascii_of_string ((g ++ "/") ++ r)) = true); [|congruence].
      clear. induction g as [|c g IH]; [reflexivity|]. simpl. simpl in IH. rewrite IH. apply orb_true_r.
    + destruct (iter_slash_split _ _ _ G1) as (j & ->). apply (norm_ends_slash _ _ _ E1).
  - (* nd = norm q ++ e *)
    destruct e as [|c e]; [left; rewrite E1, append_nil_r; reflexivity|]. cbn [append] in E2. injection E2 as <- E2.
    right. apply below_iff. exists e. exact E1.
Qed.

Lemma last_split k : match parent_of k with
  | None => existsb is_slash (list_ascii_of_string k) = false
  | Some d => exists last, k = d ++ "/" ++ last /\ existsb is_slash (list_ascii_of_string last) = false
  end.
Proof.
  induction k as [|c k IH]; [reflexivity|]. cbn [parent_of]. destruct (parent_of k) as [d|].
  - destruct IH as (last & -> & P). exists last. split; [reflexivity|exact P].
  - destruct (is_slash c) eqn:S.
    + exists k. unfold is_slash in S. apply Ascii.eqb_eq in S. subst c. split; [reflexivity|exact IH].
    + cbn [list_ascii_of_string existsb]. rewrite S. exact IH.
Qed.

Lemma below_has_slash q k : below q k -> existsb is_slash (list_ascii_of_string k) = true.
Proof.
  intros B. apply below_iff in B. destruct B as (r & ->). generalize (norm q) as g. clear.
  induction g as [|c g IH]; [reflexivity|]. simpl. simpl in IH. rewrite IH. apply orb_true_r.
Qed.
Lemma below_not_self q : ~ below q (norm q).
Proof.
  intros B. apply below_iff in B. destruct B as (r & E). apply (f_equal String.length) in E.
  revert E. generalize (norm q) as g. clear. intros g. assert (L : forall a b, String.length (a ++ b) = (String.length a + String.length b)%nat) by (induction a; cbn; congruence).
  rewrite L. cbn. lia.
Qed.

Section Tree.
Context {A : Arith}.
Implicit Types f : fs A.

Lemma get_in f k n : In (k, n) f -> fs_get f k <> None.
Proof.
  induction f as [|[k' n'] f IH]; [intros []|]. cbn [fs_get]. intros [E|H].
  - injection E as -> ->. rewrite String.eqb_refl. discriminate.
  - destruct (String.eqb k k'); [discriminate|auto].
Qed.
Lemma in_get f k n : fs_get f k = Some n -> In (k, n) f.
Proof.
  induction f as [|[k' n'] f IH]; [discriminate|]. cbn [fs_get]. destruct (String.eqb_spec k k') as [->|N]; intros H; [left; congruence|right; auto].
Qed.

(** Everything above [p] is a directory. *)
Definition above_ok f (k : string) : Prop := forall q, norm q <> "" -> below q k -> fs_get f (norm q) = Some Dir.
Lemma tree_above f q k : tree f -> below q k -> fs_get f k <> None -> fs_get f (norm q) = Some Dir.
Proof. intros [_ T]. apply T. Qed.

Lemma parent_above f p : tree f -> parent_ok f p = true -> above_ok f (norm p).
Proof.
  intros T P q Q0 B. unfold parent_ok in P. pose proof (last_split (norm p)) as LS. destruct (parent_of (norm p)) as [d|].
  - destruct LS as (last & E & PL). rewrite E in B. destruct (below_parent q d last Q0 PL B) as [E1|B1].
    + rewrite <- E1 in P. destruct (norm q) as [|c s] eqn:EQ; [congruence|]. destruct (fs_get f (String c s)) as [[]|]; try discriminate P. reflexivity.
    + destruct (norm d) as [|c s] eqn:ED.
      * exfalso. apply below_has_slash in B1. discriminate B1.
      * destruct (fs_get f (String c s)) as [[]|] eqn:G; try discriminate P. apply (tree_above f q (String c s) T B1). congruence.
  - rewrite (below_has_slash _ _ B) in LS. discriminate LS.
Qed.

Lemma tree_put f p n : tree f -> above_ok f (norm p) -> fs_get f (norm p) <> Some Dir \/ n = Dir -> tree (fs_put f (norm p) n).
Proof.
  intros T P C. split.
  { destruct (string_dec "" (norm p)) as [E|N].
    - rewrite <- E, fs_get_put_eq. destruct C as [C | ->]; [|reflexivity]. exfalso. apply C. rewrite <- E. apply T.
    - rewrite fs_get_put_neq by exact N. apply T. }
  intros q k B G.
  assert (G1 : k = norm p \/ fs_get f k <> None).
  { destruct (string_dec k (norm p)) as [->|N]; [left; reflexivity|]. right. rewrite fs_get_put_neq in G by exact N. exact G. }
  assert (D : fs_get f (norm q) = Some Dir) by (destruct G1 as [-> | G1]; [destruct (string_dec (norm q) "") as [EQ|NQ]; [rewrite EQ; apply T|apply P; assumption]|apply (tree_above f q k); assumption]).
  destruct (string_dec (norm q) (norm p)) as [E|N].
  - rewrite E, fs_get_put_eq. destruct C as [C | ->]; [rewrite <- E in C; congruence|reflexivity].
  - rewrite fs_get_put_neq by exact N. exact D.
Qed.

Lemma tree_set f p n : tree f -> parent_ok f p = true \/ fs_lookup f p <> None -> p <> "" -> fs_lookup f p <> Some Dir \/ n = Dir -> tree (fs_set f p n).
Proof.
  intros T P NE C. rewrite !lookup_ne in * by exact NE. apply tree_put; [exact T| |exact C]. destruct P as [P|P]; [apply parent_above; assumption|].
  intros q Q0 B. apply (tree_above f q (norm p) T B P).
Qed.

Lemma create_directory_tree p f r f' : p <> "" -> create_directory p f = (r, f') -> tree f -> tree f'.
Proof.
  intros NE. unfold create_directory. destruct (fs_lookup f p) as [[]|] eqn:E; [| | |destruct (parent_ok f p) eqn:P]; intros H T; injection H as <- <-; try exact T.
  apply tree_set; [exact T|left; exact P|exact NE|right; reflexivity].
Qed.
Lemma append_file_tree p c f r f' : p <> "" -> append_file p c f = (r, f') -> tree f -> tree f'.
Proof.
  intros NE. unfold append_file. destruct (fs_lookup f p) as [[]|] eqn:E; [| | |destruct (parent_ok f p) eqn:P]; intros H T; injection H as <- <-; try exact T;
    (apply tree_set; [exact T| |exact NE|left; rewrite E; discriminate]).
  - right. rewrite E. discriminate.
  - left. exact P.
Qed.
Lemma write_file_tree p c f r f' : p <> "" -> write_file p c f = (r, f') -> tree f -> tree f'.
Proof.
  intros NE. unfold write_file. intros H T.
  assert (X : fs_lookup f p <> Some Dir -> parent_ok f p = true -> tree (fs_set f p (File c))).
  { intros H1 H2. apply tree_set; [exact T|left; exact H2|exact NE|left; exact H1]. }
  destruct (fs_lookup f p) as [[]|] eqn:E; try destruct (parent_ok f p) eqn:P; injection H as <- <-; try exact T; apply X; congruence.
Qed.

(** ** create_directories *)
Lemma prefix_app_char q s c : is_slash c = false -> below q (s ++ String c "") -> below q s.
Proof.
  intros C B. apply below_iff in B. destruct B as (r & E). apply below_iff.
  assert (X : s ++ String c "" = (norm q ++ "/") ++ r) by (rewrite append_assoc; exact E).
  apply app_split in X. destruct X as [(e & E1 & E2)|(e & E1 & E2)].
  - destruct e as [|c' e].
    + exists "". rewrite append_nil_r in E1. rewrite <- E1, append_nil_r. reflexivity.
    + exfalso. cbn [append] in E2. injection E2 as <- E2. destruct e; [|discriminate E2]. 
      assert (Z : forall a b x y, a ++ String x "" = b ++ String y "" -> x = y).
      { clear. induction a as [|z a IH]; intros [|w b] x y H; cbn in H.
        - congruence.
        - destruct b; discriminate H.
        - destruct a; discriminate H.
        - injection H as _ H. apply (IH b). exact H. }
      apply (Z (norm q) s "/"%char c) in E1. subst c. discriminate C.
  - exists e. rewrite E1, append_assoc. reflexivity.
Qed.

Definition dirs_above f (acc : string) : Prop := forall q, norm q <> "" -> below q acc -> fs_get f (norm q) = Some Dir.

Lemma below_norm q acc : below q (norm acc) -> below q acc.
Proof. intros B. apply below_iff in B. destruct B as (r & E). destruct (norm_rest acc) as (k & Ea). apply below_iff. exists (r ++ srun k). rewrite Ea, E, !append_assoc. reflexivity. Qed.
Lemma below_slash q acc : norm q <> "" -> below q (acc ++ "/") -> below q acc \/ norm q = norm acc.
Proof.
  intros Q0 B. destruct (below_parent q acc "" Q0 eq_refl B) as [E|E]; [right; exact E|left; apply below_norm; exact E].
Qed.

(** What [create_directories] changes: missing directories are added above or at
    the path. *)
Definition only_new_dirs f f' (p : string) : Prop :=
  forall k, fs_get f' k = fs_get f k \/ (fs_get f k = None /\ fs_get f' k = Some Dir /\ (k = norm p \/ below k p)).

Lemma only_new_refl f p : only_new_dirs f f p. Proof. intros k. left. reflexivity. Qed.
Lemma only_new_trans f f1 f2 p : only_new_dirs f f1 p -> only_new_dirs f1 f2 p -> only_new_dirs f f2 p.
Proof.
  intros H1 H2 k. destruct (H1 k) as [E1|(N1 & D1 & B1)]; destruct (H2 k) as [E2|(N2 & D2 & B2)].
  - left. congruence.
  - right. split; [congruence|]. split; assumption.
  - right. split; [exact N1|]. split; [congruence|exact B1].
  - congruence.
Qed.

Lemma prefixes_ok : forall s acc f r f',
  mfold (fun _ d => fun f : fs A =>
    match fs_lookup f d with
    | Some Dir => (Ret tt, f)
    | Some _ => (Throw (FilesystemError d), f)
    | None => (Ret tt, fs_set f d Dir)
    end) (prefixes acc s) tt f = (r, f') ->
  tree f -> dirs_above f acc ->
  tree f' /\ only_new_dirs f f' (acc ++ s) /\ (r = Ret tt -> fs_get f' (norm (acc ++ s)) = Some Dir) /\ r <> OutOfFuel /\ (forall u, r <> UB u).
Proof.
  induction s as [|c s IH]; intros acc f r f' H T D.
  - cbn [prefixes] in H. rewrite append_nil_r. cbn [mfold] in H. unfold bind, ret in H.
    destruct (fs_lookup f acc) as [[]|] eqn:E.
    + injection H as <- <-. split; [exact T|]. split; [apply only_new_refl|]. split; [intros _; apply (lookup_some f acc Dir E)|split; [discriminate|discriminate]].
    + injection H as <- <-. split; [exact T|]. split; [apply only_new_refl|]. split; [discriminate|split; [discriminate|discriminate]].
    + injection H as <- <-. split; [exact T|]. split; [apply only_new_refl|]. split; [discriminate|split; [discriminate|discriminate]].
    + injection H as <- <-. destruct (string_dec acc "") as [->|NE].
      { unfold fs_set. change (norm "") with "". rewrite fs_put_same by apply T. split; [exact T|]. split; [apply only_new_refl|]. split; [intros _; apply T|split; [discriminate|discriminate]]. }
      rewrite lookup_ne in E by exact NE. split; [|split; [|split; [intros _; apply fs_get_put_eq|split; [discriminate|discriminate]]]].
      * apply tree_put; [exact T| |right; reflexivity]. intros q Q0 B. apply D; [exact Q0|]. apply below_norm, B.
      * intros k. destruct (string_dec k (norm acc)) as [->|N].
        -- right. split; [exact E|]. split; [apply fs_get_put_eq|left; reflexivity].
        -- left. apply fs_get_put_neq, N.
  - assert (EA : acc ++ String c s = (acc ++ String c "") ++ s) by (rewrite append_assoc; reflexivity).
    cbn [prefixes] in H. destruct (is_slash c) eqn:C.
    + assert (c = "/"%char) by (apply Ascii.eqb_eq; exact C). subst c. rewrite mfold_app in H.
      destruct acc as [|a0 acc0] eqn:EAcc.
      * cbn [mfold] in H. rewrite EA. unfold bind, ret in H.
        apply (IH _ _ _ _ H T). intros q Q0 B. exfalso. apply below_iff in B. destruct B as (x & B). destruct (norm q) as [|c n]; [congruence|]. cbn in B. injection B as _ B. destruct n; discriminate B.
      * rewrite <- EAcc in *. assert (Acc0 : acc <> "") by (rewrite EAcc; discriminate). clear EAcc a0 acc0.
        cbn [mfold] in H. unfold bind in H.
        destruct (fs_lookup f acc) as [nd|] eqn:E.
        -- destruct nd.
           ++ unfold ret in H. destruct (IH _ _ _ _ H T) as (I1 & I2 & I3 & I4).
              { intros q Q0 B. destruct (below_slash q acc Q0 B) as [B1|EQ]; [apply D; assumption|]. rewrite EQ. apply (lookup_some f acc Dir E). }
              rewrite EA. auto.
           ++ injection H as <- <-. split; [exact T|]. split; [apply only_new_refl|]. split; [discriminate|split; [discriminate|discriminate]].
           ++ injection H as <- <-. split; [exact T|]. split; [apply only_new_refl|]. split; [discriminate|split; [discriminate|discriminate]].
        -- unfold ret in H. rewrite lookup_ne in E by exact Acc0.
           assert (T1 : tree (fs_set f acc Dir)).
           { apply tree_put; [exact T| |right; reflexivity]. intros q Q0 B. apply D; [exact Q0|]. apply below_norm, B. }
           destruct (IH _ _ _ _ H T1) as (I1 & I2 & I3 & I4).
           { intros q Q0 B. unfold fs_set. destruct (string_dec (norm q) (norm acc)) as [EQ|NQ]; [rewrite EQ; apply fs_get_put_eq|].
             rewrite fs_get_put_neq by exact NQ. destruct (below_slash q acc Q0 B) as [B1|EQ]; [apply D; assumption|congruence]. }
           split; [exact I1|]. split; [|rewrite EA; auto]. rewrite EA. eapply only_new_trans; [|exact I2].
           intros k. destruct (string_dec k (norm acc)) as [->|N].
           ++ right. split; [exact E|]. split; [apply fs_get_put_eq|]. right. apply below_iff. rewrite norm_idem.
              destruct (norm_rest acc) as (j & Ej). exists (srun j ++ s).
              assert (Q : "/" ++ srun j = srun j ++ "/") by (rewrite iter_slash_end; reflexivity).
              rewrite <- (append_assoc "/" (srun j) s), Q. rewrite <- !append_assoc, <- Ej. reflexivity.
           ++ left. apply fs_get_put_neq, N.
    + rewrite EA. apply (IH _ _ _ _ H T). intros q Q0 B. apply D; [exact Q0|]. apply (prefix_app_char q acc c C B).
Qed.

Lemma create_directories_ok p f r f' : create_directories p f = (r, f') -> tree f ->
  tree f' /\ only_new_dirs f f' (norm p) /\ (r = Ret tt -> fs_lookup f' p = Some Dir).
Proof.
  unfold create_directories. intros H T. destruct (String.eqb_spec p "") as [->|N].
  - injection H as <- <-. split; [exact T|]. split; [apply only_new_refl|discriminate].
  - destruct (prefixes_ok _ _ _ _ _ H T) as (H1 & H2 & H3 & _).
    { intros q Q0 B. exfalso. apply below_has_slash in B. discriminate B. }
    change ("" ++ norm p) with (norm p) in *. rewrite norm_idem in H3. rewrite lookup_ne by exact N. auto.
Qed.
End Tree.
