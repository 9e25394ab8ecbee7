(** Finite maps from paths to nodes. *)
From Coq Require Import Ascii.
From Verif.Base Require Import Result Arith Rng.
From Verif.Model Require Import Files.
Local Open Scope string_scope.

(** A plain file name: not empty, no slash. *)
Definition plain (q : string) : Prop := q <> "" /\ existsb is_slash (list_ascii_of_string q) = false.

Lemma norm_plain q : existsb is_slash (list_ascii_of_string q) = false -> norm q = q.
Proof.
  induction q as [|c q IH]; simpl; auto. intros H. apply orb_false_elim in H. destruct H as [H1 H2].
  rewrite IH by exact H2. rewrite H1. destruct q; reflexivity.
Qed.
Lemma norm_app p q : norm q <> "" -> norm (p ++ q) = p ++ norm q.
Proof.
  intros H. induction p as [|c p IH]; simpl; auto. rewrite IH.
  destruct (p ++ norm q) eqn:E; [|reflexivity]. destruct p; simpl in E; congruence.
Qed.
Lemma parent_plain q : existsb is_slash (list_ascii_of_string q) = false -> parent_of q = None.
Proof.
  induction q as [|c q IH]; simpl; auto. intros H. apply orb_false_elim in H. destruct H as [H1 H2].
  rewrite IH by exact H2. rewrite H1. reflexivity.
Qed.
Lemma parent_app p q : existsb is_slash (list_ascii_of_string q) = false -> parent_of (p ++ "/" ++ q) = Some p.
Proof.
  intros H. induction p as [|c p IH]; simpl.
  - rewrite parent_plain by exact H. reflexivity.
  - simpl in IH. rewrite IH. reflexivity.
Qed.
Lemma not_slash_end p : ends_with_slash p = true -> exists p', p = p' ++ "/".
Proof.
  induction p as [|c p IH]; simpl; [discriminate|]. intros H. destruct p as [|c' p].
  - exists "". unfold is_slash in H. apply Ascii.eqb_eq in H. subst c. reflexivity.
  - destruct (IH H) as [p' Hp]. exists (String c p'). simpl. rewrite Hp. reflexivity.
Qed.
Lemma norm_slash p : norm (p ++ "/") = norm p.
Proof. induction p as [|c p IH]; simpl; auto. rewrite IH. reflexivity. Qed.
Lemma app_assoc_f (s t u : string) : (s ++ t) ++ u = s ++ (t ++ u).
Proof. induction s; simpl; congruence. Qed.

(** A file directly inside [p]: its path and its parent. *)
Lemma join_plain p q : plain q -> p <> "" -> exists p', norm p' = norm p /\ path_join p q = p' ++ "/" ++ q /\
  norm (path_join p q) = path_join p q /\ parent_of (norm (path_join p q)) = Some p'.
Proof.
  intros [Q1 Q2] Hp. unfold path_join. destruct p as [|c0 p0] eqn:Ep; [congruence|]. rewrite <- Ep. clear Ep c0 p0 Hp.
  assert (N : forall p', norm (p' ++ "/" ++ q) = p' ++ "/" ++ q).
  { intros p'. assert (E : norm ("/" ++ q) = "/" ++ q).
    { rewrite norm_app; rewrite norm_plain by exact Q2; [reflexivity|exact Q1]. }
    rewrite norm_app; rewrite E; [reflexivity|discriminate]. }
  destruct (ends_with_slash p) eqn:E.
  - destruct (not_slash_end p E) as [p' ->]. exists p'. rewrite app_assoc_f. rewrite N, parent_app by exact Q2.
    rewrite norm_slash. repeat split; reflexivity.
  - exists p. rewrite N, parent_app by exact Q2. repeat split; reflexivity.
Qed.
Lemma join_not_empty p q : q <> "" -> path_join p q <> "".
Proof.
  intros H. unfold path_join. destruct p as [|c p]; auto. destruct (ends_with_slash _); discriminate.
Qed.

Section FsP.
Context {A : Arith}.

Lemma fs_get_put_eq (f : fs A) k n : fs_get (fs_put f k n) k = Some n.
Proof.
  induction f as [|[k' n'] f IH]; simpl; [rewrite String.eqb_refl; reflexivity|].
  destruct (String.eqb k k') eqn:E; simpl; rewrite ?String.eqb_refl; auto. rewrite E. exact IH.
Qed.
Lemma fs_get_put_neq (f : fs A) k k0 n : k0 <> k -> fs_get (fs_put f k n) k0 = fs_get f k0.
Proof.
  intros H. induction f as [|[k' n'] f IH]; simpl.
  - apply String.eqb_neq in H. rewrite H. reflexivity.
  - destruct (String.eqb k k') eqn:E; simpl.
    + apply String.eqb_eq in E. subst k'. apply String.eqb_neq in H. rewrite H. reflexivity.
    + destruct (String.eqb k0 k'); auto.
Qed.

Lemma lookup_ne (f : fs A) p : p <> "" -> fs_lookup f p = fs_get f (norm p).
Proof. intros H. unfold fs_lookup. apply String.eqb_neq in H. rewrite H. reflexivity. Qed.
Lemma lookup_some (f : fs A) p n : fs_lookup f p = Some n -> p <> "" /\ fs_get f (norm p) = Some n.
Proof. unfold fs_lookup. destruct (String.eqb_spec p ""); [discriminate|auto]. Qed.
Lemma fs_set_eq (f : fs A) p n : p <> "" -> fs_lookup (fs_set f p n) p = Some n.
Proof. intros H. rewrite lookup_ne by exact H. apply fs_get_put_eq. Qed.
Lemma fs_set_neq (f : fs A) p q n : norm q <> norm p -> fs_lookup (fs_set f p n) q = fs_lookup f q.
Proof. intros H. unfold fs_lookup. destruct (String.eqb q ""); [reflexivity|]. apply fs_get_put_neq, H. Qed.

(** Writing back what was there changes nothing. *)
Lemma fs_put_same (f : fs A) k n : fs_get f k = Some n -> fs_put f k n = f.
Proof.
  induction f as [|[k' n'] f IH]; simpl; [discriminate|].
  destruct (String.eqb k k') eqn:E; intros H.
  - apply String.eqb_eq in E. congruence.
  - rewrite IH by exact H. reflexivity.
Qed.
Lemma fs_put_put (f : fs A) k n n' : fs_put (fs_put f k n) k n' = fs_put f k n'.
Proof.
  induction f as [|[k' m] f IH]; simpl; [rewrite String.eqb_refl; reflexivity|].
  destruct (String.eqb k k') eqn:E; simpl; [rewrite String.eqb_refl; reflexivity|]. rewrite E, IH. reflexivity.
Qed.

(** Files can be created inside an existing directory. *)
Lemma parent_ok_join (f : fs A) p q : plain q -> p <> "" -> fs_lookup f p = Some Dir -> parent_ok f (path_join p q) = true.
Proof.
  intros Q Hp H. destruct (join_plain p q Q Hp) as (p' & E1 & _ & _ & E2).
  unfold parent_ok. rewrite E2, E1. apply lookup_some in H. destruct H as [_ H]. destruct (norm p); [reflexivity|]. rewrite H. reflexivity.
Qed.
End FsP.
