(** C27, C46: projectile names and HDF5 file names. *)
From Coq Require Import Reals Lra Ascii.
From Flocq Require Import Core BinarySingleNaN.
From Verif.Base Require Import Result Arith RArith FArith Rng.
From Verif.Model Require Import FastExp Config Nucleon Nucleus Files CrossSection Output.
From Verif.Spec Require Import Species.
From Verif.Proof Require Import Basics RBasics.
Local Open Scope string_scope.

(** ** C46 *)
Definition has (p : ascii -> bool) (s : string) : bool := existsb p (list_ascii_of_string s).

Lemma has_app p s t : has p (s ++ t) = has p s || has p t.
Proof. unfold has. induction s as [|c s IH]; simpl; [reflexivity|]. rewrite IH, orb_assoc. reflexivity. Qed.

Lemma last_component_suffix s : exists d, s = d ++ last_component s.
Proof.
  induction s as [|c s [d Hd]]; simpl; [exists ""; reflexivity|].
  destruct (is_slash c); [exists (String c d); simpl; congruence|].
  destruct (existsb is_slash _); [exists (String c d); simpl; congruence|exists ""; reflexivity].
Qed.
Lemma last_component_self t : has is_slash t = false -> last_component t = t.
Proof.
  destruct t as [|c t]; simpl; auto. intros H. unfold has in H. simpl in H. apply orb_false_elim in H. destruct H as [H1 H2].
  rewrite H1, H2. reflexivity.
Qed.
Lemma last_component_app s t : has is_slash t = false -> last_component (s ++ t) = last_component s ++ t.
Proof.
  intros H. induction s as [|c s IH]; simpl; [apply last_component_self; exact H|].
  destruct (is_slash c); [exact IH|]. change (existsb is_slash (list_ascii_of_string (s ++ t))) with (has is_slash (s ++ t)).
  rewrite has_app, H, orb_false_r. change (existsb is_slash (list_ascii_of_string s)) with (has is_slash s).
  destruct (has is_slash s); [exact IH|reflexivity].
Qed.
Lemma from_last_dot_suffix s : exists d, s = d ++ from_last_dot s.
Proof.
  induction s as [|c s [d Hd]]; simpl; [exists ""; reflexivity|].
  destruct (existsb is_dot _); [exists (String c d); simpl; congruence|].
  destruct (is_dot c); [exists ""; reflexivity|]. exists (String c s). clear. simpl. f_equal. induction s; simpl; congruence.
Qed.
Lemma from_last_dot_app s u : has is_dot u = false -> from_last_dot (s ++ String "." u) = String "." u.
Proof.
  intros H. induction s as [|c s IH]; simpl.
  - unfold has in H. rewrite H. reflexivity.
  - change (existsb is_dot (list_ascii_of_string (s ++ String "." u))) with (has is_dot (s ++ String "." u)).
    rewrite has_app. replace (has is_dot (String "." u)) with true by reflexivity. rewrite orb_true_r. exact IH.
Qed.

(** The test looks at nothing but the end of the name. *)
Theorem C46_extension : forall s, filename_is_hdf5 s = true <-> hdf5_name s.
Proof.
  intros s. unfold filename_is_hdf5, hdf5_name. split.
  - intros H. destruct (String.eqb (extension s) "") eqn:E; [discriminate H|].
    apply existsb_exists in H. destruct H as (x & Hx & Ex). apply String.eqb_eq in Ex.
    unfold extension in Ex. destruct (String.eqb (filename s) "." || String.eqb (filename s) ".."); [subst x; simpl in Hx; intuition discriminate|].
    destruct (from_last_dot_suffix (filename s)) as [d Hd]. rewrite Ex in Hd.
    destruct (last_component_suffix s) as [d2 Hd2]. exists (d2 ++ d), x. split; [exact Hx|].
    assert (F : filename s = last_component s).
    { unfold filename in *. destruct s as [|c s]; [reflexivity|].
      destruct (last_component (String c s)) eqn:L; [|reflexivity].
      exfalso. cbn in Ex. subst x. simpl in Hx. intuition discriminate. }
    rewrite Hd2 at 1. rewrite <- F, Hd. clear. induction d2; simpl; congruence.
  - intros (stem & ext & Hin & ->).
    assert (X : exists u, ext = String "." u /\ has is_dot u = false /\ has is_slash ext = false /\ u <> "" /\ u <> ".").
    { destruct Hin as [<-|[<-|[<-|[<-|[]]]]]; eexists; repeat split; discriminate. }
    destruct X as (u & -> & Hd & Hs & Hu & Hu').
    assert (F : filename (stem ++ String "." u) = last_component stem ++ String "." u).
    { unfold filename. destruct (stem ++ String "." u) eqn:E; [destruct stem; discriminate E|]. rewrite <- E.
      rewrite last_component_app by exact Hs. destruct (last_component stem ++ String "." u) eqn:E2; [|reflexivity].
      destruct (last_component stem); discriminate E2. }
    unfold extension. rewrite F. set (l := last_component stem).
    assert (N : String.eqb (l ++ String "." u) "." = false /\ String.eqb (l ++ String "." u) ".." = false).
    { split; apply String.eqb_neq; intros C; destruct l as [|c [|c' l']]; simpl in C; try congruence.
      all: inversion C; subst; try congruence; destruct l'; discriminate. }
    destruct N as [-> ->]. cbn [orb]. rewrite from_last_dot_app by exact Hd. cbn [String.eqb].
    apply existsb_exists. exists (String "." u). split; [exact Hin|apply String.eqb_refl].
Qed.

(** Case matters, and the extension need not be preceded by anything. *)
Example C46_examples : hdf5_name "dir.dat/Pb.hdf" /\ hdf5_name ".h5" /\ ~ hdf5_name "Pb.HDF5" /\ ~ hdf5_name "Pb.h5/" /\ ~ hdf5_name "h5".
Proof. repeat split; rewrite <- C46_extension; try reflexivity; intros H; discriminate H. Qed.

(** ** C27 *)
Section Create.
Context {A : Arith}.

Lemma create_other (bd : build) (f : fs A) s dmin : lookup s species = None ->
  nucleus_create bd f s dmin
  = if filename_is_hdf5 s then if with_hdf5 bd then manual_create f s else Throw (InvalidArgument "HDF5 output was not compiled")
    else Throw (InvalidArgument ("unknown projectile species: " ++ s)).
Proof.
  intros H. unfold species in H. cbn [lookup] in H. unfold nucleus_create.
  repeat match type of H with (if ?c then _ else _) = _ => destruct c; [discriminate H|] end. reflexivity.
Qed.

(** Names outside the table: an HDF5 name goes to the file reader (or is refused
    by a build without HDF5), everything else is refused. *)
Theorem C27_file : forall (bd : build) (f : fs A) s dmin, lookup s species = None -> hdf5_name s ->
  nucleus_create bd f s dmin = if with_hdf5 bd then manual_create f s else Throw (InvalidArgument "HDF5 output was not compiled").
Proof. intros bd f s dmin H N. rewrite (create_other bd f s dmin H). apply C46_extension in N. rewrite N. reflexivity. Qed.
Theorem C27_unknown : forall (bd : build) (f : fs A) s dmin, lookup s species = None -> ~ hdf5_name s ->
  exists msg, nucleus_create bd f s dmin = Throw (InvalidArgument msg).
Proof.
  intros bd f s dmin H N. rewrite (create_other bd f s dmin H). destruct (filename_is_hdf5 s) eqn:E; [|eauto].
  exfalso. apply N, C46_extension, E.
Qed.
End Create.

(** Table names, in real arithmetic: the nucleus has the documented number of
    nucleons, all at the origin and untouched, the documented shape, and
    min-distance [dmin] where that applies. *)
Local Open Scope R_scope.
Definition milli (z : Z) : R := IZR z / 1000.
Definition has_shape (sh : shape) (dmin : R) (k : nkind RA) : Prop :=
  match sh, k with
  | Point, KProton => True
  | Hulthen a b, KDeuteron a' b' => a' = milli a /\ b' = milli b
  | Spherical r a, KWoodsSaxon r' a' d2 => r' = milli r /\ a' = milli a /\ d2 = dmin * dmin
  | Deformed r a b2 b4, KDeformed r' a' b2' b4' rmax d2 =>
      r' = milli r /\ a' = milli a /\ b2' = milli b2 /\ b4' = milli b4 /\ d2 = dmin * dmin /\
      rmax = milli r * (1 + 63 / 100 * Rabs (milli b2) + 85 / 100 * Rabs (milli b4)) + 10 * milli a
  | _, _ => False
  end.

Theorem C27_table : forall (bd : build) (f : fs RA) s (dmin : R) n sh, lookup s species = Some (n, sh) ->
  exists nu, nucleus_create (A:=RA) bd f s dmin = Ret nu /\
    nu_nucleons nu = repeat nucleon_zero n /\ has_shape sh dmin (nu_kind nu).
Proof.
  intros bd f s dmin n sh H. unfold species in H. cbn [lookup] in H. unfold nucleus_create.
  repeat match type of H with
  | (if ?c then _ else _) = _ => destruct c;
      [injection H as <- <-; eexists; split; [reflexivity|]; split; [reflexivity|];
       cbn [has_shape nu_kind proton deuteron deuteron_of woods_saxon deformed nucleus_new deformed_rmax nlit nneg nmul nadd nabs nfmin nfmax RA RA_with];
       unfold milli; rlits; try exact I; repeat split; try (rewrite Rmin_left by lra); try (rewrite Rmax_right by lra); try lra;
       try (unfold Rabs; repeat destruct Rcase_abs; lra)|]
  end.
  discriminate H.
Qed.

Example C27_instance : lookup "U2"%string species = Some (238%nat, Deformed 6860 420 265 0) /\ lookup "He3.hdf"%string species = None /\
  hdf5_name "He3.hdf" /\ lookup "au"%string species = None /\ ~ hdf5_name "au".
Proof. repeat split; rewrite <- C46_extension; try reflexivity; intros H; discriminate H. Qed.
