(** Effects of the outputs of one event and of a whole run. *)
From Verif.Base Require Import Result Arith Rng.
From Verif.Model Require Import FastExp Config Nucleon Nucleus Event Text Files CrossSection Output Collider.
From Verif.Spec Require Import History Collision.
From Verif.Proof Require Import Basics Sampling Ctor Collision.
Local Open Scope string_scope.

Lemma append_nil_r s : s ++ "" = s.
Proof. induction s; simpl; congruence. Qed.
Lemma append_assoc (s t u : string) : (s ++ t) ++ u = s ++ (t ++ u).
Proof. induction s; simpl; congruence. Qed.

(** Concatenation of strings. *)
Definition sconcat (l : list string) : string := fold_right append "" l.

Section Writers.
Context {A : Arith} (R : Rng A).

(** The effect of the file writer on the file system. *)
Definition file_effect (cfg : config A) (width : Z) (d : delivery A) (f f' : fs A) : Prop :=
  match output cfg with
  | None => f' = f
  | Some path =>
      if filename_is_hdf5 path
      then hdf5_write path (d_num d) (d_b d) (d_ncoll d) (d_event d) f = (Ret tt, f')
      else write_text_file path width (d_num d) (d_b d) (d_ncoll d) (d_event d)
             (negb (no_header cfg)) f = (Ret tt, f')
  end.

Definition line_of (width : Z) (d : delivery A) : string :=
  stream_line width (d_num d) (d_b d) (d_ncoll d) (d_event d).

Lemma run_output_effect cfg width d s s' :
  run_output R (writers_of cfg width) (d_num d) (d_b d) (d_ncoll d) (d_event d) s = (Ret tt, s') ->
  s_out s' = s_out s ++ (if quiet cfg then "" else line_of width d) /\
  s_err s' = s_err s /\ s_eng s' = s_eng s /\ file_effect cfg width d (s_fs s) (s_fs s').
Proof.
  unfold run_output, writers_of, file_effect. intros H. rewrite mfold_app in H.
  apply bind_Ret_inv in H. destruct H as ([] & s1 & H1 & H2).
  assert (O : s_out s1 = s_out s ++ (if quiet cfg then "" else line_of width d) /\
              s_err s1 = s_err s /\ s_eng s1 = s_eng s /\ s_fs s1 = s_fs s).
  { destruct (quiet cfg).
    - cbn [mfold] in H1. mstep H1. rewrite append_nil_r. auto.
    - cbn [mfold] in H1. mstep H1. mstep H1. cbn [run_writer] in E. unfold write_stdout in E.
      inversion E; subst; simpl. auto. }
  destruct O as (O1 & O2 & O3 & O4).
  destruct (output cfg) as [path|].
  - destruct (filename_is_hdf5 path); cbn [mfold] in H2; mstep H2; destruct x; mstep H2;
      cbn [run_writer] in E; apply in_fs_frame in E; destruct E as (F1 & F2 & F3 & F4);
      rewrite O4 in F4; repeat split; congruence.
  - cbn [mfold] in H2. mstep H2. auto.
Qed.

Inductive file_effects (cfg : config A) (width : Z) : list (delivery A) -> fs A -> fs A -> Prop :=
| fe_nil : forall f, file_effects cfg width [] f f
| fe_cons : forall d ds f f1 f', file_effect cfg width d f f1 -> file_effects cfg width ds f1 f' ->
    file_effects cfg width (d :: ds) f f'.

Lemma delivered_effects cfg width ds s s' :
  delivered R (writers_of cfg width) ds s s' ->
  s_out s' = s_out s ++ (if quiet cfg then "" else sconcat (map (line_of width) ds)) /\
  s_err s' = s_err s /\ file_effects cfg width ds (s_fs s) (s_fs s').
Proof.
  induction 1 as [s s' Hf Ho He|d ds s s1 s2 s' Hf Ho He Hr Hd IH].
  - simpl. rewrite Hf, Ho, He. split; [|split; [reflexivity|constructor]].
    destruct (quiet cfg); rewrite append_nil_r; reflexivity.
  - apply run_output_effect in Hr. destruct Hr as (R1 & R2 & R3 & R4).
    destruct IH as (I1 & I2 & I3). split; [|split].
    + rewrite I1, R1, Ho. destruct (quiet cfg); simpl; rewrite ?append_nil_r, ?append_assoc; reflexivity.
    + congruence.
    + econstructor; [rewrite <- Hf; exact R4|exact I3].
Qed.

End Writers.
