(** One run of [partonic_cross_section], by what the cache holds. *)
From Coq Require Import Ascii.
From Verif.Base Require Import Result Arith Rng.
From Verif.Model Require Import Random Config Nucleon Text Files CrossSection.
From Verif.Spec Require Import Decimal Cache.
From Verif.Proof Require Import Basics TextP FsP CacheP.
Local Open Scope string_scope.

Section Run.
Context {A : Arith} (R : Rng A) (sv : Solver A).

Lemma data_home_dir e dh : data_dir e = Some dh -> get_data_home e = Ret dh.
Proof.
  unfold data_dir, get_data_home. destruct (xdg_data_home e); [congruence|]. destruct (home e); simpl; congruence.
Qed.

Definition set_fs (s : sys R) (en : engine R) (f : fs A) : sys R := Sys en f (s_out s) (s_err s).

(** Compute and append the line to the existing text [t]. *)
Definition computed (cfg : config A) (s : sys R) (file : string) (t : string) : result (num A) * sys R :=
  match compute_partonic R sv cfg (s_eng s) with
  | (Ret sp, en) => (Ret sp, set_fs s en (fs_set (s_fs s) file (File (t ++
      cache_line (constit_number cfg) (nucleon_width cfg) (constit_width cfg) (cross_section cfg) sp))))
  | (Throw x, en) => (Throw x, set_fs s en (fs_set (s_fs s) file (File t)))
  | (UB u, en) => (UB u, set_fs s en (fs_set (s_fs s) file (File t)))
  | (OutOfFuel, en) => (OutOfFuel, set_fs s en (fs_set (s_fs s) file (File t)))
  end.

Lemma after_open cfg (s : sys R) file f1 t :
  file <> "" -> append_file file "" (s_fs s) = (Ret tt, f1) -> f1 = fs_set (s_fs s) file (File t) ->
  (let* _ := in_fs R (append_file file "") in
   let* sp := in_eng R (compute_partonic R sv cfg) in
   let* _ := in_fs R (append_file file (cache_line (constit_number cfg) (nucleon_width cfg) (constit_width cfg) (cross_section cfg) sp)) in
   ret sp) s = computed cfg s file t.
Proof.
  intros NE H E. unfold bind at 1. unfold in_fs at 1. rewrite H.
  unfold bind at 1. unfold in_eng. cbn [s_eng s_fs s_out s_err]. unfold computed.
  destruct (compute_partonic R sv cfg (s_eng s)) as [[sp|x|u|] en]; subst f1; try reflexivity.
  unfold bind, in_fs, append_file. cbn [s_eng s_fs s_out s_err]. rewrite fs_set_eq by exact NE.
  unfold set_fs, fs_set, ret. rewrite fs_put_put. reflexivity.
Qed.

Lemma partonic_cached fuel e cfg (s : sys R) t dh :
  data_dir e = Some dh -> fs_lookup (s_fs s) (cache_dir dh) = Some Dir ->
  fs_lookup (s_fs s) (cache_file dh) = Some (File t) ->
  partonic_cross_section R sv fuel e cfg s
  = match cache_loop fuel (nucleon_width cfg) (constit_width cfg) (constit_number cfg) (cross_section cfg)
            (Istream t false false) cvars_uninit with
    | Ret (Some sp) => (Ret sp, s)
    | Ret None => computed cfg s (cache_file dh) t
    | Throw x => (Throw x, s) | UB u => (UB u, s) | OutOfFuel => (OutOfFuel, s)
    end.
Proof.
  intros D1 D2 D3. unfold partonic_cross_section. rewrite (data_home_dir e dh D1).
  erewrite bind_run by reflexivity.
  assert (MK : in_fs R (create_directory (path_join dh "trento")) s = (Ret tt, s)).
  { unfold in_fs, create_directory. unfold cache_dir in D2. rewrite D2. destruct s; reflexivity. }
  rewrite (bind_run _ _ _ _ _ MK). erewrite bind_run by reflexivity. cbv beta.
  change (cache_path dh) with (cache_file dh). rewrite D3. cbn [file_text].
  unfold bind at 1. unfold lift.
  destruct (cache_loop _ _ _ _ _ _ _) as [[sp|]|x|u|]; try reflexivity.
  apply after_open with (f1 := s_fs s); [apply join_not_empty; discriminate| |].
  - unfold append_file. rewrite D3. rewrite app_nil_r_s.
    unfold fs_set. rewrite fs_put_same by apply (lookup_some _ _ _ D3). reflexivity.
  - unfold fs_set. rewrite fs_put_same by apply (lookup_some _ _ _ D3). reflexivity.
Qed.

Lemma cache_file_plain : plain "cross_section.cache".
Proof. split; [discriminate|reflexivity]. Qed.

(** The directory exists, the file does not. *)
Lemma partonic_no_file fuel e cfg (s : sys R) dh :
  data_dir e = Some dh -> fs_lookup (s_fs s) (cache_dir dh) = Some Dir ->
  fs_lookup (s_fs s) (cache_file dh) = None ->
  partonic_cross_section R sv fuel e cfg s = computed cfg s (cache_file dh) "".
Proof.
  intros D1 D2 D3. unfold partonic_cross_section. rewrite (data_home_dir e dh D1).
  erewrite bind_run by reflexivity.
  assert (MK : in_fs R (create_directory (path_join dh "trento")) s = (Ret tt, s)).
  { unfold in_fs, create_directory. unfold cache_dir in D2. rewrite D2. destruct s; reflexivity. }
  rewrite (bind_run _ _ _ _ _ MK). erewrite bind_run by reflexivity. cbv beta.
  change (cache_path dh) with (cache_file dh). rewrite D3. erewrite bind_run by reflexivity. cbv beta iota.
  apply after_open with (f1 := fs_set (s_fs s) (cache_file dh) (File "")); [apply join_not_empty; discriminate| |reflexivity].
  unfold append_file. rewrite D3. unfold cache_file at 1.
  rewrite parent_ok_join; [reflexivity|apply cache_file_plain|apply join_not_empty; discriminate|exact D2].
Qed.
End Run.
