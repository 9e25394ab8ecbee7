(** What an interrupted run may leave behind. *)
From Verif.Base Require Import Result Arith Rng.
From Verif.Model Require Import Config Files CrossSection Output.
From Verif.Spec Require Import FileTree Cache.
Local Open Scope string_scope.

(** [t] is an initial part of [u]. *)
Definition starts (t u : string) : Prop := exists r, u = t ++ r.

(** The cache of cross sections and its directory. *)
Definition cache_entry (e : env) (k : string) : Prop :=
  exists dh, data_dir e = Some dh /\ (k = norm (cache_dir dh) \/ k = norm (cache_file dh)).

(** The file of event [i] in the output directory. *)
Definition event_file (path : string) (width i : Z) : string := path_join path (text_file_name width i).

(** The output directory of a run of [N] events killed in event [k] ([k = N]: after
    the last one), compared to that of the complete run: the files of the events
    before [k] are there and complete; that of event [k] is missing, or is an
    initial part of the complete one; there is nothing else in the directory. *)
Definition left_behind {A : Arith} (path : string) (width N k : Z) (killed complete : fs A) : Prop :=
  (0 <= k <= N)%Z /\
  (forall i, (0 <= i < k)%Z -> exists t,
     fs_get killed (event_file path width i) = Some (File t) /\
     fs_get complete (event_file path width i) = Some (File t)) /\
  (fs_get killed (event_file path width k) = None \/
   exists t u, (k < N)%Z /\ fs_get killed (event_file path width k) = Some (File t) /\
     fs_get complete (event_file path width k) = Some (File u) /\ starts t u) /\
  (forall key, below path key -> fs_get killed key <> None ->
     fs_get killed (norm path) = Some Dir /\
     exists i, (0 <= i <= k)%Z /\ (i < N)%Z /\ key = event_file path width i).

(** Outside the output directory and the cache: unchanged, but for directories
    that the complete run makes too. *)
Definition elsewhere_unchanged {A : Arith} (e : env) (path : string) (before killed complete : fs A) : Prop :=
  forall key, ~ below path key -> ~ cache_entry e key ->
    fs_get killed key = fs_get before key \/
    (fs_get before key = None /\ fs_get killed key = Some Dir /\ fs_get complete key = Some Dir).
