(** Several runs at the same time on the same files. *)
From Verif.Base Require Import Result Arith Rng.
From Verif.Model Require Import Config Nucleon Nucleus Text Files CrossSection Collider RunSteps.
From Verif.Spec Require Import FileTree Cache.

(** Neither path is the other one, or inside the other one. *)
Definition apart (p q : string) : Prop := norm p <> norm q /\ ~ below p (norm q) /\ ~ below q (norm p).

(** The path itself and everything inside it. *)
Definition at_or_below (p k : string) : Prop := k = norm p \/ below p k.

(** Something that starts at the path can be created: true of a path whose parent
    directory exists. *)
Definition parent_exists {A} (f : fs A) (p : string) : Prop := parent_ok f p = true.

Section Parallel.
Context {A : Arith} (R : Rng A) (sv : Solver A) (bd : build).

(** A run that somebody starts: what was asked for, and the state of its random
    engine and of its own streams. *)
Record launch : Type := Launch { l_cfg : config A; l_own : own R }.

(** The launches, before any of them has made a call. *)
Definition begin (cfuel fuel sfuel : nat) (e : env) (ls : list launch) (f : fs A) : processes R :=
  (map (fun l => run_steps R sv bd cfuel fuel sfuel e (l_cfg l) (l_own l)) ls, f).

(** Nuclei read from files. *)
Definition reads_file (cfg : config A) (p : string) : Prop := In p (projectile cfg) /\ filename_is_hdf5 p = true.

(** One launch by itself is set up sensibly: its output and its input are not in
    the cache's directory (nor above it), and an HDF5 file is to be created in a
    directory that exists. *)
Definition well_placed (e : env) (f0 : fs A) (l : launch) : Prop :=
  (forall p, output (l_cfg l) = Some p ->
     (forall dh, data_dir e = Some dh -> apart p (cache_dir dh)) /\
     (filename_is_hdf5 p = true -> parent_exists f0 p)) /\
  (forall q dh, reads_file (l_cfg l) q -> data_dir e = Some dh -> apart q (cache_dir dh)).

(** Two launches do not get in each other's way: their outputs are apart, and
    neither writes where the other one reads. *)
Definition no_clash (l l' : launch) : Prop :=
  (forall p p', output (l_cfg l) = Some p -> output (l_cfg l') = Some p' -> apart p p') /\
  (forall q p', reads_file (l_cfg l) q -> output (l_cfg l') = Some p' -> apart q p') /\
  (forall q' p, reads_file (l_cfg l') q' -> output (l_cfg l) = Some p -> apart q' p).

Definition separate (e : env) (f0 : fs A) (ls : list launch) : Prop :=
  (forall l, In l ls -> well_placed e f0 l) /\
  (forall i j l l', i <> j -> nth_error ls i = Some l -> nth_error ls j = Some l' -> no_clash l l').

(** Process number [i] has ended with result [r], leaving [p]. *)
Definition ended_with (w : processes R) (i : nat) (r : result unit) (p : own R) : Prop :=
  nth_error (fst w) i = Some (Ended r p).

(** What is at and inside the output of the run is the same. *)
Definition same_output (cfg : config A) (f g : fs A) : Prop :=
  forall p k, output cfg = Some p -> at_or_below p k -> fs_get f k = fs_get g k.

(** The cross-section parameter of the run is in the cache, and is [sp]. *)
Definition in_cache (cfuel : nat) (e : env) (cfg : config A) (f : fs A) (sp : num A) : Prop :=
  exists dh t, data_dir e = Some dh /\ fs_lookup f (cache_dir dh) = Some Dir /\
    fs_lookup f (cache_file dh) = Some (File t) /\
    cache_loop cfuel (nucleon_width cfg) (constit_width cfg) (constit_number cfg) (cross_section cfg)
      (Istream t false false) cvars_uninit = Ret (Some sp).
End Parallel.
Arguments Launch {A R}. Arguments l_cfg {A R}. Arguments l_own {A R}.
