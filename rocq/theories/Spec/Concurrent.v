(** Several processes that share one cross-section cache. *)
From Verif.Base Require Import Result Arith Rng.
From Verif.Model Require Import Random Config Files CrossSection CacheSteps.
From Verif.Spec Require Import Cache.

(** The cache on disk: its text, or [None] if there is no file yet (and then the
    directory exists or can be created). *)
Definition cache_state {A} (e : env) (f : fs A) (o : option string) : Prop :=
  exists dh, data_dir e = Some dh /\
    match o with
    | Some t => fs_lookup f (cache_dir dh) = Some Dir /\ fs_lookup f (cache_file dh) = Some (File t)
    | None => (fs_lookup f (cache_dir dh) = Some Dir \/
               (fs_lookup f (cache_dir dh) = None /\ parent_ok f (cache_dir dh) = true)) /\
              fs_lookup f (cache_file dh) = None
    end.

(** No path but the cache's directory and file differs. *)
Definition only_cache_dir_differs {A} (e : env) (f f' : fs A) : Prop :=
  forall dh p, data_dir e = Some dh -> norm p <> norm (cache_dir dh) -> norm p <> norm (cache_file dh) ->
    fs_lookup f' p = fs_lookup f p.

Section Procs.
Context {A : Arith} {R : Rng A}.

(** Process number [i] is [P]; it returned the parameter [sp], from the cache or
    computed by itself. *)
Definition proc_at (w : world R) (i : nat) (P : proc R) : Prop := nth_error (fst w) i = Some P.
Definition found (P : proc R) (sp : num A) : Prop := exists en, p_stage P = Returned true sp en.
Definition wrote (P : proc R) (sp : num A) : Prop := exists en, p_stage P = Returned false sp en.

(** The process has not yet read the cache. *)
Definition before_lookup (P : proc R) : Prop := p_stage P = AtStart \/ p_stage P = AtLookup.

(** [lines] is what the processes numbered [log] wrote, in this order. *)
Inductive written (w : world R) : list nat -> string -> Prop :=
| written_none : written w [] ""
| written_then : forall log t i P sp,
    written w log t -> proc_at w i P -> wrote P sp ->
    written w (log ++ [i]) (t ++ cache_line (constit_number (p_cfg P)) (nucleon_width (p_cfg P))
                                  (constit_width (p_cfg P)) (cross_section (p_cfg P)) sp).
End Procs.

(** Everything the processes do from files [f0], without any process at first. *)
Definition reachable {A} (R : Rng A) (e : env) (f0 : fs A) (w : world R) : Prop := wsteps R e ([], f0) w.
