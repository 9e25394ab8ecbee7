(** [partonic_cross_section] (src/nucleon.cxx:176-244) as a sequence of system
    calls of one process, for several processes sharing one file system.

    Simplifications.  One step is one effect on the shared files:
    mkdir (line 193); reading the cache file (lines 196-214: the file only ever
    grows, so what a reader has seen when it reaches the end of the file is the
    text at that instant, and [exists] followed by the opening is the same
    question); open with O_APPEND|O_CREAT (218); the computation, which touches no
    file (223-226); and the single write of the line, whose buffer is flushed once,
    by [endl] (235-241).  A write of one line is not torn.  The stages carry the
    engine of the process after the step. *)
From Coq Require Import Ascii.
From Verif.Base Require Import Result Arith Rng.
From Verif.Model Require Import Random Config Nucleon Text Files CrossSection.

Section Steps.
Context {A : Arith} (R : Rng A).

(** Where the process is; [Returned hit sp en]: returned [sp], read from the cache
    if [hit], computed otherwise; [Failed]: left by an exception, or undefined. *)
Inductive stage : Type :=
| AtStart                                        (* before line 193 *)
| AtLookup                                       (* before line 196 *)
| AtOpen                                         (* before line 218 *)
| AtCompute                                      (* before line 223 *)
| AtWrite (sp : num A) (en : engine R)           (* before line 235 *)
| Returned (hit : bool) (sp : num A) (en : engine R)   (* lines 209, 243 *)
| Failed (why : result (num A)) (en : engine R)
| Killed.

(** A process: its configuration (lines 178-181), root finder, and random engine
    when the function is entered. *)
Record proc : Type := Proc {
  p_cfg : config A;
  p_solver : Solver A;
  p_eng : engine R;
  p_stage : stage
}.
Definition at_stage (P : proc) (st : stage) : proc := Proc (p_cfg P) (p_solver P) (p_eng P) st.

(** The line a process appends. *)
Definition line_for (cfg : config A) (sp : num A) : string :=
  cache_line (constit_number cfg) (nucleon_width cfg) (constit_width cfg) (cross_section cfg) sp.

(** nucleon.cxx:196-215: what the reading of the cache yields; for some number of
    rounds of the loop, so that a reading that never ends has no result. *)
Definition reads_cache (cfg : config A) (path : string) (f : fs A) (r : result (option (num A))) : Prop :=
  match fs_lookup f path with
  | None => r = Ret None
  | Some n => exists rounds, r <> OutOfFuel /\
      cache_loop rounds (nucleon_width cfg) (constit_width cfg) (constit_number cfg) (cross_section cfg)
        (Istream (file_text n) false false) cvars_uninit = r
  end.

(** One step of a process, with its effect on the files. *)
Inductive pstep (e : env) : proc -> fs A -> proc -> fs A -> Prop :=
| step_no_home : forall P f u,                                        (* line 191 *)
    p_stage P = AtStart -> get_data_home e = UB u ->
    pstep e P f (at_stage P (Failed (UB u) (p_eng P))) f
| step_mkdir : forall P f dh f',                                      (* line 193 *)
    p_stage P = AtStart -> get_data_home e = Ret dh ->
    create_directory (path_join dh "trento") f = (Ret tt, f') ->
    pstep e P f (at_stage P AtLookup) f'
| step_no_mkdir : forall P f dh x f',
    p_stage P = AtStart -> get_data_home e = Ret dh ->
    create_directory (path_join dh "trento") f = (Throw x, f') ->
    pstep e P f (at_stage P (Failed (Throw x) (p_eng P))) f'
| step_hit : forall P f dh sp,                                        (* lines 205-209 *)
    p_stage P = AtLookup -> get_data_home e = Ret dh ->
    reads_cache (p_cfg P) (cache_path dh) f (Ret (Some sp)) ->
    pstep e P f (at_stage P (Returned true sp (p_eng P))) f
| step_miss : forall P f dh,                                          (* lines 202, 214 *)
    p_stage P = AtLookup -> get_data_home e = Ret dh ->
    reads_cache (p_cfg P) (cache_path dh) f (Ret None) ->
    pstep e P f (at_stage P AtOpen) f
| step_uninit : forall P f dh u,                                      (* lines 205-208 *)
    p_stage P = AtLookup -> get_data_home e = Ret dh ->
    reads_cache (p_cfg P) (cache_path dh) f (UB u) ->
    pstep e P f (at_stage P (Failed (UB u) (p_eng P))) f
| step_open : forall P f dh f',                                       (* lines 218-219 *)
    p_stage P = AtOpen -> get_data_home e = Ret dh ->
    append_file (cache_path dh) "" f = (Ret tt, f') ->
    pstep e P f (at_stage P AtCompute) f'
| step_compute : forall P f sp en,                                    (* lines 223-226 *)
    p_stage P = AtCompute ->
    compute_partonic R (p_solver P) (p_cfg P) (p_eng P) = (Ret sp, en) ->
    pstep e P f (at_stage P (AtWrite sp en)) f
| step_no_fit : forall P f r en,
    p_stage P = AtCompute ->
    compute_partonic R (p_solver P) (p_cfg P) (p_eng P) = (r, en) -> (forall sp, r <> Ret sp) -> r <> OutOfFuel ->
    pstep e P f (at_stage P (Failed r en)) f
| step_write : forall P f dh sp en f',                                (* lines 235-241 *)
    p_stage P = AtWrite sp en -> get_data_home e = Ret dh ->
    append_file (cache_path dh) (line_for (p_cfg P) sp) f = (Ret tt, f') ->
    pstep e P f (at_stage P (Returned false sp en)) f'.

(** Has the process left the function (or been killed)? *)
Definition ended (P : proc) : Prop :=
  match p_stage P with Returned _ _ _ | Failed _ _ | Killed => True | _ => False end.

(** All processes and the files. *)
Definition world : Type := list proc * fs A.

Fixpoint replace_nth {X} (l : list X) (i : nat) (x : X) : list X :=
  match l, i with
  | [], _ => []
  | _ :: l', O => x :: l'
  | y :: l', S i' => y :: replace_nth l' i' x
  end.

(** Any process may take its next step, any new process may start, and any
    process may be killed between two steps. *)
Inductive wstep (e : env) : world -> world -> Prop :=
| w_step : forall ps f i P P' f',
    nth_error ps i = Some P -> pstep e P f P' f' -> wstep e (ps, f) (replace_nth ps i P', f')
| w_kill : forall ps f i P,
    nth_error ps i = Some P -> ~ ended P -> wstep e (ps, f) (replace_nth ps i (at_stage P Killed), f)
| w_start : forall ps f P,
    p_stage P = AtStart -> wstep e (ps, f) (ps ++ [P], f).

Inductive wsteps (e : env) : world -> world -> Prop :=
| w_none : forall w, wsteps e w w
| w_more : forall w1 w2 w3, wsteps e w1 w2 -> wstep e w2 w3 -> wsteps e w1 w3.

End Steps.
Arguments stage {A} R. Arguments proc {A} R. Arguments world {A} R.
Arguments AtStart {A R}. Arguments AtLookup {A R}. Arguments AtOpen {A R}. Arguments AtCompute {A R}.
Arguments AtWrite {A R}. Arguments Returned {A R}. Arguments Failed {A R}. Arguments Killed {A R}.
Arguments Proc {A R}. Arguments p_cfg {A R}. Arguments p_solver {A R}. Arguments p_eng {A R}. Arguments p_stage {A R}.
Arguments at_stage {A R}. Arguments ended {A R}.
