(** A whole run (src/trento.cxx:251-252) as a sequence of calls on files that it
    shares with other processes: src/collider.cxx:61-98, src/nucleon.cxx:176-244,
    src/output.cxx:50-217.

    Simplifications.  One step is one operation on the shared files: opening and
    reading the file of a nucleus; making the directory of the cache; reading the
    cache; opening it for appending; the single write of its line; each test
    [exists] and [is_empty]; each directory of [create_directories]; creating the
    HDF5 file; writing the file, or the HDF5 dataset, of one event.  Everything
    else a process does involves only its own memory and streams.  (The effects of
    the steps are those of Files.v, Output.v and CrossSection.v.  HDF5's file locks
    are not modelled.) *)
From Verif.Base Require Import Result Arith Rng.
From Verif.Model Require Import Random Config Nucleon Nucleus Event Text Files CrossSection CacheSteps Output Collider.
Local Open Scope string_scope.

Section Steps.
Context {A : Arith} (R : Rng A) (sv : Solver A) (bd : build).

(** What belongs to the process alone: its random engine and its two streams. *)
Record own : Type := Own { w_eng : engine R; w_out : string; w_err : string }.
Definition own_of (s : sys R) : own := Own (s_eng s) (s_out s) (s_err s).
Definition sys_of (p : own) (f : fs A) : sys R := Sys (w_eng p) f (w_out p) (w_err p).

(** What a process will still do: nothing, having ended with result [r]; or one
    call, which finds the files [f], leaves [effect f], and lets the process
    continue as [next f]. *)
Inductive todo (X : Type) : Type :=
| Ended (r : result X) (p : own)
| Call (next : fs A -> todo X) (effect : fs A -> fs A).
Arguments Ended {X}. Arguments Call {X}.

(** Sequencing, as in the C++ function: an exception ends it. *)
Fixpoint andthen {X Y} (m : todo X) (c : X -> own -> todo Y) : todo Y :=
  match m with
  | Ended r p =>
      match r with
      | Ret x => c x p
      | Throw x => Ended (Throw x) p
      | UB u => Ended (UB u) p
      | OutOfFuel => Ended OutOfFuel p
      end
  | Call next effect => Call (fun f => andthen (next f) c) effect
  end.

Definition P (X : Type) : Type := own -> todo X.
Definition pbind {X Y} (m : P X) (k : X -> P Y) : P Y := fun p => andthen (m p) k.
Notation "'let+' x ':=' m 'in' k" := (pbind m (fun x => k))
  (at level 200, x pattern, m at level 100, k at level 200, right associativity).

(** A call on the files; a result that needs none; a computation with the engine. *)
Definition calls {X} (m : M (fs A) X) : P X := fun p => Call (fun f => Ended (fst (m f)) p) (fun f => snd (m f)).
Definition yields {X} (r : result X) : P X := fun p => Ended r p.
Definition computes {X} (m : M (engine R) X) : P X :=
  fun p => let (r, en) := m (w_eng p) in Ended r (Own en (w_out p) (w_err p)).
Definition prints (t : string) : P unit := fun p => Ended (Ret tt) (Own (w_eng p) (w_out p ++ t) (w_err p)).
Definition asks {X} (q : fs A -> result X) : P X := calls (fun f => (q f, f)).

Fixpoint pfold {X Y} (f : Y -> X -> P Y) (l : list X) (y : Y) : P Y :=
  match l with
  | [] => yields (Ret y)
  | x :: l' => let+ y' := f y x in pfold f l' y'
  end.

(** nucleon.cxx:176-244 [partonic_cross_section]. *)
Definition partonic_steps (fuel : nat) (e : env) (cfg : config A) : P (num A) :=
  let+ dh := yields (get_data_home e) in                                     (* 191 *)
  let+ _ := calls (create_directory (path_join dh "trento")) in              (* 193 *)
  let+ hit := asks (fun f =>                                                 (* 196-215 *)
    match fs_lookup f (cache_path dh) with
    | Some n => cache_loop fuel (nucleon_width cfg) (constit_width cfg) (constit_number cfg) (cross_section cfg)
                  (Istream (file_text n) false false) cvars_uninit
    | None => Ret None
    end) in
  match hit with
  | Some sp => yields (Ret sp)
  | None =>
      let+ _ := calls (append_file (cache_path dh) "") in                    (* 218 *)
      let+ sp := computes (compute_partonic R sv cfg) in                     (* 223-226 *)
      let+ _ := calls (append_file (cache_path dh) (line_for cfg sp)) in     (* 235-241 *)
      yields (Ret sp)
  end.

(** boost's create_directories: one directory (see Files.v). *)
Definition make_dir (d : string) : M (fs A) unit :=
  fun f =>
    match fs_lookup f d with
    | Some Dir => (Ret tt, f)
    | Some _ => (Throw (FilesystemError d), f)
    | None => (Ret tt, fs_set f d Dir)
    end.

(** output.cxx:166-217 [Output::Output]. *)
Definition output_steps (cfg : config A) : P (list writer) :=
  let+ width := yields (output_width (A:=A) (number_events cfg)) in
  let stdout_writers := if quiet cfg then [] else [WStdout width] in
  let+ file_writers :=
    match output cfg with
    | None => yields (Ret [])
    | Some path =>
        if filename_is_hdf5 path then
          if with_hdf5 bd then
            let+ there := asks (fun f => Ret (fs_exists f path)) in           (* 187 *)
            let+ bare := if there then asks (fun f => Ret (fs_is_empty f path)) else yields (Ret true) in
            if bare then
              let+ _ := calls (hdf5_open path) in                             (* 190 *)
              yields (Ret [WHdf5 path])
            else yields (Throw (RuntimeError ("file '" ++ path ++ "' exists, will not overwrite")))
          else yields (Throw (RuntimeError "HDF5 output was not compiled"))
        else
          let+ there := asks (fun f => Ret (fs_exists f path)) in             (* 199 *)
          let+ _ :=
            if there then
              let+ bare := asks (fun f => Ret (fs_is_empty f path)) in        (* 200 *)
              if bare then yields (Ret tt)
              else yields (Throw (RuntimeError ("output directory '" ++ path ++ "' must be empty")))
            else if String.eqb path "" then yields (Throw (FilesystemError path))
            else pfold (fun _ d => calls (make_dir d)) (prefixes "" (norm path)) tt in    (* 205 *)
          yields (Ret [WText path width (negb (no_header cfg))])
    end in
  yields (Ret (stdout_writers ++ file_writers)%list).

(** output.h:41-45, output.cxx:25-88, 120-160: the writers of one event. *)
Definition writer_steps (w : writer) (n : Z) (b : num A) (nc : Z) (ev : event A) : P unit :=
  match w with
  | WStdout width => prints (stream_line width n b nc ev)
  | WText dir width header => calls (write_text_file dir width n b nc ev header)
  | WHdf5 path => calls (hdf5_write path n b nc ev)
  end.

(** collider.cxx:84-97: one event; the two distributions are threaded through. *)
Definition event_steps (fuel sfuel : nat) (co : collider A)
    (st : nucleus A * nucleus A * event A * nstate R * gstate R) (n : Z)
  : P (nucleus A * nucleus A * event A * nstate R * gstate R) :=
  let '(nA, nB, ev, nst, gst) := st in
  fun p =>
    let (r, rs) := sample_collision R fuel sfuel co nA nB (MkRstate (w_eng p) nst gst) in
    andthen (Ended r (Own (rs_eng rs) (w_out p) (w_err p)))
      (fun x => let '(b, nc, nA', nB') := x in
        let+ ev' := yields (event_compute (debug bd) ev (nu_nucleons nA') (nu_nucleons nB') (co_nc co)) in
        let+ _ := pfold (fun _ w => writer_steps w n b nc ev') (co_writers co) tt in
        yields (Ret (nA', nB', ev', rs_norm rs, rs_gamma rs))).

(** collider.cxx:61-77 and 82-98: construct the collider and run the events. *)
Definition run_steps (cfuel fuel sfuel : nat) (e : env) (cfg : config A) : P unit :=
  let+ nA := asks (fun f => create_nucleus bd f cfg 0) in
  let+ nB := asks (fun f => create_nucleus bd f cfg 1) in
  let+ sp := partonic_steps cfuel e cfg in
  let+ ev := yields (event_new cfg) in
  let+ ws := output_steps cfg in
  let nc := nucleon_common_of cfg sp in
  let co := {| co_nc := nc; co_nevents := number_events cfg; co_calc_ncoll := ncoll cfg;
               co_bmin := b_min cfg; co_bmax := determine_bmax cfg nA nB nc;
               co_asym := determine_asym nA nB; co_writers := ws |} in
  let+ _ := fun p => Ended (Ret tt)
    (if (0 <? random_seed cfg)%Z then Own (eng_seed R (random_seed cfg)) (w_out p) (w_err p) else p) in
  let+ _ := pfold (event_steps fuel sfuel co) (zupto (number_events cfg))
              (nA, nB, ev, normal_init R nc, gamma_init R cfg) in
  yields (Ret tt).

(** All processes and the files; any process may make its next call.  A process
    that is not started yet, or was killed, just makes none. *)
Definition processes : Type := list (todo unit) * fs A.

Inductive moves : processes -> processes -> Prop :=
| a_call : forall ps f i next effect,
    nth_error ps i = Some (Call next effect) ->
    moves (ps, f) (replace_nth ps i (next f), effect f).

Inductive schedule : processes -> processes -> Prop :=
| sch_none : forall w, schedule w w
| sch_more : forall w1 w2 w3, schedule w1 w2 -> moves w2 w3 -> schedule w1 w3.

(** A process by itself. *)
Fixpoint alone {X} (m : todo X) (f : fs A) : result X * own * fs A :=
  match m with
  | Ended r p => (r, p, f)
  | Call next effect => alone (next f) (effect f)
  end.

End Steps.
Arguments Own {A R}. Arguments w_eng {A R}. Arguments w_out {A R}. Arguments w_err {A R}.
Arguments own_of {A R}. Arguments sys_of {A R}.
Arguments Ended {A R X}. Arguments Call {A R X}. Arguments andthen {A R X Y}.
Arguments alone {A R X}. Arguments moves {A} R. Arguments schedule {A} R.
