(** A run that is killed: the states of the outside world it can leave behind
    (src/trento.cxx:251-252, src/collider.cxx:61-98, src/output.cxx:50-217,
    src/nucleon.cxx:189-243).

    Simplifications.  The process is killed between or inside its effects on the
    files; what it had drawn, sampled and computed is lost.  A file being written
    holds some prefix of its text (the stream's buffer may have been flushed at any
    character).  What had been printed is some prefix of what was sent to standard
    output: [s_out] of the killed state is what had been sent, and the prefix is
    taken in the statements.  An HDF5 file that is open when the process is killed
    can hold anything. *)
From Verif.Base Require Import Result Arith Rng.
From Verif.Model Require Import Config Nucleon Nucleus Event Text Files CrossSection CacheSteps Output Collider.
Local Open Scope string_scope.

Section Killed.
Context {A : Arith} (R : Rng A) (sv : Solver A) (bd : build).

Definition with_fs (s : sys R) (f : fs A) : sys R := Sys (s_eng s) f (s_out s) (s_err s).

(** Killed inside one writer (output.cxx:25-48, 50-88, 120-160). *)
Inductive killed_writing (n : Z) (b : num A) (nc : Z) (ev : event A) : writer -> sys R -> sys R -> Prop :=
| kw_line : forall width s t1 t2,
    stream_line width n b nc ev = t1 ++ t2 ->
    killed_writing n b nc ev (WStdout width) s (Sys (s_eng s) (s_fs s) (s_out s ++ t1) (s_err s))
| kw_text : forall dir width header s t1 t2 f',
    event_text n b nc ev header = Ret (t1 ++ t2) ->
    write_file (path_join dir (text_file_name width n)) t1 (s_fs s) = (Ret tt, f') ->
    killed_writing n b nc ev (WText dir width header) s (with_fs s f')
| kw_hdf5 : forall path s node,
    node <> Dir ->
    killed_writing n b nc ev (WHdf5 path) s (with_fs s (fs_set (s_fs s) path node)).

(** Killed among the writers of one event (output.h:41-45). *)
Inductive killed_output (n : Z) (b : num A) (nc : Z) (ev : event A) : list writer -> sys R -> sys R -> Prop :=
| ko_between : forall ws s, killed_output n b nc ev ws s s
| ko_inside : forall w ws s s', killed_writing n b nc ev w s s' -> killed_output n b nc ev (w :: ws) s s'
| ko_later : forall w ws s s1 s', run_writer R w n b nc ev s = (Ret tt, s1) ->
    killed_output n b nc ev ws s1 s' -> killed_output n b nc ev (w :: ws) s s'.

(** Killed in the event loop (collider.cxx:82-98): before or while sampling and
    computing event [n], while writing it, or in a later event. *)
Inductive killed_events (fuel sfuel : nat) (co : collider A)
  : list Z -> nucleus A * nucleus A * event A -> run R -> sys R -> Prop :=
| ke_between : forall l st s, killed_events fuel sfuel co l st s (ru_sys s)
| ke_writing : forall n l nA nB ev s b nc nA' nB' s1 ev' s',
    in_rstate R (sample_collision R fuel sfuel co nA nB) s = (Ret (b, nc, nA', nB'), s1) ->
    event_compute (debug bd) ev (nu_nucleons nA') (nu_nucleons nB') (co_nc co) = Ret ev' ->
    killed_output n b nc ev' (co_writers co) (ru_sys s1) s' ->
    killed_events fuel sfuel co (n :: l) (nA, nB, ev) s s'
| ke_later : forall n l st s st1 s1 s',
    one_event R bd fuel sfuel co st n s = (Ret st1, s1) ->
    killed_events fuel sfuel co l st1 s1 s' ->
    killed_events fuel sfuel co (n :: l) st s s'.

(** Killed while the outputs are opened (output.cxx:166-217). *)
Inductive killed_open (cfg : config A) (s : sys R) : sys R -> Prop :=
| ko_before : killed_open cfg s s
| ko_mkdirs : forall path j f',                     (* some of the directories *)
    output cfg = Some path -> filename_is_hdf5 path = false -> fs_exists (s_fs s) path = false -> path <> "" ->
    mfold (fun _ d => fun f : fs A =>
      match fs_lookup f d with
      | Some Dir => (Ret tt, f)
      | Some _ => (Throw (FilesystemError d), f)
      | None => (Ret tt, fs_set f d Dir)
      end) (firstn j (prefixes "" (norm path))) tt (s_fs s) = (Ret tt, f') ->
    killed_open cfg s (with_fs s f')
| ko_h5file : forall path ws s1 node,               (* while or after creating the file *)
    output cfg = Some path -> filename_is_hdf5 path = true ->
    output_new R bd cfg s = (Ret ws, s1) -> node <> Dir ->
    killed_open cfg s (with_fs s (fs_set (s_fs s) path node)).

(** Killed in the constructor (collider.cxx:61-77). *)
Inductive killed_new (fuel : nat) (e : env) (cfg : config A) (s : sys R) : sys R -> Prop :=
| kn_before : killed_new fuel e cfg s s
| kn_cache_dir : forall dh f',                      (* nucleon.cxx:193 *)
    get_data_home e = Ret dh -> create_directory (path_join dh "trento") (s_fs s) = (Ret tt, f') ->
    killed_new fuel e cfg s (with_fs s f')
| kn_cache_line : forall dh f1 f2 sp t1 t2,         (* nucleon.cxx:218-241 *)
    get_data_home e = Ret dh -> create_directory (path_join dh "trento") (s_fs s) = (Ret tt, f1) ->
    line_for cfg sp = t1 ++ t2 -> append_file (cache_path dh) t1 f1 = (Ret tt, f2) ->
    killed_new fuel e cfg s (with_fs s f2)
| kn_open : forall sp s1 s',
    partonic_cross_section R sv fuel e cfg s = (Ret sp, s1) -> killed_open cfg s1 s' ->
    killed_new fuel e cfg s s'.

(** trento.cxx:251-252. *)
Inductive killed_run (cfuel fuel sfuel : nat) (e : env) (cfg : config A) (s : sys R) : sys R -> Prop :=
| kr_new : forall s', killed_new cfuel e cfg s s' -> killed_run cfuel fuel sfuel e cfg s s'
| kr_events : forall co nA nB ev nst gst s1 s',
    collider_new R sv bd cfuel e cfg s = (Ret (co, nA, nB, ev, nst, gst), s1) ->
    killed_events fuel sfuel co (zupto (co_nevents co)) (nA, nB, ev) (Run s1 nst gst) s' ->
    killed_run cfuel fuel sfuel e cfg s s'
| kr_hdf5 : forall co nA nB ev nst gst s1 s' path node,       (* an open HDF5 file *)
    collider_new R sv bd cfuel e cfg s = (Ret (co, nA, nB, ev, nst, gst), s1) ->
    killed_events fuel sfuel co (zupto (co_nevents co)) (nA, nB, ev) (Run s1 nst gst) s' ->
    output cfg = Some path -> filename_is_hdf5 path = true -> node <> Dir ->
    killed_run cfuel fuel sfuel e cfg s (with_fs s' (fs_set (s_fs s') path node)).

End Killed.
