(** Model of src/trento.cxx.

    The lexing of the command line and of configuration files is Boost's; the
    result of parsing one source is a value of type [given].  What is modelled is
    everything main does with it: merging (po::store), defaults, validation,
    notification, the run itself and the mapping of exceptions to exit codes. *)
From Verif.Base Require Import Result Arith Rng.
From Verif.Model Require Import Config Text Files CrossSection Collider.
Local Open Scope string_scope.

(** What one source (command line or one config file) explicitly gives. *)
Record given (A : Arith) : Type := Given {
  g_help : bool; g_version : bool; g_bibtex : bool;       (* trento.cxx:89-91 *)
  g_config_file : list string;                            (* trento.cxx:93 *)
  g_projectile : list string;
  g_number_events : option Z;
  g_quiet : option bool;
  g_output : option string;
  g_no_header : option bool;
  g_ncoll : option bool;
  g_reduced_thickness : option (num A);
  g_fluctuation : option (num A);
  g_nucleon_width : option (num A);
  g_constit_width : option (num A);
  g_constit_number : option Z;
  g_nucleon_min_dist : option (num A);
  g_cross_section : option (num A);
  g_normalization : option (num A);
  g_b_min : option (num A);
  g_b_max : option (num A);
  g_random_seed : option Z;
  g_grid_max : option (num A);
  g_grid_step : option (num A)
}.
Arguments Given {A}.
Arguments g_help {A}. Arguments g_version {A}. Arguments g_bibtex {A}.
Arguments g_config_file {A}. Arguments g_projectile {A}. Arguments g_number_events {A}.
Arguments g_quiet {A}. Arguments g_output {A}. Arguments g_no_header {A}. Arguments g_ncoll {A}.
Arguments g_reduced_thickness {A}. Arguments g_fluctuation {A}. Arguments g_nucleon_width {A}.
Arguments g_constit_width {A}. Arguments g_constit_number {A}. Arguments g_nucleon_min_dist {A}.
Arguments g_cross_section {A}. Arguments g_normalization {A}. Arguments g_b_min {A}.
Arguments g_b_max {A}. Arguments g_random_seed {A}. Arguments g_grid_max {A}. Arguments g_grid_step {A}.

(** boost::program_options::variable_value plus membership in variables_map::m_final:
    no value; a default value; an explicitly given (hence final) value. *)
Inductive entry (X : Type) : Type := Absent | Defaulted (x : X) | Explicit (x : X).
Arguments Absent {X}. Arguments Defaulted {X}. Arguments Explicit {X}.

(** po::store for one option: an explicit value from an earlier store is final;
    an explicit value now replaces a default; otherwise the default (if the
    option has one) is inserted when no value is present. *)
Definition store1 {X} (def : option X) (g : option X) (e : entry X) : entry X :=
  let e1 := match e with
            | Explicit _ => e
            | _ => match g with Some x => Explicit x | None => e end
            end in
  match e1 with
  | Absent => match def with Some d => Defaulted d | None => Absent end
  | _ => e1
  end.

Record varmap (A : Arith) : Type := VarMap {
  v_projectile : entry (list string);
  v_number_events : entry Z;
  v_quiet : entry bool;
  v_output : entry string;
  v_no_header : entry bool;
  v_ncoll : entry bool;
  v_reduced_thickness : entry (num A);
  v_fluctuation : entry (num A);
  v_nucleon_width : entry (num A);
  v_constit_width : entry (num A);
  v_constit_number : entry Z;
  v_nucleon_min_dist : entry (num A);
  v_cross_section : entry (num A);
  v_normalization : entry (num A);
  v_b_min : entry (num A);
  v_b_max : entry (num A);
  v_random_seed : entry Z;
  v_grid_max : entry (num A);
  v_grid_step : entry (num A)
}.
Arguments VarMap {A}.
Arguments v_projectile {A}. Arguments v_number_events {A}. Arguments v_quiet {A}.
Arguments v_output {A}. Arguments v_no_header {A}. Arguments v_ncoll {A}.
Arguments v_reduced_thickness {A}. Arguments v_fluctuation {A}. Arguments v_nucleon_width {A}.
Arguments v_constit_width {A}. Arguments v_constit_number {A}. Arguments v_nucleon_min_dist {A}.
Arguments v_cross_section {A}. Arguments v_normalization {A}. Arguments v_b_min {A}.
Arguments v_b_max {A}. Arguments v_random_seed {A}. Arguments v_grid_max {A}. Arguments v_grid_step {A}.

Section Main.
Context {A : Arith} (R : Rng A) (sv : Solver A) (bd : build).

(** trento.cxx:174: an empty map. *)
Definition varmap_empty : varmap A :=
  VarMap Absent Absent Absent Absent Absent Absent Absent Absent Absent Absent
         Absent Absent Absent Absent Absent Absent Absent Absent Absent.

(** A multitoken option gives a value iff it occurs. *)
Definition nonempty {X} (l : list X) : option (list X) :=
  match l with [] => None | _ => Some l end.

(** po::store with the defaults of trento.cxx:69-150. *)
Definition store (g : given A) (v : varmap A) : varmap A :=
  {| v_projectile := store1 None (nonempty (g_projectile g)) (v_projectile v);
     v_number_events := store1 (Some 1%Z) (g_number_events g) (v_number_events v);
     v_quiet := store1 (Some false) (g_quiet g) (v_quiet v);
     v_output := store1 None (g_output g) (v_output v);
     v_no_header := store1 (Some false) (g_no_header g) (v_no_header v);
     v_ncoll := store1 (Some false) (g_ncoll g) (v_ncoll v);
     v_reduced_thickness := store1 (Some (nlit A 0 0)) (g_reduced_thickness g) (v_reduced_thickness v);
     v_fluctuation := store1 (Some (nlit A 1 0)) (g_fluctuation g) (v_fluctuation v);
     v_nucleon_width := store1 (Some (nlit A 5 (-1))) (g_nucleon_width g) (v_nucleon_width v);
     v_constit_width := store1 (Some (nlit A 5 (-1))) (g_constit_width g) (v_constit_width v);
     v_constit_number := store1 (Some 1%Z) (g_constit_number g) (v_constit_number v);
     v_nucleon_min_dist := store1 (Some (nlit A 0 0)) (g_nucleon_min_dist g) (v_nucleon_min_dist v);
     v_cross_section := store1 (Some (nlit A 64 (-1))) (g_cross_section g) (v_cross_section v);
     v_normalization := store1 (Some (nlit A 1 0)) (g_normalization g) (v_normalization v);
     v_b_min := store1 (Some (nlit A 0 0)) (g_b_min g) (v_b_min v);
     v_b_max := store1 (Some (nneg A (nlit A 1 0))) (g_b_max g) (v_b_max v);
     v_random_seed := store1 (Some (-1)%Z) (g_random_seed g) (v_random_seed v);
     v_grid_max := store1 (Some (nlit A 10 0)) (g_grid_max g) (v_grid_max v);
     v_grid_step := store1 (Some (nlit A 2 (-1))) (g_grid_step g) (v_grid_step v) |}.

(** var_map[name].as<T>() *)
Definition value {X} (d : X) (e : entry X) : X :=
  match e with Absent => d | Defaulted x => x | Explicit x => x end.
Definition is_defaulted {X} (e : entry X) : bool :=
  match e with Defaulted _ => true | _ => false end.

(** trento.cxx:225-228: default constituent width. *)
Definition fix_constit_width (v : varmap A) : varmap A :=
  if is_defaulted (v_constit_width v) then
    {| v_projectile := v_projectile v; v_number_events := v_number_events v;
       v_quiet := v_quiet v; v_output := v_output v; v_no_header := v_no_header v;
       v_ncoll := v_ncoll v; v_reduced_thickness := v_reduced_thickness v;
       v_fluctuation := v_fluctuation v; v_nucleon_width := v_nucleon_width v;
       v_constit_width := Defaulted (value (nlit A 5 (-1)) (v_nucleon_width v));
       v_constit_number := v_constit_number v; v_nucleon_min_dist := v_nucleon_min_dist v;
       v_cross_section := v_cross_section v; v_normalization := v_normalization v;
       v_b_min := v_b_min v; v_b_max := v_b_max v; v_random_seed := v_random_seed v;
       v_grid_max := v_grid_max v; v_grid_step := v_grid_step v |}
  else v.

(** The typed values; after a [store] every option with a default has a value,
    so the first argument of [value] is never used for those. *)
Definition config_of (v : varmap A) : config A :=
  {| projectile := value [] (v_projectile v);
     number_events := value 1%Z (v_number_events v);
     quiet := value false (v_quiet v);
     output := match v_output v with Explicit p => Some p | Defaulted p => Some p | Absent => None end;
     no_header := value false (v_no_header v);
     ncoll := value false (v_ncoll v);
     reduced_thickness := value (nlit A 0 0) (v_reduced_thickness v);
     fluctuation := value (nlit A 1 0) (v_fluctuation v);
     nucleon_width := value (nlit A 5 (-1)) (v_nucleon_width v);
     constit_width := value (nlit A 5 (-1)) (v_constit_width v);
     constit_number := value 1%Z (v_constit_number v);
     nucleon_min_dist := value (nlit A 0 0) (v_nucleon_min_dist v);
     cross_section := value (nlit A 64 (-1)) (v_cross_section v);
     normalization := value (nlit A 1 0) (v_normalization v);
     b_min := value (nlit A 0 0) (v_b_min v);
     b_max := value (nneg A (nlit A 1 0)) (v_b_max v);
     random_seed := value (-1)%Z (v_random_seed v);
     grid_max := value (nlit A 10 0) (v_grid_max v);
     grid_step := value (nlit A 2 (-1)) (v_grid_step v) |}.

(** trento.cxx:230-244: validation of the widths. *)
Definition validate (cfg : config A) : result unit :=
  let w := nucleon_width cfg in
  let v := constit_width cfg in
  if nltb A w (nofZ A 0) || nltb A v (nofZ A 0) then
    Throw (PoError "nucleon and constituent widths must be non-negative")
  else if nltb A w v then
    Throw (PoError "constituent width cannot be larger than nucleon width")
  else if nltb A v w && (constit_number cfg =? 1)%Z then
    Throw (PoError "cannot fit nucleon width using single constituent if different sizes")
  else Ret tt.

(** trento.cxx:248, 70-75: po::notify: the required option must be present, then
    its notifier demands exactly two values. *)
Definition notify (v : varmap A) : result unit :=
  match v_projectile v with
  | Absent => Throw RequiredOption
  | Defaulted ps | Explicit ps =>
      if Nat.eqb (length ps) 2 then Ret tt else Throw RequiredOption
  end.

Definition print_out (t : string) : M (sys R) unit :=
  fun s => (Ret tt, Sys (s_eng s) (s_fs s) (s_out s ++ t) (s_err s)).
Definition print_err (t : string) : M (sys R) unit :=
  fun s => (Ret tt, Sys (s_eng s) (s_fs s) (s_out s) (s_err s ++ t)).

Definition usage_str : string :=
  "usage: trento [options] projectile projectile [number-events = 1]" ++ newline.

(** e.what() *)
Definition what (e : exn) : string :=
  match e with
  | InvalidArgument m | DomainError m | OutOfRange m | RuntimeError m | PoError m
  | FilesystemError m | H5Exception m => m
  | LengthError => "vector::_M_default_append"
  | RequiredOption => "the option '--projectile' is required but missing"
  end.

(** Library texts and parsers that are not modelled: the option listing printed
    by --help, the version and bibtex texts, and the config-file parser. *)
Record texts : Type := Texts {
  help_text : string; version_text : string; bibtex_text : string;
  parse_config : string -> result (given A)
}.
Context (tx : texts).

(** trento.cxx:205-223: merge the config files. *)
Definition merge_config (v : varmap A) (paths : list string) : M (sys R) (varmap A) :=
  mfold (fun v path =>
    let* s := get in
    match fs_lookup (s_fs s) path with
    | None => throw (PoError ("configuration file '" ++ path ++ "' not found"))
    | Some n =>
        let* g := lift (parse_config tx (file_text n)) in
        ret (store g v)
    end) paths v.

(** trento.cxx:171-253: the body of the try block; [true] = ran, all events done.
    [cmd] is the outcome of parsing the command line. *)
Definition main_body (cfuel fuel sfuel : nat) (e : env) (cmd : result (given A)) : M (sys R) unit :=
  let* g := lift cmd in
  let v0 := store g varmap_empty in
  if g_help g then
    print_out (usage_str ++ help_text tx)
  else if g_version g then print_out (version_text tx)
  else if g_bibtex g then print_out (bibtex_text tx)
  else
    let* v1 := merge_config v0 (g_config_file g) in
    let v2 := fix_constit_width v1 in
    let cfg := config_of v2 in
    let* _ := lift (validate cfg) in
    let* _ := lift (notify v2) in
    collide R sv bd cfuel fuel sfuel e cfg.

(** trento.cxx:60-267 [main]: exit code 0, or 1 after a caught exception.
    H5::Exception is not a std::exception: it escapes main (std::terminate) and
    stays a [Throw] here. *)
Definition main (cfuel fuel sfuel : nat) (e : env) (cmd : result (given A)) : M (sys R) Z :=
  fun s =>
    match main_body cfuel fuel sfuel e cmd s with
    | (Ret _, s') => (Ret 0%Z, s')
    | (Throw RequiredOption, s') =>
        bind (print_err (usage_str ++ "run 'trento --help' for more information" ++ newline))
             (fun _ => ret 1%Z) s'
    | (Throw (H5Exception m), s') => (Throw (H5Exception m), s')
    | (Throw x, s') => bind (print_err (what x ++ newline)) (fun _ => ret 1%Z) s'
    | (UB u, s') => (UB u, s')
    | (OutOfFuel, s') => (OutOfFuel, s')
    end.

End Main.
