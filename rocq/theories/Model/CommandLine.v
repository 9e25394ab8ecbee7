(** The options of src/trento.cxx:63-163 and the way Boost.Program_options (1.50 and
    later, default style) reads them from the command line (trento.cxx:177-178) and
    from configuration files (trento.cxx:214-222).

    Simplifications.  The parser is a library; it is modelled from its published
    source (libs/program_options/src/cmdline.cpp, options_description.cpp,
    config_file.cpp, value_semantic.cpp, variables_map.cpp), for the features the
    option table uses: every option takes either no value or exactly one.  The
    texts of the library's messages are not modelled.  Numbers written "inf" or
    "nan" are refused here, and numbers too large for a double are not (the library
    accepts the former and refuses the latter). *)
From Coq Require Import Ascii.
From Verif.Base Require Import Result Arith Rng.
From Verif.Model Require Import Config Text Files CrossSection Collider Main.
Local Open Scope string_scope.

(** ** The option table *)

(** The C++ type of the value: an untyped flag, bool_switch, vector<string>,
    vector<path>, path, int, int64_t, double. *)
Inductive otype : Type := TFlag | TSwitch | TTexts | TPaths | TPath | TInt | TInt64 | TDouble.

(** Long name, short name (with its dash, as the library keeps it; "" if none), type. *)
Record odesc : Type := Odesc { o_long : string; o_short : string; o_type : otype }.

(** trento.cxx:68-79. *)
Definition main_opts : list odesc :=
  [Odesc "projectile" "" TTexts; Odesc "number-events" "" TInt].
(** trento.cxx:87-95. *)
Definition general_opts : list odesc :=
  [Odesc "help" "-h" TFlag; Odesc "version" "" TFlag; Odesc "bibtex" "" TFlag;
   Odesc "config-file" "-c" TPaths].
(** trento.cxx:97-106. *)
Definition output_opts : list odesc :=
  [Odesc "quiet" "-q" TSwitch; Odesc "output" "-o" TPath; Odesc "no-header" "" TSwitch;
   Odesc "ncoll" "" TSwitch].
(** trento.cxx:108-142. *)
Definition phys_opts : list odesc :=
  [Odesc "reduced-thickness" "-p" TDouble; Odesc "fluctuation" "-k" TDouble;
   Odesc "nucleon-width" "-w" TDouble; Odesc "constit-width" "-v" TDouble;
   Odesc "constit-number" "-m" TInt; Odesc "nucleon-min-dist" "-d" TDouble;
   Odesc "cross-section" "-x" TDouble; Odesc "normalization" "-n" TDouble;
   Odesc "b-min" "" TDouble; Odesc "b-max" "" TDouble; Odesc "random-seed" "" TInt64].
(** trento.cxx:144-151. *)
Definition grid_opts : list odesc :=
  [Odesc "grid-max" "" TDouble; Odesc "grid-step" "" TDouble].

(** trento.cxx:155-166 and 207-213. *)
Definition all_opts : list odesc := (general_opts ++ output_opts ++ phys_opts ++ grid_opts) ++ main_opts.
Definition config_file_opts : list odesc := main_opts ++ output_opts ++ phys_opts ++ grid_opts.

(** trento.cxx:82-85: the names of the positional arguments. *)
Definition positional_opts : list string := ["projectile"; "projectile"; "number-events"].

(** value_semantic: min_tokens() = max_tokens(): does the option take a value? *)
Definition takes_value (t : otype) : bool := match t with TFlag | TSwitch => false | _ => true end.

(** ** options_description *)

(** option_description::match: full match with the long or the short name. *)
Definition full_match (name : string) (d : odesc) : bool :=
  String.eqb (o_long d) name || (negb (String.eqb (o_short d) "") && String.eqb (o_short d) name).
(** The long name begins with [name]. *)
Definition approx_match (name : string) (d : odesc) : bool := String.prefix name (o_long d).

(** options_description::find_nothrow with and without guessing. *)
Definition find_option (name : string) (approx : bool) : result (option odesc) :=
  match filter (full_match name) all_opts with
  | [d] => Ret (Some d)
  | _ :: _ :: _ => Throw (PoError "ambiguous option")
  | [] =>
      if approx then
        match filter (approx_match name) all_opts with
        | [] => Ret None
        | [d] => Ret (Some d)
        | _ => Throw (PoError "ambiguous option")
        end
      else Ret None
  end.

(** ** cmdline *)

(** po::option: the (canonical) name, "" for a positional argument, and the value. *)
Definition token : Type := string * list string.

(** Split at the first '='. *)
Fixpoint split_eq (s : string) : string * option string :=
  match s with
  | "" => ("", None)
  | String c s' =>
      if Ascii.eqb c "=" then ("", Some s')
      else let (n, v) := split_eq s' in (String c n, v)
  end.

(** cmdline::parse_long_option: None if the token has not that form. *)
Definition parse_long (tok : string) : option (result token) :=
  match tok with
  | String "-" (String "-" (String _ _ as s)) =>
      Some (match split_eq s with
            | (name, Some "") => Throw (PoError "the argument for option should follow immediately after the equal sign")
            | (name, Some v) => Ret (name, [v])
            | (name, None) => Ret (name, [])
            end)
  | _ => None
  end.

(** cmdline::parse_short_option: a group of flags, the last one perhaps with the
    rest of the token as its value. *)
Fixpoint short_group (name adjacent : string) : result (list token) :=
  match adjacent with
  | "" => Ret [(name, [])]
  | String c rest =>
      letr d := find_option name false in
      match d with
      | Some d' => if takes_value (o_type d') then Ret [(name, [adjacent])]
                   else letr more := short_group ("-" ++ String c "") rest in Ret ((name, []) :: more)
      | None => Ret [(name, [adjacent])]
      end
  end.

Definition parse_short (tok : string) : option (result (list token)) :=
  match tok with
  | String "-" (String c rest) =>
      if Ascii.eqb c "-" then None else Some (short_group ("-" ++ String c "") rest)
  | _ => None
  end.

(** cmdline::finish_option: look up the name; [next] is the following token, if
    any; the result says whether it was taken as the value. *)
Definition finish_option (t : token) (next : option string) : result (token * bool) :=
  let (name, vals) := t in
  letr d := find_option name true in
  match d with
  | None => Throw (PoError "unrecognised option")
  | Some d' =>
      if takes_value (o_type d') then
        match vals with
        | _ :: _ => Ret ((o_long d', vals), false)
        | [] =>
            match next with
            | None => Throw (PoError "the required argument for option is missing")
            | Some v =>
                let looks_like : result bool :=
                  match parse_long v with
                  | Some r => letr _ := r in Ret true
                  | None => match parse_short v with
                            | Some r => letr _ := r in Ret true
                            | None => Ret false
                            end
                  end in
                letr like := looks_like in
                if like then
                  letr od := find_option v true in
                  match od with
                  | Some _ => Throw (PoError "the required argument for option is missing")
                  | None => Ret ((o_long d', [v]), true)
                  end
                else Ret ((o_long d', [v]), true)
            end
        end
      else
        match vals with
        | _ :: _ => Throw (PoError "option does not take any arguments")
        | [] => Ret ((o_long d', []), false)
        end
  end.

(** The last option of a group sees the following token, the others do not. *)
Fixpoint finish_group (ts : list token) (next : option string) : result (list token * bool) :=
  match ts with
  | [] => Ret ([], false)
  | [t] => letr (t', took) := finish_option t next in Ret ([t'], took)
  | t :: ts' =>
      letr (t', _) := finish_option t None in
      letr (ts'', took) := finish_group ts' next in
      Ret (t' :: ts'', took)
  end.

(** cmdline::run, the main loop: long options, short options, the terminator
    "--", everything else is positional.  (No option takes a variable number of
    values, so its second pass does nothing.) *)
Fixpoint lex (args : list string) : result (list token) :=
  match args with
  | [] => Ret []
  | tok :: rest =>
      let next := hd_error rest in
      match
        match parse_long tok with
        | Some r => Some (letr t := r in Ret [t])
        | None => parse_short tok
        end
      with
      | Some r =>
          letr ts := r in
          letr (done, took) := finish_group ts next in
          letr more := match rest with
                       | _ :: rest' => if (took : bool) then lex rest' else lex rest
                       | [] => Ret []
                       end in
          Ret (done ++ more)%list
      | None =>
          if String.eqb tok "--" then Ret (map (fun v => ("", [v])) rest)
          else letr more := lex rest in Ret (("", [tok]) :: more)
      end
  end.

(** cmdline::run: name the positional arguments in order. *)
Fixpoint name_positional (names : list string) (ts : list token) : result (list token) :=
  match ts with
  | [] => Ret []
  | (name, vals) :: ts' =>
      if String.eqb name "" then
        match names with
        | [] => Throw (PoError "too many positional options have been specified on the command line")
        | n :: names' => letr more := name_positional names' ts' in Ret ((n, vals) :: more)
        end
      else letr more := name_positional names ts' in Ret ((name, vals) :: more)
  end.

(** ** Values: validate() and boost::lexical_cast *)
Section Values.
Context {A : Arith}.

Definition invalid {X} : result X := Throw (PoError "the argument for option is invalid").

Definition starts_blank (s : string) : bool := match s with String c _ => is_space c | "" => false end.

(** lexical_cast<double>, first stage (parse_inf_nan): "inf", "infinity", "nan" and
    "nan(...)" in any case, with an optional sign. *)
Definition lower (c : ascii) : ascii :=
  let n := nat_of_ascii c in if Nat.leb 65 n && Nat.leb n 90 then ascii_of_nat (n + 32) else c.
Fixpoint lowercase (s : string) : string :=
  match s with "" => "" | String c s' => String (lower c) (lowercase s') end.
Fixpoint ends_paren (s : string) : bool :=
  match s with
  | "" => false
  | String c "" => Ascii.eqb c ")"
  | String _ s' => ends_paren s'
  end.
Definition nan_tail (s : string) : bool :=
  match s with "" => true | String c s' => Ascii.eqb c "(" && ends_paren s' end.
Definition inf_nan (s : string) : option (num A) :=
  let (neg, s1) := take_sign s in
  let signed x := if neg then nneg A x else x in
  if String.eqb (lowercase (String.substring 0 3 s1)) "nan" then
    (if nan_tail (String.substring 3 (String.length s1) s1) then Some (signed (ndiv A (nlit A 0 0) (nlit A 0 0))) else None)
  else if existsb (String.eqb (lowercase s1)) ["inf"; "infinity"] then Some (signed (ndiv A (nlit A 1 0) (nlit A 0 0)))
  else None.

(** lexical_cast<double>, second stage: operator>> without skipping white space, then
    the end of the text; the stream fails for a number too large for a double. *)
Definition cast_double (s : string) : result (num A) :=
  match inf_nan s with
  | Some x => Ret x
  | None =>
      if starts_blank s then invalid else
      match read_double A (Istream s false false) with
      | (Assigned x, i) =>
          if is_fail i || negb (at_end (is_rest i)) then invalid
          else match ntrunc A x with Some _ => Ret x | None => invalid end
      | (Unchanged, _) => invalid
      end
  end.

(** lexical_cast<int>, lexical_cast<int64_t>. *)
Definition in_int64 (z : Z) : bool := (-9223372036854775808 <=? z)%Z && (z <=? 9223372036854775807)%Z.
Definition cast_int (range : Z -> bool) (s : string) : result Z :=
  let (neg, s1) := take_sign s in
  let '(v, cnt, s2) := span_digits s1 0 0 in
  let z := if neg then (- v)%Z else v in
  if (cnt =? 0)%Z || negb (at_end s2) || negb (range z) then invalid else Ret z.

(** lexical_cast<path>: operator>> of path reads a text without white space, or a
    text in double quotes with escape character '&'. *)
Fixpoint unquote (s : string) : option string :=
  match s with
  | "" => None
  | String c s' =>
      if Ascii.eqb c """" then (if at_end s' then Some "" else None)
      else if Ascii.eqb c "&" then
        match s' with
        | "" => None
        | String c' s'' => match unquote s'' with Some r => Some (String c' r) | None => None end
        end
      else match unquote s' with Some r => Some (String c r) | None => None end
  end.
Fixpoint no_space (s : string) : bool :=
  match s with "" => true | String c s' => negb (is_space c) && no_space s' end.
Definition cast_path (s : string) : result string :=
  match s with
  | "" => invalid
  | String c s' =>
      if Ascii.eqb c """" then match unquote s' with Some p => Ret p | None => invalid end
      else if no_space s then Ret s else invalid
  end.

(** validate(bool): "" (no value), on, yes, 1, true / off, no, 0, false, in any case. *)
Definition cast_bool (s : string) : result bool :=
  let t := lowercase s in
  if existsb (String.eqb t) [""; "on"; "yes"; "1"; "true"] then Ret true
  else if existsb (String.eqb t) ["off"; "no"; "0"; "false"] then Ret false
  else invalid.

(** The text of an option's value (no value is the empty text). *)
Definition text_of (vals : list string) : string := match vals with v :: _ => v | [] => "" end.

(** All texts given for an option, in order. *)
Definition texts_of (name : string) (ts : list token) : list string :=
  map (fun t => text_of (snd t)) (filter (fun t => String.eqb name (fst t)) ts).

(** check_first_occurrence: a single-valued option may be given once. *)
Definition single {X} (cast : string -> result X) (vals : list string) : result (option X) :=
  match vals with
  | [] => Ret None
  | [v] => letr x := cast v in Ret (Some x)
  | _ => Throw (PoError "option cannot be specified more than once")
  end.
Definition is_given {X} (o : option X) : bool := match o with Some _ => true | None => false end.

(** po::store, the conversions.  (The library converts in the order of the command
    line; which of several errors is reported is not modelled.) *)
Definition convert (ts : list token) : result (given A) :=
  let flag n := letr o := single Ret (texts_of n ts) in Ret (is_given o) in
  let switch n := single cast_bool (texts_of n ts) in
  let dbl n := single cast_double (texts_of n ts) in
  letr help := flag "help" in
  letr version := flag "version" in
  letr bibtex := flag "bibtex" in
  letr config := rfold (fun acc v => letr p := cast_path v in Ret (acc ++ [p])%list) (texts_of "config-file" ts) [] in
  letr nev := single (cast_int in_int) (texts_of "number-events" ts) in
  letr quiet := switch "quiet" in
  letr output := single cast_path (texts_of "output" ts) in
  letr no_header := switch "no-header" in
  letr ncoll := switch "ncoll" in
  letr reduced := dbl "reduced-thickness" in
  letr fluct := dbl "fluctuation" in
  letr nw := dbl "nucleon-width" in
  letr cw := dbl "constit-width" in
  letr cn := single (cast_int in_int) (texts_of "constit-number" ts) in
  letr dmin := dbl "nucleon-min-dist" in
  letr sigma := dbl "cross-section" in
  letr nrm := dbl "normalization" in
  letr bmin := dbl "b-min" in
  letr bmax := dbl "b-max" in
  letr seed := single (cast_int in_int64) (texts_of "random-seed" ts) in
  letr gmax := dbl "grid-max" in
  letr gstep := dbl "grid-step" in
  Ret (Given help version bibtex config (texts_of "projectile" ts) nev quiet output no_header ncoll
         reduced fluct nw cw cn dmin sigma nrm bmin bmax seed gmax gstep).

(** trento.cxx:177-178: parse and store the command line (without argv[0]). *)
Definition command_line (args : list string) : result (given A) :=
  letr ts := lex args in
  letr named := name_positional positional_opts ts in
  convert named.

(** ** Configuration files *)

(** The lines of a text: getline. *)
Fixpoint lines_from (acc s : string) : list string :=
  match s with
  | "" => match acc with "" => [] | _ => [acc] end
  | String c s' => if Ascii.eqb c "010" then acc :: lines_from "" s' else lines_from (acc ++ String c "") s'
  end.
Definition lines (s : string) : list string := lines_from "" s.

(** Cut a comment off; trim_ws: blank, tab, newline and return at both ends. *)
Fixpoint cut_comment (s : string) : string :=
  match s with "" => "" | String c s' => if Ascii.eqb c "#" then "" else String c (cut_comment s') end.
Definition is_ws (c : ascii) : bool := existsb (Ascii.eqb c) ["009"; "010"; "013"; " "]%char.
Fixpoint trim_left (s : string) : string :=
  match s with "" => "" | String c s' => if is_ws c then trim_left s' else s end.
Fixpoint trim_right (s : string) : string :=
  match s with
  | "" => ""
  | String c s' =>
      match trim_right s' with
      | "" => if is_ws c then "" else String c ""
      | t => String c t
      end
  end.
Definition trim (s : string) : string := trim_right (trim_left s).

(** The last character and the text before it. *)
Fixpoint last_char (s : string) : option ascii :=
  match s with "" => None | String c "" => Some c | String _ s' => last_char s' end.
Fixpoint but_last (s : string) : string :=
  match s with "" => "" | String c "" => "" | String c s' => String c (but_last s') end.

(** common_config_file_iterator::get and the loop of parse_config_file: [prefix]
    is the current section with its dot.  A section "[]" reads the last character
    of an empty string. *)
Fixpoint config_tokens (prefix : string) (ls : list string) : result (list token) :=
  match ls with
  | [] => Ret []
  | l :: ls' =>
      let s := trim (cut_comment l) in
      match s with
      | "" => config_tokens prefix ls'
      | String c0 s' =>
          match last_char s with
          | Some c1 =>
              if Ascii.eqb c0 "[" && Ascii.eqb c1 "]" then
                let sect := but_last s' in
                match last_char sect with
                | None => UB UbIndex
                | Some c2 => config_tokens (if Ascii.eqb c2 "." then sect else sect ++ ".") ls'
                end
              else
                match split_eq s with
                | (n, Some v) =>
                    let name := prefix ++ trim n in
                    if existsb (fun d => String.eqb (o_long d) name) config_file_opts then
                      letr more := config_tokens prefix ls' in Ret ((name, [trim v]) :: more)
                    else Throw (PoError "unrecognised option")
                | (_, None) => Throw (PoError "the options configuration file contains an invalid line")
                end
          | None => config_tokens prefix ls'
          end
      end
  end.

(** trento.cxx:219: parse_config_file. *)
Definition config_file_tokens (text : string) : result (list token) := config_tokens "" (lines text).

(** po::store does not even convert the value of an option that an earlier source
    has given. *)
Definition explicit {X} (e : entry X) : bool := match e with Explicit _ => true | _ => false end.
Definition is_final (v : varmap A) (name : string) : bool :=
  existsb (fun p => String.eqb name (fst p) && snd p)
    [("projectile", explicit (v_projectile v)); ("number-events", explicit (v_number_events v));
     ("quiet", explicit (v_quiet v)); ("output", explicit (v_output v));
     ("no-header", explicit (v_no_header v)); ("ncoll", explicit (v_ncoll v));
     ("reduced-thickness", explicit (v_reduced_thickness v)); ("fluctuation", explicit (v_fluctuation v));
     ("nucleon-width", explicit (v_nucleon_width v)); ("constit-width", explicit (v_constit_width v));
     ("constit-number", explicit (v_constit_number v)); ("nucleon-min-dist", explicit (v_nucleon_min_dist v));
     ("cross-section", explicit (v_cross_section v)); ("normalization", explicit (v_normalization v));
     ("b-min", explicit (v_b_min v)); ("b-max", explicit (v_b_max v));
     ("random-seed", explicit (v_random_seed v)); ("grid-max", explicit (v_grid_max v));
     ("grid-step", explicit (v_grid_step v))].

(** trento.cxx:220: parse one file and store it. *)
Definition store_file (v : varmap A) (text : string) : result (varmap A) :=
  letr ts := config_file_tokens text in
  letr g := convert (filter (fun t => negb (is_final v (fst t))) ts) in
  Ret (store g v).

End Values.

(** ** The program *)
Section Program.
Context {A : Arith} (R : Rng A) (sv : Solver A) (bd : build) (tx : texts (A:=A)).

(** Reading a directory yields no line. *)
Definition config_text (n : node A) : string := match n with Dir => "" | _ => file_text n end.

(** trento.cxx:205-223. *)
Definition merge_files (v : varmap A) (paths : list string) : M (sys R) (varmap A) :=
  mfold (fun v path =>
    let* s := get in
    match fs_lookup (s_fs s) path with
    | None => throw (PoError ("configuration file '" ++ path ++ "' not found"))
    | Some n => lift (store_file v (config_text n))
    end) paths v.

(** trento.cxx:171-253, as [main_body] of Main.v, from the arguments themselves. *)
Definition trento_body (cfuel fuel sfuel : nat) (e : env) (args : list string) : M (sys R) unit :=
  let* g := lift (command_line args) in
  let v0 := store g varmap_empty in
  if g_help g then print_out R (usage_str ++ help_text tx)
  else if g_version g then print_out R (version_text tx)
  else if g_bibtex g then print_out R (bibtex_text tx)
  else
    let* v1 := merge_files v0 (g_config_file g) in
    let v2 := fix_constit_width v1 in
    let cfg := config_of v2 in
    let* _ := lift (validate cfg) in
    let* _ := lift (notify v2) in
    collide R sv bd cfuel fuel sfuel e cfg.

(** trento.cxx:60-267, as [main] of Main.v. *)
Definition trento (cfuel fuel sfuel : nat) (e : env) (args : list string) : M (sys R) Z :=
  fun s =>
    match trento_body cfuel fuel sfuel e args s with
    | (Ret _, s') => (Ret 0%Z, s')
    | (Throw RequiredOption, s') =>
        bind (print_err R (usage_str ++ "run 'trento --help' for more information" ++ newline))
             (fun _ => ret 1%Z) s'
    | (Throw (H5Exception m), s') => (Throw (H5Exception m), s')
    | (Throw x, s') => bind (print_err R (what x ++ newline)) (fun _ => ret 1%Z) s'
    | (UB u, s') => (UB u, s')
    | (OutOfFuel, s') => (OutOfFuel, s')
    end.

End Program.
