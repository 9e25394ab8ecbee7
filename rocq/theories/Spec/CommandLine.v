(** What may be written on the command line and in configuration files, and what
    it means: the documented options (doc/usage.rst) and a grammar. *)
From Coq Require Import Ascii.
From Verif.Base Require Import Result Arith.
From Verif.Model Require Import Main.
From Verif.Spec Require Import Decimal.
Local Open Scope string_scope.

(** ** The documented options: name, letter, does it take a value? *)
Definition documented : list (string * option ascii * bool) :=
  [ ("help", Some "h"%char, false); ("version", None, false); ("bibtex", None, false);
    ("config-file", Some "c"%char, true);
    ("quiet", Some "q"%char, false); ("output", Some "o"%char, true);
    ("no-header", None, false); ("ncoll", None, false);
    ("reduced-thickness", Some "p"%char, true); ("fluctuation", Some "k"%char, true);
    ("nucleon-width", Some "w"%char, true); ("constit-width", Some "v"%char, true);
    ("constit-number", Some "m"%char, true); ("nucleon-min-dist", Some "d"%char, true);
    ("cross-section", Some "x"%char, true); ("normalization", Some "n"%char, true);
    ("b-min", None, true); ("b-max", None, true); ("random-seed", None, true);
    ("grid-max", None, true); ("grid-step", None, true);
    ("projectile", None, true); ("number-events", None, true) ].

Definition is_option (n : string) : Prop := exists l v, In (n, l, v) documented.
Definition has_letter (n : string) (c : ascii) : Prop := exists v, In (n, Some c, v) documented.
Definition with_value (n : string) (v : bool) : Prop := exists l, In (n, l, v) documented.

(** A name may be abbreviated as long as only one option begins like that. *)
Definition abbreviates (key n : string) : Prop :=
  is_option n /\
  (key = n \/
   ~ is_option key /\ String.prefix key n = true /\
   forall n', is_option n' -> String.prefix key n' = true -> n' = n).

(** What may follow two dashes: a name, or (as it happens) a dash and a letter. *)
Definition names (key n : string) : Prop :=
  abbreviates key n \/ exists c, has_letter n c /\ key = String "-" (String c "").

Definition without_eq (s : string) : Prop := every (fun c => negb (Ascii.eqb c "=")) s = true.

(** ** The grammar of the command line *)

(** One setting: an option and its value ("" if it takes none), or a word; words
    have the name "". *)
Definition item : Type := string * string.

(** A value may be written as the next argument unless that is a dash and one of
    the letters, or two dashes, something and an equal sign at the end. *)
Definition separable (v : string) : Prop :=
  (forall n c, has_letter n c -> v <> String "-" (String c "")) /\
  (forall k, without_eq k -> v <> "--" ++ k ++ "=").

(** Arguments that begin with one dash: a letter with its value joined or in the
    next argument, perhaps after letters that take no value. *)
Inductive letters : list item -> list string -> Prop :=
| l_switch n c : has_letter n c -> with_value n false -> letters [(n, "")] ["-" ++ String c ""]
| l_joined n c v : has_letter n c -> with_value n true -> v <> "" -> letters [(n, v)] ["-" ++ String c v]
| l_next n c v : has_letter n c -> with_value n true -> separable v -> letters [(n, v)] ["-" ++ String c ""; v]
| l_more n c t toks its : has_letter n c -> with_value n false -> letters its (("-" ++ t) :: toks) ->
    letters ((n, "") :: its) (("-" ++ String c t) :: toks).

Inductive spells : list item -> list string -> Prop :=
| s_word v : (v = "" \/ v = "-" \/ exists c v', v = String c v' /\ c <> "-"%char) -> spells [("", v)] [v]
| s_switch k n : names k n -> without_eq k -> with_value n false -> spells [(n, "")] ["--" ++ k]
| s_equals k n v : names k n -> without_eq k -> with_value n true -> v <> "" -> spells [(n, v)] ["--" ++ k ++ "=" ++ v]
| s_next k n v : names k n -> without_eq k -> with_value n true -> separable v -> spells [(n, v)] ["--" ++ k; v]
| s_letters its toks : letters its toks -> spells its toks.

(** A command line; everything after "--" is a word. *)
Inductive written : list item -> list string -> Prop :=
| w_done : written [] []
| w_more its toks rest args : spells its toks -> written rest args -> written (its ++ rest)%list (toks ++ args)%list
| w_words vs : written (map (fun v => ("", v)) vs) ("--" :: vs).

(** ** What the items mean *)

(** The first two words are projectiles, the third is the number of events; a
    fourth has no meaning. *)
Inductive settled : list string -> list item -> list item -> Prop :=
| t_done names : settled names [] []
| t_word n names v its out : settled names its out -> settled (n :: names) (("", v) :: its) ((n, v) :: out)
| t_option names n v its out : n <> "" -> settled names its out -> settled names ((n, v) :: its) ((n, v) :: out).
Definition word_names : list string := ["projectile"; "projectile"; "number-events"].

(** The values given to option [n], in order. *)
Fixpoint given_to (n : string) (its : list item) : list string :=
  match its with
  | [] => []
  | (n', v) :: its' => if String.eqb n n' then v :: given_to n its' else given_to n its'
  end.

(** Numbers: an optional sign, digits with an optional decimal point, an optional
    exponent. *)
Inductive signed : string -> bool -> Prop := sg_none : signed "" false | sg_plus : signed "+" false | sg_minus : signed "-" true.
Definition digits (s : string) : Prop := every digit s = true.
Definition negate (neg : bool) (z : Z) : Z := if neg then (- z)%Z else z.

Inductive whole : string -> Z -> Prop :=
| wh sg neg d : signed sg neg -> digits d -> d <> "" -> whole (sg ++ d) (negate neg (dval d)).

(** [numeral t m e]: the text t denotes m * 10^e. *)
Inductive exponent_part : string -> Z -> Prop :=
| ex_none : exponent_part "" 0
| ex_some c sg neg d : c = "e"%char \/ c = "E"%char -> signed sg neg -> digits d -> d <> "" ->
    exponent_part (String c (sg ++ d)) (negate neg (dval d)).
Inductive numeral : string -> Z -> Z -> Prop :=
| nu sg neg i point f x e : signed sg neg -> digits i -> digits f -> (i <> "" \/ f <> "") ->
    (point = "." \/ point = "" /\ f = "") -> exponent_part x e ->
    numeral (sg ++ i ++ point ++ f ++ x) (negate neg (dval (i ++ f))) (e - Z.of_nat (String.length f)).

(** Paths: without white space, or between double quotes (where & makes the next
    character an ordinary one). *)
Inductive escaped : string -> string -> Prop :=
| es_nil : escaped "" ""
| es_plain c p t : c <> """"%char -> c <> "&"%char -> escaped p t -> escaped (String c p) (String c t)
| es_amp c p t : escaped p t -> escaped (String c p) (String "&" (String c t)).
Inductive path_text : string -> string -> Prop :=
| pa_plain c p : c <> """"%char -> every (fun c => negb (blank c)) (String c p) = true -> path_text (String c p) (String c p)
| pa_quoted p t : escaped p t -> path_text ("""" ++ t ++ """") p.

(** Truth values, in any case. *)
Definition lower_case (c : ascii) : ascii :=
  let n := nat_of_ascii c in if Nat.leb 65 n && Nat.leb n 90 then ascii_of_nat (n + 32) else c.
Fixpoint in_lower_case (s : string) : string :=
  match s with "" => "" | String c s' => String (lower_case c) (in_lower_case s') end.
Inductive truth : string -> bool -> Prop :=
| tr_yes s : In (in_lower_case s) [""; "on"; "yes"; "1"; "true"] -> truth s true
| tr_no s : In (in_lower_case s) ["off"; "no"; "0"; "false"] -> truth s false.

(** An option that may be given once. *)
Definition once {X} (P : string -> X -> Prop) (n : string) (its : list item) (o : option X) : Prop :=
  match given_to n its with
  | [] => o = None
  | [v] => exists x, o = Some x /\ P v x
  | _ => False
  end.
Definition flagged (n : string) (its : list item) (b : bool) : Prop :=
  match given_to n its with [] => b = false | [_] => b = true | _ => False end.

(** Infinities and not-a-number, in any case. *)
Definition with_sign {A : Arith} (neg : bool) (x : num A) : num A := if neg then nneg A x else x.
Inductive special {A : Arith} : string -> num A -> Prop :=
| sp_inf sg neg w : signed sg neg -> in_lower_case w = "inf" \/ in_lower_case w = "infinity" ->
    special (sg ++ w) (with_sign neg (ndiv A (nlit A 1 0) (nlit A 0 0)))
| sp_nan sg neg w tail : signed sg neg -> in_lower_case w = "nan" -> tail = "" \/ (exists t, tail = "(" ++ t ++ ")") ->
    special (sg ++ w ++ tail) (with_sign neg (ndiv A (nlit A 0 0) (nlit A 0 0))).

(** Real numbers: decimal numbers that are not too large, or the above. *)
Definition real {A : Arith} (t : string) (x : num A) : Prop :=
  (exists m e, numeral t m e /\ x = nlit A m e /\ ntrunc A x <> None) \/ special t x.
Definition int32 (t : string) (z : Z) : Prop := whole t z /\ (-2147483648 <= z <= 2147483647)%Z.
Definition int64 (t : string) (z : Z) : Prop := whole t z /\ (-9223372036854775808 <= z <= 9223372036854775807)%Z.

Record means {A : Arith} (its : list item) (g : given A) : Prop := {
  me_help : flagged "help" its (g_help g);
  me_version : flagged "version" its (g_version g);
  me_bibtex : flagged "bibtex" its (g_bibtex g);
  me_config : Forall2 path_text (given_to "config-file" its) (g_config_file g);
  me_projectile : g_projectile g = given_to "projectile" its;
  me_events : once int32 "number-events" its (g_number_events g);
  me_quiet : once truth "quiet" its (g_quiet g);
  me_output : once path_text "output" its (g_output g);
  me_header : once truth "no-header" its (g_no_header g);
  me_ncoll : once truth "ncoll" its (g_ncoll g);
  me_p : once real "reduced-thickness" its (g_reduced_thickness g);
  me_k : once real "fluctuation" its (g_fluctuation g);
  me_w : once real "nucleon-width" its (g_nucleon_width g);
  me_v : once real "constit-width" its (g_constit_width g);
  me_m : once int32 "constit-number" its (g_constit_number g);
  me_d : once real "nucleon-min-dist" its (g_nucleon_min_dist g);
  me_x : once real "cross-section" its (g_cross_section g);
  me_n : once real "normalization" its (g_normalization g);
  me_bmin : once real "b-min" its (g_b_min g);
  me_bmax : once real "b-max" its (g_b_max g);
  me_seed : once int64 "random-seed" its (g_random_seed g);
  me_max : once real "grid-max" its (g_grid_max g);
  me_step : once real "grid-step" its (g_grid_step g)
}.

(** A command line and what it says. *)
Definition says {A : Arith} (args : list string) (g : given A) : Prop :=
  exists its named, written its args /\ settled word_names its named /\ means named g.

(** ** Order and form *)

(** Some settings, without the terminator "--". *)
Inductive spelled : list item -> list string -> Prop :=
| sd_done : spelled [] []
| sd_more its toks rest args : spells its toks -> spelled rest args -> spelled (its ++ rest)%list (toks ++ args)%list.

(** The documented ways to give option [n] the value [v]. *)
Inductive gives (n v : string) : list string -> Prop :=
| gv_next : separable v -> gives n v ["--" ++ n; v]
| gv_equals : v <> "" -> gives n v ["--" ++ n ++ "=" ++ v]
| gv_letter c : has_letter n c -> separable v -> gives n v ["-" ++ String c ""; v]
| gv_joined c : has_letter n c -> v <> "" -> gives n v ["-" ++ String c v].

(** Words and the options they stand for: their order matters. *)
Definition positional (it : item) : bool := existsb (String.eqb (fst it)) ["" ; "projectile"; "number-events"].

(** The same settings up to order: only the order of the words, and of several
    values of the same option, is kept. *)
Definition same_settings (its1 its2 : list item) : Prop :=
  filter positional its1 = filter positional its2 /\ (forall n, given_to n its1 = given_to n its2).
