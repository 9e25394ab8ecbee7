(** What may be written in a configuration file (doc/usage.rst, "configuration
    files") and what it means. *)
From Coq Require Import Ascii.
From Verif.Base Require Import Result Arith.
From Verif.Model Require Import Config Files Main.
From Verif.Spec Require Import Decimal CommandLine.
Local Open Scope string_scope.

(** ** Lines *)
Definition newline_char : ascii := "010"%char.
Definition one_line (l : string) : Prop := every (fun c => negb (Ascii.eqb c newline_char)) l = true.
Inductive text_lines : string -> list string -> Prop :=
| tl_none : text_lines "" []
| tl_last l : one_line l -> l <> "" -> text_lines l [l]
| tl_more l t ls : one_line l -> text_lines t ls -> text_lines (l ++ String newline_char t) (l :: ls).

(** ** One line *)

(** Blank, tab, newline and carriage return. *)
Definition white_char (c : ascii) : bool := existsb (Ascii.eqb c) [" "; "009"; "010"; "013"]%char.
Definition white (s : string) : Prop := every white_char s = true.
Definition trimmed (s : string) : Prop :=
  forall c s', white_char c = true -> s <> String c s' /\ s <> s' ++ String c "".
Definition no_hash (s : string) : Prop := every (fun c => negb (Ascii.eqb c "#")) s = true.
Definition comment (s : string) : Prop := s = "" \/ exists t, s = String "#" t.

(** The options that may be set in a file. *)
Definition in_file (n : string) : Prop := is_option n /\ ~ In n ["help"; "version"; "bibtex"; "config-file"].

(** "name = value", with white space and a comment anywhere sensible. *)
Inductive setting_line : string -> item -> Prop :=
| sl b1 n b2 b3 v b4 c : white b1 -> white b2 -> white b3 -> white b4 -> in_file n -> no_hash v -> trimmed v -> comment c ->
    setting_line (b1 ++ n ++ b2 ++ "=" ++ b3 ++ v ++ b4 ++ c) (n, v).
Inductive empty_line : string -> Prop :=
| el b c : white b -> comment c -> empty_line (b ++ c).
(** A section header "[...]": allowed, but no option belongs to a section. *)
Inductive section_line : string -> string -> Prop :=
| nl b1 s b2 c : white b1 -> white b2 -> no_hash s -> comment c -> section_line (b1 ++ "[" ++ s ++ "]" ++ b2 ++ c) s.

(** ** A file: after the first section header, if there is one, nothing is set. *)
Definition silent (l : string) : Prop := empty_line l \/ exists s, s <> "" /\ section_line l s.
Inductive config_file : list string -> list item -> Prop :=
| cf_done : config_file [] []
| cf_empty l ls its : empty_line l -> config_file ls its -> config_file (l :: ls) its
| cf_setting l it ls its : setting_line l it -> config_file ls its -> config_file (l :: ls) (it :: its)
| cf_section l s ls : s <> "" -> section_line l s -> Forall silent ls -> config_file (l :: ls) [].

(** What a file says about the options that were not given [earlier]. *)
Definition not_yet (earlier : list item) (it : item) : bool :=
  match given_to (fst it) earlier with [] => true | _ => false end.

(** Reading a directory gives nothing. *)
Definition readable {A} (n : node A) : string :=
  match n with File s => s | H5File _ => String (ascii_of_nat 137) "HDF" | Dir => "" end.

Inductive files_say {A} (f : fs A) : list item -> list string -> list (given A) -> list item -> Prop :=
| fs_none earlier : files_say f earlier [] [] earlier
| fs_more earlier p n ls its g paths gs total :
    fs_lookup f p = Some n -> text_lines (readable n) ls -> config_file ls its -> means (filter (not_yet earlier) its) g ->
    files_say f (earlier ++ its)%list paths gs total ->
    files_say f earlier (p :: paths) (g :: gs) total.

(** A file that cannot be used after [earlier]. *)
Definition unusable {A} (f : fs A) (earlier : list item) (p : string) : Prop :=
  fs_lookup f p = None \/
  exists n ls, fs_lookup f p = Some n /\ text_lines (readable n) ls /\ (forall l, In l ls -> ~ section_line l "") /\
    forall its (g : given A), config_file ls its -> ~ means (filter (not_yet earlier) its) g.
