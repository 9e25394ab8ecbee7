(** The contents of a cross-section cache file. *)
From Verif.Base Require Import Result Arith.
From Verif.Model Require Import Files CrossSection.
From Verif.Spec Require Import Decimal.
Local Open Scope string_scope.

(** One entry: number of constituents, nucleon width, constituent width,
    sigma_NN, cross-section parameter. *)
Record centry : Type := CEntry {
  e_number : integer; e_nw : decimal; e_cw : decimal; e_sigma : decimal; e_sp : decimal
}.
Definition centry_ok (en : centry) : Prop :=
  integer_ok (e_number en) /\ in_int (integer_value (e_number en)) = true /\
  decimal_ok (e_nw en) /\ decimal_ok (e_cw en) /\ decimal_ok (e_sigma en) /\ decimal_ok (e_sp en).

Definition gap (s : string) : Prop := every blank s = true /\ s <> "".

(** The five numbers separated by white space. *)
Inductive entry_line (en : centry) : string -> Prop :=
| EntryLine : forall s0 s1 s2 s3 s4,
    every blank s0 = true -> gap s1 -> gap s2 -> gap s3 -> gap s4 ->
    entry_line en (s0 ++ integer_text (e_number en) ++ s1 ++ decimal_text (e_nw en) ++ s2 ++
                   decimal_text (e_cw en) ++ s3 ++ decimal_text (e_sigma en) ++ s4 ++ decimal_text (e_sp en)).

(** A well-formed file with entries [es] in order: lines separated by white
    space, possibly followed by white space. *)
Inductive cache_text : list centry -> string -> Prop :=
| cache_last : forall en l tail, centry_ok en -> entry_line en l -> every blank tail = true ->
    cache_text [en] (l ++ tail)
| cache_more : forall en l s es t, centry_ok en -> entry_line en l -> gap s -> cache_text es t ->
    cache_text (en :: es) (l ++ s ++ t).

(** The value of a decimal in the arithmetic. *)
Definition valued (A : Arith) (d : decimal) : num A := nlit A (mantissa d) (exponent d).

(** |x - y| < 1e-6 in the arithmetic. *)
Definition close (A : Arith) (x y : num A) : Prop :=
  nltb A (nabs A (nsub A x y)) (nlit A 1 (-6)) = true.

(** The entry is for the requested parameters. *)
Definition matches (A : Arith) (w v : num A) (m : Z) (sigma : num A) (en : centry) : Prop :=
  integer_value (e_number en) = m /\ close A w (valued A (e_nw en)) /\
  close A v (valued A (e_cw en)) /\ close A sigma (valued A (e_sigma en)).

(** ** The cache file in the world *)

(** $XDG_DATA_HOME, else $HOME/.local/share. *)
Definition data_dir (e : env) : option string :=
  match xdg_data_home e with
  | Some p => Some p
  | None => option_map (fun h => path_join h ".local/share") (home e)
  end.
Definition cache_dir (dh : string) : string := path_join dh "trento".
Definition cache_file (dh : string) : string := path_join (cache_dir dh) "cross_section.cache".

(** The data directory exists and holds a cache file with contents [t]. *)
Definition world_cache {A} (e : env) (f : fs A) (t : string) : Prop :=
  exists dh, data_dir e = Some dh /\ fs_lookup f (cache_dir dh) = Some Dir /\
             fs_lookup f (cache_file dh) = Some (File t).
(** ... or holds no cache file yet. *)
Definition world_no_cache {A} (e : env) (f : fs A) : Prop :=
  exists dh, data_dir e = Some dh /\ fs_lookup f (cache_dir dh) = Some Dir /\ fs_lookup f (cache_file dh) = None.

(** Nothing but the cache file differs between two file systems. *)
Definition only_cache_differs {A} (e : env) (f f' : fs A) : Prop :=
  forall dh p, data_dir e = Some dh -> norm p <> norm (cache_file dh) -> fs_lookup f' p = fs_lookup f p.

(** A file to which lines can be appended: entries [es], each line closed. *)
Definition cache_lines (es : list centry) (t : string) : Prop :=
  (es = [] /\ t = "") \/ exists t0 sp, cache_text es t0 /\ gap sp /\ t = t0 ++ sp.

(** The cache of a world: entries [es] (none: no file yet). *)
Definition cache_holds {A} (e : env) (f : fs A) (es : list centry) : Prop :=
  (es = [] /\ world_no_cache e f) \/
  (es <> [] /\ exists t, world_cache e f t /\ cache_lines es t).
