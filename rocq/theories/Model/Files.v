(** Paths, an abstract file system and HDF5 files.

    The file system maps normalised path strings to nodes.  Simplifications:
    paths are compared as strings up to trailing slashes ("a//b", "./a", symbolic
    links, permissions and full disks are not modelled). *)
From Coq Require Import Ascii.
From Verif.Base Require Import Result Arith.
Local Open Scope string_scope.

(** ** Path strings (boost::filesystem::path, version 3 semantics) *)

Definition is_slash (c : ascii) : bool := Ascii.eqb c "/".
Definition is_dot (c : ascii) : bool := Ascii.eqb c ".".

(** The suffix after the last '/'. *)
Fixpoint last_component (s : string) : string :=
  match s with
  | "" => ""
  | String c s' =>
      if is_slash c then last_component s'
      else if existsb is_slash (list_ascii_of_string s') then last_component s'
      else s
  end.

(** path::filename(): "." for a path ending in a slash. *)
Definition filename (s : string) : string :=
  match s with
  | "" => ""
  | _ => match last_component s with "" => "." | f => f end
  end.

(** The suffix from the last '.', or "". *)
Fixpoint from_last_dot (s : string) : string :=
  match s with
  | "" => ""
  | String c s' =>
      if existsb is_dot (list_ascii_of_string s') then from_last_dot s'
      else if is_dot c then s
      else ""
  end.

(** path::extension(). *)
Definition extension (s : string) : string :=
  let f := filename s in
  if String.eqb f "." || String.eqb f ".." then "" else from_last_dot f.

(** hdf5_utils.cxx:18-26 [filename_is_hdf5]. *)
Definition hdf5_exts : list string := [".hdf5"; ".hdf"; ".hd5"; ".h5"].
Definition filename_is_hdf5 (path : string) : bool :=
  let ext := extension path in
  if String.eqb ext "" then false            (* !path.has_extension() *)
  else existsb (String.eqb ext) hdf5_exts.

(** Does the string end with a slash? *)
Fixpoint ends_with_slash (s : string) : bool :=
  match s with
  | "" => false
  | String c "" => is_slash c
  | String _ s' => ends_with_slash s'
  end.

(** path::operator/ with a relative right operand. *)
Definition path_join (p q : string) : string :=
  match p with
  | "" => q
  | _ => if ends_with_slash p then p ++ q else p ++ "/" ++ q
  end.

(** ** Files *)

Inductive h5val (A : Arith) : Type := VInt (z : Z) | VDouble (x : num A).
Arguments VInt {A}. Arguments VDouble {A}.

Record h5dataset (A : Arith) : Type := H5Dataset {
  ds_dims : list Z;
  ds_data : list (num A);                 (* row-major *)
  ds_attrs : list (string * h5val A)
}.
Arguments H5Dataset {A}. Arguments ds_dims {A}. Arguments ds_data {A}. Arguments ds_attrs {A}.

Inductive h5obj (A : Arith) : Type := ODataset (d : h5dataset A) | OOther.
Arguments ODataset {A}. Arguments OOther {A}.

Inductive node (A : Arith) : Type :=
| Dir
| File (content : string)
| H5File (objs : list (string * h5obj A)).
Arguments Dir {A}. Arguments File {A}. Arguments H5File {A}.

Definition fs (A : Arith) : Type := list (string * node A).

(** Keys are paths without trailing slashes. *)
Fixpoint norm (p : string) : string :=
  match p with
  | "" => ""
  | String c s =>
      match norm s with
      | "" => if is_slash c then "" else String c ""
      | s' => String c s'
      end
  end.

Section FS.
Context {A : Arith}.

Fixpoint fs_get (f : fs A) (k : string) : option (node A) :=
  match f with
  | [] => None
  | (k', n) :: f' => if String.eqb k k' then Some n else fs_get f' k
  end.

Fixpoint fs_put (f : fs A) (k : string) (n : node A) : fs A :=
  match f with
  | [] => [(k, n)]
  | (k', n') :: f' => if String.eqb k k' then (k, n) :: f' else (k', n') :: fs_put f' k n
  end.

(** What is at the path; nothing is at the empty path. *)
Definition fs_lookup (f : fs A) (p : string) : option (node A) :=
  if String.eqb p "" then None else fs_get f (norm p).
Definition fs_set (f : fs A) (p : string) (n : node A) : fs A := fs_put f (norm p) n.

(** fs::exists. *)
Definition fs_exists (f : fs A) (p : string) : bool :=
  match fs_lookup f p with Some _ => true | None => false end.

(** Is the key [k] an entry below directory [d]? *)
Definition is_child (d k : string) : bool := String.prefix (norm d ++ "/") k.

(** fs::is_empty (of an existing path): a directory without entries, or a file
    of size zero.  (An HDF5 file is never of size zero.) *)
Definition fs_is_empty (f : fs A) (p : string) : bool :=
  match fs_lookup f p with
  | Some Dir => negb (existsb (fun e => is_child p (fst e)) f)
  | Some (File c) => match c with "" => true | _ => false end
  | Some (H5File _) => false
  | None => false
  end.

(** The part of a (normalised) path before its last slash, if it has one. *)
Fixpoint parent_of (k : string) : option string :=
  match k with
  | "" => None
  | String c s =>
      match parent_of s with
      | Some p => Some (String c p)
      | None => if is_slash c then Some "" else None
      end
  end.

(** Can an entry be created at [p]: its parent is the working directory, the
    root, or an existing directory. *)
Definition parent_ok (f : fs A) (p : string) : bool :=
  match parent_of (norm p) with
  | None => true
  | Some d =>
      match norm d with
      | "" => true
      | d' => match fs_get f d' with Some Dir => true | _ => false end
      end
  end.

(** fs::create_directory: no error if it already is a directory. *)
Definition create_directory (p : string) : M (fs A) unit :=
  fun f =>
    match fs_lookup f p with
    | Some Dir => (Ret tt, f)
    | Some _ => (Throw (FilesystemError p), f)
    | None => if parent_ok f p then (Ret tt, fs_set f p Dir)
              else (Throw (FilesystemError p), f)
    end.

(** The non-empty prefixes of a path ending just before a slash, then the path. *)
Fixpoint prefixes (acc s : string) : list string :=
  match s with
  | "" => [acc]
  | String c s' =>
      if is_slash c
      then match acc with "" => [] | _ => [acc] end ++ prefixes (acc ++ String c "") s'
      else prefixes (acc ++ String c "") s'
  end.

(** fs::create_directories.  The empty path ends in mkdir(""), which fails. *)
Definition create_directories (p : string) : M (fs A) unit :=
  if String.eqb p "" then throw (FilesystemError p) else
  mfold (fun _ d => fun f =>
    match fs_lookup f d with
    | Some Dir => (Ret tt, f)
    | Some _ => (Throw (FilesystemError d), f)
    | None => (Ret tt, fs_set f d Dir)
    end) (prefixes "" (norm p)) tt.

(** An ofstream opened with truncation, written and closed: if the file cannot
    be opened the output is silently lost (no exceptions are enabled). *)
Definition write_file (p : string) (content : string) : M (fs A) unit :=
  fun f =>
    match fs_lookup f p with
    | Some Dir => (Ret tt, f)
    | _ => if parent_ok f p then (Ret tt, fs_set f p (File content)) else (Ret tt, f)
    end.

(** An fstream opened with out|app: creates the file if it does not exist. *)
Definition append_file (p : string) (content : string) : M (fs A) unit :=
  fun f =>
    match fs_lookup f p with
    | Some Dir => (Ret tt, f)
    | Some (File c) => (Ret tt, fs_set f p (File (c ++ content)))
    | Some (H5File _) => (Ret tt, f)
    | None => if parent_ok f p then (Ret tt, fs_set f p (File content)) else (Ret tt, f)
    end.

End FS.
