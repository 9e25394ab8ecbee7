(** Which file systems are possible, and what it means to leave data alone. *)
From Verif.Base Require Import Result Arith.
From Verif.Model Require Import Files.
Local Open Scope string_scope.

(** [below p k]: the path [k] is below [p]: it starts with p/. *)
Definition below (p k : string) : Prop := String.prefix (norm p ++ "/") k = true.

(** The root (whose normal form is the empty string) is a directory, and so is
    whatever is above an existing entry. *)
Definition tree {A : Arith} (f : fs A) : Prop :=
  fs_get f "" = Some Dir /\
  forall p k, below p k -> fs_get f k <> None -> fs_get f (norm p) = Some Dir.

(** An entry holding data: a file of size > 0. *)
Definition holds_data {A : Arith} (n : node A) : Prop :=
  match n with Dir => False | File c => c <> "" | H5File _ => True end.
