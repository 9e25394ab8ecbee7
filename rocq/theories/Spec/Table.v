(** What a reader of the output files sees: lines, blank-separated fields, and
    the number a field denotes.  Independent of the model's printing functions. *)
From Coq Require Import Reals Ascii.
From Verif.Base Require Import Result.
From Verif.Spec Require Import Decimal.
Local Open Scope string_scope.

Definition push (s : string) (c : ascii) : string := s ++ String c "".

(** The maximal runs of non-blank characters, in order. *)
Definition flush (cur : string) : list string := match cur with "" => [] | _ => [cur] end.
Fixpoint fields_from (cur s : string) : list string :=
  match s with
  | "" => flush cur
  | String c s' => if blank c then flush cur ++ fields_from "" s' else fields_from (push cur c) s'
  end.
Definition fields (s : string) : list string := fields_from "" s.

(** The lines of a text, without their line feeds. *)
Definition is_lf (c : ascii) : bool := Nat.eqb (nat_of_ascii c) 10.
Fixpoint lines_from (cur s : string) : list string :=
  match s with
  | "" => flush cur
  | String c s' => if is_lf c then cur :: lines_from "" s' else lines_from (push cur c) s'
  end.
Definition lines (s : string) : list string := lines_from "" s.

(** The parts between single spaces. *)
Definition is_sp (c : ascii) : bool := Nat.eqb (nat_of_ascii c) 32.
Fixpoint split_from (cur s : string) : list string :=
  match s with
  | "" => [cur]
  | String c s' => if is_sp c then cur :: split_from "" s' else split_from (push cur c) s'
  end.
Definition split_spaces (s : string) : list string := split_from "" s.

(** The real number written as a decimal. *)
Local Open Scope R_scope.
Definition denotes (d : decimal) : R := IZR (mantissa d) * powerRZ 10 (exponent d).

(** [t] is the integer [z]. *)
Definition shows_int (z : Z) (t : string) : Prop :=
  exists i, integer_ok i /\ t = integer_text i /\ integer_value i = z.

(** [t] is [x] rounded to [k] decimals, without exponent. *)
Definition shows_fixed (k : nat) (x : R) (t : string) : Prop :=
  exists d f, decimal_ok d /\ t = decimal_text d /\ c_exp d = None /\
    c_frac d = Some f /\ String.length f = k /\
    Rabs (denotes d - x) <= / 2 * powerRZ 10 (- Z.of_nat k).

(** [t] is [x] in scientific notation with [k] decimals: one leading digit, which
    is not 0 unless x is, and an exponent of at least two digits. *)
Definition shows_sci (k : nat) (x : R) (t : string) : Prop :=
  exists d f neg ex, decimal_ok d /\ t = decimal_text d /\ c_exp d = Some (neg, ex) /\ (2 <= String.length ex)%nat /\
    c_frac d = Some f /\ String.length f = k /\ String.length (c_int d) = 1%nat /\ (x <> 0 -> c_int d <> "0"%string) /\
    Rabs (denotes d - x) <= / 2 * powerRZ 10 (- Z.of_nat k) * Rabs x.

(** Last character. *)
Fixpoint last_char (s : string) : option ascii :=
  match s with "" => None | String c "" => Some c | String _ s' => last_char s' end.

(** [t] is [x] to [p] significant digits (p >= 1), trailing zeros dropped. *)
Definition shows_digits (p : nat) (x : R) (t : string) : Prop :=
  exists d, decimal_ok d /\ t = decimal_text d /\
    match c_frac d with Some f => f <> ""%string /\ last_char f <> Some "0"%char | None => True end /\
    Rabs (denotes d - x) <= / 2 * powerRZ 10 (1 - Z.of_nat p) * Rabs x.
