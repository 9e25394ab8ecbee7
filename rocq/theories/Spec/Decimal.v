(** Decimal numbers as texts: the usual notation, independent of the model's
    printing and reading functions. *)
From Coq Require Import Ascii.
From Verif.Base Require Import Result.
Local Open Scope string_scope.
Local Open Scope Z_scope.

Definition digit (c : ascii) : bool :=
  let n := nat_of_ascii c in Nat.leb 48 n && Nat.leb n 57.
Definition blank (c : ascii) : bool :=
  let n := nat_of_ascii c in Nat.eqb n 32 || (Nat.leb 9 n && Nat.leb n 13).

Fixpoint every (p : ascii -> bool) (s : string) : bool :=
  match s with String c s' => p c && every p s' | "" => true end.

(** Value of a digit string read after the digits of [acc]. *)
Fixpoint dval_from (acc : Z) (s : string) : Z :=
  match s with
  | String c s' => dval_from (10 * acc + (Z.of_nat (nat_of_ascii c) - 48)) s'
  | "" => acc
  end.
Definition dval (s : string) : Z := dval_from 0 s.

Definition sign_of (neg : bool) : string := if neg then "-" else "".

(** An integer text: [-]ddd. *)
Record integer : Type := Integer { i_neg : bool; i_digits : string }.
Definition integer_ok (i : integer) : Prop := every digit (i_digits i) = true /\ i_digits i <> "".
Definition integer_text (i : integer) : string := sign_of (i_neg i) ++ i_digits i.
Definition integer_value (i : integer) : Z :=
  if i_neg i then - dval (i_digits i) else dval (i_digits i).

(** A decimal text: [-]ddd[.ddd][e(+|-)ddd]. *)
Record decimal : Type := Decimal {
  c_neg : bool;
  c_int : string;
  c_frac : option string;
  c_exp : option (bool * string)
}.
Definition decimal_ok (d : decimal) : Prop :=
  every digit (c_int d) = true /\ c_int d <> "" /\
  match c_frac d with Some f => every digit f = true | None => True end /\
  match c_exp d with Some (_, x) => every digit x = true /\ x <> "" | None => True end.
Definition frac_text (f : option string) : string :=
  match f with Some f => "." ++ f | None => "" end.
Definition exp_text (x : option (bool * string)) : string :=
  match x with Some (neg, x) => "e" ++ (if neg then "-" else "+") ++ x | None => "" end.
Definition decimal_text (d : decimal) : string :=
  sign_of (c_neg d) ++ c_int d ++ frac_text (c_frac d) ++ exp_text (c_exp d).

(** It denotes [mantissa * 10 ^ exponent]. *)
Definition frac_digits (d : decimal) : string := match c_frac d with Some f => f | None => "" end.
Definition mantissa (d : decimal) : Z :=
  let m := dval (c_int d ++ frac_digits d) in if c_neg d then - m else m.
Definition exponent (d : decimal) : Z :=
  match c_exp d with Some (true, x) => - dval x | Some (false, x) => dval x | None => 0 end
  - Z.of_nat (String.length (frac_digits d)).
