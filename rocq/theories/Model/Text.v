(** Character-level formatting of C++ streams (integers, fixed, scientific and
    default notation, field widths) and the extraction operators used by the
    cross-section cache.  This is library behaviour (libstdc++, C locale) used by
    src/output.cxx and src/nucleon.cxx; those files cite the call sites. *)
From Coq Require Import Ascii.
From Verif.Base Require Import Result Arith.
Local Open Scope string_scope.
Local Open Scope Z_scope.

Definition char_of_digit (d : Z) : ascii := ascii_of_nat (Z.to_nat (48 + d)).
Definition str1 (c : ascii) : string := String c EmptyString.
Definition newline : string := str1 (ascii_of_nat 10).

(** Exactly [k] decimal digits of [n mod 10^k], most significant first. *)
Fixpoint zdigits (k : nat) (n : Z) : string :=
  match k with
  | O => ""
  | S k' => zdigits k' (n / 10) ++ str1 (char_of_digit (n mod 10))
  end.

(** Number of decimal digits of n >= 0 (1 for 0); [fuel] bounds the recursion. *)
Fixpoint ndigits_aux (fuel : nat) (n : Z) : nat :=
  match fuel with
  | O => 1
  | S f => if n <? 10 then 1%nat else S (ndigits_aux f (n / 10))
  end.
Definition ndigits (n : Z) : nat := ndigits_aux (Z.to_nat (Z.log2 n)) n.

(** operator<< for integers. *)
Definition print_N (n : Z) : string := zdigits (ndigits n) n.
Definition print_Z (z : Z) : string := if z <? 0 then "-" ++ print_N (- z) else print_N z.

(** [fill] repeated [n] times. *)
Fixpoint repeat_char (n : nat) (c : ascii) : string :=
  match n with O => "" | S n' => String c (repeat_char n' c) end.

(** setw(w): pad to width [w] (a negative or small width pads nothing). *)
Definition pad_left (fill : ascii) (w : Z) (s : string) : string :=
  repeat_char (Z.to_nat (w - Z.of_nat (String.length s))) fill ++ s.
Definition pad_right (fill : ascii) (w : Z) (s : string) : string :=
  s ++ repeat_char (Z.to_nat (w - Z.of_nat (String.length s))) fill.
Definition space : ascii := " "%char.
Definition setw (w : Z) (s : string) : string := pad_left space w s.

Definition sign_str (neg : bool) : string := if neg then "-" else "".

(** std::fixed with precision k >= 1. *)
Definition print_fixed (k : nat) (d : fdec) : string :=
  match d with
  | FNan => "nan"
  | FInf s => sign_str s ++ "inf"
  | FDec s n =>
      let p := 10 ^ Z.of_nat k in
      sign_str s ++ print_N (n / p) ++ "." ++ zdigits k n
  end.

(** exponent of the scientific notation: sign and at least two digits. *)
Definition print_exp (e : Z) : string :=
  (if e <? 0 then "-" else "+") ++ pad_left "0"%char 2 (print_N (Z.abs e)).

(** std::scientific with precision k >= 1; m has k+1 digits. *)
Definition print_sci (k : nat) (d : sdec) : string :=
  match d with
  | SNan => "nan"
  | SInf s => sign_str s ++ "inf"
  | SDec s m e =>
      let p := 10 ^ Z.of_nat k in
      sign_str s ++ print_N (m / p) ++ "." ++ zdigits k m ++ "e" ++ print_exp e
  end.

(** Remove trailing zeros of a digit string given as (number of digits, value). *)
Fixpoint strip_zeros (k : nat) (n : Z) : nat * Z :=
  match k with
  | O => (O, n)
  | S k' => if n mod 10 =? 0 then strip_zeros k' (n / 10) else (k, n)
  end.

(** A fractional part of k digits with trailing zeros removed, with its point. *)
Definition print_frac (k : nat) (n : Z) : string :=
  let '(k', n') := strip_zeros k n in
  match k' with O => "" | _ => "." ++ zdigits k' n' end.

(** Default notation (%g) with precision P >= 1: the argument holds the digits
    of "%.(P-1)e". *)
Definition print_general (P : nat) (d : sdec) : string :=
  match d with
  | SNan => "nan"
  | SInf s => sign_str s ++ "inf"
  | SDec s m e =>
      if (e <? -4) || (Z.of_nat P <=? e) then
        let k := (P - 1)%nat in
        let p := 10 ^ Z.of_nat k in
        sign_str s ++ print_N (m / p) ++ print_frac k (m mod p) ++ "e" ++ print_exp e
      else
        let k := Z.to_nat (Z.of_nat P - 1 - e) in          (* number of decimals *)
        let p := 10 ^ Z.of_nat k in
        sign_str s ++ print_N (m / p) ++ print_frac k (m mod p)
  end.

(** ** Extraction *)

Definition is_space (c : ascii) : bool :=
  let n := nat_of_ascii c in
  Nat.eqb n 32 || (Nat.leb 9 n && Nat.leb n 13).
Definition is_digit (c : ascii) : bool :=
  let n := nat_of_ascii c in Nat.leb 48 n && Nat.leb n 57.
Definition digit_value (c : ascii) : Z := Z.of_nat (nat_of_ascii c) - 48.

Fixpoint skip_space (s : string) : string :=
  match s with
  | String c s' => if is_space c then skip_space s' else s
  | "" => ""
  end.

(** Longest prefix of digits: value (starting from [acc]), count, rest. *)
Fixpoint span_digits (s : string) (acc : Z) (cnt : Z) : Z * Z * string :=
  match s with
  | String c s' => if is_digit c then span_digits s' (10 * acc + digit_value c) (cnt + 1)
                   else (acc, cnt, s)
  | "" => (acc, cnt, s)
  end.

Definition take_sign (s : string) : bool * string :=
  match s with
  | String "-" s' => (true, s')
  | String "+" s' => (false, s')
  | _ => (false, s)
  end.

(** An input stream: remaining characters, eofbit, failbit. *)
Record istream : Type := Istream { is_rest : string; is_eof : bool; is_fail : bool }.

(** What an extraction does to its target. *)
Inductive extracted (X : Type) : Type := Unchanged | Assigned (x : X).
Arguments Unchanged {X}. Arguments Assigned {X}.

Definition at_end (s : string) : bool := match s with "" => true | _ => false end.

(** The sentry: fails if the stream is not good, then skips white space. *)
Definition sentry (i : istream) : istream * bool :=
  if is_eof i || is_fail i then (Istream (is_rest i) (is_eof i) true, false)
  else
    let s := skip_space (is_rest i) in
    if at_end s then (Istream s true true, false) else (Istream s false false, true).

(** is >> (int&) *)
Definition read_int (i : istream) : extracted Z * istream :=
  let (i1, ok) := sentry i in
  if ok then
    let (neg, s1) := take_sign (is_rest i1) in
    let '(v, cnt, s2) := span_digits s1 0 0 in
    let eof := at_end s2 in
    if cnt =? 0 then (Assigned 0, Istream s2 eof true)
    else
      let z := if neg then - v else v in
      if in_int z then (Assigned z, Istream s2 eof false)
      else (Assigned (if neg then int_min else int_max), Istream s2 eof true)
  else (Unchanged, i1).

Definition is_e (c : ascii) : bool := Ascii.eqb c "e" || Ascii.eqb c "E".

(** is >> (double&): the value is the decimal m * 10^e, converted by [nlit]
    (strtod).  Overflow to infinity is not flagged (simplification). *)
Definition read_double (A : Arith) (i : istream) : extracted (num A) * istream :=
  let (i1, ok) := sentry i in
  if ok then
    let (neg, s1) := take_sign (is_rest i1) in
    let '(iv, icnt, s2) := span_digits s1 0 0 in
    let '(fv, fcnt, s3) :=
      match s2 with
      | String "." s' => span_digits s' iv 0
      | _ => (iv, 0, s2)
      end in
    let m := if neg then - fv else fv in
    if icnt + fcnt =? 0 then (Assigned (nofZ A 0), Istream s3 (at_end s3) true)
    else
      match s3 with
      | String c s' =>
          if is_e c then
            let (eneg, s4) := take_sign s' in
            let '(ev, ecnt, s5) := span_digits s4 0 0 in
            if ecnt =? 0 then (Assigned (nofZ A 0), Istream s5 (at_end s5) true)
            else (Assigned (nlit A m ((if eneg then - ev else ev) - fcnt)),
                  Istream s5 (at_end s5) false)
          else (Assigned (nlit A m (- fcnt)), Istream s3 (at_end s3) false)
      | _ => (Assigned (nlit A m (- fcnt)), Istream s3 (at_end s3) false)
      end
  else (Unchanged, i1).
