(** The arithmetic in which the model is interpreted.

    The C++ code computes with [double].  The model is written once over an
    arbitrary record [Arith]; it is then instantiated with the real numbers
    ([RA], file RArith.v) and with IEEE-754 binary64 ([FA], file FArith.v).
    Theorems stated for every [A : Arith] hold in particular for binary64 with
    NaN, infinities and signed zeros, since no law is assumed of the fields. *)
From Coq Require Import ZArith String.

(** Digits of a printed number.  [FDec neg n] stands for (+/-) n / 10^k where k
    is the requested number of decimals ("%.kf"). *)
Inductive fdec : Type := FNan | FInf (neg : bool) | FDec (neg : bool) (n : Z).
(** "%.ke": (+/-) m * 10^(e-k) with m having k+1 digits (or m = 0). *)
Inductive sdec : Type := SNan | SInf (neg : bool) | SDec (neg : bool) (m e : Z).

Record Arith : Type := MkArith {
  num : Type;
  nadd : num -> num -> num;
  nsub : num -> num -> num;
  nmul : num -> num -> num;
  ndiv : num -> num -> num;
  nneg : num -> num;
  nabs : num -> num;                   (* std::fabs, std::abs *)
  nsqrt : num -> num;                  (* std::sqrt *)
  ncbrt : num -> num;                  (* std::cbrt *)
  nexp : num -> num;                   (* std::exp *)
  nlog : num -> num;                   (* std::log *)
  nlog10 : num -> num;                 (* std::log10 *)
  npow : num -> num -> num;            (* std::pow *)
  ncos : num -> num;
  nsin : num -> num;
  nceil : num -> num;                  (* std::ceil *)
  nfmin : num -> num -> num;           (* std::fmin *)
  nfmax : num -> num -> num;           (* std::fmax *)
  nexpint : num -> num;                (* boost::math::expint, Ei *)
  nerfinv : num -> num;                (* boost::math::erf_inv *)
  nltb : num -> num -> bool;           (* x < y; false when unordered *)
  nofZ : Z -> num;                     (* conversion from an integer type *)
  nlit : Z -> Z -> num;                (* decimal m * 10^e, correctly rounded: literals and strtod *)
  npi : num;                           (* math::double_constants::pi, M_PI *)
  ntwo_pi : num;
  none_div_two_pi : num;
  none_div_root_pi : num;
  nroot_two : num;
  ntrunc : num -> option Z;            (* integer part toward zero; None for NaN, infinities *)
  nmul32 : num -> num -> num;          (* float (binary32) operations, on values that are floats *)
  nadd32 : num -> num -> num;
  nof32 : num -> num;                  (* conversion of file data to float *)
  nfixed : Z -> num -> fdec;           (* digits printed by "%.kf" *)
  nsci : Z -> num -> sdec              (* digits printed by "%.ke" *)
}.

Declare Scope num_scope.
Delimit Scope num_scope with num.
Notation "x + y" := (nadd _ x y) : num_scope.
Notation "x - y" := (nsub _ x y) : num_scope.
Notation "x * y" := (nmul _ x y) : num_scope.
Notation "x / y" := (ndiv _ x y) : num_scope.
Notation "- x" := (nneg _ x) : num_scope.
Notation "x <? y" := (nltb _ x y) : num_scope.
(** [x > y] in C++ is [y < x]. *)
Notation "x >? y" := (nltb _ y x) : num_scope.

(** nucleon.h:150-154 [sqr]. *)
Definition sqr {A : Arith} (x : num A) : num A := nmul A x x.
