(** IEEE-754 binary64 (round to nearest, ties to even, one NaN) as an instance
    of [Arith], on top of Flocq's executable [binary_float 53 1024].

    The libm / Boost functions are an argument of the instance: [Libm]. *)
From Coq Require Import ZArith Bool.
From Flocq Require Import Core BinarySingleNaN.
From Verif.Base Require Import Arith.
Open Scope Z_scope.

Definition prec64 : Z := 53.
Definition emax64 : Z := 1024.
Definition f64 : Type := binary_float prec64 emax64.

#[global] Instance prec64_gt_0 : Prec_gt_0 prec64. Proof. reflexivity. Qed.
#[global] Instance prec64_lt_emax : Prec_lt_emax prec64 emax64. Proof. reflexivity. Qed.

Definition f64_add : f64 -> f64 -> f64 := Bplus mode_NE.
Definition f64_sub : f64 -> f64 -> f64 := Bminus mode_NE.
Definition f64_mul : f64 -> f64 -> f64 := Bmult mode_NE.
Definition f64_div : f64 -> f64 -> f64 := Bdiv mode_NE.
Definition f64_sqrt : f64 -> f64 := Bsqrt mode_NE.
Definition f64_ofZ (z : Z) : f64 := binary_normalize prec64 emax64 _ _ mode_NE z 0 false.
Definition f64_zero : f64 := B754_zero false.
Definition f64_inf : f64 := B754_infinity false.
Definition f64_nan : f64 := B754_nan.

(** m * 2^e, correctly rounded. *)
Definition f64_mk (m e : Z) : f64 := binary_normalize prec64 emax64 _ _ mode_NE m e false.

(** m * 10^e, correctly rounded to nearest even for every m and e (as strtod and
    the compiler do).  For e < 0 the quotient |m| / 10^-e is computed with at
    least 64 extra bits and a sticky bit, then rounded once. *)
Definition f64_lit (m e : Z) : f64 :=
  if e <? 0 then
    let d := 10 ^ (- e) in
    let s := Z.log2 d + 1200 in
    let n := Z.abs m * 2 ^ s in
    let q := 2 * (n / d) + (if n mod d =? 0 then 0 else 1) in
    f64_mk (Z.sgn m * q) (- s - 1)
  else f64_ofZ (m * 10 ^ e).

(** Ordered comparison: false if either operand is NaN. *)
Definition f64_ltb (x y : f64) : bool := Bltb x y.

(** Integer part toward zero. *)
Definition f64_trunc (x : f64) : option Z :=
  match x with
  | B754_zero _ => Some 0
  | B754_finite s m e _ =>
      let a := if 0 <=? e then Zpos m * 2 ^ e else Zpos m / 2 ^ (- e) in
      Some (if s then - a else a)
  | _ => None
  end.

(** std::ceil (exact). *)
Definition f64_ceil (x : f64) : f64 :=
  match x with
  | B754_finite s m e _ =>
      if 0 <=? e then x
      else
        let q := Zpos m / 2 ^ (- e) in
        let r := Zpos m mod 2 ^ (- e) in
        if s then (if q =? 0 then B754_zero true else f64_ofZ (- q))
        else f64_ofZ (if r =? 0 then q else q + 1)
  | _ => x
  end.

(** std::fmin / std::fmax: a NaN operand is ignored. *)
Definition f64_fmin (x y : f64) : f64 :=
  if is_nan x then y else if is_nan y then x else if f64_ltb y x then y else x.
Definition f64_fmax (x y : f64) : f64 :=
  if is_nan x then y else if is_nan y then x else if f64_ltb x y then y else x.

(** floor(|x| * 10^k), and the digits rounded half to even. *)
Definition rhe_div (a b : Z) : Z :=   (* round-half-even a/b, b > 0, a >= 0 *)
  let q := a / b in
  let r := a mod b in
  match Z.compare (2 * r) b with
  | Lt => q
  | Gt => q + 1
  | Eq => if Z.even q then q else q + 1
  end.

(** |x| * 10^k as a fraction (numerator, denominator), for finite m * 2^e. *)
Definition scaled (m : positive) (e k : Z) : Z * Z :=
  let a := Zpos m * (if 0 <=? e then 2 ^ e else 1) * (if 0 <=? k then 10 ^ k else 1) in
  let b := (if 0 <=? e then 1 else 2 ^ (- e)) * (if 0 <=? k then 1 else 10 ^ (- k)) in
  (a, b).

Definition f64_fixed (k : Z) (x : f64) : fdec :=
  match x with
  | B754_nan => FNan
  | B754_infinity s => FInf s
  | B754_zero s => FDec s 0
  | B754_finite s m e _ => let (a, b) := scaled m e k in FDec s (rhe_div a b)
  end.

(** Decimal exponent of |x| = m 2^e: the d with 10^d <= |x| < 10^(d+1). *)
Definition radix10' : radix := Build_radix 10 (refl_equal true).
Definition f64_decexp (m : positive) (e : Z) : Z :=
  let (a, b) := scaled m e 400 in Zdigits radix10' (a / b) - 401.

Definition f64_sci (k : Z) (x : f64) : sdec :=
  match x with
  | B754_nan => SNan
  | B754_infinity s => SInf s
  | B754_zero s => SDec s 0 0
  | B754_finite s m e _ =>
      let d := f64_decexp m e in
      let (a, b) := scaled m e (k - d) in
      let n := rhe_div a b in
      if n =? 10 ^ (k + 1) then SDec s (10 ^ k) (d + 1) else SDec s n d
  end.

(** binary32 operations: round the (exactly computed in binary64: 24+24 <= 53
    bits for products; double rounding is innocuous for sums) result to 24 bits. *)
Definition f32 : Type := binary_float 24 128.
#[global] Instance prec32_gt_0 : Prec_gt_0 24. Proof. reflexivity. Qed.
#[global] Instance prec32_lt_emax : Prec_lt_emax 24 128. Proof. reflexivity. Qed.

Definition f64_to_f32 (x : f64) : f32 :=
  match x with
  | B754_nan => B754_nan
  | B754_infinity s => B754_infinity s
  | B754_zero s => B754_zero s
  | B754_finite s m e _ => binary_normalize 24 128 _ _ mode_NE (cond_Zopp s (Zpos m)) e s
  end.
Definition f32_to_f64 (x : f32) : f64 :=
  match x with
  | B754_nan => B754_nan
  | B754_infinity s => B754_infinity s
  | B754_zero s => B754_zero s
  | B754_finite s m e _ => binary_normalize prec64 emax64 _ _ mode_NE (cond_Zopp s (Zpos m)) e s
  end.
Definition f64_of32 (x : f64) : f64 := f32_to_f64 (f64_to_f32 x).
Definition f64_mul32 (x y : f64) : f64 :=
  f32_to_f64 (Bmult mode_NE (f64_to_f32 x) (f64_to_f32 y)).
Definition f64_add32 (x y : f64) : f64 :=
  f32_to_f64 (Bplus mode_NE (f64_to_f32 x) (f64_to_f32 y)).

Record Libm : Type := {
  m_exp : f64 -> f64; m_log : f64 -> f64; m_log10 : f64 -> f64;
  m_pow : f64 -> f64 -> f64; m_cos : f64 -> f64; m_sin : f64 -> f64;
  m_cbrt : f64 -> f64; m_expint : f64 -> f64; m_erfinv : f64 -> f64
}.

(** The binary64 constants of boost::math::double_constants, as hexadecimal
    mantissa and exponent: pi = 0x1.921fb54442d18p+1, 1/(2 pi) =
    0x1.45f306dc9c883p-3, 1/sqrt(pi) = 0x1.20dd750429b6dp-1, sqrt 2 =
    0x1.6a09e667f3bcdp+0. *)
Definition f64_pi : f64 := f64_mk 0x1921fb54442d18 (-51).
Definition f64_two_pi : f64 := f64_mk 0x1921fb54442d18 (-50).
Definition f64_one_div_two_pi : f64 := f64_mk 0x145f306dc9c883 (-55).
Definition f64_one_div_root_pi : f64 := f64_mk 0x120dd750429b6d (-53).
Definition f64_root_two : f64 := f64_mk 0x16a09e667f3bcd (-52).

Definition FA (L : Libm) : Arith := {|
  num := f64;
  nadd := f64_add; nsub := f64_sub; nmul := f64_mul; ndiv := f64_div;
  nneg := Bopp; nabs := Babs; nsqrt := f64_sqrt; ncbrt := m_cbrt L;
  nexp := m_exp L; nlog := m_log L; nlog10 := m_log10 L; npow := m_pow L;
  ncos := m_cos L; nsin := m_sin L; nceil := f64_ceil;
  nfmin := f64_fmin; nfmax := f64_fmax;
  nexpint := m_expint L; nerfinv := m_erfinv L;
  nltb := f64_ltb; nofZ := f64_ofZ; nlit := f64_lit;
  npi := f64_pi; ntwo_pi := f64_two_pi; none_div_two_pi := f64_one_div_two_pi;
  none_div_root_pi := f64_one_div_root_pi; nroot_two := f64_root_two;
  ntrunc := f64_trunc;
  nmul32 := f64_mul32; nadd32 := f64_add32; nof32 := f64_of32;
  nfixed := f64_fixed; nsci := f64_sci
|}.
