(** Numbers an event may report: finite doubles, and eccentricities that are
    fractions up to rounding. *)
From Coq Require Import Reals ZArith List.
From Flocq Require Import Core BinarySingleNaN.
From Verif.Base Require Import Arith FArith.
From Verif.Model Require Import Config Nucleon Event.
From Verif.Spec Require Import Total.
From Verif.Proof Require Import RBasics.
Local Open Scope R_scope.

(** Every value of the array is a finite double between 0 and 2^200. *)
Definition regular_map {L : Libm} (g : grid (FA L)) : Prop :=
  forall t : f64, In t (row_major g) -> is_finite t = true /\ 0 <= B2R t <= bpow radix2 200.

(** Sum of the values of the array, in exact arithmetic. *)
Definition exact_sum {L : Libm} (g : grid (FA L)) : R := Rsum (fun t : f64 => B2R t) (row_major g).

(** A finite double in [0, 1 + 2^-20]. *)
Definition fraction_like (x : f64) : Prop :=
  is_finite x = true /\ 0 <= B2R x <= 1 + / 1048576.

(** x is v up to a relative error of 2^-24 and an underflow error of 2^-1000. *)
Definition rounded (x : f64) (v : R) : Prop :=
  is_finite x = true /\ 0 <= B2R x /\ Rabs (B2R x - v) <= / 16777216 * v + bpow radix2 (-1000).

(** A math library whose exp is accurate to a relative 2^-40 on [-13, 1] (every
    common libm is within 2^-52). *)
Definition accurate_exp (L : Libm) : Prop :=
  forall x : f64, is_finite x = true -> -13 <= B2R x <= 1 ->
  is_finite (m_exp L x) = true /\
  Rabs (B2R (m_exp L x) - exp (B2R x)) <= bpow radix2 (-40) * exp (B2R x).

(** Finite and in [0, b]. *)
Definition finite_upto (x : f64) (b : R) : Prop := is_finite x = true /\ 0 <= B2R x <= b.

(** A math library whose pow is accurate to a relative 2^-40 (and 2^-1000 where
    the result underflows) for positive bases, while the result does not exceed
    2^990; and gives 0 for base 0 and a positive exponent. *)
Definition accurate_pow (L : Libm) : Prop :=
  forall x y : f64, is_finite x = true -> is_finite y = true ->
  (0 < B2R x -> Rpower (B2R x) (B2R y) <= bpow radix2 990 ->
     is_finite (m_pow L x y) = true /\ 0 <= B2R (m_pow L x y) /\
     Rabs (B2R (m_pow L x y) - Rpower (B2R x) (B2R y))
       <= bpow radix2 (-40) * Rpower (B2R x) (B2R y) + bpow radix2 (-1000)) /\
  (B2R x = 0 -> 0 < B2R y -> is_finite (m_pow L x y) = true /\ B2R (m_pow L x y) = 0).

(** Ordinary parameter values: constituent width in [2^-20, 2^200] fm, at most
    2^26 constituents per nucleon, |p| <= 4, normalization at most 2^50, grid
    step in [2^-400, 2^200] fm, at most 8192 grid steps. *)
Record ordinary {L : Libm} (cfg : config (FA L)) : Prop := {
  or_width : is_finite (constit_width cfg : f64) = true /\
             bpow radix2 (-20) <= B2R (constit_width cfg : f64) <= bpow radix2 200;
  or_number : (1 <= constit_number cfg <= 2 ^ 26)%Z;
  or_p : is_finite (reduced_thickness cfg : f64) = true /\ Rabs (B2R (reduced_thickness cfg : f64)) <= 4;
  or_norm : finite_upto (normalization cfg) (bpow radix2 50);
  or_grid : is_finite (grid_max cfg : f64) = true /\ is_finite (grid_step cfg : f64) = true /\
            bpow radix2 (-400) <= B2R (grid_step cfg : f64) <= bpow radix2 200 /\
            bpow radix2 (-400) <= B2R (grid_max cfg : f64) <= 4096 * B2R (grid_step cfg : f64)
}.

(** At most 2^20 nucleons; the participants have at most 2^26 constituents, all
    with fluctuations between 0 and 2^40. *)
Definition light_nucleus {L : Libm} (ns : list (nucleon (FA L))) : Prop :=
  (Z.of_nat (length ns) <= 2 ^ 20)%Z /\
  forall n, In n ns -> n_part n = true ->
    (Z.of_nat (length (n_cons n)) <= 2 ^ 26)%Z /\
    forall q, In q (n_cons n) -> finite_upto (q_fluct q) (bpow radix2 40).
