(** The generalized mean of two thicknesses, as documented (Spec/Mean.v), with the
    thresholds at the double next to 10^-12 that the program compares with. *)
From Coq Require Import Reals ZArith.
From Flocq Require Import Core BinarySingleNaN.
From Verif.Base Require Import FArith.
From Verif.Spec Require Import Mean.
Local Open Scope R_scope.

(** The double nearest to 10^-12. *)
Definition threshold : R := B2R (f64_lit 1 (-12)).

(** Spec.Mean.M_p with threshold [eps] in the place of 10^-12. *)
Definition mean_at (eps p a b : R) : R :=
  if Rlt_dec (Rabs p) eps then sqrt (a * b)
  else if Rlt_dec 0 p then pow0 ((pow0 a p + pow0 b p) / 2) (1 / p)
  else if Rlt_dec a eps then 0 else if Rlt_dec b eps then 0
  else Rpower ((Rpower a p + Rpower b p) / 2) (1 / p).

(** The exponents for which accuracy is claimed: those the program takes as zero,
    and 2^-30 <= |p| <= 4 (the default is 0; the documented range of interest is
    [-1, 1]). *)
Definition usable_exponent (p : R) : Prop :=
  Rabs p < threshold \/ bpow radix2 (-30) <= Rabs p <= 4.

(** Relative error: 2^-48 for p = 0, and 2^-34 / |p| otherwise (taking the p-th root
    of a rounded number divides relative errors by |p|). *)
Definition mean_error (p : R) : R :=
  if Rlt_dec (Rabs p) threshold then bpow radix2 (-48) else bpow radix2 (-34) / Rabs p.

(** x is v up to the relative error eps, and an absolute error abs where it underflows. *)
Definition close_to (eps abs : R) (x : f64) (v : R) : Prop :=
  is_finite x = true /\ 0 <= B2R x /\ Rabs (B2R x - v) <= eps * v + abs.
