(** The documented generalized mean of two non-negative thicknesses (README):
    M_p(a, b) = ((a^p + b^p)/2)^(1/p), M_0(a, b) = sqrt(a b); the program uses
    the p = 0 form for |p| < 10^-12, and 0 for p < 0 when a or b is below 10^-12. *)
From Coq Require Import Reals.
Local Open Scope R_scope.

Definition eps12 : R := 1 / 1000000000000.

(** x^p for x >= 0 and p > 0 (0^p = 0). *)
Definition pow0 (x p : R) : R := if Req_EM_T x 0 then 0 else Rpower x p.

Definition M_p (p a b : R) : R :=
  if Rlt_dec (Rabs p) eps12 then sqrt (a * b)
  else if Rlt_dec 0 p then pow0 ((pow0 a p + pow0 b p) / 2) (1 / p)
  else if Rlt_dec a eps12 then 0 else if Rlt_dec b eps12 then 0
  else Rpower ((Rpower a p + Rpower b p) / 2) (1 / p).
