(** No direction of the transverse plane is special. *)
From Coq Require Import Reals.
From Verif.Base Require Import Result Arith RArith.
From Verif.Spec Require Import Geometry Law Positions.
Local Open Scope R_scope.

(** Going round the circle once in the time the variate goes from 0 to 1, it makes no
    difference to start [alpha] further on: true for every angle of a variate uniform
    in [0,1), and for the multiples of 2 pi / n of n equidistant variates. *)
Definition starts_anywhere (V : (R -> R) -> R) (alpha : R) : Prop :=
  forall g : R -> R, (forall u, g (u + 1) = g u) -> V (fun u => g (u + alpha / (2 * PI))) = V g.
