(** More collisions. *)
From Coq Require Import Reals ZArith List Bool.
From Verif.Base Require Import Arith RArith.
From Verif.Model Require Import Nucleon.
Import ListNotations.
Local Open Scope R_scope.

(** Everybody flagged in the first list is flagged in the second. *)
Definition flags_below (fs fs' : list bool) : Prop := Forall2 (fun b b' => b = true -> b' = true) fs fs'.

(** A quantity that can only grow when more nucleons participate, more pairs
    collide, and when anything collides at all. *)
Definition grows (f : list bool -> list bool -> Z -> bool -> R) : Prop :=
  forall fa fa' fb fb' n n' c c',
  flags_below fa fa' -> flags_below fb fb' -> (n <= n')%Z -> (c = true -> c' = true) -> f fa fb n c <= f fa' fb' n' c'.

(** The same without the number of collisions (counted only with --ncoll). *)
Definition grows2 (f : list bool -> list bool -> bool -> R) : Prop := grows (fun fa fb _ c => f fa fb c).

(** Transverse distance. *)
Definition distance (a b : nucleon RA) : R := sqrt ((n_x a - n_x b) ^ 2 + (n_y a - n_y b) ^ 2).

(** Every nucleon of A is at most as far from every nucleon of B in the second
    arrangement as in the first. *)
Definition closer (As Bs As' Bs' : list (nucleon RA)) : Prop :=
  length As' = length As /\ length Bs' = length Bs /\
  forall i j a b a' b', nth_error As i = Some a -> nth_error Bs j = Some b -> nth_error As' i = Some a' -> nth_error Bs' j = Some b' ->
  distance a' b' <= distance a b.
