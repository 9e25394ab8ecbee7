(** The documented eccentricities (Spec/Ecc.v) about a given centre, with the
    thresholds at a given eps in the place of 10^-12. *)
From Coq Require Import Reals ZArith List.
From Coquelicot Require Import Complex.
From Flocq Require Import BinarySingleNaN.
From Verif.Base Require Import Arith FArith RArith.
From Verif.Model Require Import Event.
From Verif.Spec Require Import Grid Ecc.
From Verif.Proof Require Import RBasics.
Local Open Scope R_scope.

(** Cells whose weight is not below eps. *)
Definition heavy (eps : R) (cs : list (Z * Z)) (t : Z * Z -> R) : list (Z * Z) :=
  filter (fun c => negb (Rltb (t c) eps)) cs.

(** sum of t z^n, z = x + i y relative to the centre z0. *)
Definition harmonic (eps : R) (n : nat) (cs : list (Z * Z)) (t : Z * Z -> R) (z0 : C) : C :=
  Csum (fun c => Cmult (RtoC (t c)) (zpow (rel z0 c) n)) (heavy eps cs t).

(** sum of t |z|^n. *)
Definition weight (eps : R) (n : nat) (cs : list (Z * Z)) (t : Z * Z -> R) (z0 : C) : R :=
  Rsum (fun c => t c * Cmod (rel z0 c) ^ n) (heavy eps cs t).

Definition ecc_about (eps : R) (n : nat) (cs : list (Z * Z)) (t : Z * Z -> R) (z0 : C) : R :=
  Cmod (harmonic eps n cs t z0) / Rmax (weight eps n cs t z0) eps.

(** The value held by a cell of an array, as a real number. *)
Definition held {L : Libm} (g : grid (FA L)) (c : Z * Z) : R := B2R (cell g (fst c) (snd c) : f64).

(** The centre of mass as published, in cells. *)
Definition published_centre {L : Libm} (ev : event (FA L)) : C := (B2R (ev_ixcm ev : f64), B2R (ev_iycm ev : f64)).
