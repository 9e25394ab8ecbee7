(** The documented eccentricity harmonics (README and event.cxx:165-175), with
    complex numbers: e_n = |sum t r^n exp(i n phi)| / sum t r^n about the
    thickness-weighted centre. *)
From Coq Require Import Reals ZArith List.
From Coquelicot Require Import Complex.
From Verif.Base Require Import RArith.
From Verif.Proof Require Import RBasics.
Local Open Scope R_scope.

(** z^n, i.e. r^n exp(i n phi) for z = r exp(i phi). *)
Definition zpow (z : C) (n : nat) : C := Nat.iter n (Cmult z) (RtoC 1).

(** Sum of complex numbers over a list. *)
Definition Csum {X} (f : X -> C) (l : list X) : C :=
  fold_right (fun x acc => Cplus (f x) acc) (RtoC 0) l.

(** Centre of a weighted set of cells (row, column); (x, y) = (column, row). *)
Definition centre (cs : list (Z * Z)) (t : Z * Z -> R) : C :=
  (Rsum (fun c => t c * IZR (snd c)) cs / Rsum t cs,
   Rsum (fun c => t c * IZR (fst c)) cs / Rsum t cs).

(** Position of a cell relative to a centre. *)
Definition rel (z0 : C) (c : Z * Z) : C := (IZR (snd c) - fst z0, IZR (fst c) - snd z0).

(** Cells whose weight is not below 10^-12 contribute; the denominator is at
    least 10^-12. *)
Definition ecc_n (n : nat) (cs : list (Z * Z)) (t : Z * Z -> R) : R :=
  let z := rel (centre cs t) in
  let big := filter (fun c => negb (Rltb (t c) (1 / 1000000000000))) cs in
  Cmod (Csum (fun c => Cmult (RtoC (t c)) (zpow (z c) n)) big)
  / Rmax (Rsum (fun c => t c * Cmod (z c) ^ n) big) (1 / 1000000000000).
