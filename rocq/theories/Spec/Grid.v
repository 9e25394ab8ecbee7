(** Square grids seen as functions of the cell indices. *)
From Verif.Base Require Import Result Arith.
From Verif.Model Require Import Event.

(** [g] is an n x n array. *)
Definition square {A} (n : Z) (g : grid A) : Prop :=
  length g = Z.to_nat n /\ Forall (fun row => length row = Z.to_nat n) g.

(** The value in row iy, column ix (0 outside the array). *)
Definition cell {A} (g : grid A) (iy ix : Z) : num A :=
  if ((iy <? 0) || (ix <? 0))%Z%bool then nofZ A 0
  else nth (Z.to_nat ix) (nth (Z.to_nat iy) g []) (nofZ A 0).

(** Cell (iy, ix) is inside an n x n array. *)
Definition inside (n iy ix : Z) : Prop := (0 <= iy < n /\ 0 <= ix < n)%Z.
