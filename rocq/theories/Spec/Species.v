(** The documented projectiles (doc/usage.rst, the help text, and the parameter
    references in the source), in thousandths of a femtometre where applicable. *)
From Coq Require Import ZArith String List.
Import ListNotations.
Local Open Scope string_scope.

Inductive shape : Type :=
| Point                                  (* a proton *)
| Hulthen (a b : Z)                      (* deuteron, 1/(1000 fm) *)
| Spherical (radius diffuseness : Z)     (* 1/1000 fm *)
| Deformed (radius diffuseness beta2 beta4 : Z).

Definition species : list (string * (nat * shape)) := [
  ("p",   (1%nat,   Point));
  ("d",   (2%nat,   Hulthen 457 2350));
  ("Cu",  (63%nat,  Spherical 4200 596));
  ("Cu2", (63%nat,  Deformed 4200 596 162 (-6)));
  ("Xe",  (129%nat, Spherical 5360 590));
  ("Xe2", (129%nat, Deformed 5360 590 162 (-3)));
  ("Au",  (197%nat, Spherical 6380 535));
  ("Au2", (197%nat, Deformed 6380 535 (-131) (-31)));
  ("Pb",  (208%nat, Spherical 6620 546));
  ("U",   (238%nat, Deformed 6810 600 280 93));
  ("U2",  (238%nat, Deformed 6860 420 265 0));
  ("U3",  (238%nat, Deformed 6670 440 280 93))
]%Z.

Fixpoint lookup {X} (s : string) (l : list (string * X)) : option X :=
  match l with
  | [] => None
  | (t, x) :: l' => if String.eqb s t then Some x else lookup s l'
  end.

(** A file name is an HDF5 name iff it ends in one of the four extensions. *)
Definition hdf5_name (s : string) : Prop :=
  exists stem ext, In ext [".hdf5"; ".hdf"; ".hd5"; ".h5"] /\ s = stem ++ ext.
