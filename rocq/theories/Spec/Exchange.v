(** Quantities that do not depend on how the nucleons are numbered. *)
From Coq Require Import Reals ZArith List Permutation.
Local Open Scope R_scope.

(** [f] of (participant flags of A, of B, number of collisions, anything at all)
    does not depend on the order of the flags. *)
Definition symmetric (f : list bool -> list bool -> Z -> bool -> R) : Prop :=
  forall fa fa' fb fb' n c, Permutation fa fa' -> Permutation fb fb' -> f fa fb n c = f fa' fb' n c.
