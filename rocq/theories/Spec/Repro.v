(** Reproducible runs. *)
From Verif.Base Require Import Result Arith Rng.
From Verif.Model Require Import Config Files CrossSection.

(** Same files, same stdout, same stderr; nothing is said about the random
    engine. *)
Definition same_world {A} {R : Rng A} (s s' : sys R) : Prop :=
  s_fs s' = s_fs s /\ s_out s' = s_out s /\ s_err s' = s_err s.

(** Same outcome (value, exception, ...), same files, stdout and stderr. *)
Definition alike {A} {R : Rng A} {X} (a b : result X * sys R) : Prop :=
  fst b = fst a /\ same_world (snd a) (snd b).

(** Applied to a function that neither reads nor changes the state, the root
    finder does neither itself. *)
Definition solver_pure {A} (sv : Solver A) : Prop :=
  forall (S : Type) (f : num A -> num A) lo hi bits n, exists r,
    forall s : S, toms748 sv S (fun x => ret (f x)) lo hi bits n s = (r, s).
