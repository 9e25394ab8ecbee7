(** Event objects in use: freshly constructed, or after any number of calls of
    compute on any nuclei. *)
From Verif.Base Require Import Result Arith.
From Verif.Model Require Import Config Nucleon Nucleus Event.

Inductive evolved {A : Arith} (cfg : config A) : event A -> Prop :=
| evolved_new : forall ev, event_new cfg = Ret ev -> evolved cfg ev
| evolved_compute : forall dbg ev nA nB nc ev',
    evolved cfg ev -> event_compute dbg ev nA nB nc = Ret ev' -> evolved cfg ev'.
