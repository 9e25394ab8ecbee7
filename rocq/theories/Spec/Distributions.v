(** Values drawn from the standard library's distribution objects. *)
From Verif.Base Require Import Result Arith Rng.

(** States of a std::normal_distribution(mu, sd) object after any number of draws
    (from any engine states). *)
Inductive normal_object {A} (R : Rng A) (mu sd : num A) : nstate R -> Prop :=
| normal_new : normal_object R mu sd (ninit R mu sd)
| normal_used : forall st e, normal_object R mu sd st -> normal_object R mu sd (snd (fst (ndraw R st e))).
(** States of a std::gamma_distribution(alpha, beta) object. *)
Inductive gamma_object {A} (R : Rng A) (alpha beta : num A) : gstate R -> Prop :=
| gamma_new : gamma_object R alpha beta (ginit R alpha beta)
| gamma_used : forall st e, gamma_object R alpha beta st -> gamma_object R alpha beta (snd (fst (gdraw R st e))).

(** [x] is a value drawn from normal(mu, sd); [f] one drawn from gamma(alpha, beta). *)
Definition from_normal {A} (R : Rng A) (mu sd x : num A) : Prop :=
  exists st e, normal_object R mu sd st /\ fst (fst (ndraw R st e)) = x.
Definition from_gamma {A} (R : Rng A) (alpha beta f : num A) : Prop :=
  exists st e, gamma_object R alpha beta st /\ fst (fst (gdraw R st e)) = f.
