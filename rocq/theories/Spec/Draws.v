(** Counting and naming the draws of std::generate_canonical. *)
From Verif.Base Require Import Result Arith Rng.

(** The engine after [k] canonical draws. *)
Definition after {A} (R : Rng A) (k : nat) (e : engine R) : engine R :=
  Nat.iter k (fun e => snd (canonical R e)) e.

(** The value of canonical draw number [k] (counted from 0) starting at [e]. *)
Definition drawn {A} (R : Rng A) (k : nat) (e : engine R) : num A :=
  fst (canonical R (after R k e)).

(** The two angle variables made from such draws (random.h:34-43). *)
Definition cos_draw {A} (R : Rng A) (k : nat) (e : engine R) : num A :=
  nsub A (nmul A (nofZ A 2) (drawn R k e)) (nofZ A 1).
Definition phi_draw {A} (R : Rng A) (k : nat) (e : engine R) : num A :=
  nmul A (ntwo_pi A) (drawn R k e).
