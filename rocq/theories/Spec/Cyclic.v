(** Draws from a CyclicNormal. *)
From Coq Require Import Permutation.
From Verif.Base Require Import Result Arith Rng.
From Verif.Model Require Import Random.

(** [k] successive draws. *)
Fixpoint draws {A} (R : Rng A) (k : nat) (c : cyclic (A:=A)) : M (engine R) (list (num A) * cyclic) :=
  match k with
  | O => ret ([], c)
  | S k' => let* (x, c1) := cyclic_draw R c in let* (xs, c2) := draws R k' c1 in ret (x :: xs, c2)
  end.

(** The normal quantiles: mean + stddev * sqrt 2 * erf^-1 (-1 + 2 i / (n+1)), i = 1..n. *)
Definition quantile (A : Arith) (mean stddev : num A) (n i : Z) : num A :=
  nadd A mean (nmul A stddev (nmul A (nroot_two A)
    (nerfinv A (nadd A (nneg A (nlit A 1 0)) (ndiv A (nmul A (nlit A 2 0) (nofZ A i)) (nofZ A (n + 1))))))).
Definition quantiles (A : Arith) (mean stddev : num A) (n : Z) : list (num A) :=
  map (quantile A mean stddev n) (zrange 1 n).

(** The quantile list after the initial shuffle (0) and after v reshuffles, with
    the engine: nothing else uses random numbers. *)
Fixpoint shuffled {A} (R : Rng A) (l : list (num A)) (e : engine R) (v : nat) : list (num A) * engine R :=
  match v with
  | O => shuffle R l e
  | S v' => let (l', e') := shuffled R l e v' in shuffle R l' e'
  end.

(** How many reshuffles precede draw number [j] (from 0): one reshuffle each
    time [cycles] whole cycles of [n] draws and one more draw have passed. *)
Definition reshuffles (cycles n j : nat) : nat := Nat.div (j - 1) (cycles * n).
