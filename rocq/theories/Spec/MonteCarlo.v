(** The Monte-Carlo estimate of the cross section. *)
From Verif.Base Require Import Result Arith Rng.
From Verif.Model Require Import Random CrossSection.

(** [k] successive samples of the miss probability (impact parameter and
    constituents drawn anew for each). *)
Fixpoint samples {A} (R : Rng A) (m : mc A) (sp : num A) (k : nat) (c : cyclic)
  : M (engine R) (list (num A) * cyclic) :=
  match k with
  | O => ret ([], c)
  | S k' => let* (x, c1) := mc_sample R m sp c in let* (xs, c2) := samples R m sp k' c1 in ret (x :: xs, c2)
  end.

(** Left-to-right sum. *)
Definition total {A} (xs : list (num A)) : num A := fold_left (nadd A) xs (nlit A 0 0).

(** The estimate after sample number [n] (from 0): pi bmax^2 (1 - S/n), S the sum
    of the n+1 samples so far. *)
Definition estimate {A} (m : mc A) (xs : list (num A)) (n : nat) : num A :=
  nmul A (nmul A (npi A) (nmul A (mc_max_impact m) (mc_max_impact m)))
    (nsub A (nlit A 1 0) (ndiv A (total (firstn (S n) xs)) (nofZ A (Z.of_nat n)))).

(** |x - y| < 0.001 *)
Definition near {A} (x y : num A) : bool := nltb A (nabs A (nsub A x y)) (nlit A 1 (-3)).

(** The last 10001 estimates up to number [n] are near one reference: the
    estimate just before them, or 0 if there is none. *)
Definition settled {A} (E : nat -> num A) (n : nat) : Prop :=
  exists ref, ((Z.of_nat n = 10000%Z /\ ref = nlit A 0 0) \/
               ((10001 <= Z.of_nat n)%Z /\ ref = E (n - Z.to_nat 10001)%nat)) /\
    forall i, (Z.of_nat n - 10000 <= Z.of_nat i <= Z.of_nat n)%Z -> near (E i) ref = true.

(** The stopping rule, step by step: the reference and the number of successive
    estimates near it after [n] estimates.  An estimate that is not near the
    reference becomes the new reference. *)
Fixpoint machine {A} (E : nat -> num A) (n : nat) : num A * nat :=
  match n with
  | O => (nlit A 0 0, 0%nat)
  | S n' => let (ref, pass) := machine E n' in
            if near (E n') ref then (ref, S pass) else (E n', 0%nat)
  end.
