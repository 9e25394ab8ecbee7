(** The Glauber picture of a collision at given nucleon positions: every pair of
    nucleons, one from each nucleus, collides independently of the others. *)
From Coq Require Import Reals.
From Verif.Base Require Import Result Arith RArith.
From Verif.Model Require Import Nucleon Config.
From Verif.Spec Require Import Profile Law History.
From Verif.Proof Require Import RBasics.
Local Open Scope R_scope.

(** [U] averages over a variate that is uniform in [0,1]: it averages, and the
    variate exceeds p with probability 1 - p. *)
Record uniform (U : (R -> R) -> R) : Prop := Uniform {
  un_averages : averages (A:=RA) U;
  un_above : forall p a b, 0 <= p <= 1 -> U (fun u => if Rlt_dec p u then a else b) = (1 - p) * a + p * b
}.

(** The mean of [f] over the outcomes of independent trials, the k-th of which
    fails with probability [q_k]. *)
Fixpoint trials (qs : list R) (f : list bool -> R) : R :=
  match qs with
  | [] => f []
  | q :: qs' => (1 - q) * trials qs' (fun hs => f (true :: hs)) + q * trials qs' (fun hs => f (false :: hs))
  end.

(** Probability that two nucleons do not collide: beyond six nucleon widths they
    never do; otherwise exp(-sigma T) with T the overlap of two Gaussian nucleons
    of width v. *)
Definition miss (w v sigma : R) (a b : nucleon RA) : R :=
  if Rlt_dec (6 * w) (sqrt ((n_x a - n_x b) ^ 2 + (n_y a - n_y b) ^ 2)) then 1
  else exp (- (sigma * gauss2 (2 * v ^ 2) (n_x a - n_x b) (n_y a - n_y b))).

(** The same for all pairs, A1 B1, A1 B2, ..., A2 B1, ... *)
Definition misses (w v sigma : R) (As Bs : list (nucleon RA)) : list R :=
  flat_map (fun a => map (miss w v sigma a) Bs) As.

(** Which nucleons of A (of B) collided at least once, when [hs] says which of the
    pairs collided; [n] is the number of nucleons of B. *)
Definition hit_in_A (na n : nat) (hs : list bool) : list bool :=
  map (fun i => existsb (fun ph => Nat.eqb (fst (fst ph)) i && snd ph) (combine (all_pairs na n) hs)) (seq 0 na).
Definition hit_in_B (na n : nat) (hs : list bool) : list bool :=
  map (fun j => existsb (fun ph => Nat.eqb (snd (fst ph)) j && snd ph) (combine (all_pairs na n) hs)) (seq 0 n).
Definition any (hs : list bool) : bool := existsb (fun h => h) hs.

(** Product. *)
Definition Rprod {X} (f : X -> R) (l : list X) : R := fold_right (fun x acc => f x * acc) 1 l.

(** 1 if yes, 0 if no. *)
Definition indicator (b : bool) : R := if b then 1 else 0.
