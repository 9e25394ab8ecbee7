(** Constituent sampling. *)
From Verif.Base Require Import Result Arith Rng.

(** What is drawn for [k] constituents: for each a normal x, a normal y, a gamma
    fluctuation, in this order. *)
Fixpoint constituent_draws {A} (R : Rng A) (k : nat) : M (rstate R) (list (num A * num A * num A)) :=
  match k with
  | O => ret []
  | S k' => let* x := draw_normal R in let* y := draw_normal R in let* f := draw_gamma R in
            let* ds := constituent_draws R k' in ret ((x, y, f) :: ds)
  end.
Definition d_x {A : Arith} (d : num A * num A * num A) : num A := fst (fst d).
Definition d_y {A : Arith} (d : num A * num A * num A) : num A := snd (fst d).
Definition d_f {A : Arith} (d : num A * num A * num A) : num A := snd d.

(** Averages over a family of random states. *)
From Coq Require Import Reals.
From Verif.Base Require Import RArith.
From Verif.Model Require Import Config Nucleon.
Local Open Scope R_scope.

(** An expectation: linear, and 1 on the constant 1. *)
Record expectation {W : Type} (E : (W -> R) -> R) : Prop := {
  E_ext : forall f g, (forall w, f w = g w) -> E f = E g;
  E_plus : forall f g, E (fun w => f w + g w) = E f + E g;
  E_scale : forall c f, E (fun w => c * f w) = c * E f;
  E_one : E (fun _ => 1) = 1
}.

(** Draw number [i] of the family of initial states [st]; [k] draws per member. *)
Definition draws_in {W} {rg : Rng RA} (st : W -> rstate rg) (k : nat) (w : W) : list (R * R * R) :=
  match constituent_draws rg k (st w) with (Ret ds, _) => ds | _ => [] end.
Definition x_draw {W} {rg : Rng RA} (st : W -> rstate rg) k i (w : W) : R := nth i (map (d_x (A:=RA)) (draws_in st k w)) 0.
Definition y_draw {W} {rg : Rng RA} (st : W -> rstate rg) k i (w : W) : R := nth i (map (d_y (A:=RA)) (draws_in st k w)) 0.

(** Centred, uncorrelated, variance [r]^2. *)
Definition uncorrelated {W} (E : (W -> R) -> R) (k : nat) (xi : nat -> W -> R) (r : R) : Prop :=
  (forall i, (i < k)%nat -> E (xi i) = 0) /\
  forall i j, (i < k)%nat -> (j < k)%nat -> E (fun w => xi i w * xi j w) = if Nat.eqb i j then r * r else 0.

(** The constituents that sampling gives [n]. *)
Definition sampled {W} {rg : Rng RA} (nc : nucleon_common RA) (n : nucleon RA) (st : W -> rstate rg) (w : W) : list (constituent RA) :=
  match sample_constituent_positions rg nc n (st w) with (Ret n', _) => n_cons n' | _ => [] end.
Definition x_at (i : nat) (l : list (constituent RA)) : R := nth i (map q_x l) 0.
Definition y_at (i : nat) (l : list (constituent RA)) : R := nth i (map q_y l) 0.
