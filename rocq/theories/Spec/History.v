(** What happened during one pass over all nucleon pairs: the sequence of
    participate() calls with their results, on two arrays of nucleons. *)
From Verif.Base Require Import Result Arith Rng.
From Verif.Model Require Import Nucleon.

(** Array update. *)
Fixpoint upd {X} (l : list X) (i : nat) (x : X) : list X :=
  match l, i with
  | [], _ => []
  | _ :: l', O => x :: l'
  | y :: l', S i' => y :: upd l' i' x
  end.

(** (0,0), (0,1), ..., (a-1,b-1) in row-major order. *)
Definition all_pairs (a b : nat) : list (nat * nat) :=
  flat_map (fun i => map (fun j => (i, j)) (seq 0 b)) (seq 0 a).

(** [history nc ps As Bs s hs As' Bs' s']: calling participate(As[i], Bs[j]) for
    the pairs (i,j) of [ps] in order, starting from the arrays As, Bs and
    generator state s, gives the answers [hs] and ends with As', Bs', s'. *)
Inductive history {A} (R : Rng A) (nc : nucleon_common A) :
    list (nat * nat) -> list (nucleon A) -> list (nucleon A) -> rstate R ->
    list bool -> list (nucleon A) -> list (nucleon A) -> rstate R -> Prop :=
| history_nil : forall As Bs s, history R nc [] As Bs s [] As Bs s
| history_cons : forall i j ps As Bs s a b h a' b' s1 hs As' Bs' s',
    nth_error As i = Some a ->
    nth_error Bs j = Some b ->
    participate R nc a b s = (Ret (h, a', b'), s1) ->
    history R nc ps (upd As i a') (upd Bs j b') s1 hs As' Bs' s' ->
    history R nc ((i, j) :: ps) As Bs s (h :: hs) As' Bs' s'.

(** Number of [true]s. *)
Definition count_true (hs : list bool) : Z := Z.of_nat (length (filter (fun h => h) hs)).

(** Pair number k of [ps] was answered with [true]. *)
Definition hit (ps : list (nat * nat)) (hs : list bool) (p : nat * nat) : Prop :=
  In (p, true) (combine ps hs).

(** Number of participants. *)
Definition npart_of {A} (ns : list (nucleon A)) : Z :=
  Z.of_nat (length (filter n_part ns)).

(** Squared transverse distance not greater than the square of max_impact (the
    comparison made by the program, in any arithmetic). *)
Definition in_range {A} (nc : nucleon_common A) (a b : nucleon A) : Prop :=
  nltb A (nc_max_impact_sq nc)
       (nadd A (sqr (nsub A (n_x a) (n_x b))) (sqr (nsub A (n_y a) (n_y b)))) = false.

(** Same position. *)
Definition same_pos {A} (a b : nucleon A) : Prop :=
  n_x a = n_x b /\ n_y a = n_y b /\ n_z a = n_z b.
