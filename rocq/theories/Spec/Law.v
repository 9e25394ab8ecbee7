(** Probability: the programs read as randomised algorithms.

    An ideal source of randomness is a tape of variates, one taken per draw; every
    distribution transforms the variate it takes (one real variate carries all the
    randomness a normal, gamma, ... deviate or a shuffle needs).  Independence of
    the draws is the shape of [mean]: each variate is averaged over separately. *)
From Coq Require Import Reals.
From Verif.Base Require Import Result Arith Rng.

Section Law.
Context {A : Arith}.

Definition tape : Type := nat -> num A.
Definition front (t : tape) : num A := t O.
Definition rest (t : tape) : tape := fun n => t (S n).
Definition put_front (x : num A) (t : tape) : tape := fun n => match n with O => x | S n' => t n' end.

(** How each distribution transforms a variate. *)
Record shapes : Type := Shapes {
  sh_canonical : num A -> num A;
  sh_normal : num A -> num A -> num A -> num A;             (* mean, stddev *)
  sh_gamma : num A -> num A -> num A -> num A;              (* alpha, beta *)
  sh_pwl : Z -> num A -> num A -> (num A -> num A) -> num A -> num A;
  sh_int : Z -> Z -> num A -> Z;
  sh_shuffle : list (num A) -> num A -> list (num A);
  sh_sort : list (num A) -> list (num A);
  sh_sort_fst : list (num A * num A) -> list (num A * num A)
}.

(** The generator that reads the tape. *)
Definition ideal (D : shapes) (seed : Z -> tape) : Rng A := {|
  engine := tape;
  eng_seed := seed;
  canonical := fun t => (sh_canonical D (front t), rest t);
  nstate := num A * num A;
  ninit := fun mu sd => (mu, sd);
  ndraw := fun st t => (sh_normal D (fst st) (snd st) (front t), st, rest t);
  gstate := num A * num A;
  ginit := fun a b => (a, b);
  gdraw := fun st t => (sh_gamma D (fst st) (snd st) (front t), st, rest t);
  pwl := fun n lo hi w t => (sh_pwl D n lo hi w (front t), rest t);
  unif_int := fun a b t => (sh_int D a b (front t), rest t);
  shuffle := fun l t => (sh_shuffle D l (front t), rest t);
  sort_num := sh_sort D;
  sort_fst := sh_sort_fst D
|}.

(** A decision tree: done, or draw a variate and go on. *)
Inductive plan (X : Type) : Type :=
| Done (x : X)
| Draw (next : num A -> plan X).
Arguments Done {X}. Arguments Draw {X}.

(** Its result on a tape, and the unread part of the tape. *)
Fixpoint follow {X} (p : plan X) (t : tape) : X * tape :=
  match p with
  | Done x => (x, t)
  | Draw next => follow (next (front t)) (rest t)
  end.

(** The mean of [f] over the outcomes, when [U g] is the mean of [g] over the law
    of one variate. *)
Fixpoint mean {X} (U : (num A -> R) -> R) (f : X -> R) (p : plan X) : R :=
  match p with
  | Done x => f x
  | Draw next => U (fun u => mean U f (next u))
  end.

(** [v] is the mean of [f] over the outcomes of the program [m]. *)
Definition mean_of {X} (U : (num A -> R) -> R) (m : tape -> X * tape) (f : X -> R) (v : R) : Prop :=
  exists p, (forall t, m t = follow p t) /\ mean U f p = v.

(** What is used of the law of a variate: the mean of a constant is the constant,
    and the mean depends only on the values. *)
Record averages (U : (num A -> R) -> R) : Prop := Averages {
  av_const : forall c, U (fun _ => c) = c;
  av_ext : forall f g, (forall x, f x = g x) -> U f = U g
}.
(** ... and, where stated, that it is linear. *)
Record linear (U : (num A -> R) -> R) : Prop := Linear {
  li_add : forall f g, U (fun x => f x + g x)%R = (U f + U g)%R;
  li_scale : forall c f, U (fun x => c * f x)%R = (c * U f)%R
}.
End Law.
Arguments shapes A : clear implicits.
Arguments Done {A X}. Arguments Draw {A X}. Arguments tape A : clear implicits.
Arguments plan A X : clear implicits.

(** A program of the collision search as a program on tapes: the states of the
    distribution objects do not change. *)
Definition on_tape {A : Arith} {D : shapes A} {seed} (ns gs : num A * num A) {X}
    (m : M (rstate (ideal D seed)) X) (t : tape A) : result X * tape A :=
  let (r, s) := m (@MkRstate A (ideal D seed) t ns gs) in (r, rs_eng s).
