(** Events as random samples: one attempt at a collision, the events of a run, and
    what is observed of them. *)
From Coq Require Import Reals.
From Verif.Base Require Import Result Arith Rng.
From Verif.Model Require Import Config Random Nucleon Nucleus Event Collider.
From Verif.Spec Require Import Law.
Local Open Scope R_scope.

Section Attempts.
Context {A : Arith} (G : Rng A) (dbg : bool) (sfuel : nat) (co : collider A).

(** One attempt: an impact parameter between b-min and b-max, both nuclei placed at
    that distance, and every pair of nucleons tried.  Impact parameter, number of
    binary collisions, nuclei; whether anything collided. *)
Definition attempt (nA nB : nucleus A) : M (rstate G) (num A * Z * nucleus A * nucleus A * bool) :=
  bind (on_eng (draw_canonical G)) (fun u =>
  let b := sample_b (co_bmin co) (co_bmax co) u in
  bind (on_eng (sample_nucleons G sfuel nA (nmul A (co_asym co) b))) (fun nA1 =>
  bind (on_eng (sample_nucleons G sfuel nB (nmul A (nsub A (co_asym co) (nlit A 1 0)) b))) (fun nB1 =>
  bind (pair_loop G co (nu_nucleons nA1) (nu_nucleons nB1) 0 false) (fun r =>
  let '(As, Bs, n, collided) := r in
  ret (b, n, with_nucleons nA1 As, with_nucleons nB1 Bs, collided))))).

(** What is observed of a collision: a function of its impact parameter, number of
    binary collisions and event (thickness, participants, multiplicity,
    eccentricities); it is 0 where there is no event. *)
Definition observed (ev0 : event A) (obs : num A -> Z -> event A -> R) (b : num A) (n : Z) (nA nB : nucleus A) : R :=
  match event_compute dbg ev0 (nu_nucleons nA) (nu_nucleons nB) (co_nc co) with Ret ev => obs b n ev | _ => 0 end.

(** ... of an attempt, if it succeeds; of a finished search. *)
Definition if_collided (ev0 : event A) obs (r : result (num A * Z * nucleus A * nucleus A * bool)) : R :=
  match r with Ret (b, n, nA, nB, true) => observed ev0 obs b n nA nB | _ => 0 end.
Definition if_found (ev0 : event A) obs (r : result (num A * Z * nucleus A * nucleus A)) : R :=
  match r with Ret (b, n, nA, nB) => observed ev0 obs b n nA nB | _ => 0 end.

(** The attempt ended without a collision: 1, else 0. *)
Definition no_collision (r : result (num A * Z * nucleus A * nucleus A * bool)) : R :=
  match r with Ret (_, _, _, _, false) => 1 | _ => 0 end.

(** The events of a run, one after the other, as they are handed to the outputs. *)
Fixpoint events_of (fuel n : nat) (nA nB : nucleus A) (ev : event A) : M (rstate G) (list (num A * Z * event A)) :=
  match n with
  | O => ret []
  | S n' =>
      bind (sample_collision G fuel sfuel co nA nB) (fun r => let '(b, k, nA', nB') := r in
      bind (lift (event_compute dbg ev (nu_nucleons nA') (nu_nucleons nB') (co_nc co))) (fun ev' =>
      bind (events_of fuel n' nA' nB' ev') (fun l => ret ((b, k, ev') :: l))))
  end.

(** A function of all the events, 0 if the run did not finish. *)
Definition if_finished {X} (F : X -> R) (r : result X) : R := match r with Ret x => F x | _ => 0 end.
End Attempts.

(** The product of one observable per event. *)
Fixpoint product {A : Arith} (obs : list (num A -> Z -> event A -> R)) (l : list (num A * Z * event A)) : R :=
  match obs, l with
  | f :: obs', (b, k, ev) :: l' => f b k ev * product obs' l'
  | _, _ => 1
  end.

(** 1 + q + ... + q^(n-1). *)
Definition geometric (q : R) (n : nat) : R := fold_right (fun k acc => q ^ k + acc) 0 (seq 0 n).

(** The sum of an observable over the events. *)
Definition total {A : Arith} (f : num A -> Z -> event A -> R) (l : list (num A * Z * event A)) : R :=
  fold_right (fun e acc => f (fst (fst e)) (snd (fst e)) (snd e) + acc) 0 l.
