(** Model of src/random.h (and random.cxx). *)
From Verif.Base Require Import Result Arith Rng.

Section Random.
Context {A : Arith} (R : Rng A).
Local Open Scope num_scope.

(** random.h:34-37 [cos_theta]: [2 * canonical() - 1]. *)
Definition cos_theta : M (engine R) (num A) :=
  let* u := draw_canonical R in ret (nofZ A 2 * u - nofZ A 1).

(** random.h:40-43 [phi]: [two_pi * canonical()]. *)
Definition phi : M (engine R) (num A) :=
  let* u := draw_canonical R in ret (ntwo_pi A * u).

(** random.h:46-78 [CyclicNormal]: the data members.  [iter_] is the offset of
    the iterator from [cache_.begin()]. *)
Record cyclic : Type := Cyclic {
  cy_cache : list (num A);
  cy_nloops : Z;
  cy_loop : Z;
  cy_iter : nat
}.

(** random.h:89-93: the i-th table entry, 1 <= i <= cache_size:
    z = -1. + 2.*double(i)/(cache_size + 1);  mean + stddev * (root_two * erf_inv(z)). *)
Definition cyclic_entry (mean stddev : num A) (cache_size i : Z) : num A :=
  let z := - (nlit A 1 0) + nlit A 2 0 * nofZ A i / nofZ A (cache_size + 1) in
  let normal := nroot_two A * nerfinv A z in
  mean + stddev * normal.

(** random.h:80-96 [CyclicNormal::CyclicNormal]. *)
Definition cyclic_new (mean stddev : num A) (cache_size nloops : Z) : M (engine R) cyclic :=
  fun e =>
    let table := map (cyclic_entry mean stddev cache_size) (zrange 1 cache_size) in
    let (cache, e') := shuffle R table e in
    (Ret (Cyclic cache nloops 0 0), e').

(** random.h:55-66 [CyclicNormal::operator()]. *)
Definition cyclic_draw (c : cyclic) : M (engine R) (num A * cyclic) :=
  fun e =>
    let '(c1, e1) :=
      if (cy_nloops c <? cy_loop c)%Z
      then let (cache', e') := shuffle R (cy_cache c) e in
           (Cyclic cache' (cy_nloops c) 0 (cy_iter c), e')
      else (c, e) in
    let c2 :=
      if Nat.eqb (cy_iter c1) (length (cy_cache c1))
      then Cyclic (cy_cache c1) (cy_nloops c1) (cy_loop c1 + 1) 0
      else c1 in
    match nth_error (cy_cache c2) (cy_iter c2) with
    | Some x => (Ret (x, Cyclic (cy_cache c2) (cy_nloops c2) (cy_loop c2) (S (cy_iter c2))), e1)
    | None => (UB UbDerefEnd, e1)
    end.

End Random.
Arguments Cyclic {A}. Arguments cy_cache {A}. Arguments cy_nloops {A}.
Arguments cy_loop {A}. Arguments cy_iter {A}.
