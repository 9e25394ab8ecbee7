(** Model of src/fast_exp.h. *)
From Verif.Base Require Import Result Arith.

(** fast_exp.h:37-45: data members of [FastExp]. *)
Record fast_exp (A : Arith) : Type := FastExp {
  fe_xmin : num A;
  fe_xmax : num A;
  fe_dx : num A;
  fe_table : list (num A)
}.
Arguments FastExp {A}. Arguments fe_xmin {A}. Arguments fe_xmax {A}.
Arguments fe_dx {A}. Arguments fe_table {A}.

Section FE.
Context {A : Arith}.
Local Open Scope num_scope.

(** fast_exp.h:49-57: the constructor.  [nsteps] is a size_t, so [nsteps-1]
    wraps for [nsteps = 0]. *)
Definition fast_exp_new (xmin xmax : num A) (nsteps : Z) : fast_exp A :=
  let dx := (xmax - xmin) / nofZ A (to_size (nsteps - 1)) in
  FastExp xmin xmax dx (map (fun i => nexp A (xmin + nofZ A i * dx)) (zupto nsteps)).

(** Conversion of a double to size_t ([static_cast<std::size_t>]): undefined
    behaviour if the truncated value is not representable. *)
Definition to_size_t (x : num A) : result Z :=
  match ntrunc A x with
  | Some z => if (0 <=? z)%Z && (z <=? size_max)%Z then Ret z else UB UbFloatToInt
  | None => UB UbFloatToInt
  end.

(** fast_exp.h:60-74 [operator()].  [debug] is [!defined(NDEBUG)]. *)
Definition fast_exp_eval (debug : bool) (fe : fast_exp A) (x : num A) : result (num A) :=
  if debug && ((x <? fe_xmin fe) || (x >? fe_xmax fe))
  then Throw (OutOfRange "argument must be within [xmin, xmax]"%string)
  else
    letr index := to_size_t ((x - fe_xmin fe) / fe_dx fe + nlit A 5 (-1)) in
    match nth_error (fe_table fe) (Z.to_nat index) with
    | Some t => Ret (t * (nlit A 1 0 + x - fe_xmin fe - nofZ A index * fe_dx fe))
    | None => UB UbIndex
    end.

End FE.
