(** Outcomes of C++ computations and a small state monad.

    Undefined behaviour, exceptions and exhausted loop fuel are distinct,
    explicit outcomes: no theorem can be true merely because a partial C++
    operation was totalised. *)
From Coq Require Export String List ZArith Bool Lia.
Export ListNotations.

(** Exceptions that the trento sources (or the library calls they make) throw. *)
Inductive exn : Type :=
| InvalidArgument (msg : string)      (* std::invalid_argument *)
| DomainError (msg : string)          (* std::domain_error *)
| OutOfRange (msg : string)           (* std::out_of_range *)
| RuntimeError (msg : string)         (* std::runtime_error *)
| LengthError                         (* std::length_error from vector::resize *)
| PoError (msg : string)              (* boost::program_options::error *)
| RequiredOption                      (* boost::program_options::required_option *)
| FilesystemError (msg : string)      (* boost::filesystem::filesystem_error *)
| H5Exception (msg : string).         (* H5::Exception: NOT derived from std::exception *)

(** Kinds of undefined behaviour that the model distinguishes. *)
Inductive ub : Type :=
| UbFloatToInt        (* floating value not representable in the integer type *)
| UbIndex             (* out-of-bounds array / vector access *)
| UbDerefEnd          (* dereference of an end iterator *)
| UbDivZero           (* integer division by zero *)
| UbUninit            (* read of an uninitialised variable *)
| UbNullPtr.          (* null pointer passed where a C string is required *)

Inductive result (X : Type) : Type :=
| Ret (x : X)
| Throw (e : exn)
| UB (u : ub)
| OutOfFuel.
Arguments Ret {X} x.
Arguments Throw {X} e.
Arguments UB {X} u.
Arguments OutOfFuel {X}.

Definition rbind {X Y} (r : result X) (k : X -> result Y) : result Y :=
  match r with
  | Ret x => k x
  | Throw e => Throw e
  | UB u => UB u
  | OutOfFuel => OutOfFuel
  end.

(** State monad over [result]; the state survives exceptions (files stay
    written when the program later throws). *)
Definition M (S X : Type) : Type := S -> result X * S.

Definition ret {S X} (x : X) : M S X := fun s => (Ret x, s).
Definition fail {S X} (r : result X) : M S X := fun s => (r, s).
Definition throw {S X} (e : exn) : M S X := fun s => (Throw e, s).
Definition undefined {S X} (u : ub) : M S X := fun s => (UB u, s).
Definition out_of_fuel {S X} : M S X := fun s => (OutOfFuel, s).

Definition bind {S X Y} (m : M S X) (k : X -> M S Y) : M S Y :=
  fun s =>
    match m s with
    | (Ret x, s') => k x s'
    | (Throw e, s') => (Throw e, s')
    | (UB u, s') => (UB u, s')
    | (OutOfFuel, s') => (OutOfFuel, s')
    end.

Declare Scope res_scope.
Delimit Scope res_scope with res.
Notation "'let*' x ':=' m 'in' k" := (bind m (fun x => k))
  (at level 200, x pattern, m at level 100, k at level 200, right associativity) : res_scope.
Notation "'letr' x ':=' m 'in' k" := (rbind m (fun x => k))
  (at level 200, x pattern, m at level 100, k at level 200, right associativity) : res_scope.
Open Scope res_scope.

Definition get {S} : M S S := fun s => (Ret s, s).
Definition put {S} (s : S) : M S unit := fun _ => (Ret tt, s).

(** A deterministic, always-returning state transformer as a monadic action. *)
Definition act {S X} (f : S -> X * S) : M S X := fun s => let (x, s') := f s in (Ret x, s').

(** Run an action on a component of a larger state. *)
Definition zoom {S T X} (view : T -> S) (upd : S -> T -> T) (m : M S X) : M T X :=
  fun t => let (r, s') := m (view t) in (r, upd s' t).

(** A result without state effects. *)
Definition lift {S X} (r : result X) : M S X := fun s => (r, s).

(** Left-to-right loops over a list. *)
Fixpoint rfold {X Y} (f : Y -> X -> result Y) (l : list X) (y : Y) : result Y :=
  match l with
  | [] => Ret y
  | x :: l' => rbind (f y x) (rfold f l')
  end.

Fixpoint mfold {S X Y} (f : Y -> X -> M S Y) (l : list X) (y : Y) : M S Y :=
  match l with
  | [] => ret y
  | x :: l' => bind (f y x) (mfold f l')
  end.

(** [mmap f l]: run [f] on every element, collecting the results in order. *)
Fixpoint mmap {S X Y} (f : X -> M S Y) (l : list X) : M S (list Y) :=
  match l with
  | [] => ret []
  | x :: l' => bind (f x) (fun y => bind (mmap f l') (fun ys => ret (y :: ys)))
  end.

(** [mrepeat n m]: run [m] [n] times, collecting the results in order. *)
Fixpoint mrepeat {S X} (n : nat) (m : M S X) : M S (list X) :=
  match n with
  | O => ret []
  | S n' => bind m (fun x => bind (mrepeat n' m) (fun xs => ret (x :: xs)))
  end.

(** The integers lo, lo+1, ..., hi (empty when hi < lo): the values of the
    loop variable in [for (i = lo; i <= hi; ++i)]. *)
Definition zrange (lo hi : Z) : list Z :=
  map (fun k => (lo + Z.of_nat k)%Z) (seq 0 (Z.to_nat (hi - lo + 1))).

(** The values of the loop variable in [for (int i = 0; i < n; ++i)]. *)
Definition zupto (n : Z) : list Z := zrange 0 (n - 1).

(** Two's-complement ranges. *)
Definition int_min : Z := (-2147483648)%Z.
Definition int_max : Z := 2147483647%Z.
Definition in_int (z : Z) : bool := (int_min <=? z)%Z && (z <=? int_max)%Z.
Definition size_max : Z := 18446744073709551615%Z.   (* 2^64 - 1 *)
Definition to_size (z : Z) : Z := (z mod 18446744073709551616)%Z.
