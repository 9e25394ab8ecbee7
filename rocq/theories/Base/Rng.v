(** Random numbers and the two standard algorithms whose results the language
    standard leaves unspecified (shuffle, and the order of ties in sort).

    Everything is an abstract record: theorems quantify over every [Rng].  What
    the C++ standard promises about the draws is the predicate [rng_ok], an
    explicit hypothesis of the theorems that need it. *)
From Coq Require Import Permutation Sorted.
From Verif.Base Require Import Result Arith.

Record Rng (A : Arith) : Type := MkRng {
  engine : Type;                                        (* std::mt19937_64 *)
  eng_seed : Z -> engine;                               (* engine.seed(s) *)
  canonical : engine -> num A * engine;                 (* std::generate_canonical<double, 53> *)
  (* std::normal_distribution: carries a saved variate, hence a state *)
  nstate : Type;
  ninit : num A -> num A -> nstate;                     (* (mean, stddev) *)
  ndraw : nstate -> engine -> num A * nstate * engine;
  (* std::gamma_distribution: contains a normal distribution, hence a state *)
  gstate : Type;
  ginit : num A -> num A -> gstate;                     (* (alpha, beta) *)
  gdraw : gstate -> engine -> num A * gstate * engine;
  (* std::piecewise_linear_distribution (nw, xmin, xmax, weight) *)
  pwl : Z -> num A -> num A -> (num A -> num A) -> engine -> num A * engine;
  (* std::uniform_int_distribution<size_t>(a, b) *)
  unif_int : Z -> Z -> engine -> Z * engine;
  (* std::shuffle *)
  shuffle : list (num A) -> engine -> list (num A) * engine;
  (* std::sort with operator<, and with the comparison a.r < b.r of nucleus.cxx:330-335 *)
  sort_num : list (num A) -> list (num A);
  sort_fst : list (num A * num A) -> list (num A * num A)
}.
Arguments engine {A}. Arguments eng_seed {A}. Arguments canonical {A}.
Arguments nstate {A}. Arguments ninit {A}. Arguments ndraw {A}.
Arguments gstate {A}. Arguments ginit {A}. Arguments gdraw {A}.
Arguments pwl {A}. Arguments unif_int {A}. Arguments shuffle {A}.
Arguments sort_num {A}. Arguments sort_fst {A}.

(** What [sort] guarantees for every input: the result is a permutation of it. *)
Definition sort_perm {A} (R : Rng A) : Prop :=
  (forall l, Permutation l (sort_num R l)) /\ (forall l, Permutation l (sort_fst R l)).

(** The generator state used while sampling collisions: the global engine and
    the two distribution objects of NucleonCommon (nucleon.h:139-143). *)
Record rstate {A} (R : Rng A) : Type := MkRstate {
  rs_eng : engine R;
  rs_norm : nstate R;
  rs_gamma : gstate R
}.
Arguments MkRstate {A R}. Arguments rs_eng {A R}. Arguments rs_norm {A R}. Arguments rs_gamma {A R}.

(** Draws as monadic actions. *)
Definition draw_canonical {A} (R : Rng A) : M (engine R) (num A) := act (canonical R).

(** Run an engine action inside [rstate]. *)
Definition on_eng {A} {R : Rng A} {X} (m : M (engine R) X) : M (rstate R) X :=
  fun s => let (r, e) := m (rs_eng s) in (r, MkRstate e (rs_norm s) (rs_gamma s)).

(** constituent_position_dist_(random::engine) *)
Definition draw_normal {A} (R : Rng A) : M (rstate R) (num A) :=
  fun s => let '(x, n, e) := ndraw R (rs_norm s) (rs_eng s) in
           (Ret x, MkRstate e n (rs_gamma s)).

(** participant_fluctuation_dist_(random::engine) *)
Definition draw_gamma {A} (R : Rng A) : M (rstate R) (num A) :=
  fun s => let '(x, g, e) := gdraw R (rs_gamma s) (rs_eng s) in
           (Ret x, MkRstate e (rs_norm s) g).
