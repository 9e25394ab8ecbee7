(** Total thickness of a nucleus at a point of the plane, and the published grid
    as a list. *)
From Coq Require Import Reals.
From Verif.Base Require Import Result Arith RArith.
From Verif.Model Require Import Config Nucleon Event.
Local Open Scope R_scope.

(** [T] is the sum over the participants of [nucl] of thickness() at (x, y). *)
Definition total_thickness (dbg : bool) (nc : nucleon_common RA) (nucl : list (nucleon RA)) (x y T : R) : Prop :=
  exists ts : list R,
    Forall2 (fun n t => thickness (A:=RA) dbg nc n x y = Ret t) (filter n_part nucl) ts /\
    T = fold_right Rplus 0 ts.

(** All cells of a grid, row by row. *)
Definition row_major {A} (g : grid A) : list (num A) := concat g.

(** The configuration with another normalization. *)
Definition with_norm {A} (cfg : config A) (norm : num A) : config A :=
  Config (projectile cfg) (number_events cfg) (quiet cfg) (output cfg) (no_header cfg) (ncoll cfg)
    (reduced_thickness cfg) (fluctuation cfg) (nucleon_width cfg) (constit_width cfg) (constit_number cfg)
    (nucleon_min_dist cfg) (cross_section cfg) norm (b_min cfg) (b_max cfg) (random_seed cfg)
    (grid_max cfg) (grid_step cfg).

(** Addition and multiplication commute (true of real and of binary64 arithmetic). *)
Definition commutative (A : Arith) : Prop :=
  (forall a b, nadd A a b = nadd A b a) /\ (forall a b, nmul A a b = nmul A b a).
