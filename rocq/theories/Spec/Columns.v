(** The standard output of a run read as a table. *)
From Coq Require Import Reals ZArith List String.
From Flocq Require Import Core BinarySingleNaN.
From Verif.Base Require Import Arith FArith Rng.
From Verif.Model Require Import Config.
From Verif.Spec Require Import Finite Distributions Safe Species.
Local Open Scope R_scope.

(** Both projectiles are in the documented table. *)
Definition named {A : Arith} (cfg : config A) : Prop :=
  forall p, In p (projectile cfg) -> lookup p species <> None.

(** Nucleon widths of at most 128 fm and impact parameters below 1000 fm. *)
Definition printable {L : Libm} (cfg : config (FA L)) : Prop :=
  B2R (nucleon_width cfg : f64) <= 128 /\ B2R (b_max cfg : f64) <= 999.

(** Draws: canonical in [0, 1), fluctuations in [0, 2^40]. *)
Definition usual_draws {L : Libm} (rg : Rng (FA L)) (cfg : config (FA L)) : Prop :=
  (forall e, is_finite (fst (canonical rg e) : f64) = true /\ 0 <= B2R (fst (canonical rg e) : f64) < 1) /\
  (forall f, from_gamma rg (fluctuation cfg) (ndiv (FA L) (nlit (FA L) 1 0) (fluctuation cfg)) f -> finite_upto f (bpow radix2 40)).

(** A math library whose exp and pow are accurate and whose logarithm of 0.01 is
    between -8 and 0 (it is -4.6). *)
Definition usual_libm (L : Libm) : Prop :=
  accurate_exp L /\ accurate_pow L /\
  is_finite (m_log L (f64_lit 1 (-2))) = true /\ -8 <= B2R (m_log L (f64_lit 1 (-2))) <= 0.

(** Columns of a line: number, b, npart, (ncoll), multiplicity, four eccentricities. *)
Definition columns (with_ncoll : bool) : nat := if with_ncoll then 9 else 8.
