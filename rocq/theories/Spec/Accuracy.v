(** The thickness functions in exact arithmetic, evaluated on the (binary64)
    positions and weights that the program holds. *)
From Coq Require Import Reals ZArith List.
From Flocq Require Import Core BinarySingleNaN.
From Verif.Base Require Import Arith FArith RArith.
From Verif.Model Require Import Config Nucleon Event.
From Verif.Spec Require Import Profile Finite.
From Verif.Proof Require Import RBasics.
Import ListNotations.
Local Open Scope R_scope.

(** A constituent's position and weight as real numbers. *)
Definition real_constituent {L : Libm} (q : constituent (FA L)) : constituent RA :=
  @Constituent RA (B2R (q_x q : f64)) (B2R (q_y q : f64)) (B2R (q_fluct q : f64)).

(** The documented profile (Spec/Profile.v), with the Gaussians cut at distance
    [cut] instead of 5 v: a list of constituents of width v, each carrying 1/m of
    the nucleon times its fluctuation. *)
Definition cut_profile (cut v m : R) (qs : list (constituent RA)) (x y : R) : R :=
  RBasics.Rsum (fun q : constituent RA =>
    if Rlt_dec (dist x y q) cut then q_fluct q / m * gauss2 (v ^ 2) (x - q_x q) (y - q_y q) else 0) qs.

(** The two cuts: 5 v up to a relative 2^-48 (3.6e-15). *)
Definition inner_cut (v : R) : R := 5 * v * (1 - bpow radix2 (-48)).
Definition outer_cut (v : R) : R := 5 * v * (1 + bpow radix2 (-48)).

(** A finite coordinate of magnitude at most 2^220 fm. *)
Definition near (x : f64) : Prop := is_finite x = true /\ Rabs (B2R x) <= bpow radix2 220.

(** A nucleon whose at most 2^26 constituents have such coordinates, and
    fluctuations between 0 and 2^40. *)
Definition near_nucleon {L : Libm} (n : nucleon (FA L)) : Prop :=
  (Z.of_nat (length (n_cons n)) <= 2 ^ 26)%Z /\
  forall q, In q (n_cons n) -> near (q_x q) /\ near (q_y q) /\ finite_upto (q_fluct q) (bpow radix2 40).

(** t lies between (1 - eps) lo and (1 + eps) hi, up to 2^-800. *)
Definition between (eps lo hi : R) (t : f64) : Prop :=
  is_finite t = true /\
  (1 - eps) * lo - bpow radix2 (-800) <= B2R t <= (1 + eps) * hi + bpow radix2 (-800).

(** Profile of nucleon n at (x, y), cut at [cut]. *)
Definition nucleon_profile {L : Libm} (cut : R -> R) (cfg : config (FA L)) (n : nucleon (FA L)) (x y : R) : R :=
  cut_profile (cut (B2R (constit_width cfg : f64))) (B2R (constit_width cfg : f64)) (IZR (constit_number cfg))
    (map real_constituent (n_cons n)) x y.

(** Sum over the participants of a nucleus. *)
Definition nucleus_profile {L : Libm} (cut : R -> R) (cfg : config (FA L)) (ns : list (nucleon (FA L))) (x y : R) : R :=
  RBasics.Rsum (fun n => nucleon_profile cut cfg n x y) (filter n_part ns).

(** At most 2^20 nucleons, all of whose participants are near. *)
Definition near_nucleus {L : Libm} (ns : list (nucleon (FA L))) : Prop :=
  (Z.of_nat (length ns) <= 2 ^ 20)%Z /\ forall n, In n ns -> n_part n = true -> near_nucleon n.
