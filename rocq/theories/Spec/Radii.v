(** The Woods-Saxon distribution of radii. *)
From Coq Require Import Reals.
From Verif.Base Require Import Result Arith RArith Rng.
Local Open Scope R_scope.

(** Density at radius r of a nucleus of radius R and surface thickness a: the
    Fermi function times the area of the sphere, up to a constant. *)
Definition fermi_density (R a r : RbaseSymbolsImpl.R) : RbaseSymbolsImpl.R := r ^ 2 / (1 + exp ((r - R) / a)).

(** A draw from the distribution whose density interpolates that function at 1001
    equidistant points of [0, R + 10 a]. *)
Definition woods_saxon_draw (rg : Rng RA) (R a : RbaseSymbolsImpl.R) (e : engine rg) : result RbaseSymbolsImpl.R * engine rg :=
  let (r, e') := pwl rg 1000 0 (R + 10 * a) (fermi_density R a) e in (Ret r, e').
