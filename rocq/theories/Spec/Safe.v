(** Runs without undefined behaviour: what is asked of the math library, the
    random generator, the root finder, the parameters and the files. *)
From Coq Require Import Reals ZArith List String Permutation.
From Flocq Require Import Core BinarySingleNaN.
From Verif.Base Require Import Result Arith FArith Rng.
From Verif.Model Require Import Config Nucleon Files CrossSection.
From Verif.Spec Require Import Finite Distributions Cache.
Import ListNotations.
Local Open Scope R_scope.

(** A finite double of magnitude at most b. *)
Definition sized (x : f64) (b : R) : Prop := is_finite x = true /\ Rabs (B2R x) <= b.

(** sin and cos of finite doubles are in [-1, 1]; cbrt maps [0, 1] into [0, 2];
    the logarithm of a double in (0, 1] is in [-1024, 0]; log10 of a positive int
    is in [-1024, 1024]. *)
Record tame_libm (L : Libm) : Prop := {
  tl_sin : forall x, is_finite x = true -> sized (m_sin L x) 1;
  tl_cos : forall x, is_finite x = true -> sized (m_cos L x) 1;
  tl_cbrt : forall x, finite_upto x 1 -> finite_upto (m_cbrt L x) 2;
  tl_log : forall x, is_finite x = true -> 0 < B2R x <= 1 ->
           is_finite (m_log L x) = true /\ -1024 <= B2R (m_log L x) <= 0;
  tl_log10 : forall N, (1 <= N <= int_max)%Z -> sized (m_log10 L (f64_ofZ N)) 1024
}.

(** Draws are in their ranges; sort and shuffle permute. *)
Record tame_rng {L : Libm} (rg : Rng (FA L)) : Prop := {
  tr_canonical : forall e, is_finite (fst (canonical rg e) : f64) = true /\ 0 <= B2R (fst (canonical rg e) : f64) < 1;
  tr_pwl : forall n (lo hi : f64) w e, is_finite lo = true -> is_finite hi = true -> B2R lo <= B2R hi ->
           is_finite (fst (pwl rg n lo hi w e) : f64) = true /\
           B2R lo <= B2R (fst (pwl rg n lo hi w e) : f64) <= B2R hi;
  tr_int : forall a b e, (a <= b)%Z -> (a <= fst (unif_int rg a b e) <= b)%Z;
  tr_sort : sort_perm rg;
  tr_shuffle : forall l e, Permutation l (fst (shuffle rg l e))
}.

(** A root finder that does nothing undefined unless the function does. *)
Definition careful {A : Arith} (sv : Solver A) : Prop :=
  forall S (f : num A -> M S (num A)) a b t n,
  (forall x s u, fst (f x s) <> UB u) -> forall s u, fst (toms748 sv S f a b t n s) <> UB u.

(** Parameter values of an everyday run: as in [ordinary], and widths of at most
    512 fm, steps of at least 1/512 fm, at least one grid step on either side of
    the origin, between 1 and 2^31-1 events, a range of impact parameters below
    8192 fm. *)
Record everyday {L : Libm} (cfg : config (FA L)) : Prop := {
  ed_ordinary : ordinary cfg;
  ed_constit : B2R (constit_width cfg : f64) <= 512;
  ed_nucleon : is_finite (nucleon_width cfg : f64) = true /\ bpow radix2 (-20) <= B2R (nucleon_width cfg : f64) <= 512;
  ed_step : / 512 <= B2R (grid_step cfg : f64) <= B2R (grid_max cfg : f64);
  ed_events : (1 <= number_events cfg <= int_max)%Z;
  ed_bmin : is_finite (b_min cfg : f64) = true /\ Bsign (b_min cfg : f64) = false /\
            (B2R (b_min cfg : f64) = 0 \/ bpow radix2 (-500) <= B2R (b_min cfg : f64));
  ed_bmax : is_finite (b_max cfg : f64) = true /\
            ((B2R (b_max cfg : f64) < 0 /\ B2R (b_min cfg : f64) <= 5 * B2R (nucleon_width cfg : f64)) \/
             (Bsign (b_max cfg : f64) = false /\ B2R (b_min cfg : f64) <= B2R (b_max cfg : f64) <= 8192 /\
              (B2R (b_max cfg : f64) = 0 \/ bpow radix2 (-500) <= B2R (b_max cfg : f64))))
}.

(** Constituents are drawn at most 8192 fm from the nucleon's centre. *)
Definition near_constituents {L : Libm} (rg : Rng (FA L)) (cfg : config (FA L)) : Prop :=
  forall x, from_normal rg (nofZ (FA L) 0)
              (calc_sampling_width (nucleon_width cfg) (constit_width cfg) (constit_number cfg)) x -> sized x 8192.

(** If a projectile is a deuteron, no canonical draw is zero. *)
Definition no_zero_draw {L : Libm} (rg : Rng (FA L)) (cfg : config (FA L)) : Prop :=
  In "d"%string (projectile cfg) -> forall e, 0 < B2R (fst (canonical rg e) : f64).

(** An HDF5 file of nucleon positions: if it holds a single dataset, that has at
    most three dimensions; if it has three, it holds at least one nucleon, as many
    numbers as its dimensions say, and all of them are of at most 1024 fm. *)
Definition good_positions {L : Libm} (f : fs (FA L)) (path : string) : Prop :=
  forall name ds, fs_lookup f path = Some (H5File [(name, ODataset ds)]) ->
  (length (ds_dims ds) <= 3)%nat /\
  forall nconf nnuc, ds_dims ds = [nconf; nnuc; 3%Z] ->
    (0 <= nconf <= size_max)%Z /\ (1 <= nnuc)%Z /\ (3 * (nconf * nnuc) <= Z.of_nat (length (ds_data ds)))%Z /\
    forall x : f64, In x (ds_data ds) -> is_finite x = true /\ Rabs (B2R x) <= 1024.

Definition good_projectiles {L : Libm} (f : fs (FA L)) (cfg : config (FA L)) : Prop :=
  forall p, In p (projectile cfg) -> filename_is_hdf5 p = true -> good_positions f p.

(** The environment names a data directory; the cache file, if there is one, is a
    text file with at least one entry, all of them well-formed (reading an empty
    cache file is undefined, see C39). *)
Definition good_cache {A : Arith} (e : env) (f : fs A) : Prop :=
  exists dh, data_dir e = Some dh /\
  forall n, fs_lookup f (cache_file dh) = Some n -> exists es t, n = File t /\ cache_text es t.

(** The exceptions that may end a run once the Collider is constructed: a debug
    build's std::out_of_range, and the HDF5 library's, if a projectile or the
    output is an HDF5 file. *)
Definition event_exception {L : Libm} (bd : build) (cfg : config (FA L)) (x : exn) : Prop :=
  match x with
  | OutOfRange _ => debug bd = true
  | H5Exception _ => with_hdf5 bd = true /\
      exists p, (output cfg = Some p \/ In p (projectile cfg)) /\ filename_is_hdf5 p = true
  | _ => False
  end.
