(** Model of src/collider.cxx and src/collider.h. *)
From Verif.Base Require Import Result Arith Rng.
From Verif.Model Require Import Config Nucleon Nucleus Event Files CrossSection Output.

(** collider.h:51-88: the constant members.  The mutable ones (nuclei, event,
    random distributions) are threaded through the functions. *)
Record collider (A : Arith) : Type := Collider {
  co_nc : nucleon_common A;
  co_nevents : Z;
  co_calc_ncoll : bool;
  co_bmin : num A;
  co_bmax : num A;
  co_asym : num A;
  co_writers : list writer
}.
Arguments Collider {A}. Arguments co_nc {A}. Arguments co_nevents {A}.
Arguments co_calc_ncoll {A}. Arguments co_bmin {A}. Arguments co_bmax {A}.
Arguments co_asym {A}. Arguments co_writers {A}.

Section Collider.
Context {A : Arith} (R : Rng A) (sv : Solver A) (bd : build).
Local Open Scope num_scope.

(** collider.cxx:26-31 [create_nucleus]. *)
Definition create_nucleus (f : fs A) (cfg : config A) (index : nat) : result (nucleus A) :=
  match nth_error (projectile cfg) index with
  | Some species => nucleus_create bd f species (nucleon_min_dist cfg)
  | None => Throw (OutOfRange "vector::_M_range_check"%string)
  end.

(** collider.cxx:36-42 [determine_bmax]. *)
Definition determine_bmax (cfg : config A) (nA nB : nucleus A) (nc : nucleon_common A) : num A :=
  let bmax := b_max cfg in
  if bmax <? nlit A 0 0 then radius nA + radius nB + max_impact nc else bmax.

(** collider.cxx:47-55 [determine_asym]. *)
Definition determine_asym (nA nB : nucleus A) : num A :=
  let rA := radius nA in
  let rB := radius nB in
  let sum := rA + rB in
  if sum <? nlit A 1 (-1) then nlit A 5 (-1) else rA / sum.

(** nucleon.cxx:47-49, 260-261: the initial states of the two distributions. *)
Definition gamma_init (cfg : config A) : gstate R :=
  ginit R (fluctuation cfg) (nlit A 1 0 / fluctuation cfg).
Definition normal_init (nc : nucleon_common A) : nstate R :=
  ninit R (nofZ A 0) (nc_sampling_width nc).

(** collider.cxx:61-77 [Collider::Collider]: the members in order of declaration
    (collider.h:51-88), then the seed.  [fuel] bounds the cache-reading loop. *)
Definition collider_new (fuel : nat) (e : env) (cfg : config A)
  : M (sys R) (collider A * nucleus A * nucleus A * event A * nstate R * gstate R) :=
  let* s := get in
  let* nA := lift (create_nucleus (s_fs s) cfg 0) in
  let* nB := lift (create_nucleus (s_fs s) cfg 1) in
  let* sp := partonic_cross_section R sv fuel e cfg in
  let nc := nucleon_common_of cfg sp in
  let* ev := lift (event_new cfg) in
  let* ws := output_new R bd cfg in
  let* _ :=
    (if (0 <? random_seed cfg)%Z
     then fun s' => (Ret tt, Sys (eng_seed R (random_seed cfg)) (s_fs s') (s_out s') (s_err s'))
     else ret tt) in
  ret ({| co_nc := nc; co_nevents := number_events cfg; co_calc_ncoll := ncoll cfg;
          co_bmin := b_min cfg; co_bmax := determine_bmax cfg nA nB nc;
          co_asym := determine_asym nA nB; co_writers := ws |},
       nA, nB, ev, normal_init nc, gamma_init cfg).

(** collider.cxx:118-123: the inner loop: nucleon [a] of A against all of B. *)
Fixpoint pair_row (co : collider A) (a : nucleon A) (bs : list (nucleon A)) (nc : Z) (collision : bool)
  : M (rstate R) (nucleon A * list (nucleon A) * Z * bool) :=
  match bs with
  | [] => ret (a, [], nc, collision)
  | b :: bs' =>
      let* (hit, a', b') := participate R (co_nc co) a b in
      let nc' := if hit && co_calc_ncoll co then (nc + 1)%Z else nc in
      let* (a'', bs'', nc'', collision') := pair_row co a' bs' nc' (hit || collision) in
      ret (a'', b' :: bs'', nc'', collision')
  end.

(** collider.cxx:117-124: all pairs. *)
Fixpoint pair_loop (co : collider A) (As bs : list (nucleon A)) (nc : Z) (collision : bool)
  : M (rstate R) (list (nucleon A) * list (nucleon A) * Z * bool) :=
  match As with
  | [] => ret ([], bs, nc, collision)
  | a :: As' =>
      let* (a', bs', nc', c') := pair_row co a bs nc collision in
      let* (As'', bs'', nc'', c'') := pair_loop co As' bs' nc' c' in
      ret (a' :: As'', bs'', nc'', c'')
  end.

(** collider.cxx:111. *)
Definition sample_b (bmin bmax u : num A) : num A :=
  nsqrt A (bmin * bmin + (bmax * bmax - bmin * bmin) * u).

Definition with_nucleons (nu : nucleus A) (ns : list (nucleon A)) : nucleus A :=
  Nucleus (nu_kind nu) ns (nu_offset nu).

(** collider.cxx:109-125: the do-while loop; [ncoll] is not reset between
    attempts.  [fuel] bounds the number of attempts, [sfuel] the rejection loops
    of the nuclei. *)
Fixpoint collision_loop (fuel sfuel : nat) (co : collider A) (nA nB : nucleus A) (nc : Z)
  : M (rstate R) (num A * Z * nucleus A * nucleus A) :=
  match fuel with
  | O => out_of_fuel
  | S fuel' =>
      let* u := on_eng (draw_canonical R) in
      let b := sample_b (co_bmin co) (co_bmax co) u in
      let* nA1 := on_eng (sample_nucleons R sfuel nA (co_asym co * b)) in
      let* nB1 := on_eng (sample_nucleons R sfuel nB ((co_asym co - nlit A 1 0) * b)) in
      let* (As, Bs, nc', collision) :=
        pair_loop co (nu_nucleons nA1) (nu_nucleons nB1) nc false in
      let nA2 := with_nucleons nA1 As in
      let nB2 := with_nucleons nB1 Bs in
      if collision then ret (b, nc', nA2, nB2)
      else collision_loop fuel' sfuel co nA2 nB2 nc'
  end.

(** collider.cxx:100-128 [sample_collision]. *)
Definition sample_collision (fuel sfuel : nat) (co : collider A) (nA nB : nucleus A)
  : M (rstate R) (num A * Z * nucleus A * nucleus A) :=
  collision_loop fuel sfuel co nA nB 0.

(** The state of the event loop: the outside world and the two distributions. *)
Record run : Type := Run { ru_sys : sys R; ru_norm : nstate R; ru_gamma : gstate R }.

Definition in_rstate {X} (m : M (rstate R) X) : M run X :=
  fun s =>
    let sy := ru_sys s in
    let (r, rs) := m (MkRstate (s_eng sy) (ru_norm s) (ru_gamma s)) in
    (r, Run (Sys (rs_eng rs) (s_fs sy) (s_out sy) (s_err sy)) (rs_norm rs) (rs_gamma rs)).
Definition in_sys {X} (m : M (sys R) X) : M run X :=
  fun s => let (r, sy) := m (ru_sys s) in (r, Run sy (ru_norm s) (ru_gamma s)).

(** collider.cxx:84-97: the body of the event loop for event [n]. *)
Definition one_event (fuel sfuel : nat) (co : collider A) (st : nucleus A * nucleus A * event A) (n : Z)
  : M run (nucleus A * nucleus A * event A) :=
  let '(nA, nB, ev) := st in
  let* (b, nc, nA', nB') := in_rstate (sample_collision fuel sfuel co nA nB) in
  let* ev' := lift (event_compute (debug bd) ev (nu_nucleons nA') (nu_nucleons nB') (co_nc co)) in
  let* _ := in_sys (run_output R (co_writers co) n b nc ev') in
  ret (nA', nB', ev').

(** collider.cxx:82-98 [run_events]. *)
Definition run_events (fuel sfuel : nat) (co : collider A) (nA nB : nucleus A) (ev : event A)
  : M run (nucleus A * nucleus A * event A) :=
  mfold (one_event fuel sfuel co) (zupto (co_nevents co)) (nA, nB, ev).

(** trento.cxx:251-252: construct a Collider and run it. *)
Definition collide (cfuel fuel sfuel : nat) (e : env) (cfg : config A) : M (sys R) unit :=
  let* (co, nA, nB, ev, nst, gst) := collider_new cfuel e cfg in
  fun s =>
    match run_events fuel sfuel co nA nB ev (Run s nst gst) with
    | (Ret _, s') => (Ret tt, ru_sys s')
    | (Throw x, s') => (Throw x, ru_sys s')
    | (UB u, s') => (UB u, ru_sys s')
    | (OutOfFuel, s') => (OutOfFuel, ru_sys s')
    end.

End Collider.
Arguments Run {A R}. Arguments ru_sys {A R}. Arguments ru_norm {A R}. Arguments ru_gamma {A R}.
