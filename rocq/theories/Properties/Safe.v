(** C68: a whole run - construction, every event, every writer - executes no
    undefined behaviour, in IEEE-754 binary64 arithmetic. *)
From Coq Require Import ZArith Reals Lra Lia Bool List String.
From Flocq Require Import Core BinarySingleNaN.
From Verif.Base Require Import Result Arith FArith Rng.
From Verif.Model Require Import Config Nucleon Nucleus Event Files CrossSection Output Collider Main.
From Verif.Spec Require Import Finite Distributions Safe.
From Verif.Proof Require Import SafeP SafeRun SafeNew.
From Verif.Properties Require Import ImpactIeee ThicknessIeee.
Import ListNotations.
Local Open Scope R_scope.

(** Once the Collider is constructed, its run finishes (or is still running), or
    ends with one of the listed exceptions. *)
Theorem C68_events :
  forall (L : Libm) (rg : Rng (FA L)) (sv : Solver (FA L)) (bd : build) cfuel fuel sfuel (e : env) (cfg : config (FA L)) (s : sys rg)
         co nA nB ev nst gst s1,
  tame_libm L -> tame_rng rg -> careful sv -> everyday cfg -> near_constituents rg cfg -> no_zero_draw rg cfg ->
  good_cache e (s_fs s) -> good_projectiles (s_fs s) cfg ->
  collider_new rg sv bd cfuel e cfg s = (Ret (co, nA, nB, ev, nst, gst), s1) ->
  match fst (run_events rg bd fuel sfuel co nA nB ev (Run s1 nst gst)) with
  | Ret _ | OutOfFuel => True
  | Throw x => event_exception bd cfg x
  | UB _ => False
  end.
Proof.
  intros L rg sv bd cfuel fuel sfuel e cfg s co nA nB ev nst gst s1 TL TR CS Ed NC NZ GC GP H.
  pose proof (collider_fine TL rg TR sv CS bd cfg Ed cfuel e s GC GP NZ) as O. rewrite H in O. cbn [fst outcome] in O.
  destruct O as (St & Qw & MA & MB & He & ->).
  destruct (safe_events TL rg TR (event_exception bd cfg) cfg Ed NC bd (fun D m => D) fuel sfuel co nA nB ev St Qw MA MB He
    (Run s1 (ninit rg (nofZ (FA L) 0) (sw cfg)) gst)) as [O _].
  - apply normal_new.
  - destruct (fst _); cbn [outcome] in O; auto.
Qed.

(** The whole program run: no undefined behaviour, in debug and release builds,
    for every amount of work it has done so far. *)
Theorem C68_run :
  forall (L : Libm) (rg : Rng (FA L)) (sv : Solver (FA L)) (bd : build) cfuel fuel sfuel (e : env) (cfg : config (FA L)) (s : sys rg) u,
  tame_libm L -> tame_rng rg -> careful sv -> everyday cfg -> near_constituents rg cfg -> no_zero_draw rg cfg ->
  good_cache e (s_fs s) -> good_projectiles (s_fs s) cfg ->
  fst (collide rg sv bd cfuel fuel sfuel e cfg s) <> UB u.
Proof.
  intros L rg sv bd cfuel fuel sfuel e cfg s u TL TR CS Ed NC NZ GC GP.
  pose proof (collider_fine TL rg TR sv CS bd cfg Ed cfuel e s GC GP NZ) as O.
  unfold collide, bind. destruct (collider_new rg sv bd cfuel e cfg s) as [[[[[[[co nA] nB] ev] nst] gst]|x|u0|] s1] eqn:H; cbn [fst outcome] in O; try discriminate; [|contradiction].
  pose proof (C68_events L rg sv bd cfuel fuel sfuel e cfg s co nA nB ev nst gst s1 TL TR CS Ed NC NZ GC GP H) as K.
  destruct (run_events rg bd fuel sfuel co nA nB ev (Run s1 nst gst)) as [[x|x|u1|] s2]; cbn [fst] in *; try discriminate. contradiction.
Qed.

(** A release build without HDF5 files: the events of a constructed Collider are
    all computed and written, with no exception. *)
Theorem C68_release :
  forall (L : Libm) (rg : Rng (FA L)) (sv : Solver (FA L)) (bd : build) cfuel fuel sfuel (e : env) (cfg : config (FA L)) (s : sys rg)
         co nA nB ev nst gst s1,
  tame_libm L -> tame_rng rg -> careful sv -> everyday cfg -> near_constituents rg cfg -> no_zero_draw rg cfg ->
  good_cache e (s_fs s) ->
  debug bd = false -> (forall p, In p (projectile cfg) \/ output cfg = Some p -> filename_is_hdf5 p = false) ->
  collider_new rg sv bd cfuel e cfg s = (Ret (co, nA, nB, ev, nst, gst), s1) ->
  let r := fst (run_events rg bd fuel sfuel co nA nB ev (Run s1 nst gst)) in
  r = OutOfFuel \/ exists st, r = Ret st.
Proof.
  intros L rg sv bd cfuel fuel sfuel e cfg s co nA nB ev nst gst s1 TL TR CS Ed NC NZ GC D NH H r.
  assert (GP : good_projectiles (s_fs s) cfg) by (intros p Hp Hh; rewrite NH in Hh by auto; discriminate).
  pose proof (C68_events L rg sv bd cfuel fuel sfuel e cfg s co nA nB ev nst gst s1 TL TR CS Ed NC NZ GC GP H) as K. fold r in K.
  destruct r as [st|x|u|]; [eauto| |contradiction|auto]. exfalso. destruct x; cbn [event_exception] in K; try contradiction.
  - congruence.
  - destruct K as (_ & p & Hp & Hh). rewrite NH in Hh by (destruct Hp; auto). discriminate.
Qed.

(** ** The command line "trento pA pB [N]" *)

(** Options -q -o --no-header --ncoll -k -d -x -r may be given; the others have
    their defaults. *)
Definition plain_options {A : Arith} (pA pB : string) (N : option Z) (q : option bool) (out : option string) (nh nc : option bool)
    (k dmin sigma : option (num A)) (seed : option Z) : given A :=
  {| g_help := false; g_version := false; g_bibtex := false; g_config_file := []; g_projectile := [pA; pB]; g_number_events := N;
     g_quiet := q; g_output := out; g_no_header := nh; g_ncoll := nc; g_reduced_thickness := None; g_fluctuation := k;
     g_nucleon_width := None; g_constit_width := None; g_constit_number := None; g_nucleon_min_dist := dmin; g_cross_section := sigma;
     g_normalization := None; g_b_min := None; g_b_max := None; g_random_seed := seed; g_grid_max := None; g_grid_step := None |}.

Definition plain_config {A : Arith} pA pB N q out nh nc k dmin sigma seed : config A :=
  config_of (fix_constit_width (store (plain_options pA pB N q out nh nc k dmin sigma seed) varmap_empty)).

Lemma lit_2 : B2R (f64_lit 2 (-1)) > / 6 /\ B2R (f64_lit 2 (-1)) < 1 /\ is_finite (f64_lit 2 (-1)) = true.
Proof.
  rewrite (B2R_SF _ (SpecFloat.S754_finite false 7205759403792794 (-55))) by (vm_compute; reflexivity).
  unfold SF2R, F2R. cbn [cond_Zopp Fnum Fexp]. change (bpow radix2 (-55)) with (/ 36028797018963968).
  split; [lra|]. split; [lra|vm_compute; reflexivity].
Qed.
Lemma lit_10 : B2R (f64_lit 10 0) = 10 /\ is_finite (f64_lit 10 0) = true.
Proof.
  rewrite (B2R_SF _ (SpecFloat.S754_finite false 5629499534213120 (-49))) by (vm_compute; reflexivity).
  unfold SF2R, F2R. cbn [cond_Zopp Fnum Fexp]. change (bpow radix2 (-49)) with (/ 562949953421312).
  split; [lra|vm_compute; reflexivity].
Qed.

Lemma default_everyday (L : Libm) (cfg : config (FA L)) :
  constit_width cfg = f64_lit 5 (-1) -> constit_number cfg = 1%Z -> reduced_thickness cfg = f64_lit 0 0 -> normalization cfg = f64_lit 1 0 ->
  grid_max cfg = f64_lit 10 0 -> grid_step cfg = f64_lit 2 (-1) -> nucleon_width cfg = f64_lit 5 (-1) -> (1 <= number_events cfg <= int_max)%Z ->
  b_min cfg = f64_lit 0 0 -> b_max cfg = Bopp (f64_lit 1 0) -> everyday cfg.
Proof.
  intros E1 E2 E3 E4 E5 E6 E7 HN E8 E9. destruct half_v as [Fh Vh]. pose proof B2R_one as V1. pose proof B2R_zero as V0.
  destruct lit_2 as (W1 & W2 & F2). destruct lit_10 as [V10 F10].
  assert (F1 : is_finite (f64_lit 1 0) = true) by (vm_compute; reflexivity).
  assert (F0 : is_finite (f64_lit 0 0) = true) by (vm_compute; reflexivity).
  assert (S0 : Bsign (f64_lit 0 0) = false) by (vm_compute; reflexivity).
  assert (Fo : is_finite (Bopp (f64_lit 1 0)) = true) by (vm_compute; reflexivity).
  assert (Vo : B2R (Bopp (f64_lit 1 0)) = - 1) by (rewrite B2R_Bopp, V1; reflexivity).
  assert (P20 : bpow radix2 (-20) = / 1048576) by reflexivity.
  assert (P4 : bpow radix2 (-400) <= bpow radix2 (-20)) by (apply bpow_le; lia).
  assert (P2 : bpow radix2 0 <= bpow radix2 200) by (apply bpow_le; lia). change (bpow radix2 0) with 1 in P2.
  assert (PN : bpow radix2 0 <= bpow radix2 50) by (apply bpow_le; lia). change (bpow radix2 0) with 1 in PN.
  constructor; [constructor| | | | | |]; unfold finite_upto; rewrite ?E1, ?E2, ?E3, ?E4, ?E5, ?E6, ?E7, ?E8, ?E9, ?Vo, ?Vh, ?V1, ?V0, ?V10, ?P20.
  - split; [exact Fh|lra].
  - lia.
  - split; [exact F0|rewrite Rabs_R0; lra].
  - split; [exact F1|lra].
  - split; [exact F10|]. split; [exact F2|]. lra.
  - lra.
  - split; [exact Fh|lra].
  - lra.
  - exact HN.
  - split; [exact F0|]. split; [exact S0|left; reflexivity].
  - split; [exact Fo|]. left. lra.
Qed.

Lemma plain_everyday (L : Libm) pA pB N q out nh nc (k dmin sigma : option (num (FA L))) seed :
  (match N with Some n => 1 <= n <= int_max | None => True end)%Z ->
  everyday (plain_config pA pB N q out nh nc k dmin sigma seed : config (FA L)).
Proof.
  intros HN. apply default_everyday; try reflexivity. destruct N; [exact HN|]. vm_compute. split; discriminate.
Qed.

(** main turns every exception into an exit status; it adds no undefined behaviour. *)
Lemma main_no_ub {A : Arith} (rg : Rng A) (sv : Solver A) (bd : build) (tx : texts (A:=A)) cfuel fuel sfuel (e : env) g (s : sys rg) u :
  fst (main_body rg sv bd tx cfuel fuel sfuel e g s) <> UB u ->
  fst (main rg sv bd tx cfuel fuel sfuel e g s) <> UB u.
Proof.
  intros H. unfold main. destruct (main_body rg sv bd tx cfuel fuel sfuel e g s) as [r s'].
  cbn [fst] in H. destruct r as [y|x|u0|].
  - discriminate.
  - destruct x; discriminate.
  - exact (fun C => H (f_equal (fun r => match r with UB z => UB z | _ => OutOfFuel end) C)).
  - discriminate.
Qed.

(** "trento pA pB [N]" with any of those options: no undefined behaviour. *)
Theorem C68_main :
  forall (L : Libm) (rg : Rng (FA L)) (sv : Solver (FA L)) (bd : build) (tx : texts (A:=FA L)) cfuel fuel sfuel (e : env) (s : sys rg)
         pA pB N q out nh nc k dmin sigma seed u,
  tame_libm L -> tame_rng rg -> careful sv ->
  (forall x, from_normal rg (nofZ (FA L) 0) (nlit (FA L) 0 0) x -> sized x 8192) ->
  (pA = "d" \/ pB = "d" -> forall e, 0 < B2R (fst (canonical rg e) : f64))%string ->
  (match N with Some n => 1 <= n <= int_max | None => True end)%Z ->
  good_cache e (s_fs s) ->
  (filename_is_hdf5 pA = true -> good_positions (s_fs s) pA) -> (filename_is_hdf5 pB = true -> good_positions (s_fs s) pB) ->
  fst (main rg sv bd tx cfuel fuel sfuel e (Ret (plain_options pA pB N q out nh nc k dmin sigma seed)) s) <> UB u.
Proof.
  intros L rg sv bd tx cfuel fuel sfuel e s pA pB N q out nh nc k dmin sigma seed u TL TR CS NC NZ HN GC GA GB.
  pose proof (plain_everyday L pA pB N q out nh nc k dmin sigma seed HN) as Ed.
  set (cfg := plain_config pA pB N q out nh nc k dmin sigma seed : config (FA L)) in *.
  assert (Np : near_constituents rg cfg).
  { intros x Hx. apply NC. unfold calc_sampling_width in Hx. change (constit_number cfg) with 1%Z in Hx. cbn [Z.eqb Pos.eqb orb] in Hx. exact Hx. }
  assert (Nz : no_zero_draw rg cfg).
  { intros H. apply NZ. change (projectile cfg) with [pA; pB] in H. destruct H as [H|[H|[]]]; auto. }
  assert (Gp : good_projectiles (s_fs s) cfg).
  { intros p Hp. change (projectile cfg) with [pA; pB] in Hp. destruct Hp as [<-|[<-|[]]]; auto. }
  assert (B : main_body rg sv bd tx cfuel fuel sfuel e (Ret (plain_options pA pB N q out nh nc k dmin sigma seed)) s
              = collide rg sv bd cfuel fuel sfuel e cfg s).
  { assert (V : validate cfg = Ret tt).
    { unfold validate. change (nucleon_width cfg) with (f64_lit 5 (-1)). change (constit_width cfg) with (f64_lit 5 (-1)).
      change (nltb (FA L) (f64_lit 5 (-1)) (nofZ (FA L) 0)) with (f64_ltb (f64_lit 5 (-1)) (f64_ofZ 0)).
      change (nltb (FA L) (f64_lit 5 (-1)) (f64_lit 5 (-1))) with (f64_ltb (f64_lit 5 (-1)) (f64_lit 5 (-1))).
      replace (f64_ltb (f64_lit 5 (-1)) (f64_ofZ 0)) with false by (vm_compute; reflexivity).
      replace (f64_ltb (f64_lit 5 (-1)) (f64_lit 5 (-1))) with false by (vm_compute; reflexivity). reflexivity. }
    unfold main_body. unfold bind at 1. unfold lift at 1. cbn [plain_options g_help g_version g_bibtex g_config_file].
    unfold merge_config. cbn [mfold]. unfold bind at 1. unfold ret at 1. cbv beta iota zeta.
    change (config_of (fix_constit_width (store _ varmap_empty))) with cfg. rewrite V. reflexivity. }
  apply (main_no_ub rg sv bd tx cfuel fuel sfuel e _ s u). rewrite B.
  exact (C68_run L rg sv bd cfuel fuel sfuel e cfg s u TL TR CS Ed Np Nz GC Gp).
Qed.
