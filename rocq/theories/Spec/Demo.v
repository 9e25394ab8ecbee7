(** A small complete run in binary64 arithmetic, computed by the kernel.  It is
    used as the concrete instance that meets the hypotheses of the theorems about
    finished runs.  The mathematical functions are deliberately crude (they only
    have to be functions); the generator is [toy]. *)
From Flocq Require Import Core BinarySingleNaN.
From Verif.Base Require Import Result Arith FArith Rng.
From Verif.Model Require Import Config Nucleon Nucleus Event Text Files CrossSection Output Collider Main.
From Verif.Spec Require Import Contract.
Local Open Scope string_scope.

Definition demo_libm : Libm := {|
  m_exp := fun x => f64_div (f64_lit 1 0) (f64_sub (f64_lit 1 0) x);
  m_log := fun _ => f64_lit (-1) 0;
  m_log10 := fun _ => f64_lit 5 (-1);
  m_pow := fun x _ => x;
  m_cos := fun _ => f64_lit 6 (-1);
  m_sin := fun _ => f64_lit 8 (-1);
  m_cbrt := fun x => x;
  m_expint := fun x => x;
  m_erfinv := fun x => x
|}.

Definition DA : Arith := FA demo_libm.

(** canonical draws 0.5, 0.9, 0.1, 0.9, 0.7, 0.5, ... *)
Definition demo_draw (k : nat) : f64 :=
  f64_lit (nth (Nat.modulo k 5) [5; 9; 1; 9; 7]%Z 5%Z) (-1).
Definition demo_rng : Rng DA := toy DA demo_draw.

Definition demo_solver : Solver DA :=
  MkSolver DA (fun S f lo hi _ _ => ret (f64_lit 0 0, f64_lit 0 0)).

Definition demo_config : config DA := {|
  projectile := ["d"; "p"]; number_events := 2; quiet := false; output := Some "out";
  no_header := false; ncoll := true;
  reduced_thickness := nlit DA 0 0; fluctuation := nlit DA 1 0;
  nucleon_width := nlit DA 5 (-1); constit_width := nlit DA 5 (-1); constit_number := 1;
  nucleon_min_dist := nlit DA 0 0; cross_section := nlit DA 64 (-1);
  normalization := nlit DA 1 0; b_min := nlit DA 0 0; b_max := nlit DA 1 0;
  random_seed := 42; grid_max := nlit DA 1 0; grid_step := nlit DA 5 (-1)
|}.

Definition demo_env : env := Env (Some "/data") None.
Definition demo_sys : sys demo_rng := @Sys DA demo_rng 0%nat [("/data", Dir)] "" "".
Definition demo_build : build := Build true false.
Definition demo_run : result unit * sys demo_rng :=
  collide demo_rng demo_solver demo_build 10 10 10 demo_env demo_config demo_sys.
