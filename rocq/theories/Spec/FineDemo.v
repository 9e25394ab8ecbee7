(** The demonstration run of Demo.v with an exponential that is accurate: fixed
    point arithmetic, 2^54 times halved argument, 54 squarings.  pow is correctly
    rounded (and not called by this run). *)
From Flocq Require Import Core BinarySingleNaN.
From Verif.Base Require Import Result Arith FArith Rng.
From Verif.Model Require Import Config Nucleon Nucleus Event Text Files CrossSection Output Collider Main.
From Verif.Spec Require Import Contract Demo.
Local Open Scope string_scope.

(** The integer part of 2^76 x. *)
Definition fixed76 (x : f64) : Z :=
  match x with
  | B754_finite s m e _ => Z.shiftl (if s then Z.neg m else Z.pos m) (e + 76)
  | _ => 0
  end.
(** Numbers q / 2^130; squaring. *)
Definition square130 (q : Z) : Z := Z.shiftr (q * q) 130.
Definition fine_exp (x : f64) : f64 := f64_mk (Nat.iter 54 square130 (2 ^ 130 + fixed76 x)%Z) (-130).

Definition fine_libm (pow : f64 -> f64 -> f64) : Libm := {|
  m_exp := fine_exp;
  m_log := fun _ => f64_lit (-1) 0;
  m_log10 := fun _ => f64_lit 5 (-1);
  m_pow := pow;
  m_cos := fun _ => f64_lit 6 (-1);
  m_sin := fun _ => f64_lit 8 (-1);
  m_cbrt := fun x => x;
  m_expint := fun x => x;
  m_erfinv := fun x => x
|}.

Section Fine.
Variable pow : f64 -> f64 -> f64.
Definition XA : Arith := FA (fine_libm pow).
Definition fine_rng : Rng XA := toy XA demo_draw.
Definition fine_solver : Solver XA := MkSolver XA (fun S f lo hi _ _ => ret (f64_lit 0 0, f64_lit 0 0)).
Definition fine_config : config XA := {|
  projectile := ["p"; "p"]; number_events := 2; quiet := false; output := Some "out";
  no_header := false; ncoll := true;
  reduced_thickness := nlit XA 0 0; fluctuation := nlit XA 1 0;
  nucleon_width := nlit XA 5 (-1); constit_width := nlit XA 5 (-1); constit_number := 1;
  nucleon_min_dist := nlit XA 0 0; cross_section := nlit XA 64 (-1);
  normalization := nlit XA 1 0; b_min := nlit XA 0 0; b_max := nlit XA 1 0;
  random_seed := 42; grid_max := nlit XA 1 0; grid_step := nlit XA 5 (-1)
|}.
Definition fine_sys : sys fine_rng := @Sys XA fine_rng 0%nat [("/data", Dir)] "" "".
Definition fine_run : result unit * sys fine_rng :=
  collide fine_rng fine_solver demo_build 10 10 10 demo_env fine_config fine_sys.
End Fine.
