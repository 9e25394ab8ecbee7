(** Effective option values. *)
From Verif.Base Require Import Result Arith Rng.
From Verif.Model Require Import Config Text Files CrossSection Main.
Local Open Scope string_scope.

(** The value in the first source that gives one, else the default. *)
Fixpoint first_of {S X} (given_by : S -> option X) (sources : list S) (default : X) : X :=
  match sources with
  | [] => default
  | s :: rest => match given_by s with Some x => x | None => first_of given_by rest default end
  end.

(** The same for an option without default. *)
Fixpoint first_opt {S X} (given_by : S -> option X) (sources : list S) : option X :=
  match sources with
  | [] => None
  | s :: rest => match given_by s with Some x => Some x | None => first_opt given_by rest end
  end.

(** The projectiles a source gives, if any. *)
Definition projectiles_of {A} (g : given A) : option (list string) :=
  match g_projectile g with [] => None | ps => Some ps end.

(** The effective configuration for the given sources (highest priority first),
    with the documented defaults. *)
Definition effective {A} (gs : list (given A)) : config A :=
  let w := first_of g_nucleon_width gs (nlit A 5 (-1)) in {|
    projectile := match first_opt projectiles_of gs with Some ps => ps | None => [] end;
    number_events := first_of g_number_events gs 1%Z;
    quiet := first_of g_quiet gs false;
    output := first_opt g_output gs;
    no_header := first_of g_no_header gs false;
    ncoll := first_of g_ncoll gs false;
    reduced_thickness := first_of g_reduced_thickness gs (nlit A 0 0);
    fluctuation := first_of g_fluctuation gs (nlit A 1 0);
    nucleon_width := w;
    constit_width := first_of g_constit_width gs w;
    constit_number := first_of g_constit_number gs 1%Z;
    nucleon_min_dist := first_of g_nucleon_min_dist gs (nlit A 0 0);
    cross_section := first_of g_cross_section gs (nlit A 64 (-1));
    normalization := first_of g_normalization gs (nlit A 1 0);
    b_min := first_of g_b_min gs (nlit A 0 0);
    b_max := first_of g_b_max gs (nneg A (nlit A 1 0));
    random_seed := first_of g_random_seed gs (-1)%Z;
    grid_max := first_of g_grid_max gs (nlit A 10 0);
    grid_step := first_of g_grid_step gs (nlit A 2 (-1)) |}.

(** A request to print something and stop. *)
Definition info {A} (g : given A) : bool := g_help g || g_version g || g_bibtex g.
Definition info_text {A} (tx : texts (A:=A)) (g : given A) : string :=
  if g_help g then usage_str ++ help_text tx
  else if g_version g then version_text tx
  else bibtex_text tx.

(** All named config files exist and parse, to [gs] in order. *)
Definition config_files {A} (tx : texts (A:=A)) (f : fs A) (paths : list string) (gs : list (given A)) : Prop :=
  Forall2 (fun p g => exists n, fs_lookup f p = Some n /\ parse_config tx (file_text n) = Ret g) paths gs.

(** The configuration with which the program runs. *)
Definition runs_with {A} (tx : texts (A:=A)) (f : fs A) (cmd : result (given A)) (cfg : config A) : Prop :=
  exists g gs, cmd = Ret g /\ config_files tx f (g_config_file g) gs /\ cfg = effective (g :: gs).

(** Widths and projectiles the program accepts ([<] of the arithmetic: NaN
    compares false). *)
Definition below {A} (x y : num A) : Prop := nltb A x y = true.
Definition widths_bad {A} (cfg : config A) : Prop :=
  below (nucleon_width cfg) (nofZ A 0) \/ below (constit_width cfg) (nofZ A 0) \/
  below (nucleon_width cfg) (constit_width cfg) \/
  (below (constit_width cfg) (nucleon_width cfg) /\ constit_number cfg = 1%Z).
Definition accepted {A} (cfg : config A) : Prop :=
  ~ widths_bad cfg /\ length (projectile cfg) = 2%nat.

(** How the outcome of a run (after option handling) becomes the outcome of the
    process: standard exceptions are reported on stderr and give exit status 1;
    an HDF5 library exception escapes. *)
Inductive exit_of {A} {R : Rng A} : result unit * sys R -> result Z * sys R -> Prop :=
| exit_ok : forall s, exit_of (Ret tt, s) (Ret 0%Z, s)
| exit_std : forall x s m, (forall h, x <> H5Exception h) ->
    exit_of (Throw x, s) (Ret 1%Z, Sys (s_eng s) (s_fs s) (s_out s) (s_err s ++ m ++ newline))
| exit_h5 : forall m s, exit_of (Throw (H5Exception m), s) (Throw (H5Exception m), s)
| exit_ub : forall u s, exit_of (UB u, s) (UB u, s)
| exit_fuel : forall s, exit_of (OutOfFuel, s) (OutOfFuel, s).
