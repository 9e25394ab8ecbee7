(** The typed option values that the rest of the program reads from the
    [var_map] (declared in src/trento.cxx:69-150), and build-time switches. *)
From Verif.Base Require Import Result Arith.

Record config (A : Arith) : Type := Config {
  projectile : list string;       (* trento.cxx:70 *)
  number_events : Z;              (* trento.cxx:77, int *)
  quiet : bool;                   (* trento.cxx:98 *)
  output : option string;         (* trento.cxx:100 *)
  no_header : bool;               (* trento.cxx:102 *)
  ncoll : bool;                   (* trento.cxx:104 *)
  reduced_thickness : num A;      (* trento.cxx:109 *)
  fluctuation : num A;            (* trento.cxx:112 *)
  nucleon_width : num A;          (* trento.cxx:115 *)
  constit_width : num A;          (* trento.cxx:118 *)
  constit_number : Z;             (* trento.cxx:121, int *)
  nucleon_min_dist : num A;       (* trento.cxx:124 *)
  cross_section : num A;          (* trento.cxx:127 *)
  normalization : num A;          (* trento.cxx:130 *)
  b_min : num A;                  (* trento.cxx:133 *)
  b_max : num A;                  (* trento.cxx:136 *)
  random_seed : Z;                (* trento.cxx:139, int64_t *)
  grid_max : num A;               (* trento.cxx:145 *)
  grid_step : num A               (* trento.cxx:148 *)
}.
Arguments Config {A}.
Arguments projectile {A}. Arguments number_events {A}. Arguments quiet {A}.
Arguments output {A}. Arguments no_header {A}. Arguments ncoll {A}.
Arguments reduced_thickness {A}. Arguments fluctuation {A}. Arguments nucleon_width {A}.
Arguments constit_width {A}. Arguments constit_number {A}. Arguments nucleon_min_dist {A}.
Arguments cross_section {A}. Arguments normalization {A}. Arguments b_min {A}.
Arguments b_max {A}. Arguments random_seed {A}. Arguments grid_max {A}. Arguments grid_step {A}.

(** Build-time switches: TRENTO_HDF5 defined; NDEBUG not defined. *)
Record build : Type := Build { with_hdf5 : bool; debug : bool }.
