(** Invocations of the program. *)
From Coq Require Import ZArith List String.
From Verif.Base Require Import Result Arith Rng.
From Verif.Model Require Import Config Text Files CrossSection Output Main.
From Verif.Spec Require Import Decimal Options CommandLine ConfigFile.
Import ListNotations.
Local Open Scope string_scope.

(** The arguments, with the configuration files they name, ask for a run with
    configuration [cfg]. *)
Definition asks_for {A : Arith} (args : list string) (f : fs A) (cfg : config A) : Prop :=
  exists its named (g : given A) gs total,
  written its args /\ settled word_names its named /\ means named g /\ info g = false /\
  files_say f named (g_config_file g) gs total /\ cfg = effective (g :: gs).

(** One of the configuration files named has a section without a name. *)
Definition nameless_section {A : Arith} (args : list string) (f : fs A) : Prop :=
  exists (g : given A) p n ls l, says args g /\ In p (g_config_file g) /\
  fs_lookup f p = Some n /\ text_lines (readable n) ls /\ In l ls /\ section_line l "".

(** Exit status 1, one message on standard error, and nothing else touched. *)
Definition refused {A : Arith} {R : Rng A} (s : sys R) (r : result Z * sys R) : Prop :=
  exists m, r = (Ret 1%Z, Sys (s_eng s) (s_fs s) (s_out s) (s_err s ++ m ++ newline)).
