(** C69: the command line, for every arithmetic, every list of arguments. *)
From Coq Require Import Ascii.
From Verif.Base Require Import Result Arith FArith Rng.
From Verif.Model Require Import Config Text Files CrossSection Output Collider Main CommandLine.
From Verif.Spec Require Import Decimal Collision Contract Options CommandLine.
From Verif.Proof Require Import Basics TextP OptionsP CommandLineP CastP CommandLine2P.
From Verif.Properties Require Import Options.
Local Open Scope string_scope.

(** The program reads exactly the command lines of the grammar, and reads what they say. *)
Theorem C69_reads : forall (A : Arith) (args : list string) (g : given A),
  command_line args = Ret g <-> says args g.
Proof. intros A args g. apply reads. Qed.

(** No command line says two things. *)
Theorem C69_unambiguous : forall (A : Arith) (args : list string) (g1 g2 : given A), says args g1 -> says args g2 -> g1 = g2.
Proof. intros A args g1 g2 H1 H2. apply reads in H1, H2. congruence. Qed.

Section Program.
Context {A : Arith} {R : Rng A} (sv : Solver A) (bd : build) (tx : texts (A:=A)).

Lemma trento_main cfuel fuel sfuel e args g (s : sys R) : command_line args = Ret g -> g_config_file g = [] ->
  trento R sv bd tx cfuel fuel sfuel e args s = main R sv bd tx cfuel fuel sfuel e (Ret g) s.
Proof.
  intros E C. unfold trento, main. assert (B : trento_body R sv bd tx cfuel fuel sfuel e args s = main_body R sv bd tx cfuel fuel sfuel e (Ret g) s); [|rewrite B; reflexivity].
  unfold trento_body, main_body. rewrite E. unfold bind at 1, lift at 1. cbv zeta. symmetry. unfold bind at 1, lift at 1. rewrite C. reflexivity.
Qed.

Lemma trento_info cfuel fuel sfuel e args g (s : sys R) : command_line args = Ret g -> info g = true ->
  trento R sv bd tx cfuel fuel sfuel e args s = main R sv bd tx cfuel fuel sfuel e (Ret g) s.
Proof.
  intros E C. unfold trento, main. assert (B : trento_body R sv bd tx cfuel fuel sfuel e args s = main_body R sv bd tx cfuel fuel sfuel e (Ret g) s); [|rewrite B; reflexivity].
  unfold trento_body, main_body. rewrite E. unfold bind at 1, lift at 1. cbv zeta. symmetry. unfold bind at 1, lift at 1. unfold info in C.
  destruct (g_help g); [reflexivity|]. destruct (g_version g); [reflexivity|]. cbn [orb] in C. rewrite C. reflexivity.
Qed.

Lemma trento_throws cfuel fuel sfuel e args m (s : sys R) : command_line (A:=A) args = Throw (PoError m) ->
  trento R sv bd tx cfuel fuel sfuel e args s = (Ret 1%Z, Sys (s_eng s) (s_fs s) (s_out s) (s_err s ++ m ++ newline)).
Proof.
  intros E. unfold trento. assert (B : trento_body R sv bd tx cfuel fuel sfuel e args s = (Throw (PoError m), s)); [|rewrite B; reflexivity].
  unfold trento_body. rewrite E. reflexivity.
Qed.
End Program.

(** A command line with acceptable values runs the events with them (and the defaults). *)
Theorem C69_runs : forall (A : Arith) (R : Rng A) sv bd tx cfuel fuel sfuel e args g (s : sys R),
  says args g -> g_config_file g = [] -> info g = false -> accepted (effective [g]) ->
  exit_of (collide R sv bd cfuel fuel sfuel e (effective [g]) s) (trento R sv bd tx cfuel fuel sfuel e args s).
Proof.
  intros A R sv bd tx cfuel fuel sfuel e args g s H C Hi Ha. apply reads in H. rewrite (trento_main sv bd tx cfuel fuel sfuel e args g s H C).
  apply C48_precedence; [exact Hi|rewrite C; constructor|exact Ha].
Qed.

(** A request for information prints it and does nothing else. *)
Theorem C69_information : forall (A : Arith) (R : Rng A) sv bd tx cfuel fuel sfuel e args g (s : sys R),
  says args g -> info g = true ->
  trento R sv bd tx cfuel fuel sfuel e args s = (Ret 0%Z, Sys (s_eng s) (s_fs s) (s_out s ++ info_text tx g) (s_err s)).
Proof.
  intros A R sv bd tx cfuel fuel sfuel e args g s H Hi. apply reads in H. rewrite (trento_info sv bd tx cfuel fuel sfuel e args g s H Hi).
  unfold main. rewrite (body_info sv bd tx cfuel fuel sfuel e g s Hi). reflexivity.
Qed.

(** Any other command line is refused: status 1, one message, nothing else touched. *)
Theorem C69_refused : forall (A : Arith) (R : Rng A) sv bd tx cfuel fuel sfuel e args (s : sys R),
  (forall g : given A, ~ says args g) ->
  exists m, trento R sv bd tx cfuel fuel sfuel e args s = (Ret 1%Z, Sys (s_eng s) (s_fs s) (s_out s) (s_err s ++ m ++ newline)).
Proof.
  intros A R sv bd tx cfuel fuel sfuel e args s H. pose proof (tame_command_line (A:=A) args) as T. destruct (command_line (A:=A) args) as [g|x|u|] eqn:E.
  - exfalso. apply (H g). apply reads, E.
  - destruct x; try contradiction. eexists. apply trento_throws, E.
  - contradiction.
  - contradiction.
Qed.

(** Options may be given in any order, before or after the projectiles. *)
Theorem C69_any_order : forall (A : Arith) its1 its2 args1 args2 (g : given A),
  written its1 args1 -> written its2 args2 -> same_settings its1 its2 ->
  (says args1 g <-> says args2 g).
Proof.
  assert (H : forall (A : Arith) its1 its2 args1 args2 (g : given A), written its1 args1 -> written its2 args2 -> same_settings its1 its2 -> says args1 g -> says args2 g).
  { intros A its1 its2 args1 args2 g W1 W2 S (its & named & W & St & M). rewrite (written_unique _ _ _ W W1) in St. destruct (same_settled _ _ _ S St) as (named2 & St2 & E).
    exists its2, named2. split; [exact W2|]. split; [exact St2|]. exact (means_same _ _ g E M). }
  intros A its1 its2 args1 args2 g W1 W2 [S1 S2]. split; [apply (H A its1 its2)|apply (H A its2 its1)]; try assumption; split; auto.
Qed.

Theorem C69_any_order_runs : forall (A : Arith) (R : Rng A) sv bd tx cfuel fuel sfuel e its1 its2 args1 args2 (g : given A) (s : sys R),
  written its1 args1 -> written its2 args2 -> same_settings its1 its2 -> says args1 g ->
  trento R sv bd tx cfuel fuel sfuel e args1 s = trento R sv bd tx cfuel fuel sfuel e args2 s.
Proof.
  intros A R sv bd tx cfuel fuel sfuel e its1 its2 args1 args2 g s W1 W2 S H. pose proof (proj1 (C69_any_order A its1 its2 args1 args2 g W1 W2 S) H) as H2.
  apply reads in H, H2. unfold trento, trento_body. rewrite H, H2. reflexivity.
Qed.

(** "--name value", "--name=value", "-c value" and "-cvalue" mean the same, anywhere. *)
Theorem C69_forms : forall (A : Arith) its before n v toks1 toks2 after (g : given A),
  spelled its before -> is_option n -> with_value n true -> gives n v toks1 -> gives n v toks2 ->
  (says (before ++ toks1 ++ after) g <-> says (before ++ toks2 ++ after) g).
Proof.
  intros A its before n v toks1 toks2 after g Sp Ho Hv G1 G2. apply (gives_spells _ _ _ Ho Hv) in G1, G2.
  split; intros (its' & named & W & H); exists its', named; (split; [|exact H]).
  - exact (written_swap _ _ _ _ _ _ _ Sp G1 G2 W).
  - exact (written_swap _ _ _ _ _ _ _ Sp G2 G1 W).
Qed.

(** ** Instances *)
Definition demo_args : list string := ["Pb"; "Pb"; "10"; "-p"; "-0.5"; "--norm=1e1"; "-qo"; "out/"; "--random-seed"; "7"].
Definition demo_given (A : Arith) : given A :=
  Given false false false [] ["Pb"; "Pb"] (Some 10%Z) (Some true) (Some "out/") None None
    (Some (nlit A (-5) (-1))) None None None None None None (Some (nlit A 1 1)) None None (Some 7%Z) None None.
Definition demo_args2 : list string := ["-n1e1"; "--output=out/"; "Pb"; "--random-seed=7"; "-q"; "Pb"; "--reduced-thickness"; "-0.5"; "10"].

Definition only_width {A : Arith} (x : num A) : given A :=
  Given false false false [] [] None None None None None None None (Some x) None None None None None None None None None None.

Lemma demo_says (A : Arith) : ntrunc A (nlit A (-5) (-1)) <> None -> ntrunc A (nlit A 1 1) <> None ->
  says demo_args (demo_given A) /\ says demo_args2 (demo_given A).
Proof.
  intros H1 H2. rewrite <- !C69_reads.
  destruct (ntrunc A (nlit A (-5) (-1))) as [a|] eqn:E1; [|congruence]. destruct (ntrunc A (nlit A 1 1)) as [b|] eqn:E2; [|congruence]. clear H1 H2.
  vm_compute in E1, E2. split; vm_compute; rewrite E1; rewrite E2; reflexivity.
Qed.

(** In binary64 (whatever the math library), and for any number system. *)
Theorem C69_instance :
  (forall L : Libm, says demo_args (demo_given (FA L)) /\ says demo_args2 (demo_given (FA L))) /\
  forall A : Arith,
  says ["--"; "-x"; "Pb"] (Given false false false [] ["-x"; "Pb"] None None None None None (A:=A) None None None None None None None None None None None None None) /\
  says ["-o"; "--quiet"] (Given false false false [] [] None None (Some "--quiet") None None (A:=A) None None None None None None None None None None None None None) /\
  says ["-w"; "-Infinity"] (only_width (nneg A (ndiv A (nlit A 1 0) (nlit A 0 0)))) /\
  says ["-wnan(x)"] (only_width (ndiv A (nlit A 0 0) (nlit A 0 0))).
Proof.
  split.
  - assert (S : forall x : f64, (match f64_trunc x with Some _ => true | None => false end) = true -> f64_trunc x <> None)
      by (intros x; destruct (f64_trunc x); [discriminate|intros H; discriminate H]).
    assert (E1 : f64_trunc (f64_lit (-5) (-1)) <> None) by (apply S; vm_compute; reflexivity).
    assert (E2 : f64_trunc (f64_lit 1 1) <> None) by (apply S; vm_compute; reflexivity).
    intros L. exact (demo_says (FA L) E1 E2).
  - intros A. rewrite <- !C69_reads. repeat split.
Qed.

(** The two are the same settings in another order. *)
Theorem C69_order_instance : exists its1 its2, written its1 demo_args /\ written its2 demo_args2 /\ same_settings its1 its2.
Proof.
  assert (W : forall args, match lex args with Ret ts => written (map view ts) args | _ => True end).
  { intros args. destruct (lex args) as [ts|x|u|] eqn:E; try exact I. apply written_lex. eauto. }
  eexists. eexists. split; [exact (W demo_args)|]. split; [exact (W demo_args2)|]. split; [reflexivity|].
  intros n. cbn. destruct (String.eqb_spec n ""); [subst; reflexivity|].
  destruct (String.eqb_spec n "reduced-thickness"); [subst; reflexivity|]. destruct (String.eqb_spec n "normalization"); [subst; reflexivity|].
  destruct (String.eqb_spec n "quiet"); [subst; reflexivity|]. destruct (String.eqb_spec n "output"); [subst; reflexivity|].
  destruct (String.eqb_spec n "random-seed"); [subst; reflexivity|]. reflexivity.
Qed.

Definition refused_args : list (list string) :=
  [ ["--frobnicate"]; ["-z"]; ["Pb"; "Pb"; "10"; "11"]; ["-p"]; ["-p"; "-q"]; ["-p1"; "-p2"]; ["--n"; "1"]; ["--norm="];
    ["-o"; "a b"]; ["--quiet=1"]; ["-p"; "abc"]; ["-p"; " 1"]; ["-p"; "1 "]; ["Pb"; "Pb"; "1e3"]; ["Pb"; "Pb"; "2147483648"]; ["-q"; "-q"]; ["-o"; ""] ].

Theorem C69_refused_instances : forall (A : Arith) args (g : given A), In args refused_args -> ~ says args g.
Proof.
  intros A args g I H. apply reads in H. unfold refused_args in I. repeat (destruct I as [<-|I]; [vm_compute in H; discriminate H|]). exact I.
Qed.

(** A number that is too large for a double. *)
Lemma large_refused (A : Arith) (g : given A) : ntrunc A (nlit A 1 400) = None -> ~ says ["-n"; "1e400"] g.
Proof. intros E H. apply reads in H. vm_compute in E, H. rewrite E in H. discriminate H. Qed.
Theorem C69_overflow_instance : forall (L : Libm) (g : given (FA L)), ~ says ["-n"; "1e400"] g.
Proof.
  intros L g. apply large_refused. assert (N : f64_trunc (f64_lit 1 400) = None) by (vm_compute; reflexivity). exact N.
Qed.
