(** Concrete launches meeting the hypotheses of C67. *)
From Coq Require Import Ascii.
From Verif.Base Require Import Result Arith FArith Rng.
From Verif.Model Require Import Config Nucleon Nucleus Event Text Files CrossSection Output Collider RunSteps.
From Verif.Spec Require Import Cache FileTree History Collision Runs Demo Parallel.
From Verif.Proof Require Import Basics FsP FsTree Ctor OutputP ParallelP.
From Verif.Properties Require Import Events Overwrite OutputRuns OutputInst Parallel.
Local Open Scope string_scope.

(** The world of OutputInst.v, with a cache that holds the parameter. *)
Definition warm_world : fs DA := (world ++ [("/data/trento", Dir); ("/data/trento/cross_section.cache", File "1 0.5 0.5 6.4 2.25")])%list.
Lemma warm_tree : tree warm_world.
Proof. apply check_tree_ok. reflexivity. Qed.
Definition job (out : string) : launch demo_rng := Launch (out_config out) (own_of (out_sys warm_world)).

Definition warm (out : string) : bool :=
  match cache_loop 10 (nucleon_width (out_config out)) (constit_width (out_config out)) (constit_number (out_config out)) (cross_section (out_config out))
          (Istream "1 0.5 0.5 6.4 2.25" false false) (cvars_uninit (A:=DA)) with
  | Ret (Some _) => true | _ => false end.
Lemma warm_ok out : warm out = true -> exists sp, in_cache 10 demo_env (out_config out) warm_world sp.
Proof.
  unfold warm. intros H. destruct (cache_loop 10 _ _ _ _ _ _) as [[sp|]|x|u|] eqn:E; try discriminate H. exists sp. exists "/data", "1 0.5 0.5 6.4 2.25".
  split; [reflexivity|]. split; [reflexivity|]. split; [reflexivity|]. exact E.
Qed.
Lemma warm_finishes out : finished (fst (out_run out warm_world)) = true -> exists s', out_run out warm_world = (Ret tt, s').
Proof. intros H. destruct (out_run out warm_world) as [[[]| | |] s']; simpl in H; try discriminate. eauto. Qed.

Definition clear_of (p q : string) : bool :=
  negb (String.eqb (norm p) (norm q)) && negb (String.prefix (norm p ++ "/") (norm q)) && negb (String.prefix (norm q ++ "/") (norm p)).
Lemma clear_apart p q : clear_of p q = true -> apart p q.
Proof.
  intros H. apply andb_prop in H. destruct H as [H H3]. apply andb_prop in H. destruct H as [H1 H2]. split; [|split].
  - intros E. rewrite E, String.eqb_refl in H1. discriminate H1.
  - intros B. unfold below in B. rewrite B in H2. discriminate H2.
  - intros B. unfold below in B. rewrite B in H3. discriminate H3.
Qed.
Lemma no_input out q : ~ reads_file (out_config out) q.
Proof. intros [[<-|[<-|[]]] X]; discriminate X. Qed.

Lemma job_placed out f : filename_is_hdf5 out = false -> clear_of out (cache_dir "/data") = true -> well_placed demo_rng demo_env f (job out).
Proof.
  intros Hh Hc. split.
  - intros p E. injection E as <-. split; [|congruence]. intros dh D. cbn in D. injection D as <-. apply clear_apart, Hc.
  - intros q dh Hr. destruct (no_input _ _ Hr).
Qed.
Lemma jobs_separate a b f : filename_is_hdf5 a = false -> filename_is_hdf5 b = false -> clear_of a (cache_dir "/data") = true ->
  clear_of b (cache_dir "/data") = true -> clear_of a b = true -> separate demo_rng demo_env f [job a; job b].
Proof.
  intros Ha Hb Ca Cb Cab. apply clear_apart in Cab. split.
  - intros l [<-|[<-|[]]]; apply job_placed; assumption.
  - assert (X : forall u v, apart u v -> no_clash demo_rng (job u) (job v)).
    { intros u v Ap. split; [|split].
      - intros p p' E E'. injection E as <-. injection E' as <-. exact Ap.
      - intros q p' Hr. destruct (no_input _ _ Hr).
      - intros q p' Hr. destruct (no_input _ _ Hr). }
    intros i j l l' N Hi Hj. destruct i as [|[|i]]; destruct j as [|[|j]]; cbn in Hi, Hj; try congruence; try (destruct i; discriminate Hi); try (destruct j; discriminate Hj);
      injection Hi as <-; injection Hj as <-; apply X; [exact Cab|]. destruct Cab as (A1 & A2 & A3). split; [congruence|split; assumption].
Qed.

(** Separate directories: whatever the schedule, each launch leaves what it would have left alone. *)
Theorem C67_instance : forall w r1 p1 r2 p2,
  schedule demo_rng (begin demo_rng demo_solver demo_build 10 10 10 demo_env [job "runs/a"; job "runs/b"] warm_world) w ->
  ended_with demo_rng w 0 r1 p1 -> ended_with demo_rng w 1 r2 p2 ->
  exists sa sb, out_run "runs/a" warm_world = (Ret tt, sa) /\ out_run "runs/b" warm_world = (Ret tt, sb) /\ r1 = Ret tt /\ r2 = Ret tt /\
    same_output (out_config "runs/a") (snd w) (s_fs sa) /\ same_output (out_config "runs/b") (snd w) (s_fs sb) /\
    fs_get (snd w) "notes" = Some (File "do not lose").
Proof.
  intros w r1 p1 r2 p2 S E1 E2.
  assert (Sep : separate demo_rng demo_env warm_world [job "runs/a"; job "runs/b"]) by (apply jobs_separate; reflexivity).
  assert (Wm : forall l, In l [job "runs/a"; job "runs/b"] -> exists sp, in_cache 10 demo_env (l_cfg l) warm_world sp).
  { intros l [<-|[<-|[]]]; apply warm_ok; vm_cast_no_check (eq_refl true). }
  destruct (C67_warm demo_rng demo_solver demo_build 10 10 10 demo_env warm_world _ w 0 (job "runs/a") r1 p1 Sep Wm S eq_refl E1) as (sa & Ca & _ & Sa).
  destruct (C67_warm demo_rng demo_solver demo_build 10 10 10 demo_env warm_world _ w 1 (job "runs/b") r2 p2 Sep Wm S eq_refl E2) as (sb & Cb & _ & Sb).
  destruct (warm_finishes "runs/a" ltac:(vm_cast_no_check (eq_refl true))) as [sa' Fa]. destruct (warm_finishes "runs/b" ltac:(vm_cast_no_check (eq_refl true))) as [sb' Fb].
  pose proof Fa as Fa0. pose proof Fb as Fb0. unfold out_run in Fa, Fb.
  assert (Xa : (r1, sa) = (Ret tt, sa')) by exact (eq_trans (eq_sym Ca) Fa). assert (Xb : (r2, sb) = (Ret tt, sb')) by exact (eq_trans (eq_sym Cb) Fb).
  injection Xa as -> ->. injection Xb as -> ->. exists sa', sb'. split; [exact Fa0|]. split; [exact Fb0|]. split; [reflexivity|]. split; [reflexivity|]. split; [exact Sa|]. split; [exact Sb|].
  destruct (C67_elsewhere demo_rng demo_solver demo_build 10 10 10 demo_env warm_world _ w "notes" Sep S) as [X|(X & _)].
  - intros (dh & D & K). cbn in D. injection D as <-. destruct K as [K|K]; discriminate K.
  - intros l p [<-|[<-|[]]] E; injection E as <-; intros [X|X]; discriminate X.
  - rewrite X. reflexivity.
  - discriminate X.
Qed.

(** The same directory, for runs of two events and of one event. *)
Definition short_config (out : string) : config DA := {|
  projectile := ["d"; "p"]; number_events := 1; quiet := true; output := Some out;
  no_header := false; ncoll := true;
  reduced_thickness := nlit DA 0 0; fluctuation := nlit DA 1 0;
  nucleon_width := nlit DA 5 (-1); constit_width := nlit DA 5 (-1); constit_number := 1;
  nucleon_min_dist := nlit DA 0 0; cross_section := nlit DA 64 (-1);
  normalization := nlit DA 1 0; b_min := nlit DA 0 0; b_max := nlit DA 1 0;
  random_seed := 43; grid_max := nlit DA 1 0; grid_step := nlit DA 5 (-1)
|}.
Definition short_job : launch demo_rng := Launch (short_config "out") (own_of (out_sys warm_world)).
Definition short_run : result unit * sys demo_rng :=
  collide demo_rng demo_solver demo_build 10 10 10 demo_env (short_config "out") (out_sys warm_world).
Strategy expand [short_run].
Lemma short_finishes : finished (fst short_run) = true -> exists s', short_run = (Ret tt, s').
Proof. intros H. destruct short_run as [[[]| | |] s']; simpl in H; try discriminate. eauto. Qed.
Lemma short_input q : ~ reads_file (short_config "out") q.
Proof. intros [[<-|[<-|[]]] X]; discriminate X. Qed.
Definition is_file {A : Arith} (f : fs A) (k : string) : bool := match fs_get f k with Some (File _) => true | _ => false end.
Definition is_none {A : Arith} (f : fs A) (k : string) : bool := match fs_get f k with None => true | _ => false end.

(** Both end normally, and the directory holds event 0 of the second launch beside event 1 of the first. *)
Theorem C67_race_instance : exists s1 s2 w t0 t1,
  out_run "out" warm_world = (Ret tt, s1) /\ short_run = (Ret tt, s2) /\
  schedule demo_rng (begin demo_rng demo_solver demo_build 10 10 10 demo_env [job "out"; short_job] warm_world) w /\
  ended_with demo_rng w 0 (Ret tt) (own_of s1) /\ ended_with demo_rng w 1 (Ret tt) (own_of s2) /\
  fs_get (s_fs s2) "out/0.dat" = Some (File t0) /\ fs_get (snd w) "out/0.dat" = Some (File t0) /\
  fs_get (s_fs s1) "out/1.dat" = Some (File t1) /\ fs_get (snd w) "out/1.dat" = Some (File t1).
Proof.
  assert (K1 : is_file (s_fs (snd (out_run "out" warm_world))) "out/1.dat" = true) by (vm_cast_no_check (eq_refl true)).
  assert (K2 : is_file (s_fs (snd short_run)) "out/0.dat" = true) by (vm_cast_no_check (eq_refl true)).
  assert (K3 : is_none (s_fs (snd short_run)) "out/1.dat" = true) by (vm_cast_no_check (eq_refl true)).
  destruct (warm_finishes "out" ltac:(vm_cast_no_check (eq_refl true))) as [s1 F1]. rewrite F1 in K1. cbn [snd] in K1. pose proof F1 as G1. unfold out_run in F1.
  destruct (short_finishes ltac:(vm_cast_no_check (eq_refl true))) as [s2 F2]. rewrite F2 in K2, K3. cbn [snd] in K2, K3. pose proof F2 as G2. unfold short_run in F2.
  unfold is_file, is_none in *.
  destruct (fs_get (s_fs s1) "out/1.dat") as [[|t1|]|] eqn:X1; try discriminate K1. destruct (fs_get (s_fs s2) "out/0.dat") as [[|t0|]|] eqn:X2; try discriminate K2.
  destruct (fs_get (s_fs s2) "out/1.dat") as [[]|] eqn:X3; try discriminate K3.
  destruct (warm_ok "out" ltac:(vm_cast_no_check (eq_refl true))) as [sp C].
  destruct (C67_race demo_rng demo_solver demo_build 10 10 10 demo_env warm_world (job "out") short_job "out" sp sp s1 s2 warm_tree eq_refl eq_refl eq_refl) as (w & S & E1 & E2 & O).
  - left. reflexivity.
  - intros dh D. cbn in D. injection D as <-. apply clear_apart. reflexivity.
  - intros q Hr. destruct (short_input _ Hr).
  - exact C.
  - exact C.
  - exact F1.
  - exact F2.
  - exists s1, s2, w, t0, t1. split; [exact G1|]. split; [exact G2|]. split; [exact S|]. split; [exact E1|]. split; [exact E2|]. split; [exact X2|].
    split; [rewrite (O "out/0.dat" eq_refl), X2; reflexivity|]. split; [exact X1|]. rewrite (O "out/1.dat" eq_refl), X3. exact X1.
Qed.
