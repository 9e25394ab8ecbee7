(** Concrete runs meeting the hypotheses of C43, C45 and C47. *)
From Coq Require Import Reals Ascii.
From Flocq Require Import Core BinarySingleNaN.
From Verif.Base Require Import Result Arith RArith FArith Rng.
From Verif.Model Require Import Config Nucleon Nucleus Event Text Files CrossSection Output Collider.
From Verif.Spec Require Import Decimal Table Grid Cache FileTree History Collision Runs Demo.
From Verif.Proof Require Import Basics FsP FsTree OutputP.
From Verif.Properties Require Import Events Stdout TextFiles Overwrite OutputRuns.
Local Open Scope string_scope.

(** A decision procedure for [tree]. *)
Fixpoint cuts (acc k : string) : list string :=
  match k with
  | "" => []
  | String c k' => if is_slash c then acc :: cuts (acc ++ String c "") k' else cuts (acc ++ String c "") k'
  end.
Definition is_dir {A : Arith} (f : fs A) (q : string) : bool := match fs_get f q with Some Dir => true | _ => false end.
Definition check_tree {A : Arith} (f : fs A) : bool := is_dir f "" && forallb (fun e => forallb (is_dir f) (cuts "" (fst e))) f.

Lemma cuts_in q r : forall acc, In (acc ++ q) (cuts acc (q ++ "/" ++ r)).
Proof.
  induction q as [|c q IH]; intros acc.
  - cbn. rewrite Writers.append_nil_r. left. reflexivity.
  - cbn [append cuts]. specialize (IH (acc ++ String c "")). rewrite Writers.append_assoc in IH. cbn [append] in IH.
    destruct (is_slash c); [right|]; exact IH.
Qed.
Lemma check_tree_ok {A : Arith} (f : fs A) : check_tree f = true -> tree f.
Proof.
  assert (D : forall q, is_dir f q = true -> fs_get f q = Some Dir) by (intros q; unfold is_dir; destruct (fs_get f q) as [[]|]; congruence).
  intros H. apply andb_prop in H. destruct H as [H1 H2]. split; [apply D, H1|]. intros p k B G.
  destruct (fs_get f k) as [n|] eqn:E; [|congruence]. apply in_get in E. rewrite forallb_forall in H2. specialize (H2 _ E). cbn [fst] in H2.
  rewrite forallb_forall in H2. apply D, H2. apply below_iff in B. destruct B as (r & ->). exact (cuts_in (norm p) r "").
Qed.

Definition out_config (out : string) : config DA := {|
  projectile := ["d"; "p"]; number_events := 2; quiet := true; output := Some out;
  no_header := false; ncoll := true;
  reduced_thickness := nlit DA 0 0; fluctuation := nlit DA 1 0;
  nucleon_width := nlit DA 5 (-1); constit_width := nlit DA 5 (-1); constit_number := 1;
  nucleon_min_dist := nlit DA 0 0; cross_section := nlit DA 64 (-1);
  normalization := nlit DA 1 0; b_min := nlit DA 0 0; b_max := nlit DA 1 0;
  random_seed := 42; grid_max := nlit DA 1 0; grid_step := nlit DA 5 (-1)
|}.
Definition out_sys (f : fs DA) : sys demo_rng := @Sys DA demo_rng 0%nat f "" "".
Definition out_run (out : string) (f : fs DA) : result unit * sys demo_rng :=
  collide demo_rng demo_solver demo_build 10 10 10 demo_env (out_config out) (out_sys f).

(** A world with a root, a data directory, a file with data and an empty file. *)
Definition world : fs DA := [("", Dir); ("/data", Dir); ("notes", File "do not lose"); ("blank", File ""); ("full", Dir); ("full/0.dat", File "old"); ("old.h5", H5File [])].
Example world_tree : tree world.
Proof. apply check_tree_ok. reflexivity. Qed.

Lemma not_cache k : String.eqb k (norm (cache_file "/data")) = false -> ~ is_cache demo_env k.
Proof. intros H (dh & E & ->). cbn in E. injection E as <-. rewrite String.eqb_refl in H. discriminate H. Qed.

Strategy expand [out_run].
Lemma out_finishes out : finished (fst (out_run out world)) = true -> exists s', out_run out world = (Ret tt, s').
Proof. intros H. destruct (out_run out world) as [[[]| | |] s']; simpl in H; try discriminate. eauto. Qed.

Lemma demo_event out : exists ev0, event_new (out_config out) = Ret ev0 /\ ev_nsteps ev0 = 4%Z.
Proof.
  assert (H : match event_new (out_config out) with Ret ev => Z.eqb (ev_nsteps ev) 4 | _ => false end = true) by (vm_cast_no_check (eq_refl true)).
  destruct (event_new (out_config out)) as [ev| | |]; try (exfalso; congruence). exists ev. split; [reflexivity|]. apply Z.eqb_eq, H.
Qed.

(** Text output to a missing directory: hypotheses of C43_run_ieee and C45_untouched. *)
Example C43_run_instance : exists s' (ds : list (delivery DA)) width, out_run "out" world = (Ret tt, s') /\ length ds = 2%nat /\
  fs_get (s_fs s') "out" = Some Dir /\
  (forall d, In d ds -> exists t, fs_get (s_fs s') (event_path "out" width d) = Some (File t)) /\
  fs_get (s_fs s') "notes" = Some (File "do not lose").
Proof.
  destruct (out_finishes "out" ltac:(vm_cast_no_check (eq_refl true))) as [s' H]. pose proof H as H0. unfold out_run in H.
  destruct (demo_event "out") as (ev0 & En & E4). assert (E2 : (2 <= ev_nsteps ev0)%Z) by lia.
  destruct (C43_run_ieee demo_libm demo_rng demo_solver demo_build 10 10 10 demo_env (out_config "out") (out_sys world) s' "out" ev0 H world_tree eq_refl eq_refl
    (not_cache "out" eq_refl) (or_introl eq_refl) En E2) as (ds & width & Rc & _ & D & F & _).
  exists s', ds, width. split; [exact H0|]. split; [exact (rec_count _ _ _ Rc)|]. split; [exact D|]. split.
  - intros d Hd. destruct (F d Hd) as (t & Ft & _). exists t. exact Ft.
  - apply (C45_untouched _ _ _ _ _ _ _ _ _ _ _ _ H world_tree "notes" (File "do not lose") eq_refl).
    + left. discriminate.
    + apply not_cache. reflexivity.
Qed.

(** An existing empty file as output directory. *)
Example C45_empty_file_instance : exists s', out_run "blank" world = (Ret tt, s') /\ fs_get (s_fs s') "blank/0.dat" = None.
Proof.
  destruct (out_finishes "blank" ltac:(vm_cast_no_check (eq_refl true))) as [s' H]. pose proof H as H0. unfold out_run in H.
  exists s'. split; [exact H0|].
  rewrite (C45_empty_file _ _ _ _ _ _ _ _ _ _ _ "blank" H world_tree eq_refl eq_refl (not_cache "blank" eq_refl) eq_refl "blank/0.dat").
  - reflexivity.
  - apply not_cache. reflexivity.
  - intros dh E. cbn in E. injection E as <-. discriminate.
Qed.

(** A directory and an HDF5 file in use. *)
Example C45_in_use_instance : in_use world "full" /\ in_use world "old.h5" /\ in_use world "notes".
Proof.
  split; [|split]; (split; [discriminate|]).
  - right. split; [reflexivity|]. exists "full/0.dat", (File "old"). split; reflexivity.
  - left. exists (H5File []). split; [reflexivity|exact I].
  - left. exists (File "do not lose"). split; [reflexivity|discriminate].
Qed.

(** HDF5 output. *)
Example C47_instance : exists s' ds objs, out_run "new.h5" world = (Ret tt, s') /\ length ds = 2%nat /\
  fs_get (s_fs s') "new.h5" = Some (H5File objs) /\ Forall2 (dataset_for 4) ds objs.
Proof.
  destruct (out_finishes "new.h5" ltac:(vm_cast_no_check (eq_refl true))) as [s' H]. pose proof H as H0. unfold out_run in H.
  destruct (demo_event "new.h5") as (ev0 & En & E4).
  destruct (C47_hdf5 _ demo_rng demo_solver demo_build 10 10 10 demo_env (out_config "new.h5") (out_sys world) s' "new.h5" ev0 H world_tree eq_refl eq_refl En) as (ds & objs & Rc & F & FF & _).
  change (ev_nsteps (A:=FA demo_libm) ev0) with (ev_nsteps (A:=DA) ev0) in FF. rewrite E4 in FF. exists s', ds, objs. split; [exact H0|]. split; [exact (rec_count _ _ _ Rc)|]. split; [exact F|exact FF].
Qed.
