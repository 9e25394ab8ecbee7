(** Runs that share the files: each by itself, and what one sees of the others. *)
From Coq Require Import Ascii.
From Verif.Base Require Import Result Arith Rng.
From Verif.Model Require Import Random Config Nucleon Nucleus Event Text Files CrossSection CacheSteps Output Collider RunSteps.
From Verif.Spec Require Import FileTree Cache Parallel.
From Verif.Proof Require Import Basics FsP FsTree Writers CacheRun.
Local Open Scope string_scope.

(** ** By itself, a process does what the run does *)
Section Alone.
Context {A : Arith} (R : Rng A) (sv : Solver A) (bd : build).

Definition split {X} (x : result X * sys R) : result X * own R * fs A := (fst x, own_of (snd x), s_fs (snd x)).
Definition does {X} (q : own R -> todo R X) (m : M (sys R) X) : Prop :=
  forall s, alone (q (own_of s)) (s_fs s) = split (m s).

Lemma sys_own (s : sys R) : sys_of (own_of s) (s_fs s) = s. Proof. destruct s; reflexivity. Qed.
Lemma own_sys (p : own R) f : own_of (sys_of p f) = p. Proof. destruct p; reflexivity. Qed.

Lemma alone_andthen {X Y} (m : todo R X) (c : X -> own R -> todo R Y) f :
  alone (andthen m c) f =
  match alone m f with
  | (Ret x, p, f') => alone (c x p) f'
  | (Throw x, p, f') => (Throw x, p, f')
  | (UB u, p, f') => (UB u, p, f')
  | (OutOfFuel, p, f') => (OutOfFuel, p, f')
  end.
Proof. revert f. induction m as [r p|next IH effect]; intros f; cbn [andthen alone]; [destruct r; reflexivity|]. apply IH. Qed.

Lemma does_bind {X Y} (q : P R X) (m : M (sys R) X) (c : X -> P R Y) (k : X -> M (sys R) Y) :
  does q m -> (forall x, does (c x) (k x)) -> does (pbind R q c) (bind m k).
Proof.
  intros H K s. unfold pbind, bind. rewrite alone_andthen, H. unfold split. destruct (m s) as [[x|x|u|] s']; cbn [fst snd]; try reflexivity.
  apply K.
Qed.
Lemma does_calls {X} (m : M (fs A) X) : does (calls R m) (in_fs R m).
Proof. intros s. unfold calls, in_fs, split. cbn. destruct (m (s_fs s)); reflexivity. Qed.
Lemma does_yields {X} (r : result X) : does (yields R r) (lift r).
Proof. intros s. reflexivity. Qed.
Lemma does_ret {X} (x : X) : does (yields R (Ret x)) (ret x).
Proof. intros s. reflexivity. Qed.
Lemma does_throw {X} x : does (yields R (X:=X) (Throw x)) (throw x).
Proof. intros s. reflexivity. Qed.
Lemma does_computes {X} (m : M (engine R) X) : does (computes R m) (in_eng R m).
Proof. intros s. unfold computes, in_eng, split. cbn. destruct (m (s_eng s)); reflexivity. Qed.
Lemma does_asks {X} (q : fs A -> result X) : does (asks R q) (fun s => (q (s_fs s), s)).
Proof. intros s. unfold asks, calls, split. cbn. reflexivity. Qed.
Lemma does_fold {X Y} (g : Y -> X -> P R Y) (h : Y -> X -> M (sys R) Y) l : (forall y x, does (g y x) (h y x)) ->
  forall y, does (pfold R g l y) (mfold h l y).
Proof.
  intros H. induction l as [|x l IH]; intros y; [apply does_ret|]. cbn [pfold mfold]. apply does_bind; [apply H|exact IH].
Qed.
(** The same function on the right. *)
Lemma does_ext {X} (q : P R X) m m' : does q m -> (forall s, m s = m' s) -> does q m'.
Proof. intros H E s. rewrite <- E. apply H. Qed.
Lemma in_fs_fold {X Y} (h : Y -> X -> M (fs A) Y) l : forall y s, in_fs R (mfold h l y) s = mfold (fun y x => in_fs R (h y x)) l y s.
Proof.
  induction l as [|x l IH]; intros y s; cbn [mfold]; [unfold in_fs, ret; destruct s; reflexivity|].
  specialize (IH). unfold bind, in_fs at 1. destruct (h y x (s_fs s)) as [[y'|x'|u|] f'] eqn:E; unfold in_fs at 1; rewrite E; try reflexivity.
  rewrite <- IH. reflexivity.
Qed.

Lemma does_partonic fuel e cfg : does (partonic_steps R sv fuel e cfg) (partonic_cross_section R sv fuel e cfg).
Proof.
  apply does_bind; [apply does_yields|]. intros dh. apply does_bind; [apply does_calls|]. intros _.
  eapply does_ext with (m := bind (fun s => (match fs_lookup (s_fs s) (cache_path dh) with
    | Some n => cache_loop fuel (nucleon_width cfg) (constit_width cfg) (constit_number cfg) (cross_section cfg)
                  (Istream (file_text n) false false) cvars_uninit
    | None => Ret None end, s)) (fun hit => match hit with
    | Some sp => ret sp
    | None =>
      let* _ := in_fs R (append_file (cache_path dh) "") in
      let* sp := in_eng R (compute_partonic R sv cfg) in
      let* _ := in_fs R (append_file (cache_path dh) (line_for cfg sp)) in
      ret sp end)).
  - apply does_bind; [apply does_asks|]. intros [sp|]; [apply does_ret|].
    apply does_bind; [apply does_calls|]. intros _. apply does_bind; [apply does_computes|]. intros sp.
    apply does_bind; [apply does_calls|]. intros _. apply does_ret.
  - intros s. unfold bind at 1. unfold bind at 4, get. cbv beta. unfold bind at 4. destruct (fs_lookup (s_fs s) (cache_path dh)); reflexivity.
Qed.

Lemma does_output cfg : does (output_steps R bd cfg) (output_new R bd cfg).
Proof.
  apply does_bind; [apply does_yields|]. intros width. apply does_bind; [|intros x; apply does_ret].
  destruct (output cfg) as [path|]; [|apply does_ret].
  destruct (filename_is_hdf5 path).
  - destruct (with_hdf5 bd).
    + intros s. unfold pbind at 1. rewrite alone_andthen. cbn [asks calls alone fst snd]. unfold bind at 1, get.
      destruct (fs_exists (s_fs s) path) eqn:E; cbn [andb].
      * unfold pbind at 1. rewrite alone_andthen. cbn [asks calls alone fst snd]. destruct (fs_is_empty (s_fs s) path); cbn [negb].
        -- apply (does_bind (calls R (hdf5_open path)) (in_fs R (hdf5_open path)) (fun _ => yields R (Ret [WHdf5 path])) (fun _ => ret [WHdf5 path])); [apply does_calls|intros; apply does_ret].
        -- reflexivity.
      * unfold pbind at 1. rewrite alone_andthen. cbn [yields alone fst snd].
        apply (does_bind (calls R (hdf5_open path)) (in_fs R (hdf5_open path)) (fun _ => yields R (Ret [WHdf5 path])) (fun _ => ret [WHdf5 path])); [apply does_calls|intros; apply does_ret].
    + intros s. reflexivity.
  - intros s. unfold pbind at 1. rewrite alone_andthen. cbn [asks calls alone fst snd]. unfold bind at 1, get.
    destruct (fs_exists (s_fs s) path) eqn:E.
    + unfold pbind at 1. rewrite alone_andthen. unfold pbind at 1. rewrite alone_andthen. cbn [asks calls alone fst snd].
      destruct (fs_is_empty (s_fs s) path); cbn [negb]; reflexivity.
    + refine (does_bind _ (in_fs R (create_directories path)) _ (fun _ => ret [WText path width (negb (no_header cfg))]) _ (fun _ => does_ret _) s).
      unfold create_directories. destruct (String.eqb path ""); [intros s0; destruct s0; reflexivity|].
      eapply does_ext; [apply does_fold; intros y x; apply does_calls|]. intros s0. symmetry. apply in_fs_fold.
Qed.

Lemma does_writer w n b nc ev : does (writer_steps R w n b nc ev) (run_writer R w n b nc ev).
Proof. destruct w as [width|dir width header|path]; [intros s; reflexivity| |]; apply does_calls. Qed.

(** The event loop. *)
Lemma does_events fuel sfuel co l : forall nA nB ev nst gst s,
  alone (pfold R (event_steps R bd fuel sfuel co) l (nA, nB, ev, nst, gst) (own_of s)) (s_fs s) =
  match mfold (one_event R bd fuel sfuel co) l (nA, nB, ev) (Run s nst gst) with
  | (r, ru) => (match r with Ret (x, y, z) => Ret (x, y, z, ru_norm ru, ru_gamma ru) | Throw x => Throw x | UB u => UB u | OutOfFuel => OutOfFuel end,
                own_of (ru_sys ru), s_fs (ru_sys ru))
  end.
Proof.
  induction l as [|n l IH]; intros nA nB ev nst gst s; [reflexivity|]. cbn [pfold mfold]. unfold pbind at 1. rewrite alone_andthen.
  unfold event_steps at 1. unfold bind at 1. unfold one_event at 1. unfold bind at 1. unfold in_rstate at 1. cbn [ru_sys ru_norm ru_gamma own_of w_eng w_out w_err].
  destruct (sample_collision R fuel sfuel co nA nB (MkRstate (s_eng s) nst gst)) as [[[[[b nc] nA'] nB']|x|u|] rs]; cbn [andthen alone]; try reflexivity.
  unfold pbind at 1. rewrite alone_andthen. cbn [yields alone]. unfold bind at 1, lift.
  destruct (event_compute (debug bd) ev (nu_nucleons nA') (nu_nucleons nB') (co_nc co)) as [ev'|x|u|]; try reflexivity.
  unfold pbind at 1. rewrite alone_andthen.
  set (s1 := Sys (rs_eng rs) (s_fs s) (s_out s) (s_err s)).
  change (Own (rs_eng rs) (s_out s) (s_err s)) with (own_of s1). change (s_fs s) with (s_fs s1).
  rewrite (does_fold _ (fun _ w => run_writer R w n b nc ev') (co_writers co)) by (intros; apply does_writer).
  unfold bind at 1. unfold in_sys, run_output, split. cbn [ru_sys ru_norm ru_gamma].
  destruct (mfold (fun _ w => run_writer R w n b nc ev') (co_writers co) tt s1) as [[[]|x|u|] s2]; cbn [fst snd yields alone]; try reflexivity.
  unfold ret. rewrite IH. reflexivity.
Qed.

Lemma does_run cfuel fuel sfuel e cfg : does (run_steps R sv bd cfuel fuel sfuel e cfg) (collide R sv bd cfuel fuel sfuel e cfg).
Proof.
  intros s. unfold run_steps, collide, collider_new. unfold pbind at 1. rewrite alone_andthen. cbn [asks calls alone fst snd].
  unfold bind at 1. unfold bind at 1, get. unfold bind at 1, lift.
  destruct (create_nucleus bd (s_fs s) cfg 0) as [nA|x|u|]; try reflexivity.
  unfold pbind at 1. rewrite alone_andthen. cbn [asks calls alone fst snd]. unfold bind at 1, lift.
  destruct (create_nucleus bd (s_fs s) cfg 1) as [nB|x|u|]; try reflexivity.
  unfold pbind at 1. rewrite alone_andthen, does_partonic. unfold bind at 1.
  destruct (partonic_cross_section R sv cfuel e cfg s) as [[sp|x|u|] s1]; try reflexivity.
  change (split (Ret sp, s1)) with (@Ret (num A) sp, own_of s1, s_fs s1).
  unfold pbind at 1. rewrite alone_andthen. cbn [yields alone]. unfold bind at 1, lift.
  destruct (event_new cfg) as [ev|x|u|]; try reflexivity.
  unfold pbind at 1. rewrite alone_andthen, does_output. unfold bind at 1.
  destruct (output_new R bd cfg s1) as [[ws|x|u|] s2]; try reflexivity.
  change (split (Ret ws, s2)) with (@Ret (list writer) ws, own_of s2, s_fs s2).
  set (nc := nucleon_common_of cfg sp). set (co := Collider _ _ _ _ _ _ _).
  unfold pbind at 1. rewrite alone_andthen. cbn [alone].
  assert (Tail : forall s3, alone (andthen (pfold R (event_steps R bd fuel sfuel co) (zupto (number_events cfg))
              (nA, nB, ev, normal_init R nc, gamma_init R cfg) (own_of s3)) (fun _ => yields R (Ret tt))) (s_fs s3) =
    split match run_events R bd fuel sfuel co nA nB ev (Run s3 (normal_init R nc) (gamma_init R cfg)) with
    | (Ret _, s') => (Ret tt, ru_sys s')
    | (Throw x, s') => (Throw x, ru_sys s')
    | (UB u, s') => (UB u, ru_sys s')
    | (OutOfFuel, s') => (OutOfFuel, ru_sys s')
    end).
  { intros s3. rewrite alone_andthen, does_events. unfold run_events. cbn [co_nevents co].
    destruct (mfold (one_event R bd fuel sfuel co) (zupto (number_events cfg)) (nA, nB, ev) (Run s3 (normal_init R nc) (gamma_init R cfg))) as [[[[x y] z]|x|u|] ru]; reflexivity. }
  destruct (0 <? random_seed cfg)%Z; [exact (Tail (Sys (eng_seed R (random_seed cfg)) (s_fs s2) (s_out s2) (s_err s2)))|exact (Tail s2)].
Qed.
End Alone.

(** ** Paths *)
Lemma apart_sym p q : apart p q -> apart q p.
Proof. intros (H1 & H2 & H3). split; [congruence|]. split; assumption. Qed.
Lemma below_under p q k : below p (norm q) -> below q k -> below p k.
Proof.
  intros H1 H2. apply below_iff in H1, H2. destruct H1 as (r1 & E1). destruct H2 as (r2 & E2). apply below_iff.
  exists (r1 ++ "/" ++ r2). rewrite E2, E1, !append_assoc. reflexivity.
Qed.
Lemma both_below p q k : below p k -> below q k -> norm p = norm q \/ below p (norm q) \/ below q (norm p).
Proof.
  intros H1 H2. apply below_iff in H1, H2. destruct H1 as (r1 & E1). destruct H2 as (r2 & E2). rewrite E1 in E2.
  apply app_split in E2. destruct E2 as [(x & Ex & Ey)|(x & Ex & Ey)]; (destruct x as [|c x]; [left; rewrite append_nil_r in Ex; congruence|]);
    cbn [append] in Ey; injection Ey as <- _; [right; left|right; right]; apply below_iff; exists x; exact Ex.
Qed.
Lemma at_or_below_apart p q k : at_or_below p k -> at_or_below q k -> ~ apart p q.
Proof.
  intros [->|H1] [H2|H2] (A1 & A2 & A3).
  - contradiction.
  - contradiction.
  - subst k. contradiction.
  - destruct (both_below p q k H1 H2) as [E|[E|E]]; contradiction.
Qed.
(** What is above [p] is not in [q]'s place. *)
Lemma above_apart p q a : below a (norm p) -> at_or_below q (norm a) -> ~ apart p q.
Proof.
  intros H1 [E|H2] (A1 & A2 & A3).
  - apply A3. unfold below in *. rewrite <- E. exact H1.
  - apply A3. apply (below_under q a (norm p)); assumption.
Qed.
Lemma prefixes_above s : forall acc d, In d (prefixes acc s) -> norm d = norm (acc ++ s) \/ below d (acc ++ s).
Proof.
  induction s as [|c s IH]; intros acc d H; cbn [prefixes] in H.
  - destruct H as [<-|[]]. left. rewrite append_nil_r. reflexivity.
  - assert (E : (acc ++ String c "") ++ s = acc ++ String c s) by (rewrite append_assoc; reflexivity).
    destruct (is_slash c) eqn:C; [|rewrite <- E; apply IH, H].
    apply in_app_or in H. destruct H as [H|H]; [|rewrite <- E; apply IH, H].
    assert (d = acc) by (destruct acc; [destruct H|destruct H as [<-|[]]; reflexivity]). subst d. right.
    unfold is_slash in C. apply Ascii.eqb_eq in C. subst c. apply below_iff. destruct (norm_rest acc) as (k & Ea). exists (srun k ++ s).
    rewrite Ea at 1. rewrite !append_assoc. f_equal. clear.
    change (srun k ++ "/" ++ s = "/" ++ srun k ++ s). rewrite <- !append_assoc. f_equal. apply iter_slash_end.
Qed.
Lemma dirs_of_path path d : In d (prefixes "" (norm path)) -> norm d = norm path \/ below d (norm path).
Proof. intros H. destruct (prefixes_above _ _ _ H) as [E|E]; [left|right; exact E]. rewrite E. cbn [append]. apply norm_idem. Qed.
Lemma cache_file_below dh : below (cache_dir dh) (norm (cache_file dh)).
Proof.
  destruct (join_plain (cache_dir dh) "cross_section.cache") as (p' & E1 & E2 & E3 & _); [split; [discriminate|reflexivity]|apply join_not_empty; discriminate|].
  unfold cache_file. rewrite E3, E2. apply below_iff. destruct (norm_rest p') as (k & Ep). exists (srun k ++ "cross_section.cache").
  rewrite <- E1. rewrite Ep at 1. rewrite !append_assoc. f_equal. rewrite <- !append_assoc. f_equal. apply iter_slash_end.
Qed.
