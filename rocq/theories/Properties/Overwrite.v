(** C45: existing data is never overwritten. *)
From Coq Require Import Reals Ascii.
From Verif.Base Require Import Result Arith RArith FArith Rng.
From Verif.Model Require Import Config Nucleon Nucleus Event Text Files CrossSection Output Collider.
From Verif.Spec Require Import Cache FileTree History Collision Runs.
From Verif.Proof Require Import Basics FsP FsTree Ctor Writers CacheRun OutputP EveryEvent.
Local Open Scope string_scope.

(** [k] is the cross section cache. *)
Definition is_cache (e : env) (k : string) : Prop := exists dh, data_dir e = Some dh /\ k = norm (cache_file dh).

Lemma home_data_dir e dh : get_data_home e = Ret dh -> data_dir e = Some dh.
Proof. unfold data_dir, get_data_home. destruct (xdg_data_home e); [congruence|]. destruct (home e); simpl; congruence. Qed.

Definition fails {X} (r : result X) : Prop := match r with Ret _ => False | _ => True end.

Section Steps.
Context {A : Arith} (R : Rng A) (sv : Solver A) (bd : build).

(** The steps of the constructor, whatever its outcome. *)
Lemma collider_new_steps fuel e cfg (s : sys R) r s1 : collider_new R sv bd fuel e cfg s = (r, s1) ->
  (s1 = s /\ fails r) \/
  exists rp sp, partonic_cross_section R sv fuel e cfg s = (rp, sp) /\
    ((s1 = sp /\ fails r) \/
     exists spp ro so, rp = Ret spp /\ output_new R bd cfg sp = (ro, so) /\ s_fs s1 = s_fs so /\ s_out s1 = s_out so /\
       ((fails ro /\ fails r) \/ exists ws co nA nB ev nst gst, ro = Ret ws /\ r = Ret (co, nA, nB, ev, nst, gst) /\ co_writers co = ws)).
Proof.
  unfold collider_new. intros H. unfold bind at 1, get in H.
  unfold bind at 1, lift in H. destruct (create_nucleus bd (s_fs s) cfg 0); try (injection H as <- <-; left; split; [reflexivity|exact I]).
  unfold bind at 1, lift in H. destruct (create_nucleus bd (s_fs s) cfg 1); try (injection H as <- <-; left; split; [reflexivity|exact I]).
  right. unfold bind at 1 in H. destruct (partonic_cross_section R sv fuel e cfg s) as [rp sp] eqn:E. exists rp, sp. split; [reflexivity|].
  destruct rp as [spp| | |]; try (injection H as <- <-; left; split; [reflexivity|exact I]).
  unfold bind at 1, lift in H. destruct (event_new cfg) as [ev| | |]; try (injection H as <- <-; left; split; [reflexivity|exact I]).
  right. unfold bind at 1 in H. destruct (output_new R bd cfg sp) as [ro so] eqn:O. exists spp, ro, so. split; [reflexivity|]. split; [reflexivity|].
  destruct ro as [ws| | |]; try (injection H as <- <-; split; [reflexivity|split; [reflexivity|left; split; exact I]]).
  unfold bind in H. destruct (0 <? random_seed cfg)%Z; unfold ret in H; injection H as <- <-; (split; [reflexivity|split; [reflexivity|]]); right;
    repeat eexists.
Qed.

Lemma collide_steps cfuel fuel sfuel e cfg (s : sys R) r s' : collide R sv bd cfuel fuel sfuel e cfg s = (r, s') ->
  (exists r0, collider_new R sv bd cfuel e cfg s = (r0, s') /\ fails r0 /\ fails r) \/
  exists co nA nB ev nst gst s1 r0 ru, collider_new R sv bd cfuel e cfg s = (Ret (co, nA, nB, ev, nst, gst), s1) /\
    run_events R bd fuel sfuel co nA nB ev (Run s1 nst gst) = (r0, ru) /\ s' = ru_sys ru.
Proof.
  unfold collide, bind. intros H. destruct (collider_new R sv bd cfuel e cfg s) as [[[[[[[co nA] nB] ev] nst] gst]| | |] s1] eqn:E.
  2-4: injection H as <- <-; left; eexists; split; [reflexivity|split; exact I].
  right. destruct (run_events R bd fuel sfuel co nA nB ev (Run s1 nst gst)) as [r0 ru] eqn:Er.
  exists co, nA, nB, ev, nst, gst, s1, r0, ru. split; [reflexivity|]. split; [exact Er|]. destruct r0; congruence.
Qed.

(** The cross section step. *)
Lemma partonic_keeps_tree fuel e cfg : keeps R tree (partonic_cross_section R sv fuel e cfg).
Proof.
  apply keeps_partonic. intros dh ED. split.
  - intros f r f' H T. refine (create_directory_tree _ _ _ _ _ H T). apply join_not_empty. discriminate.
  - intros c f r f' H T. refine (append_file_tree _ _ _ _ _ _ H T). apply join_not_empty. discriminate.
Qed.
Lemma partonic_keeps_entry k n fuel e cfg : ~ is_cache e k -> keeps R (entry_is k n) (partonic_cross_section R sv fuel e cfg).
Proof.
  intros NC. apply keeps_partonic. intros dh ED. split.
  - apply keeps_create_directory, join_not_empty. discriminate.
  - intros c. apply keeps_append_file. intros E. apply NC. exists dh. split; [apply home_data_dir, ED|exact E].
Qed.

(** Files only grow, entries stay. *)
Definition grown (n n' : node A) : Prop := n' = n \/ exists c x, n = File c /\ n' = File (c ++ x).
Definition grown_from (f0 f : fs A) : Prop := forall k n, fs_get f0 k = Some n -> exists n', fs_get f k = Some n' /\ grown n n'.
Lemma grown_trans a b c : grown a b -> grown b c -> grown a c.
Proof.
  intros [->|(x & y & -> & ->)] [->|(u & v & E & ->)].
  - left. reflexivity.
  - right. exists u, v. auto.
  - right. exists x, y. auto.
  - injection E as <-. right. exists x, (y ++ v). rewrite append_assoc. auto.
Qed.
Lemma partonic_grows f0 fuel e cfg : keeps R (grown_from f0) (partonic_cross_section R sv fuel e cfg).
Proof.
  apply keeps_partonic. intros dh ED. split.
  - intros f r f' H G k n K. destruct (G k n K) as (n' & K' & Gr). exists n'. split; [|exact Gr].
    refine (keeps_create_directory k n' (path_join dh "trento") _ f r f' H K'). apply join_not_empty. discriminate.
  - intros c f r f' H G k n K. destruct (G k n K) as (n' & K' & Gr). set (p := cache_path dh) in *. assert (NE : p <> "") by (apply join_not_empty; discriminate).
    destruct (string_dec k (norm p)) as [->|NK].
    + unfold append_file in H. rewrite lookup_ne, K' in H by exact NE. destruct n' as [|t|objs]; injection H as <- <-; try (exists n'; split; [exact K'|exact Gr]).
      * exists Dir. auto.
      * exists (File (t ++ c)). split; [apply fs_get_put_eq|]. eapply grown_trans; [exact Gr|]. right. exists t, c. auto.
      * exists (H5File objs). auto.
    + exists n'. split; [|exact Gr]. exact (keeps_append_file k n' p c NK f r f' H K').
Qed.
End Steps.

(** Writers for a path do not touch other entries. *)
Lemma writers_keep {A : Arith} (R : Rng A) cfg width k n w evnum b nc ev :
  In w (writers_of (A:=A) cfg width) -> (0 <= evnum)%Z ->
  (forall path, output cfg = Some path -> path <> "" /\ (if filename_is_hdf5 path then k <> norm path else ~ below path k)) ->
  keeps R (entry_is k n) (run_writer R w evnum b nc ev).
Proof.
  intros H Hn HP. apply keeps_run_writer. unfold writers_of in H. apply in_app_or in H. destruct H as [H|H].
  - destruct (quiet cfg); [destruct H|]. destruct H as [<-|[]]. exact I.
  - destruct (output cfg) as [path|]; [|destruct H]. destruct (HP path eq_refl) as [NE C]. destruct (filename_is_hdf5 path).
    + destruct H as [<-|[]]. apply keeps_hdf5_write, C.
    + destruct H as [<-|[]]. intros c. apply keeps_write_file. intros E. apply C.
      destruct (join_key path _ (text_file_name_plain width evnum Hn) NE) as [K1 K2]. rewrite E, K1. exact K2.
Qed.

(** Whatever the outcome of a run (success, exception, undefined behaviour, no
    end): a non-empty file or a directory that existed before it is unchanged,
    except for the cross section cache. *)
Theorem C45_untouched : forall (A : Arith) (R : Rng A) sv bd cfuel fuel sfuel e cfg (s s' : sys R) r,
  collide R sv bd cfuel fuel sfuel e cfg s = (r, s') -> tree (s_fs s) ->
  forall k n, fs_get (s_fs s) k = Some n -> holds_data n \/ n = Dir -> ~ is_cache e k -> fs_get (s_fs s') k = Some n.
Proof.
  intros A R sv bd cfuel fuel sfuel e cfg s s' r H T k n K Hd NC.
  (* the constructor *)
  assert (N : forall r0 s1, collider_new R sv bd cfuel e cfg s = (r0, s1) ->
    fs_get (s_fs s1) k = Some n /\
    (forall co nA nB ev nst gst, r0 = Ret (co, nA, nB, ev, nst, gst) -> exists width, co_writers co = writers_of cfg width /\
       forall path, output cfg = Some path -> path <> "" /\ (if filename_is_hdf5 path then k <> norm path else ~ below path k))).
  { intros r0 s1 E. apply collider_new_steps in E. destruct E as [[-> F]|(rp & sp & Ep & E)].
    { split; [exact K|]. intros; subst r0; destruct F. }
    pose proof (partonic_keeps_tree R sv cfuel e cfg _ _ _ Ep T) as Tp.
    pose proof (partonic_keeps_entry R sv k n cfuel e cfg NC _ _ _ Ep K) as Kp. unfold entry_is in Kp.
    destruct E as [[-> F]|(spp & ro & so & _ & Eo & Ef & _ & E)]. { split; [exact Kp|]. intros; subst r0; destruct F. }
    rewrite Ef. destruct (output_new_ok R bd cfg sp ro so Tp Eo) as [To Co].
    destruct E as [[Fo F]|(ws & co & nA & nB & ev & nst & gst & -> & -> & Ew)].
    { split; [destruct ro; [destruct Fo|apply Co; exact Kp..]|intros; subst r0; destruct F]. }
    destruct Co as (width & _ & -> & Op). 
    assert (Q : fs_get (s_fs so) k = Some n /\ forall path, output cfg = Some path -> path <> "" /\ (if filename_is_hdf5 path then k <> norm path else ~ below path k)).
    { destruct Op as [E1 ->|path E1 E2 NE E3 ->|path E1 E2 NE E3 E4 E5|path E1 E2 NE N0 E3 ->].
      - split; [exact Kp|]. intros path E. congruence.
      - assert (NK : k <> norm path) by (intros ->; rewrite Kp in E3; destruct E3 as [E3|E3]; [discriminate E3|injection E3 as ->; destruct Hd as [Hd|Hd]; [apply Hd; reflexivity|discriminate Hd]]).
        split; [rewrite fs_get_put_neq by exact NK; exact Kp|]. intros p Ep'. assert (p = path) by congruence. subst p. rewrite E2. auto.
      - assert (Ko : fs_get (s_fs so) k = Some n) by (destruct (E5 k) as [->|(X & _)]; congruence).
        split; [exact Ko|]. intros p Ep'. assert (p = path) by congruence. subst p. rewrite E2. split; [exact NE|]. intros B. rewrite (E4 k B) in Ko. discriminate Ko.
      - split; [exact Kp|]. intros p Ep'. assert (p = path) by congruence. subst p. rewrite E2. split; [exact NE|]. intros B.
        assert (fs_get (s_fs sp) (norm path) = Some Dir) by (apply (tree_above _ path k Tp B); congruence). congruence. }
    destruct Q as [Q1 Q2]. split; [exact Q1|]. intros. assert (co0 = co) by congruence. subst co0. exists width. auto. }
  apply collide_steps in H. destruct H as [(r0 & E & _)|(co & nA & nB & ev & nst & gst & s1 & r0 & ru & E & Er & ->)].
  - apply (N _ _ E).
  - destruct (N _ _ E) as [N1 N2]. destruct (N2 _ _ _ _ _ _ eq_refl) as (width & Ew & HP).
    refine (keeps_events R (entry_is k n) bd fuel sfuel co nA nB ev nst gst s1 r0 ru _ Er N1).
    intros w evnum b nc ev0 Hw Hn. rewrite Ew in Hw. apply (writers_keep R cfg width k n w evnum b nc ev0 Hw Hn HP).
Qed.

(** The cache itself only grows. *)
Theorem C45_cache_grows : forall (A : Arith) (R : Rng A) sv bd cfuel fuel sfuel e cfg (s s' : sys R) r,
  collide R sv bd cfuel fuel sfuel e cfg s = (r, s') -> tree (s_fs s) ->
  forall k c, fs_get (s_fs s) k = Some (File c) -> c <> "" -> exists x, fs_get (s_fs s') k = Some (File (c ++ x)).
Proof.
  intros A R sv bd cfuel fuel sfuel e cfg s s' r H T k c K Hc.
  assert (N : forall r0 s1, collider_new R sv bd cfuel e cfg s = (r0, s1) ->
    exists x, fs_get (s_fs s1) k = Some (File (c ++ x)) /\
    (forall co nA nB ev nst gst, r0 = Ret (co, nA, nB, ev, nst, gst) -> exists width, co_writers co = writers_of cfg width /\
       forall path, output cfg = Some path -> path <> "" /\ (if filename_is_hdf5 path then k <> norm path else ~ below path k))).
  { intros r0 s1 E. apply collider_new_steps in E. destruct E as [[-> F]|(rp & sp & Ep & E)].
    { exists "". rewrite append_nil_r. split; [exact K|]. intros; subst r0; destruct F. }
    pose proof (partonic_keeps_tree R sv cfuel e cfg _ _ _ Ep T) as Tp.
    assert (G : grown_from (s_fs s) (s_fs sp)).
    { apply (partonic_grows R sv (s_fs s) cfuel e cfg _ _ _ Ep). intros k' n' K'. exists n'. split; [exact K'|left; reflexivity]. }
    assert (Kp : exists x, fs_get (s_fs sp) k = Some (File (c ++ x))).
    { destruct (G k _ K) as (n' & Kp & [->|(u & v & Eu & ->)]); [exists ""; rewrite append_nil_r; exact Kp|]. injection Eu as <-. exists v. exact Kp. }
    destruct Kp as (x & Kp). exists x. assert (Hx : c ++ x <> "") by (destruct c; [contradiction|discriminate]).
    destruct E as [[-> F]|(spp & ro & so & _ & Eo & Ef & _ & E)]. { split; [exact Kp|]. intros; subst r0; destruct F. }
    rewrite Ef. destruct (output_new_ok R bd cfg sp ro so Tp Eo) as [To Co].
    destruct E as [[Fo F]|(ws & co & nA & nB & ev & nst & gst & -> & -> & Ew)].
    { split; [destruct ro; [destruct Fo|apply Co; exact Kp..]|intros; subst r0; destruct F]. }
    destruct Co as (width & _ & -> & Op). 
    assert (Q : fs_get (s_fs so) k = Some (File (c ++ x)) /\ forall path, output cfg = Some path -> path <> "" /\ (if filename_is_hdf5 path then k <> norm path else ~ below path k)).
    { destruct Op as [E1 ->|path E1 E2 NE E3 ->|path E1 E2 NE E3 E4 E5|path E1 E2 NE N0 E3 ->].
      - split; [exact Kp|]. intros path E. congruence.
      - assert (NK : k <> norm path) by (intros ->; rewrite Kp in E3; destruct E3 as [E3|E3]; [discriminate E3|injection E3 as E3; contradiction]).
        split; [rewrite fs_get_put_neq by exact NK; exact Kp|]. intros p Ep'. assert (p = path) by congruence. subst p. rewrite E2. auto.
      - assert (Ko : fs_get (s_fs so) k = Some (File (c ++ x))) by (destruct (E5 k) as [->|(X & _)]; congruence).
        split; [exact Ko|]. intros p Ep'. assert (p = path) by congruence. subst p. rewrite E2. split; [exact NE|]. intros B. rewrite (E4 k B) in Ko. discriminate Ko.
      - split; [exact Kp|]. intros p Ep'. assert (p = path) by congruence. subst p. rewrite E2. split; [exact NE|]. intros B.
        assert (fs_get (s_fs sp) (norm path) = Some Dir) by (apply (tree_above _ path k Tp B); congruence). congruence. }
    destruct Q as [Q1 Q2]. split; [exact Q1|]. intros. assert (co0 = co) by congruence. subst co0. exists width. auto. }
  apply collide_steps in H. destruct H as [(r0 & E & _)|(co & nA & nB & ev & nst & gst & s1 & r0 & ru & E & Er & ->)].
  - destruct (N _ _ E) as (x & N1 & _). exists x. exact N1.
  - destruct (N _ _ E) as (x & N1 & N2). destruct (N2 _ _ _ _ _ _ eq_refl) as (width & Ew & HP). exists x.
    refine (keeps_events R (entry_is k (File (c ++ x))) bd fuel sfuel co nA nB ev nst gst s1 r0 ru _ Er N1).
    intros w evnum b nc ev0 Hw Hn. rewrite Ew in Hw. apply (writers_keep R cfg width k _ w evnum b nc ev0 Hw Hn HP).
Qed.

(** ** Refusal *)
(** The output path is in use: a non-empty file or a non-empty directory. *)
Definition in_use {A : Arith} (f : fs A) (path : string) : Prop :=
  path <> "" /\
  ((exists n, fs_get f (norm path) = Some n /\ holds_data n) \/
   (fs_get f (norm path) = Some Dir /\ exists k n, below path k /\ fs_get f k = Some n)).

Lemma in_use_grown {A : Arith} (f f' : fs A) path : grown_from f f' -> in_use f path -> in_use f' path.
Proof.
  intros G [NE [(n & K & Hd)|(K & k & n & B & K')]]; (split; [exact NE|]).
  - left. destruct (G _ _ K) as (n' & K1 & Gr). exists n'. split; [exact K1|]. destruct Gr as [->|(c & x & -> & ->)]; [exact Hd|]. cbn in *. destruct c; [contradiction|discriminate].
  - right. split.
    + destruct (G _ _ K) as (n' & K1 & [->|(c & x & E & _)]); [exact K1|discriminate E].
    + destruct (G _ _ K') as (n' & K1 & _). exists k, n'. auto.
Qed.

(** Constructing the outputs throws and changes nothing. *)
Theorem C45_refuses : forall (A : Arith) (R : Rng A) bd cfg (s : sys R) path width,
  output cfg = Some path -> in_use (s_fs s) path -> output_width (A:=A) (number_events cfg) = Ret width ->
  exists msg, output_new R bd cfg s = (Throw (RuntimeError msg), s).
Proof.
  intros A R bd cfg s path width Eo [NE U] Ew. unfold output_new. rewrite Ew, Eo. unfold bind, lift, get.
  assert (X : fs_exists (s_fs s) path = true /\ fs_is_empty (s_fs s) path = false).
  { unfold fs_exists, fs_is_empty. rewrite lookup_ne by exact NE. destruct U as [(n & K & Hd)|(K & k & n & B & K')]; rewrite K.
    - split; [reflexivity|]. destruct n as [|c|objs]; cbn in Hd; [destruct Hd|destruct c; [contradiction|reflexivity]|reflexivity].
    - split; [reflexivity|]. destruct (existsb _ (s_fs s)) eqn:Ex; [reflexivity|]. apply empty_dir_iff with (k := k) in Ex; [|exact B]. congruence. }
  destruct X as [X1 X2]. rewrite X1, X2. cbn [negb andb]. destruct (filename_is_hdf5 path); [destruct (with_hdf5 bd)|]; eexists; reflexivity.
Qed.

(** A run whose output path is in use never gets past its construction: no event
    is generated, nothing is printed. *)
Theorem C45_refuses_run : forall (A : Arith) (R : Rng A) sv bd cfuel fuel sfuel e cfg (s s' : sys R) r path,
  collide R sv bd cfuel fuel sfuel e cfg s = (r, s') -> output cfg = Some path -> in_use (s_fs s) path ->
  fails r /\ s_out s' = s_out s /\ exists r0, collider_new R sv bd cfuel e cfg s = (r0, s') /\ fails r0.
Proof.
  intros A R sv bd cfuel fuel sfuel e cfg s s' r path H Eo U.
  assert (N : forall r0 s1, collider_new R sv bd cfuel e cfg s = (r0, s1) -> fails r0 /\ s_out s1 = s_out s).
  { intros r0 s1 E. apply collider_new_steps in E. destruct E as [[-> F]|(rp & sp & Ep & E)]; [auto|].
    assert (Os : s_out sp = s_out s) by (apply partonic_cross_section_frame in Ep; apply Ep).
    assert (Up : in_use (s_fs sp) path).
    { apply (in_use_grown (s_fs s)); [|exact U]. apply (partonic_grows R sv (s_fs s) cfuel e cfg _ _ _ Ep). intros k' n' K'. exists n'. split; [exact K'|left; reflexivity]. }
    destruct E as [[-> F]|(spp & ro & so & _ & En & Ef & Eu & E)]; [auto|].
    assert (Q : fails ro /\ s_out so = s_out sp).
    { destruct (output_width (A:=A) (number_events cfg)) as [width| | |] eqn:Ew.
      - destruct (C45_refuses A R bd cfg sp path width Eo Up Ew) as (msg & X). rewrite X in En. injection En as <- <-. split; [exact I|reflexivity].
      - unfold output_new, bind, lift in En. rewrite Ew in En. injection En as <- <-. split; [exact I|reflexivity].
      - unfold output_new, bind, lift in En. rewrite Ew in En. injection En as <- <-. split; [exact I|reflexivity].
      - unfold output_new, bind, lift in En. rewrite Ew in En. injection En as <- <-. split; [exact I|reflexivity]. }
    destruct Q as [Q1 Q2]. destruct E as [[_ F]|(ws & co & nA & nB & ev & nst & gst & -> & _)]; [|destruct Q1].
    split; [exact F|]. congruence. }
  apply collide_steps in H. destruct H as [(r0 & E & F0 & F)|(co & nA & nB & ev & nst & gst & s1 & r0 & ru & E & Er & ->)].
  - split; [exact F|]. split; [apply (N _ _ E)|]. exists r0. auto.
  - destruct (N _ _ E) as [[] _].
Qed.
