(** Runs that share the files: every schedule. *)
From Coq Require Import Ascii.
From Verif.Base Require Import Result Arith Rng.
From Verif.Model Require Import Random Config Nucleon Nucleus Event Text Files CrossSection CacheSteps Output Collider RunSteps.
From Verif.Spec Require Import FileTree Cache Parallel.
From Verif.Proof Require Import Basics FsP FsTree Writers CacheRun Ctor OutputP ParallelP ParallelQ.
Local Open Scope string_scope.

Section Like.
Context {A : Arith}.

(** Changes elsewhere, on both sides. *)
Lemma like_other path (f g f' g' : fs A) : like path f g ->
  (forall k, at_or_below path k \/ (exists q, k = norm q /\ below q (norm path)) -> fs_get f' k = fs_get f k /\ fs_get g' k = fs_get g k) ->
  like path f' g'.
Proof.
  intros (L1 & L2 & L3) H. split; [|split].
  - intros k K. destruct (H k (or_introl K)) as [-> ->]. auto.
  - intros q Q. destruct (H (norm q) (or_intror (ex_intro _ q (conj eq_refl Q)))) as [-> ->]. auto.
  - intros Hh. destruct (L3 Hh) as [P1 P2]. split; [apply (parent_stays path f f')|apply (parent_stays path g g')]; try assumption;
      (intros q Q D; destruct (H (norm q) (or_intror (ex_intro _ q (conj eq_refl Q)))) as [E1 E2]; congruence).
Qed.
(** The place of an output, or above it. *)
Definition near (path k : string) : Prop := at_or_below path k \/ exists q, k = norm q /\ below q (norm path).
Lemma near_apart p q k : near p k -> at_or_below q k -> ~ apart p q.
Proof. intros [H|(a & -> & H)] K; [apply (at_or_below_apart p q k H K)|apply (above_apart p q a H K)]. Qed.
Lemma cache_file_in dh : at_or_below (cache_dir dh) (norm (cache_file dh)).
Proof. right. apply cache_file_below. Qed.
Lemma near_cache p dh k : apart p (cache_dir dh) -> near p k -> k <> norm (cache_dir dh) /\ k <> norm (cache_file dh).
Proof.
  intros Ap Nk. split; intros ->; revert Ap; apply (near_apart _ _ _ Nk); [left; reflexivity|apply cache_file_in].
Qed.
End Like.

Lemma home_dir e dh : get_data_home e = Ret dh -> data_dir e = Some dh.
Proof. unfold data_dir, get_data_home. destruct (xdg_data_home e); [congruence|]. destruct (home e); simpl; congruence. Qed.
Lemma home_cases e : (exists dh, get_data_home e = Ret dh) \/ exists u, get_data_home e = UB u.
Proof. unfold get_data_home. destruct (xdg_data_home e); [left; eauto|]. destruct (home e); [left; eauto|right; eauto]. Qed.

Section Changes.
Context {A : Arith} {R : Rng A} (e : env) (f0 : fs A) (ls : list (launch R)).
Hypothesis sep : separate R e f0 ls.

Lemma change_elsewhere i j l l' f f' path : i <> j -> nth_error ls i = Some l -> nth_error ls j = Some l' -> output (l_cfg l) = Some path ->
  any_change e (l_cfg l') f f' -> hands_off path f f'.
Proof.
  intros N Hi Hj E G. destruct sep as [W C]. destruct (proj1 (W l (nth_error_In _ _ Hi)) path E) as [Wc _].
  destruct (C i j l l' N Hi Hj) as [C1 _]. specialize (C1 path). split.
  - intros k K. destruct G as [G|G].
    + destruct (G k) as [Ek|(p' & E' & [B|(q & -> & B & _)])]; [exact Ek| |]; exfalso; specialize (C1 p' E E').
      * revert C1. apply (at_or_below_apart path p' k K B).
      * apply apart_sym in C1. revert C1. apply (above_apart p' path q B K).
    + destruct (G k) as [Ek|(dh & D & X)]; [exact Ek|exfalso]. destruct (near_cache path dh k (Wc dh D) (or_introl K)). destruct X as [[X _]|X]; contradiction.
  - intros q Q. assert (Nq : near path (norm q)) by (right; exists q; auto). destruct G as [G|G].
    + destruct (G (norm q)) as [Ek|(p' & E' & [B|(q' & Eq & B & B1 & B2)])]; [left; exact Ek| |right; split; assumption].
      exfalso. specialize (C1 p' E E'). revert C1. apply (near_apart path p' (norm q) Nq B).
    + destruct (G (norm q)) as [Ek|(dh & D & X)]; [left; exact Ek|exfalso]. destruct (near_cache path dh (norm q) (Wc dh D) Nq). destruct X as [[X _]|X]; contradiction.
Qed.

(** Directories above one's output stay, whoever changes the files. *)
Lemma dirs_stay i j l l' f f' path : nth_error ls i = Some l -> nth_error ls j = Some l' -> output (l_cfg l) = Some path ->
  any_change e (l_cfg l') f f' -> forall q, below q (norm path) -> fs_get f (norm q) = Some Dir -> fs_get f' (norm q) = Some Dir.
Proof.
  intros Hi Hj E G q Q D. destruct (Nat.eq_dec i j) as [<-|N].
  - assert (l' = l) by congruence. subst l'. destruct sep as [W _]. destruct (proj1 (W l (nth_error_In _ _ Hi)) path E) as [Wc _]. destruct G as [G|G].
    + destruct (G (norm q)) as [->|(p' & E' & [B|(q' & _ & _ & _ & B)])]; [exact D| |exact B].
      assert (p' = path) by congruence. subst p'. exfalso. destruct B as [B|B].
      * apply (below_not_self q). rewrite B. exact Q.
      * apply (below_not_self path), (below_under path q (norm path)); assumption.
    + destruct (G (norm q)) as [->|(dh & Dd & X)]; [exact D|exfalso].
      destruct (near_cache path dh (norm q) (Wc dh Dd)) as [X1 X2]; [right; exists q; auto|]. destruct X as [[X _]|X]; contradiction.
  - destruct (change_elsewhere i j l l' f f' path N Hi Hj E G) as [_ H]. destruct (H q Q) as [->|[H1 _]]; assumption.
Qed.

(** Input files stay, whoever changes the cache or another output. *)
Lemma input_stays i l f f' p : nth_error ls i = Some l -> reads_file (l_cfg l) p ->
  (cache_change e f f' \/ exists j l', i <> j /\ nth_error ls j = Some l' /\ any_change e (l_cfg l') f f') -> fs_lookup f' p = fs_lookup f p.
Proof.
  intros Hi Hr G. destruct sep as [W C]. pose proof (proj2 (W l (nth_error_In _ _ Hi)) p) as Wc.
  unfold fs_lookup. destruct (String.eqb p ""); [reflexivity|].
  assert (GC : cache_change e f f' -> fs_get f' (norm p) = fs_get f (norm p)).
  { intros G'. destruct (G' (norm p)) as [->|(dh & D & X)]; [reflexivity|exfalso]. specialize (Wc dh Hr D).
    destruct (near_cache p dh (norm p) Wc) as [X1 X2]; [left; left; reflexivity|]. destruct X as [[X _]|X]; contradiction. }
  destruct G as [G|(j & l' & N & Hj & [G|G])]; [auto| |auto].
  destruct (G (norm p)) as [->|(p' & E' & B)]; [reflexivity|exfalso].
  destruct (C i j l l' N Hi Hj) as (_ & C2 & _). specialize (C2 p p' Hr E'). destruct B as [B|(q & Eq & B & _)].
  - revert C2. apply (at_or_below_apart p p' (norm p)); [left; reflexivity|exact B].
  - destruct C2 as (_ & C2 & _). apply C2. unfold below in *. rewrite Eq. exact B.
Qed.
End Changes.

(** The files as they were at first, as far as a run that has not read the cache yet can tell. *)
Definition fresh {A : Arith} {R : Rng A} (f0 : fs A) (l : launch R) (f : fs A) : Prop :=
  rel (l_cfg l) f f0 /\ forall p, reads_file (l_cfg l) p -> fs_lookup f p = fs_lookup f0 p.
Section Fresh.
Context {A : Arith} {R : Rng A} (e : env) (f0 : fs A) (ls : list (launch R)).
Hypothesis sep : separate R e f0 ls.
Lemma fresh_start l : In l ls -> fresh f0 l f0.
Proof. intros Hl. split; [|auto]. intros path E. apply like_refl. intros Hh. destruct sep as [W _]. apply (proj1 (W l Hl) path E), Hh. Qed.
Lemma fresh_cache i l f f' : nth_error ls i = Some l -> cache_change e f f' -> fresh f0 l f -> fresh f0 l f'.
Proof.
  intros Hi G (Rl & In_). split.
  - intros path E. apply (like_hands_off path f); [apply Rl, E|]. destruct sep as [W C]. destruct (proj1 (W l (nth_error_In _ _ Hi)) path E) as [Wc _].
    assert (X : forall k, near path k -> fs_get f' k = fs_get f k).
    { intros k K. destruct (G k) as [Ek|(dh & D & X)]; [exact Ek|exfalso]. destruct (near_cache path dh k (Wc dh D) K). destruct X as [[X _]|X]; contradiction. }
    split; [intros k K; apply X; left; exact K|intros q Q; left; apply X; right; exists q; auto].
  - intros p Hr. rewrite <- (In_ p Hr). apply (input_stays e f0 ls sep i l f f' p Hi Hr). left. exact G.
Qed.
Lemma fresh_other i j l l' f f' : i <> j -> nth_error ls i = Some l -> nth_error ls j = Some l' -> any_change e (l_cfg l') f f' -> fresh f0 l f -> fresh f0 l f'.
Proof.
  intros N Hi Hj G (Rl & In_). split.
  - intros path E. apply (like_hands_off path f); [apply Rl, E|]. apply (change_elsewhere e f0 ls sep i j l l'); assumption.
  - intros p Hr. rewrite <- (In_ p Hr). apply (input_stays e f0 ls sep i l f f' p Hi Hr). right. exists j, l'. auto.
Qed.
End Fresh.

Lemma create_nucleus_same {A : Arith} bd (cfg : config A) (f f' : fs A) n : (forall p, reads_file cfg p -> fs_lookup f' p = fs_lookup f p) ->
  create_nucleus bd f' cfg n = create_nucleus bd f cfg n.
Proof.
  intros H. unfold create_nucleus. destruct (nth_error (projectile cfg) n) as [sp|] eqn:E; [|reflexivity].
  assert (X : filename_is_hdf5 sp = true -> fs_lookup f' sp = fs_lookup f sp) by (intros Hh; apply H; split; [apply (nth_error_In _ _ E)|exact Hh]).
  unfold nucleus_create. destruct (filename_is_hdf5 sp); [|reflexivity]. unfold manual_create, try_open_file. rewrite X by reflexivity. reflexivity.
Qed.

Section Stages.
Context {A : Arith} (R : Rng A) (sv : Solver A) (bd : build) (cfuel fuel sfuel : nat) (e : env) (cfg : config A).

Definition look_up (dh : string) (f : fs A) : result (option (num A)) :=
  match fs_lookup f (cache_path dh) with
  | Some n => cache_loop cfuel (nucleon_width cfg) (constit_width cfg) (constit_number cfg) (cross_section cfg)
                (Istream (file_text n) false false) cvars_uninit
  | None => Ret None
  end.
Definition parameter (dh : string) (hit : option (num A)) : P R (num A) :=
  match hit with
  | Some sp => yields R (Ret sp)
  | None =>
      pbind R (calls R (append_file (cache_path dh) "")) (fun _ =>
      pbind R (computes R (compute_partonic R sv cfg)) (fun sp =>
      pbind R (calls R (append_file (cache_path dh) (line_for cfg sp))) (fun _ =>
      yields R (Ret sp))))
  end.
Definition rest := with_parameter R bd fuel sfuel cfg.
Definition stage0 : P R unit := run_steps R sv bd cfuel fuel sfuel e cfg.
Definition stage2 (nA nB : nucleus A) : P R unit := pbind R (partonic_steps R sv cfuel e cfg) (rest nA nB).
Definition stage1 (nA : nucleus A) : P R unit := pbind R (asks R (fun f => create_nucleus bd f cfg 1)) (stage2 nA).
Definition stage3 (nA nB : nucleus A) (dh : string) : P R unit :=
  pbind R (pbind R (asks R (look_up dh)) (parameter dh)) (rest nA nB).
Definition late (nA nB : nucleus A) (dh : string) (hit : option (num A)) : P R unit := pbind R (parameter dh hit) (rest nA nB).

(** What a process becomes after a call that yielded [r]. *)
Definition then_ {X} (r : result X) (p : own R) (k : X -> own R -> todo R unit) : todo R unit :=
  match r with Ret x => k x p | Throw x => Ended (Throw x) p | UB u => Ended (UB u) p | OutOfFuel => Ended OutOfFuel p end.

Lemma stage0_call p : exists next effect, stage0 p = Call next effect /\
  forall f, next f = then_ (create_nucleus bd f cfg 0) p stage1 /\ effect f = f.
Proof. eexists _, _. split; [reflexivity|]. intros f. split; [|reflexivity]. cbn [fst]. destruct (create_nucleus bd f cfg 0); reflexivity. Qed.
Lemma stage1_call nA p : exists next effect, stage1 nA p = Call next effect /\
  forall f, next f = then_ (create_nucleus bd f cfg 1) p (stage2 nA) /\ effect f = f.
Proof. eexists _, _. split; [reflexivity|]. intros f. split; [|reflexivity]. cbn [fst]. destruct (create_nucleus bd f cfg 1); reflexivity. Qed.
Lemma stage2_no_home nA nB p u : get_data_home e = UB u -> stage2 nA nB p = Ended (UB u) p.
Proof. intros G. unfold stage2, partonic_steps, pbind. rewrite G. reflexivity. Qed.
Lemma stage2_call nA nB p dh : get_data_home e = Ret dh -> exists next effect, stage2 nA nB p = Call next effect /\
  forall f, next f = then_ (fst (create_directory (cache_dir dh) f)) p (fun _ => stage3 nA nB dh) /\ effect f = snd (create_directory (cache_dir dh) f).
Proof.
  intros G. unfold stage2, partonic_steps, pbind at 1. unfold pbind at 1. rewrite G. eexists _, _. split; [reflexivity|]. intros f. split; [|reflexivity].
  unfold cache_dir. destruct (fst (create_directory (path_join dh "trento") f)); reflexivity.
Qed.
Lemma stage3_call nA nB dh p : exists next effect, stage3 nA nB dh p = Call next effect /\
  forall f, next f = then_ (look_up dh f) p (late nA nB dh) /\ effect f = f.
Proof. eexists _, _. split; [reflexivity|]. intros f. split; [|reflexivity]. cbn [fst]. destruct (look_up dh f); reflexivity. Qed.

Lemma fine_late (G : fs A -> fs A -> Prop) nA nB dh hit p : (forall f f', out_change cfg f f' -> G f f') ->
  (hit = None -> forall t f, G f (snd (append_file (cache_path dh) t f))) ->
  (forall path, output cfg = Some path -> apart path (cache_dir dh)) ->
  fine R (rel cfg) G anything (late nA nB dh hit p).
Proof.
  intros HG HC Ap. unfold late. eapply fine_bind with (Q := anything).
  2:{ intros sp p1 _. eapply fine_mono; [exact HG|]. apply fine_with_parameter. }
  destruct hit as [sp|]; [intros x _; exact I|]. specialize (HC eq_refl).
  assert (Ap1 : forall t p, fine R (rel cfg) G anything (calls R (append_file (cache_path dh) t) p)).
  { intros t p1. apply fine_calls; [|apply HC|intros; exact I]. intros f g L.
    assert (Ret_ : forall h : fs A, fst (append_file (cache_path dh) t h) = Ret tt).
    { intros h. unfold append_file. destruct (fs_lookup h _) as [[]|]; try reflexivity. destruct (parent_ok h _); reflexivity. }
    assert (Oth : forall (h : fs A) k, k <> norm (cache_path dh) -> fs_get (snd (append_file (cache_path dh) t h)) k = fs_get h k).
    { intros h k Nk. unfold append_file. destruct (fs_lookup h _) as [[]|]; try reflexivity; [|destruct (parent_ok h _); [|reflexivity]]; apply fs_get_put_neq, Nk. }
    split; [rewrite !Ret_; reflexivity|]. intros path E. apply (like_other path f g); [apply L, E|]. intros k K.
    destruct (near_cache path dh k (Ap path E) K) as [_ N2]. split; apply Oth; exact N2. }
  unfold parameter. eapply fine_bind with (Q := anything); [apply Ap1|]. intros _ p1 _.
  eapply fine_bind with (Q := anything).
  { unfold computes. destruct (compute_partonic R sv cfg (w_eng p1)) as [r en]. intros x _. exact I. }
  intros sp p2 _. eapply fine_bind with (Q := anything); [apply Ap1|]. intros _ p3 _ x _. exact I.
Qed.
End Stages.

Lemma mkdir_change {A : Arith} e dh (f : fs A) : data_dir e = Some dh -> cache_change e f (snd (create_directory (cache_dir dh) f)).
Proof.
  intros D k. unfold create_directory. destruct (fs_lookup f (cache_dir dh)) as [[]|] eqn:L; try (left; reflexivity). destruct (parent_ok f (cache_dir dh)); [|left; reflexivity].
  cbn [snd]. unfold fs_set. destruct (string_dec k (norm (cache_dir dh))) as [->|N]; [|left; apply fs_get_put_neq, N]. right. exists dh. split; [exact D|]. left.
  split; [reflexivity|]. split; [|apply fs_get_put_eq]. rewrite <- lookup_ne; [exact L|apply join_not_empty; discriminate].
Qed.
Lemma append_change {A : Arith} e dh t (f : fs A) : data_dir e = Some dh -> cache_change e f (snd (append_file (cache_path dh) t f)).
Proof.
  intros D k. destruct (string_dec k (norm (cache_file dh))) as [E|N]; [right; exists dh; auto|left].
  unfold append_file. change (cache_path dh) with (cache_file dh). destruct (fs_lookup f _) as [[]|]; try reflexivity; [|destruct (parent_ok f _); [|reflexivity]]; apply fs_get_put_neq, N.
Qed.
Lemma mkdir_done {A : Arith} p (f : fs A) : fs_lookup f p = Some Dir -> create_directory p f = (Ret tt, f).
Proof. intros H. unfold create_directory. rewrite H. reflexivity. Qed.
Lemma mkdir_result {A : Arith} p (f : fs A) : p <> "" ->
  (fst (create_directory p f) = Ret tt /\ fs_lookup (snd (create_directory p f)) p = Some Dir) \/
  (exists x, fst (create_directory p f) = Throw x) /\ snd (create_directory p f) = f.
Proof.
  intros Np. unfold create_directory. destruct (fs_lookup f p) as [[]|] eqn:L; try (right; split; [eexists; reflexivity|reflexivity]); [left; auto|].
  destruct (parent_ok f p); [left|right; split; [eexists; reflexivity|reflexivity]]. split; [reflexivity|]. apply fs_set_eq, Np.
Qed.

Lemma replace_same {X} (l : list X) i x y : nth_error l i = Some y -> nth_error (replace_nth l i x) i = Some x.
Proof. revert i. induction l as [|z l IH]; intros [|i] H; try discriminate H; [reflexivity|]. apply (IH i H). Qed.
Lemma replace_other {X} (l : list X) i j x : i <> j -> nth_error (replace_nth l i x) j = nth_error l j.
Proof. revert i j. induction l as [|z l IH]; intros [|i] [|j] N; try reflexivity; [contradiction|]. cbn. apply IH. congruence. Qed.

Section World.
Context {A : Arith} (R : Rng A) (sv : Solver A) (bd : build) (cfuel fuel sfuel : nat) (e : env) (f0 : fs A) (ls : list (launch R)).
Hypothesis sep : separate R e f0 ls.

(** What is known of the cache, and which changes are made. *)
Variable (Cc : fs A -> Prop) (G : config A -> fs A -> fs A -> Prop).
Hypothesis G_any : forall l f f', In l ls -> G (l_cfg l) f f' -> any_change e (l_cfg l) f f'.
Hypothesis G_out : forall l f f', In l ls -> out_change (l_cfg l) f f' -> G (l_cfg l) f f'.
Hypothesis C_start : Cc f0.
Hypothesis C_keep : forall l f f', In l ls -> Cc f -> G (l_cfg l) f f' -> Cc f'.
Hypothesis C_mkdir : forall l dh f, In l ls -> data_dir e = Some dh -> Cc f -> G (l_cfg l) f (snd (create_directory (cache_dir dh) f)).
Hypothesis C_miss : forall l dh f, In l ls -> data_dir e = Some dh -> Cc f -> look_up cfuel (l_cfg l) dh f = Ret None ->
  forall t h, G (l_cfg l) h (snd (append_file (cache_path dh) t h)).

(** A process by itself, so far. *)
Inductive replays {X} (m : todo R X) (f : fs A) : todo R X -> fs A -> Prop :=
| rp_start : replays m f m f
| rp_call : forall next effect g, replays m f (Call next effect) g -> replays m f (next g) (effect g).
Lemma replays_alone {X} (m m' : todo R X) f g : replays m f m' g -> alone m f = alone m' g.
Proof. induction 1 as [|next effect g H IH]; [reflexivity|exact IH]. Qed.

Lemma rp_step {X} (m : todo R X) f next effect g m' g' : replays m f (Call next effect) g -> next g = m' -> effect g = g' -> replays m f m' g'.
Proof. intros H <- <-. apply rp_call, H. Qed.

Definition start (l : launch R) : todo R unit := stage0 R sv bd cfuel fuel sfuel e (l_cfg l) (l_own l).

(** Before the cache is read. *)
Inductive early (l : launch R) (f : fs A) : todo R unit -> Prop :=
| early0 : early l f (start l)
| early1 : forall nA, create_nucleus bd f (l_cfg l) 0 = Ret nA -> early l f (stage1 R sv bd cfuel fuel sfuel e (l_cfg l) nA (l_own l))
| early2 : forall nA nB dh, create_nucleus bd f (l_cfg l) 0 = Ret nA -> create_nucleus bd f (l_cfg l) 1 = Ret nB -> get_data_home e = Ret dh ->
    early l f (stage2 R sv bd cfuel fuel sfuel e (l_cfg l) nA nB (l_own l))
| early3 : forall nA nB dh, create_nucleus bd f (l_cfg l) 0 = Ret nA -> create_nucleus bd f (l_cfg l) 1 = Ret nB -> get_data_home e = Ret dh ->
    fs_lookup f (cache_dir dh) = Some Dir -> early l f (stage3 R sv bd cfuel fuel sfuel (l_cfg l) nA nB dh (l_own l)).

Definition w0 : processes R := begin R sv bd cfuel fuel sfuel e ls f0.

Definition running (w : processes R) (l : launch R) (m : todo R unit) : Prop :=
  exists wk g, schedule R w0 wk /\ schedule R wk w /\ fresh f0 l (snd wk) /\ replays (start l) (snd wk) m g /\ rel (l_cfg l) (snd w) g /\
    fine R (rel (l_cfg l)) (G (l_cfg l)) anything m.

Definition sound (w : processes R) : Prop :=
  schedule R w0 w /\ Cc (snd w) /\ length (fst w) = length ls /\
  (forall l path, In l ls -> output (l_cfg l) = Some path -> filename_is_hdf5 path = true -> parent_ok (snd w) path = true) /\
  forall i l m, nth_error ls i = Some l -> nth_error (fst w) i = Some m -> (early l (snd w) m /\ fresh f0 l (snd w)) \/ running w l m.

Lemma sched_trans a b c : schedule R a b -> schedule R b c -> schedule R a c.
Proof. intros H1 H2. induction H2 as [|u v w H2 IH M]; [exact H1|]. eapply sch_more; [apply IH, H1|exact M]. Qed.

Lemma start_sound : sound w0.
Proof.
  split; [apply sch_none|]. split; [exact C_start|]. split; [apply map_length|]. split.
  - intros l path Hl E Hh. destruct sep as [W _]. apply (proj1 (W l Hl) path E), Hh.
  - intros i l m Hi Hm. left. unfold w0, begin in Hm. cbn [fst] in Hm. rewrite (map_nth_error _ _ _ Hi) in Hm. injection Hm as <-. split; [apply early0|]. apply (fresh_start e f0 ls sep), (nth_error_In _ _ Hi).
Qed.

(** Replaying the first calls on files that are as they were. *)
Lemma replay1 l f nA : create_nucleus bd f (l_cfg l) 0 = Ret nA -> replays (start l) f (stage1 R sv bd cfuel fuel sfuel e (l_cfg l) nA (l_own l)) f.
Proof.
  intros EA. destruct (stage0_call R sv bd cfuel fuel sfuel e (l_cfg l) (l_own l)) as (next & eff & E & H). destruct (H f) as [H1 H2].
  rewrite EA in H1. cbn [then_] in H1. apply (rp_step _ _ next eff f); [|exact H1|exact H2]. unfold start. rewrite <- E. apply rp_start.
Qed.
Lemma replay2 l f nA nB : create_nucleus bd f (l_cfg l) 0 = Ret nA -> create_nucleus bd f (l_cfg l) 1 = Ret nB ->
  replays (start l) f (stage2 R sv bd cfuel fuel sfuel e (l_cfg l) nA nB (l_own l)) f.
Proof.
  intros EA EB. destruct (stage1_call R sv bd cfuel fuel sfuel e (l_cfg l) nA (l_own l)) as (next & eff & E & H). destruct (H f) as [H1 H2].
  rewrite EB in H1. cbn [then_] in H1. apply (rp_step _ _ next eff f); [|exact H1|exact H2]. rewrite <- E. apply replay1, EA.
Qed.
Lemma replay3 l f nA nB dh : create_nucleus bd f (l_cfg l) 0 = Ret nA -> create_nucleus bd f (l_cfg l) 1 = Ret nB -> get_data_home e = Ret dh ->
  fs_lookup f (cache_dir dh) = Some Dir -> replays (start l) f (stage3 R sv bd cfuel fuel sfuel (l_cfg l) nA nB dh (l_own l)) f.
Proof.
  intros EA EB ED EL. destruct (stage2_call R sv bd cfuel fuel sfuel e (l_cfg l) nA nB (l_own l) dh ED) as (next & eff & E & H). destruct (H f) as [H1 H2].
  rewrite (mkdir_done _ _ EL) in H1, H2. cbn [then_ fst snd] in H1, H2. apply (rp_step _ _ next eff f); [|exact H1|exact H2]. rewrite <- E. apply replay2; assumption.
Qed.

(** One call of process [i]: what it does to the files, and what becomes of it. *)
Lemma own_call w i l next effect : sound w -> nth_error ls i = Some l -> nth_error (fst w) i = Some (Call next effect) ->
  let w' := (replace_nth (fst w) i (next (snd w)), effect (snd w)) in
  G (l_cfg l) (snd w) (effect (snd w)) /\
  ((forall path, output (l_cfg l) = Some path -> filename_is_hdf5 path = true -> parent_ok (effect (snd w)) path = true) ->
   (early l (snd w') (next (snd w)) /\ fresh f0 l (snd w')) \/ running w' l (next (snd w))).
Proof.
  intros S Hi Hm w'. pose proof S as S'. destruct S as (Sch & Sc & Sl & Sp & Si). set (f := snd w) in *.
  pose proof (nth_error_In _ _ Hi) as Hin.
  assert (Sch' : schedule R w0 w').
  { eapply sch_more; [exact Sch|]. replace w with (fst w, f) by (subst f; destruct w; reflexivity). apply a_call. exact Hm. }
  assert (Same : G (l_cfg l) f f) by (apply G_out; [exact Hin|apply out_same]).
  assert (Apart : forall path dh, output (l_cfg l) = Some path -> data_dir e = Some dh -> apart path (cache_dir dh)).
  { intros path dh E D. destruct sep as [W _]. apply (proj1 (W l Hin) path E), D. }
  assert (Like : (forall path, output (l_cfg l) = Some path -> filename_is_hdf5 path = true -> parent_ok (effect f) path = true) -> rel (l_cfg l) (snd w') (snd w')).
  { intros Hp path E. apply like_refl. intros Hh. apply Hp; assumption. }
  (* a process that starts its replay here *)
  assert (Here : (forall path, output (l_cfg l) = Some path -> filename_is_hdf5 path = true -> parent_ok (effect f) path = true) ->
    fresh f0 l (snd w') -> replays (start l) (snd w') (next f) (snd w') -> fine R (rel (l_cfg l)) (G (l_cfg l)) anything (next f) -> running w' l (next f)).
  { intros Hp Fr Rp Fi. exists w', (snd w'). split; [exact Sch'|]. split; [apply sch_none|]. split; [exact Fr|]. split; [exact Rp|]. split; [apply Like, Hp|exact Fi]. }
  destruct (Si i l _ Hi Hm) as [[E Fr]|Rn].
  - fold f in Fr. remember (Call next effect) as m0 eqn:E0. destruct E as [|nA EA|nA nB dh EA EB ED|nA nB dh EA EB ED EL].
    + destruct (stage0_call R sv bd cfuel fuel sfuel e (l_cfg l) (l_own l)) as (n0 & x0 & E1 & Hc). unfold start in E0. rewrite E1 in E0. injection E0 as <- <-.
      destruct (Hc f) as [H1 H2]. subst w'. cbn [snd] in *. fold f. rewrite H2 in *. split; [exact Same|]. intros Hp. rewrite H1.
      assert (Rp : replays (start l) f (n0 f) f) by (apply (rp_step _ _ n0 x0 f); [unfold start; rewrite <- E1; apply rp_start|reflexivity|exact H2]).
      destruct (create_nucleus bd f (l_cfg l) 0) as [nA|x|u|] eqn:EA; [left; split; [apply early1, EA|exact Fr]| | |]; right; cbn [then_] in *; rewrite <- H1; (apply Here; [exact Hp|exact Fr|exact Rp|]); rewrite H1; intros y Ey; discriminate Ey.
    + destruct (stage1_call R sv bd cfuel fuel sfuel e (l_cfg l) nA (l_own l)) as (n0 & x0 & E1 & Hc). rewrite E1 in E0. injection E0 as <- <-.
      destruct (Hc f) as [H1 H2]. subst w'. cbn [snd] in *. fold f. rewrite H2 in *. split; [exact Same|]. intros Hp. rewrite H1.
      assert (Rp : replays (start l) f (n0 f) f) by (apply (rp_step _ _ n0 x0 f); [rewrite <- E1; apply replay1, EA|reflexivity|exact H2]).
      destruct (create_nucleus bd f (l_cfg l) 1) as [nB|x|u|] eqn:EB; cbn [then_] in *.
      * destruct (home_cases e) as [[dh ED]|[u ED]]; [left; split; [apply (early2 l f nA nB dh); assumption|exact Fr]|]. right. rewrite <- H1. apply Here; [exact Hp|exact Fr|exact Rp|].
        rewrite H1, (stage2_no_home R sv bd cfuel fuel sfuel e (l_cfg l) nA nB (l_own l) u ED). intros y Ey. discriminate Ey.
      * right. rewrite <- H1. apply Here; [exact Hp|exact Fr|exact Rp|]. rewrite H1. intros y Ey; discriminate Ey.
      * right. rewrite <- H1. apply Here; [exact Hp|exact Fr|exact Rp|]. rewrite H1. intros y Ey; discriminate Ey.
      * right. rewrite <- H1. apply Here; [exact Hp|exact Fr|exact Rp|]. rewrite H1. intros y Ey; discriminate Ey.
    + pose proof (home_dir e dh ED) as D.
      destruct (stage2_call R sv bd cfuel fuel sfuel e (l_cfg l) nA nB (l_own l) dh ED) as (n0 & x0 & E1 & Hc). rewrite E1 in E0. injection E0 as <- <-.
      destruct (Hc f) as [H1 H2]. subst w'. cbn [snd] in *. fold f. split; [rewrite H2; apply C_mkdir; assumption|]. intros Hp.
      destruct (mkdir_result (cache_dir dh) f) as [[M1 M2]|[[x M1] M2]]; [apply join_not_empty; discriminate| |].
      * left. split; [|apply (fresh_cache e f0 ls sep i l f); [exact Hi|rewrite H2; apply mkdir_change, D|exact Fr]]. rewrite H1, M1. cbn [then_].
        assert (In_ : forall p, reads_file (l_cfg l) p -> fs_lookup (x0 f) p = fs_lookup f p).
        { intros p Hr. apply (input_stays e f0 ls sep i l f (x0 f) p Hi Hr). left. rewrite H2. apply mkdir_change, D. }
        apply (early3 l (x0 f) nA nB dh); [rewrite (create_nucleus_same bd (l_cfg l) f (x0 f) 0 In_); exact EA|
          rewrite (create_nucleus_same bd (l_cfg l) f (x0 f) 1 In_); exact EB|exact ED|rewrite H2; exact M2].
      * right. rewrite M2 in H2. rewrite H2 in *. apply Here; [exact Hp|exact Fr| |].
        -- apply (rp_step _ _ n0 x0 f); [rewrite <- E1; apply replay2; assumption|reflexivity|exact H2].
        -- rewrite H1, M1. intros y Ey. discriminate Ey.
    + pose proof (home_dir e dh ED) as D.
      destruct (stage3_call R sv bd cfuel fuel sfuel (l_cfg l) nA nB dh (l_own l)) as (n0 & x0 & E1 & Hc). rewrite E1 in E0. injection E0 as <- <-.
      destruct (Hc f) as [H1 H2]. subst w'. cbn [snd] in *. fold f. rewrite H2 in *. split; [exact Same|]. intros Hp. right. apply Here; [exact Hp|exact Fr| |].
      * apply (rp_step _ _ n0 x0 f); [rewrite <- E1; apply replay3; assumption|reflexivity|exact H2].
      * rewrite H1. destruct (look_up cfuel (l_cfg l) dh f) as [hit|x|u|] eqn:EL'; cbn [then_]; try (intros y Ey; discriminate Ey).
        apply fine_late; [intros h h'; apply G_out, Hin| |intros path Eo; apply Apart; assumption].
        intros ->. apply (C_miss l dh f Hin D Sc EL').
  - destruct Rn as (wk & g & K1 & K2 & Fr & Rp & Rl & Fi). cbn [fine] in Fi. destruct Fi as (F1 & F2 & F3). split; [apply F2|]. intros Hp. right.
    destruct (F1 f g Rl) as [N1 N2]. exists wk, (effect g). split; [exact K1|]. split; [|split; [exact Fr|split; [|split]]].
    + eapply sch_more; [exact K2|]. replace w with (fst w, f) by (subst f; destruct w; reflexivity). apply a_call. exact Hm.
    + rewrite N1. apply rp_call, Rp.
    + exact N2.
    + apply F3.
Qed.

Lemma moves_sound w w' : sound w -> moves R w w' -> sound w'.
Proof.
  intros S Mv. destruct Mv as [ps f i next effect Hm]. set (w := (ps, f)) in *. pose proof S as (Sch & Sc & Sl & Sp & Si). cbn [fst snd] in *.
  assert (Hl : exists l, nth_error ls i = Some l).
  { destruct (nth_error ls i) as [l|] eqn:E; [eauto|]. apply nth_error_None in E. assert (X : nth_error ps i <> None) by congruence. apply nth_error_Some in X. change (length ps = length ls) in Sl. lia. }
  destruct Hl as [l Hi]. pose proof (nth_error_In _ _ Hi) as Hin.
  destruct (own_call w i l next effect S Hi Hm) as [Hg Hn]. cbn [snd fst w] in Hg, Hn.
  pose proof (G_any l f (effect f) Hin Hg) as Ha.
  assert (Hp : forall l path, In l ls -> output (l_cfg l) = Some path -> filename_is_hdf5 path = true -> parent_ok (effect f) path = true).
  { intros l' path Hl' E Hh. apply (parent_stays path f); [|apply (Sp l' path); assumption]. apply In_nth_error in Hl'. destruct Hl' as [j Hj].
    apply (dirs_stay e f0 ls sep j i l' l f (effect f) path Hj Hi E Ha). }
  split; [|split; [|split; [|split]]].
  - eapply sch_more; [exact Sch|]. apply a_call. exact Hm.
  - apply (C_keep l f (effect f) Hin Sc Hg).
  - cbn [fst]. clear -Sl. assert (X : forall (l : list (todo R unit)) j x, length (replace_nth l j x) = length l) by (induction l; intros [|j] x; cbn; auto). rewrite X. exact Sl.
  - exact Hp.
  - intros j l' m Hj Hm'. cbn [fst snd] in *. destruct (Nat.eq_dec i j) as [<-|N].
    + assert (l' = l) by congruence. subst l'. rewrite (replace_same ps i _ _ Hm) in Hm'. injection Hm' as <-. apply Hn. intros path. apply Hp, Hin.
    + rewrite replace_other in Hm' by exact N. destruct (Si j l' m Hj Hm') as [[E Fr]|Rn].
      * left. split; [|apply (fresh_other e f0 ls sep j i l' l f); try assumption; congruence]. assert (In_ : forall p, reads_file (l_cfg l') p -> fs_lookup (effect f) p = fs_lookup f p).
        { intros p Hr. apply (input_stays e f0 ls sep j l' f (effect f) p Hj Hr). right. exists i, l. auto. }
        destruct E as [|nA EA|nA nB dh EA EB ED|nA nB dh EA EB ED EL]; [apply early0|apply early1|apply (early2 l' _ nA nB dh)|apply (early3 l' _ nA nB dh)];
          rewrite ?(create_nucleus_same bd (l_cfg l') f (effect f) _ In_); try assumption.
        assert (Ncd : cache_dir dh <> "") by (apply join_not_empty; discriminate). rewrite lookup_ne in * by exact Ncd.
        change (fs_get f (norm (cache_dir dh)) = Some Dir) in EL.
        pose proof (home_dir e dh ED) as D. destruct Ha as [Ha|Ha].
        -- destruct (Ha (norm (cache_dir dh))) as [->|(path & Eo & [B|(q & _ & _ & B & _)])]; [exact EL| |congruence].
           exfalso. destruct sep as [W _]. pose proof (proj1 (proj1 (W l Hin) path Eo) dh D) as Ap. revert Ap.
           apply (at_or_below_apart path (cache_dir dh) (norm (cache_dir dh)) B). left. reflexivity.
        -- destruct (Ha (norm (cache_dir dh))) as [->|(dh' & D' & [[_ [B _]]|B])]; [exact EL|congruence|].
           assert (dh' = dh) by congruence. subst dh'. exfalso. pose proof (cache_file_below dh) as X. rewrite <- B in X. exact (below_not_self _ X).
      * right. destruct Rn as (wk & g & K1 & K2 & Fr & Rp & Rl & Fi). exists wk, g. split; [exact K1|]. split; [|split; [exact Fr|split; [exact Rp|split; [|exact Fi]]]].
        -- eapply sch_more; [exact K2|]. apply a_call. exact Hm.
        -- intros path E. cbn [snd]. apply (like_hands_off path f); [apply Rl, E|]. apply (change_elsewhere e f0 ls sep j i l' l); try assumption. congruence.
Qed.

Lemma schedule_sound w : schedule R w0 w -> sound w.
Proof.
  intros H. remember w0 as a eqn:Ea. induction H as [|u v w H IH M]; [subst; apply start_sound|]. apply (moves_sound v w); [apply IH, Ea|exact M].
Qed.

(** An ended process. *)
Lemma ended_sound w i l r p : schedule R w0 w -> nth_error ls i = Some l -> nth_error (fst w) i = Some (Ended r p) ->
  exists wk g, schedule R w0 wk /\ schedule R wk w /\ fresh f0 l (snd wk) /\ alone (start l) (snd wk) = (r, p, g) /\ rel (l_cfg l) (snd w) g.
Proof.
  intros Sch Hi Hm. destruct (schedule_sound w Sch) as (_ & _ & _ & _ & Si). destruct (Si i l _ Hi Hm) as [[E _]|Rn].
  - exfalso. remember (Ended r p) as m0 eqn:E0. destruct E as [|nA EA|nA nB dh EA EB ED|nA nB dh EA EB ED EL].
    + destruct (stage0_call R sv bd cfuel fuel sfuel e (l_cfg l) (l_own l)) as (n0 & x0 & E1 & _). unfold start in E0. congruence.
    + destruct (stage1_call R sv bd cfuel fuel sfuel e (l_cfg l) nA (l_own l)) as (n0 & x0 & E1 & _). congruence.
    + destruct (stage2_call R sv bd cfuel fuel sfuel e (l_cfg l) nA nB (l_own l) dh ED) as (n0 & x0 & E1 & _). congruence.
    + destruct (stage3_call R sv bd cfuel fuel sfuel (l_cfg l) nA nB dh (l_own l)) as (n0 & x0 & E1 & _). congruence.
  - destruct Rn as (wk & g & K1 & K2 & Fr & Rp & Rl & _). exists wk, g. split; [exact K1|]. split; [exact K2|]. split; [exact Fr|]. split; [|exact Rl]. rewrite (replays_alone _ _ _ _ Rp). reflexivity.
Qed.

(** Places that no launch writes to. *)
Lemma elsewhere w k : schedule R w0 w -> (forall l p, In l ls -> output (l_cfg l) = Some p -> ~ at_or_below p k) ->
  (forall dh, data_dir e = Some dh -> k <> norm (cache_dir dh) /\ k <> norm (cache_file dh)) ->
  fs_get (snd w) k = fs_get f0 k \/
  (fs_get f0 k = None /\ fs_get (snd w) k = Some Dir /\ exists l p q, In l ls /\ output (l_cfg l) = Some p /\ k = norm q /\ below q (norm p)).
Proof.
  intros H NO NC. remember w0 as a eqn:Ea. induction H as [|u v w H IH M]; [subst; left; reflexivity|]. specialize (IH Ea). subst u.
  pose proof (schedule_sound v H) as S. destruct M as [ps f i next effect Hm]. pose proof S as (_ & _ & Sl & _). cbn [fst snd] in *.
  assert (Hl : exists l, nth_error ls i = Some l).
  { destruct (nth_error ls i) as [l|] eqn:E; [eauto|]. apply nth_error_None in E. assert (X : nth_error ps i <> None) by congruence. apply nth_error_Some in X. lia. }
  destruct Hl as [l Hi]. pose proof (nth_error_In _ _ Hi) as Hin.
  destruct (own_call (ps, f) i l next effect S Hi Hm) as [Hg _]. cbn [snd] in Hg. apply (G_any l _ _ Hin) in Hg. destruct Hg as [Hg|Hg].
  - destruct (Hg k) as [->|(path & E & [B|(q & -> & B & G1 & G2)])]; [exact IH|destruct (NO l path Hin E B)|].
    right. destruct IH as [IH|(_ & IH & _)]; [|congruence]. split; [congruence|]. split; [exact G2|]. exists l, path, q. auto.
  - destruct (Hg k) as [->|(dh & D & X)]; [exact IH|exfalso]. destruct (NC dh D) as [N1 N2]. destruct X as [[X _]|X]; contradiction.
Qed.
End World.

(** The same process on files that are alike. *)
Lemma alone_alike {A : Arith} (R : Rng A) {X} (rl G : fs A -> fs A -> Prop) (Q : X -> Prop) (m : todo R X) : fine R rl G Q m ->
  forall f g r p f', rl f g -> alone m f = (r, p, f') -> exists g', alone m g = (r, p, g') /\ rl f' g'.
Proof.
  induction m as [r0 p0|next IH effect]; cbn [fine alone]; intros H f g r p f' Rl E.
  - injection E as <- <- <-. exists g. auto.
  - destruct H as (H1 & _ & H3). destruct (H1 f g Rl) as [E1 E2]. rewrite <- E1. exact (IH f (H3 f) _ _ _ _ _ E2 E).
Qed.
(** What a process by itself does to the files. *)
Lemma alone_change {A : Arith} (R : Rng A) {X} (rl G : fs A -> fs A -> Prop) (Q : X -> Prop) (m : todo R X) :
  (forall f, G f f) -> (forall f1 f2 f3, G f1 f2 -> G f2 f3 -> G f1 f3) -> fine R rl G Q m ->
  forall f r p f', alone m f = (r, p, f') -> G f f'.
Proof.
  intros Gr Gt. induction m as [r0 p0|next IH effect]; cbn [fine alone]; intros H f r p f' E.
  - injection E as _ _ <-. apply Gr.
  - destruct H as (_ & H2 & H3). apply (Gt f (effect f)); [apply H2|]. exact (IH f (H3 f) _ _ _ _ E).
Qed.

(** A launch whose parameter is in the cache, on files that are alike. *)
Lemma alone_warm {A : Arith} (R : Rng A) sv bd cfuel fuel sfuel e (f0 f : fs A) (l : launch R) sp r p g :
  (forall path dh, output (l_cfg l) = Some path -> data_dir e = Some dh -> apart path (cache_dir dh)) ->
  fresh f0 l f -> in_cache cfuel e (l_cfg l) f0 sp ->
  (forall dh, data_dir e = Some dh -> fs_lookup f (cache_dir dh) = Some Dir /\ fs_lookup f (cache_file dh) = fs_lookup f0 (cache_file dh)) ->
  alone (start R sv bd cfuel fuel sfuel e l) f = (r, p, g) ->
  exists g', alone (start R sv bd cfuel fuel sfuel e l) f0 = (r, p, g') /\ rel (l_cfg l) g g'.
Proof.
  intros Ap (Rl & In_) (dh & t & D & L1 & L2 & L3) Hc H. destruct (Hc dh D) as [K1 K2].
  assert (ED : get_data_home e = Ret dh).
  { revert D. unfold data_dir, get_data_home. destruct (xdg_data_home e); [congruence|]. destruct (home e); cbn; congruence. }
  unfold start in *. destruct (stage0_call R sv bd cfuel fuel sfuel e (l_cfg l) (l_own l)) as (n0 & x0 & E0 & H0). rewrite E0 in *. cbn [alone] in *.
  destruct (H0 f) as [A1 A2]. destruct (H0 f0) as [B1 B2]. rewrite A1, A2 in H. rewrite B1, B2. clear n0 x0 E0 H0 A1 A2 B1 B2.
  assert (CN : forall n, create_nucleus bd f (l_cfg l) n = create_nucleus bd f0 (l_cfg l) n) by (intros n; apply create_nucleus_same, In_).
  rewrite CN in H. destruct (create_nucleus bd f0 (l_cfg l) 0) as [nA|x|u|]; cbn [then_ alone] in *; try (injection H as <- <- <-; eexists; split; [reflexivity|exact Rl]).
  destruct (stage1_call R sv bd cfuel fuel sfuel e (l_cfg l) nA (l_own l)) as (n0 & x0 & E0 & H0). rewrite E0 in *. cbn [alone] in *.
  destruct (H0 f) as [A1 A2]. destruct (H0 f0) as [B1 B2]. rewrite A1, A2 in H. rewrite B1, B2. clear n0 x0 E0 H0 A1 A2 B1 B2.
  rewrite CN in H. destruct (create_nucleus bd f0 (l_cfg l) 1) as [nB|x|u|]; cbn [then_ alone] in *; try (injection H as <- <- <-; eexists; split; [reflexivity|exact Rl]).
  destruct (stage2_call R sv bd cfuel fuel sfuel e (l_cfg l) nA nB (l_own l) dh ED) as (n0 & x0 & E0 & H0). rewrite E0 in *. cbn [alone] in *.
  destruct (H0 f) as [A1 A2]. destruct (H0 f0) as [B1 B2]. rewrite A1, A2 in H. rewrite B1, B2. clear n0 x0 E0 H0 A1 A2 B1 B2.
  rewrite (mkdir_done _ _ K1) in H. rewrite (mkdir_done _ _ L1). cbn [then_ fst snd] in *.
  destruct (stage3_call R sv bd cfuel fuel sfuel (l_cfg l) nA nB dh (l_own l)) as (n0 & x0 & E0 & H0). rewrite E0 in *. cbn [alone] in *.
  destruct (H0 f) as [A1 A2]. destruct (H0 f0) as [B1 B2]. rewrite A1, A2 in H. rewrite B1, B2. clear n0 x0 E0 H0 A1 A2 B1 B2.
  assert (LU : look_up cfuel (l_cfg l) dh f0 = Ret (Some sp)).
  { unfold look_up. change (cache_path dh) with (cache_file dh). rewrite L2. exact L3. }
  assert (LF : look_up cfuel (l_cfg l) dh f = Ret (Some sp)).
  { unfold look_up in *. change (cache_path dh) with (cache_file dh) in *. rewrite K2. exact LU. }
  rewrite LU. rewrite LF in H. cbn [then_] in *.
  eapply (alone_alike R (rel (l_cfg l)) (out_change (l_cfg l)) anything); [|exact Rl|exact H].
  apply fine_late; [auto|discriminate|]. intros path Eo. apply Ap; assumption.
Qed.
