(** C67: runs that share the files and run at the same time. *)
From Coq Require Import Ascii.
From Verif.Base Require Import Result Arith Rng.
From Verif.Model Require Import Random Config Nucleon Nucleus Event Text Files CrossSection CacheSteps Output Collider RunSteps.
From Verif.Spec Require Import FileTree Cache Killed Parallel.
From Verif.Proof Require Import Basics FsP FsTree Writers CacheRun Ctor OutputP ParallelP ParallelQ ParallelW ParallelR.
Local Open Scope string_scope.

(** By itself, the process does what the run of Collider.v does. *)
Theorem C67_alone : forall {A : Arith} (R : Rng A) sv bd cfuel fuel sfuel e cfg (s s' : sys R) r,
  collide R sv bd cfuel fuel sfuel e cfg s = (r, s') <->
  alone (run_steps R sv bd cfuel fuel sfuel e cfg (own_of s)) (s_fs s) = (r, own_of s', s_fs s').
Proof.
  intros A R sv bd cfuel fuel sfuel e cfg s s' r. rewrite does_run. unfold split. destruct (collide R sv bd cfuel fuel sfuel e cfg s) as [r1 s1]. cbn [fst snd].
  split; [intros E; injection E as <- <-; reflexivity|]. intros E. injection E as <- E1 E2 E3 E4. destruct s1, s'. cbn in *. congruence.
Qed.

Lemma split_collide {A : Arith} (R : Rng A) sv bd cfuel fuel sfuel e (l : launch R) f r p g :
  alone (start R sv bd cfuel fuel sfuel e l) f = (r, p, g) ->
  exists s', collide R sv bd cfuel fuel sfuel e (l_cfg l) (sys_of (l_own l) f) = (r, s') /\ p = own_of s' /\ g = s_fs s'.
Proof.
  intros H. exists (sys_of p g). split; [|split; [symmetry; apply own_sys|reflexivity]]. apply C67_alone. rewrite !own_sys. exact H.
Qed.

(** Whatever the schedule: a launch that has ended did exactly what it would have
    done alone on the files as they were at some moment of the schedule; at that
    moment its output and its input files were still as at first (so the moment
    matters only for the contents of the cache). *)
Theorem C67_isolated : forall {A : Arith} (R : Rng A) sv bd cfuel fuel sfuel e (f0 : fs A) (ls : list (launch R)) w i l r p,
  separate R e f0 ls -> schedule R (begin R sv bd cfuel fuel sfuel e ls f0) w ->
  nth_error ls i = Some l -> ended_with R w i r p ->
  exists wk s', schedule R (begin R sv bd cfuel fuel sfuel e ls f0) wk /\ schedule R wk w /\
    same_output (l_cfg l) (snd wk) f0 /\ (forall q, reads_file (l_cfg l) q -> fs_lookup (snd wk) q = fs_lookup f0 q) /\
    collide R sv bd cfuel fuel sfuel e (l_cfg l) (sys_of (l_own l) (snd wk)) = (r, s') /\
    p = own_of s' /\ same_output (l_cfg l) (snd w) (s_fs s').
Proof.
  intros A R sv bd cfuel fuel sfuel e f0 ls w i l r p Sep Sch Hi He.
  destruct (ended_sound R sv bd cfuel fuel sfuel e f0 ls Sep (fun _ => True) (any_change e)) with (w := w) (i := i) (l := l) (r := r) (p := p)
    as (wk & g & K1 & K2 & (Fr & In_) & Al & Rl); auto.
  - intros l0 f f' _ H. left. exact H.
  - intros l0 dh f _ D _. right. apply mkdir_change, D.
  - intros l0 dh f _ D _ _ t h. right. apply append_change, D.
  - destruct (split_collide R sv bd cfuel fuel sfuel e l (snd wk) r p g Al) as (s' & C & Ep & Eg). exists wk, s'.
    split; [exact K1|]. split; [exact K2|]. split; [intros path k E B; apply (proj1 (Fr path E)), B|]. split; [exact In_|]. split; [exact C|]. split; [exact Ep|].
    rewrite <- Eg. intros path k E B. apply (proj1 (Rl path E)), B.
Qed.

(** When the cache already holds what every launch needs, the schedule makes no
    difference at all. *)
Theorem C67_warm : forall {A : Arith} (R : Rng A) sv bd cfuel fuel sfuel e (f0 : fs A) (ls : list (launch R)) w i l r p,
  separate R e f0 ls -> (forall l, In l ls -> exists sp, in_cache cfuel e (l_cfg l) f0 sp) ->
  schedule R (begin R sv bd cfuel fuel sfuel e ls f0) w ->
  nth_error ls i = Some l -> ended_with R w i r p ->
  exists s', collide R sv bd cfuel fuel sfuel e (l_cfg l) (sys_of (l_own l) f0) = (r, s') /\
    p = own_of s' /\ same_output (l_cfg l) (snd w) (s_fs s').
Proof.
  intros A R sv bd cfuel fuel sfuel e f0 ls w i l r p Sep Warm Sch Hi He.
  set (Cc := fun f : fs A => forall dh, data_dir e = Some dh ->
    fs_get f (norm (cache_dir dh)) = Some Dir /\ fs_get f (norm (cache_file dh)) = fs_get f0 (norm (cache_file dh))).
  assert (Ncd : forall dh, cache_dir dh <> "") by (intros dh; apply join_not_empty; discriminate).
  assert (Ncf : forall dh, cache_file dh <> "") by (intros dh; apply join_not_empty; discriminate).
  assert (H1 : forall (l : launch R) f f', In l ls -> out_change (l_cfg l) f f' -> any_change e (l_cfg l) f f') by (intros l0 f f' _ H; left; exact H).
  assert (H2 : Cc f0).
  { intros dh D. split; [|reflexivity]. destruct (Warm l (nth_error_In _ _ Hi)) as (sp & dh' & t & D' & L1 & _). assert (dh' = dh) by congruence. subst dh'.
    rewrite lookup_ne in L1 by apply Ncd. exact L1. }
  assert (H3 : forall l f f', In l ls -> Cc f -> out_change (l_cfg l) f f' -> Cc f').
  { intros l0 f f' Hl C G dh D. destruct (C dh D) as [C1 C2]. destruct (Warm l0 Hl) as (sp & dh' & t & D' & _ & L2 & _). assert (dh' = dh) by congruence. subst dh'.
    rewrite lookup_ne in L2 by apply Ncf.
    assert (X : forall k, k = norm (cache_dir dh) \/ k = norm (cache_file dh) -> fs_get f k <> None -> fs_get f' k = fs_get f k).
    { intros k K N. destruct (G k) as [Ek|(path & E & [B|(q & _ & _ & B & _)])]; [exact Ek| |contradiction]. exfalso.
      destruct Sep as [W _]. destruct (near_cache path dh k (proj1 (proj1 (W l0 Hl) path E) dh D) (or_introl B)). destruct K; contradiction. }
    rewrite X by (auto; congruence). rewrite X by (auto; congruence). auto. }
  assert (H4 : forall (l : launch R) dh f, In l ls -> data_dir e = Some dh -> Cc f -> out_change (l_cfg l) f (snd (create_directory (cache_dir dh) f))).
  { intros l0 dh f _ D C. rewrite mkdir_done; [apply out_same|]. rewrite lookup_ne by apply Ncd. apply (C dh D). }
  assert (H5 : forall (l : launch R) dh f, In l ls -> data_dir e = Some dh -> Cc f -> look_up cfuel (l_cfg l) dh f = Ret None ->
    forall t h, out_change (l_cfg l) h (snd (append_file (cache_path dh) t h))).
  { intros l0 dh f Hl D C LU. exfalso. destruct (Warm l0 Hl) as (sp & dh' & t & D' & _ & L2 & L3). assert (dh' = dh) by congruence. subst dh'.
    unfold look_up in LU. change (cache_path dh) with (cache_file dh) in LU. rewrite lookup_ne in LU, L2 by apply Ncf. rewrite (proj2 (C dh D)), L2 in LU. cbn [file_text] in LU. congruence. }
  destruct (ended_sound R sv bd cfuel fuel sfuel e f0 ls Sep Cc out_change H1 (fun _ _ _ _ H => H) H2 H3 H4 H5 w i l r p Sch Hi He)
    as (wk & g & K1 & K2 & Fr & Al & Rl).
  destruct (schedule_sound R sv bd cfuel fuel sfuel e f0 ls Sep Cc out_change H1 (fun _ _ _ _ H => H) H2 H3 H4 H5 wk K1) as (_ & Ck & _).
  destruct (Warm l (nth_error_In _ _ Hi)) as [sp IC].
  destruct (alone_warm R sv bd cfuel fuel sfuel e f0 (snd wk) l sp r p g) as (g' & Al' & Rl'); [|exact Fr|exact IC| |exact Al|].
  - intros path dh E D. destruct Sep as [W _]. apply (proj1 (W l (nth_error_In _ _ Hi)) path E), D.
  - intros dh D. rewrite !lookup_ne by auto. apply (Ck dh D).
  - destruct (split_collide R sv bd cfuel fuel sfuel e l f0 r p g' Al') as (s' & C & Ep & Eg). exists s'. split; [exact C|]. split; [exact Ep|].
    rewrite <- Eg. intros path k E B. rewrite (proj1 (Rl path E) k B). apply (proj1 (Rl' path E)), B.
Qed.

(** Nothing else changes, except that directories on the way to the outputs are made. *)
Theorem C67_elsewhere : forall {A : Arith} (R : Rng A) sv bd cfuel fuel sfuel e (f0 : fs A) (ls : list (launch R)) w k,
  separate R e f0 ls -> schedule R (begin R sv bd cfuel fuel sfuel e ls f0) w ->
  ~ cache_entry e k -> (forall l p, In l ls -> output (l_cfg l) = Some p -> ~ at_or_below p k) ->
  fs_get (snd w) k = fs_get f0 k \/
  (fs_get f0 k = None /\ fs_get (snd w) k = Some Dir /\
   exists l p q, In l ls /\ output (l_cfg l) = Some p /\ k = norm q /\ below q (norm p)).
Proof.
  intros A R sv bd cfuel fuel sfuel e f0 ls w k Sep Sch NC NO.
  apply (elsewhere R sv bd cfuel fuel sfuel e f0 ls Sep (fun _ => True) (any_change e)); auto.
  - intros l0 f f' _ H. left. exact H.
  - intros l0 dh f _ D _. right. apply mkdir_change, D.
  - intros l0 dh f _ D _ _ t h. right. apply append_change, D.
  - intros dh D. split; intros X; apply NC; exists dh; auto.
Qed.

(** Two launches that were given the same output directory.  The check that the
    directory is empty does not protect the first one: there is a schedule in which
    both launches end normally, and the directory then holds the files of the
    second one and, under other names, what is left of those of the first one. *)
Theorem C67_race : forall {A : Arith} (R : Rng A) sv bd cfuel fuel sfuel e (f0 : fs A) (l1 l2 : launch R) path sp1 sp2 (s1 s2 : sys R),
  tree f0 -> output (l_cfg l1) = Some path -> output (l_cfg l2) = Some path -> filename_is_hdf5 path = false ->
  fs_get f0 (norm path) = None \/ fs_get f0 (norm path) = Some Dir ->
  (forall dh, data_dir e = Some dh -> apart path (cache_dir dh)) -> (forall q, reads_file (l_cfg l2) q -> apart q path) ->
  in_cache cfuel e (l_cfg l1) f0 sp1 -> in_cache cfuel e (l_cfg l2) f0 sp2 ->
  collide R sv bd cfuel fuel sfuel e (l_cfg l1) (sys_of (l_own l1) f0) = (Ret tt, s1) ->
  collide R sv bd cfuel fuel sfuel e (l_cfg l2) (sys_of (l_own l2) f0) = (Ret tt, s2) ->
  exists w, schedule R (begin R sv bd cfuel fuel sfuel e [l1; l2] f0) w /\
    ended_with R w 0 (Ret tt) (own_of s1) /\ ended_with R w 1 (Ret tt) (own_of s2) /\
    forall k, below path k -> fs_get (snd w) k = match fs_get (s_fs s2) k with Some n => Some n | None => fs_get (s_fs s1) k end.
Proof.
  intros A R sv bd cfuel fuel sfuel e f0 l1 l2 path sp1 sp2 s1 s2 T E1 E2 Hh Fr Ap In_ C1 C2 H1 H2.
  apply C67_alone in H1, H2. rewrite own_sys in H1, H2. cbn [sys_of s_fs] in H1, H2.
  destruct (race R sv bd cfuel fuel sfuel e f0 l1 l2 path sp1 sp2 _ _ _ _ T E1 E2 Hh Fr Ap In_ C1 C2 H1 H2) as (g & S & O).
  exists ([Ended (Ret tt) (own_of s1); Ended (Ret tt) (own_of s2)], g). split; [exact S|]. split; [reflexivity|]. split; [reflexivity|]. exact O.
Qed.
