(** C54: several processes that share the cross-section cache, under every
    schedule, with processes killed at any point. *)
From Coq Require Import Ascii Reals.
From Flocq Require Import Core BinarySingleNaN.
From Verif.Base Require Import Result Arith RArith FArith Rng.
From Verif.Model Require Import Random Config Nucleon Text Files CrossSection CacheSteps.
From Verif.Spec Require Import Contract Demo Decimal Cache Concurrent.
From Verif.Proof Require Import Basics TextP FsP CacheP CacheRun CacheWrite StepsP StepsQ.
From Verif.Properties Require Import Cache RoundTrip.
Local Open Scope string_scope.

(** ** One process by itself *)

Inductive psteps {A} (R : Rng A) (e : env) : proc R -> fs A -> proc R -> fs A -> Prop :=
| p_none : forall P f, psteps R e P f P f
| p_more : forall P f P1 f1 P2 f2, pstep R e P f P1 f1 -> psteps R e P1 f1 P2 f2 -> psteps R e P f P2 f2.

(** The process left the function with result [r] and engine [en]. *)
Definition outcome {A} {R : Rng A} (P : proc R) (r : result (num A)) (en : engine R) : Prop :=
  (exists hit sp, p_stage P = Returned hit sp en /\ r = Ret sp) \/ p_stage P = Failed r en.

(** Reading the cache throws nothing. *)
Lemma cache_loop_no_throw {A : Arith} rounds : forall (w v : num A) m sigma i cv x, cache_loop rounds w v m sigma i cv <> Throw x.
Proof.
  induction rounds as [|n IH]; intros w v m sigma i cv x; cbn [cache_loop]; destruct (is_eof i); try discriminate.
  destruct (read_entry i cv) as [i' cv']. unfold rbind, entry_matches, read_var.
  destruct (cv_nw cv'); cbn [rbind]; [|discriminate]. destruct (almost_equal w _); cbn [negb]; [|apply IH].
  destruct (cv_cw cv'); cbn [rbind]; [|discriminate]. destruct (almost_equal v _); cbn [negb]; [|apply IH].
  destruct (cv_sigma cv'); cbn [rbind]; [|discriminate]. destruct (almost_equal sigma _); cbn [negb]; [|apply IH].
  destruct (cv_number cv'); cbn [rbind]; [|discriminate]. destruct (m =? z)%Z; [|apply IH].
  destruct (cv_sp cv'); discriminate.
Qed.

Section Alone.
Context {A : Arith} (R : Rng A) (sv : Solver A) (e : env) (cfg : config A).

Lemma ended_stays P f P' f' : psteps R e P f P' f' -> ended P -> P' = P /\ f' = f.
Proof.
  intros H. destruct H as [P f|P f P1 f1 P2 f2 Hs _]; [auto|]. intros E. exfalso. unfold ended in E.
  destruct Hs; match goal with H : p_stage _ = _ |- _ => rewrite H in E; exact E end.
Qed.
Lemma outcome_ended (P : proc R) r en : outcome P r en -> ended P.
Proof. unfold ended. intros [(hit & sp & E & _)|E]; rewrite E; exact I. Qed.

Lemma append_ret p x (f : fs A) : exists f', append_file p x f = (Ret tt, f').
Proof. unfold append_file. destruct (fs_lookup f p) as [[|c|o]|]; eauto. destruct (parent_ok f p); eauto. Qed.
End Alone.


Lemma step_from {A} (R : Rng A) e P f P' f' : pstep R e P f P' f' ->
  match p_stage P with
  | AtStart =>
      (exists u, get_data_home e = UB u /\ P' = at_stage P (Failed (UB u) (p_eng P)) /\ f' = f) \/
      exists dh, get_data_home e = Ret dh /\
        ((create_directory (path_join dh "trento") f = (Ret tt, f') /\ P' = at_stage P AtLookup) \/
         exists x, create_directory (path_join dh "trento") f = (Throw x, f') /\ P' = at_stage P (Failed (Throw x) (p_eng P)))
  | AtLookup => f' = f /\ exists dh, get_data_home e = Ret dh /\
      ((exists sp, reads_cache (p_cfg P) (cache_path dh) f (Ret (Some sp)) /\ P' = at_stage P (Returned true sp (p_eng P))) \/
       (reads_cache (p_cfg P) (cache_path dh) f (Ret None) /\ P' = at_stage P AtOpen) \/
       exists u, reads_cache (p_cfg P) (cache_path dh) f (UB u) /\ P' = at_stage P (Failed (UB u) (p_eng P)))
  | AtOpen => exists dh, get_data_home e = Ret dh /\ append_file (cache_path dh) "" f = (Ret tt, f') /\ P' = at_stage P AtCompute
  | AtCompute => f' = f /\
      ((exists sp en, compute_partonic R (p_solver P) (p_cfg P) (p_eng P) = (Ret sp, en) /\ P' = at_stage P (AtWrite sp en)) \/
       exists r en, compute_partonic R (p_solver P) (p_cfg P) (p_eng P) = (r, en) /\ (forall sp, r <> Ret sp) /\ r <> OutOfFuel /\
         P' = at_stage P (Failed r en))
  | AtWrite sp en => exists dh, get_data_home e = Ret dh /\
      append_file (cache_path dh) (line_for (p_cfg P) sp) f = (Ret tt, f') /\ P' = at_stage P (Returned false sp en)
  | _ => False
  end.
Proof.
  intros H. destruct H as [P f u Hs Hd|P f dh f' Hs Hd Hc|P f dh x f' Hs Hd Hc|P f dh sp Hs Hd Hr|P f dh Hs Hd Hr|P f dh u Hs Hd Hr
                     |P f dh f' Hs Hd Ha|P f sp en Hs Hc|P f r en Hs Hc N1 N2|P f dh sp en f' Hs Hd Ha]; rewrite Hs; eauto 12.
Qed.

Lemma psteps_from {A} (R : Rng A) e P f P' f' : psteps R e P f P' f' -> (P' = P /\ f' = f) \/
  exists P1 f1, pstep R e P f P1 f1 /\ psteps R e P1 f1 P' f'.
Proof. intros []; eauto. Qed.

(** Undisturbed, a process does exactly what [partonic_cross_section] does. *)
Theorem C54_alone : forall (A : Arith) (R : Rng A) (sv : Solver A) e (cfg : config A) (s : sys R) r en f',
  r <> OutOfFuel ->
  (exists P, psteps R e (Proc cfg sv (s_eng s) AtStart) (s_fs s) P f' /\ outcome P r en) <->
  exists fuel, partonic_cross_section R sv fuel e cfg s = (r, Sys en f' (s_out s) (s_err s)).
Proof.
  intros A R sv e cfg s r en f' Nr. set (P0 := Proc cfg sv (s_eng s) AtStart).
  assert (Out : forall P (h : fs A) P' h', psteps R e P h P' h' -> ended P -> P' = P /\ h' = h).
  { intros P h P' h' Hs. apply (ended_stays R e P h P' h' Hs). }
  split.
  - intros (P & Hs & Ho). pose proof (outcome_ended R P r en Ho) as En.
    destruct (psteps_from R e _ _ _ _ Hs) as [[-> _]|(P1 & f1 & S1 & Hs1)]; [destruct En|]. clear Hs.
    apply step_from in S1. cbn [p_stage P0] in S1. unfold partonic_cross_section.
    destruct S1 as [(u & G & -> & ->)|(dh & G & [(MK0 & ->)|(x & MK0 & ->)])]; rewrite G.
    + destruct (Out _ _ _ _ Hs1 I) as [-> ->]. exists 0%nat.
      destruct Ho as [(hit & sp & E & _)|E]; [discriminate E|]. cbn in E. injection E as <- <-. destruct s; reflexivity.
    + assert (MK : in_fs R (create_directory (path_join dh "trento")) s = (Ret tt, Sys (s_eng s) f1 (s_out s) (s_err s))).
      { unfold in_fs. rewrite MK0. reflexivity. }
      set (s1 := Sys (s_eng s) f1 (s_out s) (s_err s)) in *.
      destruct (psteps_from R e _ _ _ _ Hs1) as [[-> _]|(P2 & f2 & S2 & Hs2)]; [destruct En|]. clear Hs1.
      apply step_from in S2. cbn in S2. destruct S2 as (-> & dh' & G' & S2). assert (dh' = dh) by congruence. subst dh'.
      assert (Rd : forall o, reads_cache cfg (cache_path dh) f1 o -> exists fuel,
        match fs_lookup (s_fs s1) (cache_path dh) with
        | Some n => lift (cache_loop fuel (nucleon_width cfg) (constit_width cfg) (constit_number cfg) (cross_section cfg)
                       (Istream (file_text n) false false) cvars_uninit)
        | None => ret None
        end s1 = (o, s1)).
      { intros o. unfold reads_cache. cbn [s_fs s1]. destruct (fs_lookup f1 (cache_path dh)); [|intros ->; exists 0%nat; reflexivity].
        intros (rounds & _ & E). exists rounds. rewrite E. destruct o; reflexivity. }
      destruct S2 as [(sp & Hr & ->)|[(Hr & ->)|(u & Hr & ->)]]; destruct (Rd _ Hr) as [fuel Ef]; exists fuel;
        erewrite bind_run by reflexivity; rewrite (bind_run _ _ _ _ _ MK); erewrite bind_run by reflexivity; cbv beta.
      * destruct (Out _ _ _ _ Hs2 I) as [-> ->].
        destruct Ho as [(hit & sp' & E & ->)|E]; [|discriminate E]. cbn in E. injection E as _ <- <-.
        rewrite (bind_run _ _ _ _ _ Ef). reflexivity.
      * rewrite (bind_run _ _ _ _ _ Ef).
        destruct (psteps_from R e _ _ _ _ Hs2) as [[-> _]|(P3 & f3 & S3 & Hs3)]; [destruct En|]. clear Hs2.
        apply step_from in S3. cbn in S3. destruct S3 as (dh' & G2 & Ha & ->). assert (dh' = dh) by congruence. subst dh'.
        assert (OP : in_fs R (append_file (cache_path dh) "") s1 = (Ret tt, Sys (s_eng s) f3 (s_out s) (s_err s))).
        { unfold in_fs. cbn [s_fs s1]. rewrite Ha. reflexivity. }
        rewrite (bind_run _ _ _ _ _ OP).
        destruct (psteps_from R e _ _ _ _ Hs3) as [[-> _]|(P4 & f4 & S4 & Hs4)]; [destruct En|]. clear Hs3.
        apply step_from in S4. cbn in S4. destruct S4 as (-> & [(sp & en' & Hc & ->)|(r' & en' & Hc & N1 & N2 & ->)]);
          unfold bind at 1; unfold in_eng; cbn [s_eng s_fs s_out s_err]; rewrite Hc.
        -- destruct (psteps_from R e _ _ _ _ Hs4) as [[-> _]|(P5 & f5 & S5 & Hs5)]; [destruct En|]. clear Hs4.
           apply step_from in S5. cbn in S5. destruct S5 as (dh' & G3 & Hw & ->). assert (dh' = dh) by congruence. subst dh'.
           destruct (Out _ _ _ _ Hs5 I) as [-> ->].
           destruct Ho as [(hit & sp' & E & ->)|E]; [|discriminate E]. cbn in E. injection E as _ <- <-.
           unfold bind, in_fs. cbn [s_fs s_eng s_out s_err]. unfold line_for in Hw. rewrite Hw. reflexivity.
        -- destruct (Out _ _ _ _ Hs4 I) as [-> ->].
           destruct Ho as [(hit & sp' & E & ->)|E]; [discriminate E|]. cbn in E. injection E as <- <-.
           destruct r' as [x|x|x|]; try reflexivity. destruct (N1 x eq_refl).
      * destruct (Out _ _ _ _ Hs2 I) as [-> ->].
        destruct Ho as [(hit & sp' & E & ->)|E]; [discriminate E|]. cbn in E. injection E as <- <-.
        unfold bind at 1. rewrite Ef. reflexivity.
    + destruct (Out _ _ _ _ Hs1 I) as [-> ->]. exists 0%nat.
      destruct Ho as [(hit & sp & E & _)|E]; [discriminate E|]. cbn in E. injection E as <- <-.
      erewrite bind_run by reflexivity. unfold bind at 1. unfold in_fs. rewrite MK0. reflexivity.
  - intros (fuel & H). unfold partonic_cross_section in H.
    assert (G : (exists dh, get_data_home e = Ret dh) \/ exists u, get_data_home e = UB u).
    { unfold get_data_home. destruct (xdg_data_home e); [left; eauto|]. destruct (home e); [left; eauto|right; eauto]. }
    destruct G as [[dh G]|[u G]]; rewrite G in H.
    2:{ unfold bind, lift in H. assert (E1 : r = UB u) by congruence.
        assert (E2 : s = Sys en f' (s_out s) (s_err s)) by congruence. assert (E3 : en = s_eng s) by (rewrite E2; reflexivity).
        assert (E4 : f' = s_fs s) by (rewrite E2; reflexivity). subst r en f'.
        eexists. split; [eapply p_more; [apply step_no_home; [reflexivity|exact G]|apply p_none]|]. right. reflexivity. }
    unfold bind at 1 in H. unfold lift at 1 in H. unfold bind at 1 in H. unfold in_fs at 1 in H.
    assert (MKc : (exists f1, create_directory (path_join dh "trento") (s_fs s) = (Ret tt, f1)) \/
                  exists x f1, create_directory (path_join dh "trento") (s_fs s) = (Throw x, f1)).
    { unfold create_directory. destruct (fs_lookup (s_fs s) (path_join dh "trento")) as [[|c|o]|]; eauto. destruct (parent_ok _ _); eauto. }
    destruct MKc as [(f1 & MK)|(x & f1 & MK)]; rewrite MK in H.
    2:{ assert (r = Throw x /\ en = s_eng s /\ f' = f1) as (-> & -> & ->) by (repeat split; congruence).
        eexists. split; [eapply p_more; [eapply step_no_mkdir; [reflexivity|exact G|exact MK]|apply p_none]|]. right. reflexivity. }
    set (s1 := Sys (s_eng s) f1 (s_out s) (s_err s)) in *.
    unfold bind at 1 in H. unfold get at 1 in H. cbv beta in H. unfold bind at 1 in H. cbn [s_fs s1] in H. fold s1 in H.
    assert (Rd : exists o, reads_cache cfg (cache_path dh) f1 o /\ o <> OutOfFuel /\
        match fs_lookup f1 (cache_path dh) with
        | Some n => lift (cache_loop fuel (nucleon_width cfg) (constit_width cfg) (constit_number cfg) (cross_section cfg)
                       (Istream (file_text n) false false) cvars_uninit)
        | None => ret None
        end s1 = (o, s1) \/
        (o = OutOfFuel /\ match fs_lookup f1 (cache_path dh) with
        | Some n => lift (cache_loop fuel (nucleon_width cfg) (constit_width cfg) (constit_number cfg) (cross_section cfg)
                       (Istream (file_text n) false false) cvars_uninit)
        | None => ret None
        end s1 = (OutOfFuel, s1))).
    { unfold reads_cache. destruct (fs_lookup f1 (cache_path dh)) as [n|].
      - unfold lift. destruct (cache_loop fuel _ _ _ _ _ _) as [o|x|u|] eqn:E; [exists (Ret o)|exists (Throw x)|exists (UB u)|exists OutOfFuel; right; auto];
          left; (split; [exists fuel; split; [discriminate|exact E]|]; split; [discriminate|reflexivity]).
      - exists (Ret None). left. split; [reflexivity|]. split; [discriminate|reflexivity]. }
    destruct Rd as (o & [(Hr & No & Ef)|(-> & Ef)]); rewrite Ef in H; [|assert (r = OutOfFuel) by congruence; congruence].
    assert (NoThrow : forall x, o <> Throw x).
    { intros x ->. unfold reads_cache in Hr. destruct (fs_lookup f1 (cache_path dh)); [|discriminate Hr]. destruct Hr as (rounds & _ & E).
      exact (cache_loop_no_throw rounds _ _ _ _ _ _ x E). }
    assert (Start : forall P2 f2, psteps R e (at_stage P0 AtLookup) f1 P2 f2 -> psteps R e P0 (s_fs s) P2 f2).
    { intros P2 f2 K. eapply p_more; [eapply step_mkdir; [reflexivity|exact G|exact MK]|exact K]. }
    destruct o as [[sp|]|x|u|]; [| |destruct (NoThrow x eq_refl)| |congruence].
    + assert (r = Ret sp /\ en = s_eng s /\ f' = f1) as (-> & -> & ->) by (unfold ret in H; try unfold s1 in H; repeat split; congruence).
      eexists. split; [apply Start; eapply p_more; [eapply step_hit; [reflexivity|exact G|exact Hr]|apply p_none]|]. left. exists true, sp. split; reflexivity.
    + destruct (append_ret (cache_path dh) "" f1) as (f2 & Ha). unfold bind at 1 in H. unfold in_fs at 1 in H. cbn [s_fs s1 s_eng s_out s_err] in H. rewrite Ha in H.
      unfold bind at 1 in H. unfold in_eng at 1 in H. cbn [s_fs s_eng s_out s_err] in H.
      assert (Go : forall P2 f3, psteps R e (at_stage P0 AtCompute) f2 P2 f3 -> psteps R e P0 (s_fs s) P2 f3).
      { intros P2 f3 K. apply Start. eapply p_more; [eapply step_miss; [reflexivity|exact G|exact Hr]|].
        eapply p_more; [eapply step_open; [reflexivity|exact G|exact Ha]|exact K]. }
      destruct (compute_partonic R sv cfg (s_eng s)) as [[sp|x|u|] en'] eqn:Hc.
      * destruct (append_ret (cache_path dh) (line_for cfg sp) f2) as (f3 & Hw). unfold bind at 1 in H. unfold in_fs at 1 in H. cbn [s_fs s_eng s_out s_err] in H. unfold line_for in Hw. rewrite Hw in H.
        assert (r = Ret sp /\ en = en' /\ f' = f3) as (-> & -> & ->) by (unfold ret in H; try unfold s1 in H; repeat split; congruence).
        eexists. split; [apply Go; eapply p_more; [eapply step_compute; [reflexivity|exact Hc]|]; eapply p_more; [eapply step_write; [reflexivity|exact G|exact Hw]|apply p_none]|].
        left. exists false, sp. split; reflexivity.
      * assert (r = Throw x /\ en = en' /\ f' = f2) as (-> & -> & ->) by (repeat split; congruence).
        eexists. split; [apply Go; eapply p_more; [eapply step_no_fit; [reflexivity|exact Hc|discriminate|discriminate]|apply p_none]|]. right. reflexivity.
      * assert (r = UB u /\ en = en' /\ f' = f2) as (-> & -> & ->) by (repeat split; congruence).
        eexists. split; [apply Go; eapply p_more; [eapply step_no_fit; [reflexivity|exact Hc|discriminate|discriminate]|apply p_none]|]. right. reflexivity.
      * assert (r = OutOfFuel) by congruence. congruence.
    + assert (r = UB u /\ en = s_eng s /\ f' = f1) as (-> & -> & ->) by (unfold s1 in H; repeat split; congruence).
      eexists. split; [apply Start; eapply p_more; [eapply step_uninit; [reflexivity|exact G|exact Hr]|apply p_none]|]. right. reflexivity.
Qed.

(** ** Any number of processes *)

(** Whatever the schedule and whoever is killed: no file but the cache changes;
    the cache keeps its text, followed by whole lines, one for each process that
    returned a parameter it computed, in the order in which they wrote. *)
Theorem C54_appends : forall (A : Arith) (R : Rng A) e (f0 : fs A) o0 (w : world R),
  cache_state e f0 o0 -> reachable R e f0 w ->
  only_cache_dir_differs e f0 (snd w) /\
  exists log lines, written w log lines /\ NoDup log /\
    (forall i, In i log <-> exists P sp, proc_at w i P /\ wrote P sp) /\
    ((o0 = None /\ log = [] /\ cache_state e (snd w) None) \/
     cache_state e (snd w) (Some (match o0 with Some t => t | None => "" end ++ lines))).
Proof.
  intros A R e f0 o0 w S H. destruct (reachable_known R e f0 o0 w S H) as (o & log & t & Sw & O & _ & W & Nd & L & T).
  split; [exact O|]. exists log, t. split; [exact W|]. split; [exact Nd|]. split; [exact L|].
  destruct o as [s|]; [right; rewrite <- T; exact Sw|left; destruct T; auto].
Qed.

(** A parameter that was not read from the cache is the process's own. *)
Theorem C54_own : forall (A : Arith) (R : Rng A) e (f0 : fs A) o0 (w : world R) i P sp en,
  cache_state e f0 o0 -> reachable R e f0 w -> proc_at w i P -> p_stage P = Returned false sp en ->
  compute_partonic R (p_solver P) (p_cfg P) (p_eng P) = (Ret sp, en).
Proof.
  intros A R e f0 o0 w i P sp en S H Hi Hs. destruct (reachable_known R e f0 o0 w S H) as (o & log & t & _ & _ & F & _).
  specialize (F i P Hi). unfold fits in F. rewrite Hs in F. apply F.
Qed.

Section Filled.
Context {A : Arith} (R : Rng A) (e : env) (near : num A -> num A -> Prop).

(** What a process has got, or can do next. *)
Definition served (w : world R) (es : list centry) (P : proc R) : Prop :=
  match p_stage P with
  | Returned true sp en => en = p_eng P /\ exists x, first_for (p_cfg P) es x /\ sp = valued A (e_sp x)
  | Returned false sp en => compute_partonic R (p_solver P) (p_cfg P) (p_eng P) = (Ret sp, en) /\
      exists x, In x es /\ entry_for (p_cfg P) x /\ near (valued A (e_sp x)) sp
  | Failed r en => compute_partonic R (p_solver P) (p_cfg P) (p_eng P) = (r, en) /\ forall sp, r <> Ret sp
  | Killed => True
  | AtCompute => (exists P' f', pstep R e P (snd w) P' f') \/
      fst (compute_partonic R (p_solver P) (p_cfg P) (p_eng P)) = OutOfFuel
  | AtStart | AtLookup | AtOpen | AtWrite _ _ => exists P' f', pstep R e P (snd w) P' f'
  end.

Lemma served_all f0 es0 w : cache_holds e f0 es0 -> es0 <> [] -> reachable R e f0 w -> all_readable R near w ->
  exists es log, cache_holds e (snd w) (es0 ++ es) /\ Forall2 (line_of R near w) log es /\ NoDup log /\
    (forall i, In i log <-> exists P sp, proc_at w i P /\ wrote P sp) /\
    forall i P, proc_at w i P -> served w (es0 ++ es) P.
Proof.
  intros C N Hr Rd. destruct (holding_reachable R e near f0 es0 w C N Hr Rd) as (es & t & log & H).
  exists es, log. split; [apply (holding_cache R e near w es0 es t log N H)|].
  pose proof H as (_ & _ & _ & An & Lo & Nd & Ll). split; [exact Lo|]. split; [exact Nd|]. split; [exact Ll|].
  intros i P Hi. specialize (An i P Hi). unfold answered in An. unfold served.
  pose proof (can_step R e near w es0 es t log i P N H Hi) as K. unfold ended in K.
  destruct (p_stage P) as [| | | |sp en|[] sp en|r en|] eqn:St; auto;
    (destruct (K (fun x => x)) as [K'|[E K']]; [auto|first [discriminate E|right; exact K']]).
Qed.

(** Once a process has its parameter, every process with the same configuration
    that has not read the cache yet will find it there. *)
Lemma later f0 es0 w1 w2 i P j Q : cache_holds e f0 es0 -> es0 <> [] -> reachable R e f0 w1 -> wsteps R e w1 w2 -> all_readable R near w2 ->
  proc_at w1 i P -> (exists hit sp en, p_stage P = Returned hit sp en) ->
  (nth_error (fst w1) j = None \/ exists Q1, proc_at w1 j Q1 /\ before_lookup Q1) ->
  proc_at w2 j Q -> p_cfg Q = p_cfg P ->
  before_lookup Q \/ p_stage Q = Killed \/ exists sp, found Q sp.
Proof.
  intros C N Hr Hs Rd Hi Hd Hj HQ Ec.
  assert (Rd1 : all_readable R near w1) by (clear - Hs Rd; induction Hs as [|w1 w2 w3 _ IH H]; [exact Rd|apply IH; apply (all_readable_back R e near _ _ H Rd)]).
  destruct (holding_reachable R e near f0 es0 w1 C N Hr Rd1) as (es & t & log & H).
  assert (F1 : exists x, first_for (p_cfg P) (es0 ++ es) x).
  { destruct H as (_ & _ & _ & An & _). specialize (An i P Hi). unfold answered in An. destruct Hd as (hit & sp & en & E). rewrite E in An. destruct hit.
    - destruct An as [_ (x & F & _)]. exists x. exact F.
    - destruct An as [_ (x & I & M & _)]. destruct (first_or_none (p_cfg P) (es0 ++ es)) as [K|K]; [exact K|]. destruct (K x I M). }
  revert Q HQ Ec. induction Hs as [w1|w1 w2 w3 Hs IH H3]; intros Q HQ Ec.
  - left. destruct Hj as [Hj|(Q1 & Hq & B)]; unfold proc_at in *; congruence.
  - specialize (IH Hr (all_readable_back R e near _ _ H3 Rd) Hi Hj Rd1 H).
    destruct (holding_steps R e near w1 w2 es0 es t log N H (all_readable_back R e near _ _ H3 Rd) Hs) as (es2 & t2 & log2 & H2).
    destruct F1 as [x F1].
    assert (F2 : first_for (p_cfg P) (es0 ++ es ++ es2) x).
    { destruct F1 as (b & a & E & H1 & H1'). exists b, (a ++ es2)%list. split; [rewrite app_assoc, E, <- app_assoc; reflexivity|auto]. }
    destruct H3 as [ps f k P2 P' f' Hk Hst|ps f k P2 Hk Ne|ps f P2 Hst]; unfold proc_at in HQ; cbn [fst] in HQ.
    + apply replace_cases in HQ. destruct HQ as [[-> ->]|[Nk HQ]]; [|apply (IH Q HQ Ec)].
      assert (Ep : p_cfg P2 = p_cfg P) by (destruct (pstep_job R e _ _ _ _ Hst) as [E _]; congruence).
      destruct (IH P2 Hk Ep) as [[B|B]|[B|(sp & en & B)]]; pose proof (step_from R e _ _ _ _ Hst) as K; rewrite B in K; cbv beta iota in K.
      * left. right. destruct H2 as (S2 & _). cbn [snd] in S2. destruct (state_home e _ _ S2) as (dh & D & G).
        destruct K as [(u & G' & _)|(dh' & G' & [(_ & ->)|(y & MK & _)])]; [congruence|reflexivity|].
        assert (dh' = dh) by congruence. subst dh'. destruct (mkdir_state e _ _ dh S2 D) as (f2 & E & _). unfold cache_dir in E. congruence.
      * right. right. destruct H2 as (S2 & T2 & _). cbn [snd] in S2.
        assert (Tx : cache_text (es0 ++ es ++ es2) t2) by (apply (cache_lines_text _ _ T2); destruct es0; [congruence|discriminate]).
        destruct K as (_ & dh & G & K). destruct (state_home e _ _ S2) as (dh' & D & G'). assert (dh' = dh) by congruence. subst dh'.
        destruct K as [(sp & _ & ->)|K]; [exists sp, (p_eng P2); reflexivity|exfalso].
        assert (K' : exists r, (forall sp, r <> Ret (Some sp)) /\ reads_cache (p_cfg P2) (cache_path dh) f r).
        { destruct K as [(Hr2 & _)|(u & Hr2 & _)]; eexists; (split; [|exact Hr2]); discriminate. }
        destruct K' as (r & Nr & Hr2). destruct (reads_state e f _ dh _ _ S2 D Hr2) as (rounds & Nf & E).
        destruct (loop_result _ _ _ _ _ Tx E Nf) as [(y & _ & Ey)|(No & _)]; [apply (Nr _ Ey)|].
        rewrite Ep in No. destruct F2 as (b & a & Eb & _ & M). apply (No x); [rewrite Eb; apply in_elt|exact M].
      * destruct K.
      * destruct K.
    + apply replace_cases in HQ. destruct HQ as [[-> ->]|[Nk HQ]]; [right; left; reflexivity|apply (IH Q HQ Ec)].
    + destruct (Nat.lt_ge_cases j (length ps)) as [Lt|Ge]; [rewrite nth_error_app1 in HQ by exact Lt; apply (IH Q HQ Ec)|].
      rewrite nth_error_app2 in HQ by exact Ge. destruct (j - length ps)%nat as [|[|k]]; cbn in HQ; try discriminate HQ.
      left. left. congruence.
Qed.
End Filled.

Lemma reach_more {A} (R : Rng A) e f0 (w1 w2 : world R) : reachable R e f0 w1 -> wsteps R e w1 w2 -> reachable R e f0 w2.
Proof. unfold reachable. intros H1 H2. induction H2 as [|w1 w2 w3 H2 IH H3]; [exact H1|]. eapply w_more; [apply IH, H1|exact H3]. Qed.
Lemma first_unique {A} (cfg : config A) es x y : first_for cfg es x -> first_for cfg es y -> x = y.
Proof. intros H1 H2. apply find_first in H1. apply find_first in H2. congruence. Qed.

(** The processes' configurations fit the columns of the cache, and so do the
    parameters they determine. *)
Definition fitting_real {rg : Rng RA} (w : world rg) : Prop := forall i P, proc_at w i P ->
  printable_real (p_cfg P) /\ forall sp en, compute_partonic rg (p_solver P) (p_cfg P) (p_eng P) = (Ret sp, en) -> parameter_real sp.
Definition fitting_ieee (L : Libm) {R : Rng (FA L)} (w : world R) : Prop := forall i P, proc_at w i P ->
  printable_ieee L (p_cfg P) /\ forall (sp : f64) en, compute_partonic R (p_solver P) (p_cfg P) (p_eng P) = (Ret (sp : num (FA L)), en) -> parameter_ieee sp.

Lemma fitting_readable_real (rg : Rng RA) (w : world rg) : fitting_real w -> all_readable rg seven_digits w.
Proof.
  intros H i P Hi sp en Hc. destruct (H i P Hi) as [H1 H2]. apply reads_back_real; [exact H1|apply (H2 sp en Hc)].
Qed.
Lemma fitting_readable_ieee (L : Libm) (R : Rng (FA L)) (w : world R) : fitting_ieee L w -> all_readable R seven_digits_ieee w.
Proof.
  intros H i P Hi sp en Hc. destruct (H i P Hi) as [H1 H2]. apply reads_back_ieee; [exact H1|apply (H2 sp en Hc)].
Qed.

(** C54 on a cache that already holds an entry: at every moment the cache is
    well formed, its entries are the original ones followed by one per writer
    (to seven digits); a process that found an entry returned the parameter of
    the first one for its configuration without touching its random engine; one
    that failed failed to determine its parameter; no process is stuck. *)
Theorem C54_served_real : forall (rg : Rng RA) e (f0 : fs RA) es0 (w : world rg),
  cache_holds e f0 es0 -> es0 <> [] -> reachable rg e f0 w -> fitting_real w ->
  exists es log, cache_holds e (snd w) (es0 ++ es) /\ Forall2 (line_of rg seven_digits w) log es /\ NoDup log /\
    (forall i, In i log <-> exists P sp, proc_at w i P /\ wrote P sp) /\
    forall i P, proc_at w i P -> served rg e seven_digits w (es0 ++ es) P.
Proof. intros rg e f0 es0 w C N H F. apply (served_all rg e seven_digits f0 es0 w C N H), fitting_readable_real, F. Qed.

Theorem C54_served_ieee : forall (L : Libm) (R : Rng (FA L)) e (f0 : fs (FA L)) es0 (w : world R),
  cache_holds e f0 es0 -> es0 <> [] -> reachable R e f0 w -> fitting_ieee L w ->
  exists es log, cache_holds e (snd w) (es0 ++ es) /\ Forall2 (line_of R seven_digits_ieee w) log es /\ NoDup log /\
    (forall i, In i log <-> exists P sp, proc_at w i P /\ wrote P sp) /\
    forall i P, proc_at w i P -> served R e seven_digits_ieee w (es0 ++ es) P.
Proof. intros L R e f0 es0 w C N H F. apply (served_all R e seven_digits_ieee f0 es0 w C N H), fitting_readable_ieee, F. Qed.

(** Two processes with the same configuration that found it in the cache got the
    same parameter; and once one of them has its parameter, the others that have
    not looked yet find it. *)
Theorem C54_agree_real : forall (rg : Rng RA) e (f0 : fs RA) es0 (w1 w2 : world rg),
  cache_holds e f0 es0 -> es0 <> [] -> reachable rg e f0 w1 -> wsteps rg e w1 w2 -> fitting_real w2 ->
  (forall i j P Q x y, proc_at w2 i P -> proc_at w2 j Q -> p_cfg P = p_cfg Q -> found P x -> found Q y -> x = y) /\
  (forall i j P Q hit sp en, proc_at w1 i P -> p_stage P = Returned hit sp en ->
     (nth_error (fst w1) j = None \/ exists Q1, proc_at w1 j Q1 /\ before_lookup Q1) ->
     proc_at w2 j Q -> p_cfg Q = p_cfg P ->
     before_lookup Q \/ p_stage Q = Killed \/ exists y, found Q y).
Proof.
  intros rg e f0 es0 w1 w2 C N H1 H2 F.
  pose proof (reach_more rg e f0 w1 w2 H1 H2) as H12.
  split.
  - intros i j P Q x y HP HQ E [en1 F1] [en2 F2].
    destruct (C54_served_real rg e f0 es0 w2 C N H12 F) as (es & log & _ & _ & _ & _ & K).
    pose proof (K i P HP) as K1. pose proof (K j Q HQ) as K2. unfold served in K1, K2. rewrite F1 in K1. rewrite F2 in K2.
    destruct K1 as [_ (a & Fa & ->)]. destruct K2 as [_ (b & Fb & ->)]. rewrite E in Fa. rewrite (first_unique _ _ _ _ Fa Fb). reflexivity.
  - intros i j P Q hit sp en HP St Hj HQ E.
    apply (later rg e seven_digits f0 es0 w1 w2 i P j Q C N H1 H2 (fitting_readable_real rg w2 F) HP); eauto.
Qed.
Theorem C54_agree_ieee : forall (L : Libm) (R : Rng (FA L)) e (f0 : fs (FA L)) es0 (w1 w2 : world R),
  cache_holds e f0 es0 -> es0 <> [] -> reachable R e f0 w1 -> wsteps R e w1 w2 -> fitting_ieee L w2 ->
  (forall i j P Q x y, proc_at w2 i P -> proc_at w2 j Q -> p_cfg P = p_cfg Q -> found P x -> found Q y -> x = y) /\
  (forall i j P Q hit sp en, proc_at w1 i P -> p_stage P = Returned hit sp en ->
     (nth_error (fst w1) j = None \/ exists Q1, proc_at w1 j Q1 /\ before_lookup Q1) ->
     proc_at w2 j Q -> p_cfg Q = p_cfg P ->
     before_lookup Q \/ p_stage Q = Killed \/ exists y, found Q y).
Proof.
  intros L R e f0 es0 w1 w2 C N H1 H2 F.
  pose proof (reach_more R e f0 w1 w2 H1 H2) as H12.
  split.
  - intros i j P Q x y HP HQ E [en1 F1] [en2 F2].
    destruct (C54_served_ieee L R e f0 es0 w2 C N H12 F) as (es & log & _ & _ & _ & _ & K).
    pose proof (K i P HP) as K1. pose proof (K j Q HQ) as K2. unfold served in K1, K2. rewrite F1 in K1. rewrite F2 in K2.
    destruct K1 as [_ (a & Fa & ->)]. destruct K2 as [_ (b & Fb & ->)]. rewrite E in Fa. rewrite (first_unique _ _ _ _ Fa Fb). reflexivity.
  - intros i j P Q hit sp en HP St Hj HQ E.
    apply (later R e (seven_digits_ieee) f0 es0 w1 w2 i P j Q C N H1 H2 (fitting_readable_ieee L R w2 F) HP); eauto.
Qed.

(** ** Where it goes wrong: the first use of a cache *)

Section Window.
Context {A : Arith} (R : Rng A) (e : env) (f0 : fs A).
Hypothesis start : cache_state e f0 None.

(** Process 0 alone: it has created the empty file, and is computing. *)
Lemma opened P : p_stage P = AtStart -> exists f1, reachable R e f0 ([at_stage P AtCompute], f1) /\ cache_state e f1 (Some "").
Proof.
  intros St. destruct (state_home e f0 None start) as (dh & D & G).
  destruct (mkdir_state e f0 None dh start D) as (f1 & MK & S1 & L1 & _).
  destruct (append_state e f1 None dh "" S1 D L1) as (f2 & OP & S2 & _).
  exists f2. split; [|exact S2].
  assert (Rn : reads_cache (p_cfg P) (cache_path dh) f1 (Ret None)).
  { unfold reads_cache. destruct S1 as (dh' & D' & _ & F). assert (dh' = dh) by congruence. subst dh'. change (cache_path dh) with (cache_file dh). rewrite F. reflexivity. }
  assert (One : forall P1 P2 g g', wsteps R e ([], f0) ([P1], g) -> pstep R e P1 g P2 g' -> wsteps R e ([], f0) ([P2], g')).
  { intros P1 P2 g g' H K. eapply w_more; [exact H|]. exact (w_step R e [P1] g 0 P1 P2 g' eq_refl K). }
  eapply (One (at_stage P AtOpen)); [|exact (step_open R e (at_stage P AtOpen) _ dh _ eq_refl G OP)].
  eapply (One (at_stage P AtLookup)); [|exact (step_miss R e (at_stage P AtLookup) _ dh eq_refl G Rn)].
  eapply (One P); [|eapply step_mkdir; [exact St|exact G|exact MK]].
  eapply w_more; [apply w_none|apply (w_start R e [] f0 P St)].
Qed.

(** A process that reads the empty file. *)
Lemma reads_empty (w : world R) Q : cache_state e (snd w) (Some "") -> p_stage Q = AtStart ->
  exists w', wsteps R e w w' /\ snd w' = snd w /\
    fst w' = (fst w ++ [at_stage Q (Failed (UB UbUninit) (p_eng Q))])%list.
Proof.
  destruct w as [ps f]. cbn [fst snd]. intros S St. destruct (state_home e f _ S) as (dh & D & G).
  assert (MK : create_directory (path_join dh "trento") f = (Ret tt, f)).
  { destruct S as (dh' & D' & L & _). assert (dh' = dh) by congruence. subst dh'. unfold create_directory. unfold cache_dir in L. rewrite L. reflexivity. }
  assert (Ru : reads_cache (p_cfg Q) (cache_path dh) f (UB UbUninit)).
  { unfold reads_cache. destruct S as (dh' & D' & _ & F). assert (dh' = dh) by congruence. subst dh'. change (cache_path dh) with (cache_file dh). rewrite F.
    exists 1%nat. split; [discriminate|]. reflexivity. }
  assert (Nth : forall X : proc R, nth_error (ps ++ [X])%list (length ps) = Some X).
  { intros X. rewrite nth_error_app2, Nat.sub_diag by lia. reflexivity. }
  assert (Rep : forall X Y : proc R, replace_nth (ps ++ [X])%list (length ps) Y = (ps ++ [Y])%list).
  { intros X Y. clear. induction ps as [|p ps IH]; cbn; [reflexivity|]. rewrite IH. reflexivity. }
  exists ((ps ++ [at_stage Q (Failed (UB UbUninit) (p_eng Q))])%list, f). split; [|split; reflexivity].
  assert (One : forall P1 P2 g g', wsteps R e (ps, f) ((ps ++ [P1])%list, g) -> pstep R e P1 g P2 g' -> wsteps R e (ps, f) ((ps ++ [P2])%list, g')).
  { intros P1 P2 g g' H K. eapply w_more; [exact H|]. rewrite <- (Rep P1 P2). exact (w_step R e _ g (length ps) P1 P2 g' (Nth P1) K). }
  eapply (One (at_stage Q AtLookup)); [|exact (step_uninit R e (at_stage Q AtLookup) f dh UbUninit eq_refl G Ru)].
  eapply (One Q); [|eapply step_mkdir; [exact St|exact G|exact MK]].
  eapply w_more; [apply w_none|apply (w_start R e ps f Q St)].
Qed.
End Window.

(** While the first process computes its parameter - or after it was killed
    there - the cache is an empty file, and a process that starts in between
    compares with uninitialised variables, whatever it was asked for. *)
Theorem C54_window : forall (A : Arith) (R : Rng A) e (f0 : fs A) (P Q : proc R),
  cache_state e f0 None -> p_stage P = AtStart -> p_stage Q = AtStart ->
  exists f1, cache_state e f1 (Some "") /\
    reachable R e f0 ([at_stage P AtCompute; at_stage Q (Failed (UB UbUninit) (p_eng Q))], f1) /\
    reachable R e f0 ([at_stage P Killed; at_stage Q (Failed (UB UbUninit) (p_eng Q))], f1).
Proof.
  intros A R e f0 P Q S HP HQ. destruct (opened R e f0 S P HP) as (f1 & H1 & S1). exists f1. split; [exact S1|]. split.
  - destruct (reads_empty R e ([at_stage P AtCompute], f1) Q S1 HQ) as ([ps2 f2] & H2 & E1 & E2). cbn [fst snd] in *. subst.
    apply (reach_more R e f0 _ _ H1 H2).
  - assert (K : reachable R e f0 ([at_stage P Killed], f1)).
    { eapply w_more; [exact H1|]. change [at_stage P Killed] with (replace_nth [at_stage P AtCompute] 0 (at_stage (at_stage P AtCompute) Killed)).
      apply w_kill; [reflexivity|exact (fun x => x)]. }
    destruct (reads_empty R e ([at_stage P Killed], f1) Q S1 HQ) as ([ps2 f2] & H2 & E1 & E2). cbn [fst snd] in *. subst.
    apply (reach_more R e f0 _ _ K H2).
Qed.

(** Two processes that looked before either of them wrote both append their line,
    in either order. *)
Theorem C54_twice : forall (A : Arith) (R : Rng A) e (f0 : fs A) es t (P Q : proc R) sp en sq eq,
  cache_state e f0 (Some t) -> cache_text es t ->
  (forall x, In x es -> ~ entry_for (p_cfg P) x /\ ~ entry_for (p_cfg Q) x) ->
  p_stage P = AtStart -> p_stage Q = AtStart ->
  compute_partonic R (p_solver P) (p_cfg P) (p_eng P) = (Ret sp, en) ->
  compute_partonic R (p_solver Q) (p_cfg Q) (p_eng Q) = (Ret sq, eq) ->
  exists f1, cache_state e f1 (Some (t ++ line_for (p_cfg Q) sq ++ line_for (p_cfg P) sp)) /\
    reachable R e f0 ([at_stage P (Returned false sp en); at_stage Q (Returned false sq eq)], f1).
Proof.
  intros A R e f0 es t P Q sp en sq eq S T No HP HQ CP CQ. destruct (state_home e f0 _ S) as (dh & D & G).
  assert (L0 : fs_lookup f0 (cache_dir dh) = Some Dir) by (apply (dir_of_text e f0 _ dh S D); discriminate).
  assert (MK : create_directory (path_join dh "trento") f0 = (Ret tt, f0)).
  { unfold create_directory. unfold cache_dir in L0. rewrite L0. reflexivity. }
  assert (Rn : forall X : proc R, (forall x, In x es -> ~ entry_for (p_cfg X) x) -> reads_cache (p_cfg X) (cache_path dh) f0 (Ret None)).
  { intros X Nx. unfold reads_cache. destruct S as (dh' & D' & _ & F). assert (dh' = dh) by congruence. subst dh'. change (cache_path dh) with (cache_file dh). rewrite F.
    exists (S (length es)). split; [discriminate|]. cbn [file_text]. rewrite (cache_loop_text A _ _ _ _ es t cvars_uninit) by (auto; lia). rewrite (find_none _ _ Nx). reflexivity. }
  assert (Op : append_file (cache_path dh) "" f0 = (Ret tt, f0)).
  { unfold append_file. destruct S as (dh' & D' & _ & F). assert (dh' = dh) by congruence. subst dh'. change (cache_path dh) with (cache_file dh). rewrite F.
    rewrite app_nil_r_s. unfold fs_set. rewrite fs_put_same by apply (lookup_some _ _ _ F). reflexivity. }
  destruct (append_state e f0 (Some t) dh (line_for (p_cfg Q) sq) S D L0) as (f1 & W1 & S1 & _).
  assert (L1 : fs_lookup f1 (cache_dir dh) = Some Dir) by (apply (dir_of_text e f1 _ dh S1 D); discriminate).
  destruct (append_state e f1 _ dh (line_for (p_cfg P) sp) S1 D L1) as (f2 & W2 & S2 & _).
  exists f2. split; [rewrite <- app_assoc_s; exact S2|].
  assert (Two : forall P1 P2 Q1 f f', wsteps R e ([], f0) ([P1; Q1], f) -> pstep R e P1 f P2 f' -> wsteps R e ([], f0) ([P2; Q1], f')).
  { intros P1 P2 Q1 f f' H K. eapply w_more; [exact H|]. exact (w_step R e [P1; Q1] f 0 P1 P2 f' eq_refl K). }
  assert (Tow : forall P1 Q1 Q2 f f', wsteps R e ([], f0) ([P1; Q1], f) -> pstep R e Q1 f Q2 f' -> wsteps R e ([], f0) ([P1; Q2], f')).
  { intros P1 Q1 Q2 f f' H K. eapply w_more; [exact H|]. exact (w_step R e [P1; Q1] f 1 Q1 Q2 f' eq_refl K). }
  eapply (Two (at_stage P (AtWrite sp en))); [|exact (step_write R e (at_stage P (AtWrite sp en)) _ dh _ _ _ eq_refl G W2)].
  eapply (Tow _ (at_stage Q (AtWrite sq eq))); [|exact (step_write R e (at_stage Q (AtWrite sq eq)) _ dh _ _ _ eq_refl G W1)].
  eapply (Two (at_stage P AtCompute)); [|exact (step_compute R e (at_stage P AtCompute) _ _ _ eq_refl CP)].
  eapply (Tow _ (at_stage Q AtCompute)); [|exact (step_compute R e (at_stage Q AtCompute) _ _ _ eq_refl CQ)].
  eapply (Two (at_stage P AtOpen)); [|exact (step_open R e (at_stage P AtOpen) _ dh _ eq_refl G Op)].
  eapply (Tow _ (at_stage Q AtOpen)); [|exact (step_open R e (at_stage Q AtOpen) _ dh _ eq_refl G Op)].
  eapply (Two (at_stage P AtLookup)); [|exact (step_miss R e (at_stage P AtLookup) _ dh eq_refl G (Rn P (fun x Hx => proj1 (No x Hx))))].
  eapply (Tow _ (at_stage Q AtLookup)); [|exact (step_miss R e (at_stage Q AtLookup) _ dh eq_refl G (Rn Q (fun x Hx => proj2 (No x Hx))))].
  eapply (Two P); [|eapply step_mkdir; [exact HP|exact G|exact MK]].
  eapply (Tow _ Q); [|eapply step_mkdir; [exact HQ|exact G|exact MK]].
  eapply w_more; [eapply w_more; [apply w_none|apply (w_start R e [] f0 P HP)]|]. exact (w_start R e [P] f0 Q HQ).
Qed.
