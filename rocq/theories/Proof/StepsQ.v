(** Concurrent use of a cache that already holds an entry: the entries. *)
From Coq Require Import Ascii.
From Verif.Base Require Import Result Arith Rng.
From Verif.Model Require Import Random Config Nucleon Text Files CrossSection CacheSteps.
From Verif.Spec Require Import Decimal Cache Concurrent.
From Verif.Proof Require Import Basics TextP FsP CacheP CacheRun CacheWrite StepsP.
From Verif.Properties Require Import Cache.
Local Open Scope string_scope.

(** More rounds do not change a result. *)
Lemma cache_loop_more {A : Arith} (w v : num A) m sigma k : forall rounds i cv r,
  cache_loop rounds w v m sigma i cv = r -> r <> OutOfFuel -> cache_loop (rounds + k) w v m sigma i cv = r.
Proof.
  induction rounds as [|n IH]; intros i cv r H N.
  - cbn [cache_loop] in H. cbn [Nat.add]. destruct k; cbn [cache_loop]; destruct (is_eof i); congruence.
  - cbn [Nat.add]. cbn [cache_loop] in *. destruct (is_eof i); [exact H|].
    destruct (read_entry i cv) as [i' cv']. unfold rbind in *.
    destruct (entry_matches w v m sigma cv') as [[|]|x|u|]; auto.
Qed.

Section Entries.
Context {A : Arith} (R : Rng A) (e : env) (near : num A -> num A -> Prop).

(** What a reader of a well-formed text gets. *)
Lemma loop_result cfg es t rounds r : cache_text es t ->
  cache_loop rounds (nucleon_width cfg) (constit_width cfg) (constit_number cfg) (cross_section cfg)
    (Istream t false false) cvars_uninit = r -> r <> OutOfFuel ->
  (exists x, first_for (A:=A) cfg es x /\ r = Ret (Some (valued A (e_sp x)))) \/
  ((forall x, In x es -> ~ entry_for cfg x) /\ r = Ret None).
Proof.
  intros T H N. pose proof (cache_loop_more _ _ _ _ (S (length es)) rounds _ _ r H N) as H'.
  rewrite (cache_loop_text A _ _ _ _ es t cvars_uninit _ T) in H' by lia.
  destruct (first_or_none cfg es) as [[x F]|No].
  - left. exists x. split; [exact F|]. rewrite (find_first cfg es x F) in H'. symmetry. exact H'.
  - right. split; [exact No|]. rewrite (find_none cfg es No) in H'. symmetry. exact H'.
Qed.
Lemma loop_exists cfg es t : cache_text es t -> exists rounds o,
  cache_loop rounds (nucleon_width cfg) (constit_width cfg) (constit_number cfg) (cross_section cfg)
    (Istream t false false) cvars_uninit = Ret o :> result (option (num A)).
Proof.
  intros T. exists (S (length es)). eexists. apply (cache_loop_text A _ _ _ _ es t cvars_uninit _ T). lia.
Qed.

(** The process's parameter, if it determines one, reads back. *)
Definition readable (P : proc R) : Prop :=
  forall sp en, compute_partonic R (p_solver P) (p_cfg P) (p_eng P) = (Ret sp, en) ->
    exists sp', reads_back (p_cfg P) sp sp' /\ near sp' sp.

(** Entry [x] is the line of process [i]. *)
Definition line_of (w : world R) (i : nat) (x : centry) : Prop :=
  exists P sp, proc_at w i P /\ wrote P sp /\ entry_for (p_cfg P) x /\ near (valued A (e_sp x)) sp.

Definition answered (es : list centry) (P : proc R) : Prop :=
  match p_stage P with
  | Returned true sp en => en = p_eng P /\ exists x, first_for (p_cfg P) es x /\ sp = valued A (e_sp x)
  | Returned false sp en => compute_partonic R (p_solver P) (p_cfg P) (p_eng P) = (Ret sp, en) /\
      exists x, In x es /\ entry_for (p_cfg P) x /\ near (valued A (e_sp x)) sp
  | Failed r en => compute_partonic R (p_solver P) (p_cfg P) (p_eng P) = (r, en) /\ forall sp, r <> Ret sp
  | _ => True
  end.

Definition holding (w : world R) (es0 es : list centry) (t : string) (log : list nat) : Prop :=
  cache_state e (snd w) (Some t) /\ cache_lines (es0 ++ es) t /\
  (forall i P, proc_at w i P -> fits R e (snd w) (Some t) P) /\
  (forall i P, proc_at w i P -> answered (es0 ++ es) P) /\
  Forall2 (line_of w) log es /\ NoDup log /\ (forall i, In i log <-> exists P sp, proc_at w i P /\ wrote P sp).

Lemma answered_more es x P : answered es P -> answered (es ++ [x]) P.
Proof.
  unfold answered. destruct (p_stage P) as [| | | |sp en|[] sp en|r en|]; auto.
  - intros [E (y & F & V)]. split; [exact E|]. exists y. split; [apply first_app, F|exact V].
  - intros [E (y & I & M)]. split; [exact E|]. exists y. split; [apply in_or_app; left; exact I|exact M].
Qed.

Lemma line_of_mono (w w' : world R) log es : Forall2 (line_of w) log es ->
  (forall i P sp, proc_at w i P -> wrote P sp -> exists P', proc_at w' i P' /\ wrote P' sp /\ p_cfg P' = p_cfg P) ->
  Forall2 (line_of w') log es.
Proof.
  intros H K. induction H as [|i x log es (P & sp & Hp & Hw & Hm & Hn) H IH]; constructor; auto.
  destruct (K i P sp Hp Hw) as (P' & Hp' & Hw' & E). exists P', sp. rewrite E. auto.
Qed.

(** The processes of a later world. *)
Definition same_job (P P' : proc R) : Prop := p_cfg P' = p_cfg P /\ p_solver P' = p_solver P /\ p_eng P' = p_eng P.
Lemma pstep_job P f P' f' : pstep R e P f P' f' -> same_job P P'.
Proof. intros []; repeat split. Qed.
Lemma wstep_job w w' i P : wstep R e w w' -> proc_at w i P -> exists P', proc_at w' i P' /\ same_job P P'.
Proof.
  intros H Hi. destruct H as [ps f j Q Q' f' Hj Hs|ps f j Q Hj Ne|ps f Q Hs]; unfold proc_at in *; cbn [fst] in *.
  - destruct (Nat.eq_dec i j) as [->|N].
    + exists Q'. split; [apply replace_same, (nth_some_lt _ _ _ Hj)|]. assert (P = Q) by congruence. subst Q. apply (pstep_job _ _ _ _ Hs).
    + exists P. split; [rewrite replace_other by congruence; exact Hi|repeat split].
  - destruct (Nat.eq_dec i j) as [->|N].
    + exists (at_stage Q Killed). split; [apply replace_same, (nth_some_lt _ _ _ Hj)|]. assert (P = Q) by congruence. subst Q. repeat split.
    + exists P. split; [rewrite replace_other by congruence; exact Hi|repeat split].
  - exists P. split; [rewrite nth_error_app1; [exact Hi|apply (nth_some_lt _ _ _ Hi)]|repeat split].
Qed.
Lemma readable_job P P' : same_job P P' -> readable P' -> readable P.
Proof. intros (E1 & E2 & E3). unfold readable. rewrite E1, E2, E3. auto. Qed.

Definition all_readable (w : world R) : Prop := forall i P, proc_at w i P -> readable P.
Lemma all_readable_back w w' : wstep R e w w' -> all_readable w' -> all_readable w.
Proof.
  intros H K i P Hi. destruct (wstep_job w w' i P H Hi) as (P' & Hi' & J). apply (readable_job P P' J), (K i P' Hi').
Qed.

Lemma holding_step w w' es0 es t log : es0 <> [] -> holding w es0 es t log -> all_readable w' -> wstep R e w w' ->
  exists es' t' log', holding w' es0 (es ++ es')%list t' log'.
Proof.
  intros Ne0 (S & T & F & An & Lo & Nd & Ll) Rd H. pose proof (all_readable_back w w' H Rd) as Rd0.
  assert (Ne : (es0 ++ es)%list <> []) by (destruct es0; [congruence|discriminate]).
  destruct H as [ps f i P P' f' Hi Hs|ps f i P Hi Nen|ps f P Hs]; cbn [fst snd] in *.
  - destruct (step_effect R e P P' f f' (Some t) S (F i P Hi) Hs) as (o' & S' & Ef & F' & O' & Kd & Jb).
    assert (NoW : forall sp, ~ wrote P sp).
    { intros sp [en Hw]. destruct Hs; cbn in *; congruence. }
    assert (Mono : forall j Q sp, proc_at (ps, f) j Q -> wrote Q sp -> exists Q', proc_at (replace_nth ps i P', f') j Q' /\ wrote Q' sp /\ p_cfg Q' = p_cfg Q).
    { intros j Q sp Hj Hw. destruct (Nat.eq_dec j i) as [->|N].
      - exfalso. unfold proc_at in Hj. cbn [fst] in Hj. assert (Q = P) by congruence. subst Q. apply (NoW sp Hw).
      - exists Q. split; [|auto]. unfold proc_at. cbn [fst]. rewrite replace_other by congruence. exact Hj. }
    assert (Pi : proc_at (replace_nth ps i P', f') i P').
    { unfold proc_at. cbn [fst]. apply replace_same. apply (nth_some_lt _ _ _ Hi). }
    assert (Ff : forall j Q, proc_at (replace_nth ps i P', f') j Q -> fits R e f' o' Q).
    { intros j Q Hj. unfold proc_at in Hj. cbn [fst] in Hj. apply replace_cases in Hj. destruct Hj as [[-> ->]|[N Hj]]; [exact F'|].
      apply (fits_other R e f f' (Some t) o'); auto. apply (F j Q Hj). apply (effect_some R P P'), Ef. }
    assert (Li : ~ In i log).
    { intros Hin. apply Ll in Hin. destruct Hin as (Q & sp & Hq & Hw). unfold proc_at in Hq. cbn [fst] in Hq.
      assert (Q = P) by congruence. subst Q. apply (NoW sp Hw). }
    assert (Back : (forall sp en, p_stage P' <> Returned false sp en) -> forall j, In j log <-> exists Q sp, proc_at (replace_nth ps i P', f') j Q /\ wrote Q sp).
    { intros Np j. split.
      - intros Hin. apply Ll in Hin. destruct Hin as (Q & sp & Hq & Hw). destruct (Mono j Q sp Hq Hw) as (Q' & H1 & H2 & _). eauto.
      - intros (Q & sp & Hq & Hw). unfold proc_at in Hq. cbn [fst] in Hq. apply replace_cases in Hq. destruct Hq as [[-> ->]|[N Hq]].
        + destruct Hw as [en Hw]. destruct (Np sp en Hw).
        + apply Ll. exists Q, sp. auto. }
    assert (AnP : (forall sp en, p_stage P' <> Returned false sp en) -> answered (es0 ++ es) P').
    { intros Np. pose proof (cache_lines_text _ _ T Ne) as Tx.
      destruct Hs as [P f u Hs Hd|P f dh f' Hs Hd Hc|P f dh x f' Hs Hd Hc|P f dh sp Hs Hd Hr|P f dh Hs Hd Hr|P f dh u Hs Hd Hr
                     |P f dh f' Hs Hd Ha|P f sp en Hs Hc|P f r en Hs Hc N1 N2|P f dh sp en f' Hs Hd Ha]; cbn; auto.
      - destruct (state_home e f _ S) as (dh & D & G). congruence.
      - destruct (state_home e f _ S) as (dh' & D & G). assert (dh' = dh) by congruence. subst dh'.
        destruct (mkdir_state e f _ dh S D) as (f2 & E & _). unfold cache_dir in E. congruence.
      - destruct (state_home e f _ S) as (dh' & D & G). assert (dh' = dh) by congruence. subst dh'.
        destruct (reads_state e f _ dh _ _ S D Hr) as (rounds & N & E).
        destruct (loop_result _ _ _ _ _ Tx E N) as [(x & Fx & Ex)|(_ & Ex)]; [|discriminate Ex].
        split; [reflexivity|]. exists x. split; [exact Fx|congruence].
      - destruct (state_home e f _ S) as (dh' & D & G). assert (dh' = dh) by congruence. subst dh'.
        destruct (reads_state e f _ dh _ _ S D Hr) as (rounds & N & E).
        destruct (loop_result _ _ _ _ _ Tx E N) as [(x & Fx & Ex)|(_ & Ex)]; discriminate Ex.
      - cbn in Np. destruct (Np sp en eq_refl). }
    destruct Ef as [Np|E1 E2|s sp en E1 E2 E3].
    + exists [], t, log. rewrite app_nil_r. unfold holding. cbn [fst snd]. split; [exact S'|]. split; [exact T|]. split; [exact Ff|]. split; [|split; [|split; [exact Nd|apply Back, Np]]].
      * intros j Q Hj. unfold proc_at in Hj. cbn [fst] in Hj. apply replace_cases in Hj. destruct Hj as [[-> ->]|[N Hj]]; [apply AnP, Np|apply (An j Q Hj)].
      * apply (line_of_mono _ _ _ _ Lo Mono).
    + assert (Np : forall sp en, p_stage P' <> Returned false sp en) by (rewrite E2; discriminate).
      exists [], t, log. rewrite app_nil_r. unfold holding. cbn [fst snd]. split; [exact S'|]. split; [exact T|]. split; [exact Ff|]. split; [|split; [|split; [exact Nd|apply Back, Np]]].
      * intros j Q Hj. unfold proc_at in Hj. cbn [fst] in Hj. apply replace_cases in Hj. destruct Hj as [[-> ->]|[N Hj]]; [apply AnP, Np|apply (An j Q Hj)].
      * apply (line_of_mono _ _ _ _ Lo Mono).
    + assert (s = t) by congruence. subst s.
      assert (Fi : fits R e f (Some t) P) by apply (F i P Hi). unfold fits in Fi. rewrite E3 in Fi. destruct Fi as [_ Ec].
      destruct (Rd0 i P Hi sp en Ec) as (sp' & (x & l & Ok & Hl & El & Hm & Hv) & Nr).
      destruct Jb as (C1 & C2 & C3).
      exists [x], (t ++ line_for (p_cfg P) sp), (log ++ [i])%list. unfold holding. cbn [fst snd]. rewrite app_assoc.
      split; [exact S'|]. split; [|split; [exact Ff|split; [|split; [|split]]]].
      * unfold line_for. rewrite El. apply cache_lines_snoc; auto. apply nl_gap.
      * intros j Q Hj. unfold proc_at in Hj. cbn [fst] in Hj. apply replace_cases in Hj. destruct Hj as [[-> ->]|[N Hj]]; [|apply answered_more, (An j Q Hj)].
        unfold answered. rewrite E2, C1, C2, C3. split; [exact Ec|]. exists x. split; [apply in_or_app; right; left; reflexivity|]. split; [exact Hm|rewrite Hv; exact Nr].
      * apply Forall2_app; [apply (line_of_mono _ _ _ _ Lo Mono)|]. constructor; [|constructor].
        exists P', sp. split; [exact Pi|]. split; [exists en; exact E2|]. rewrite C1. split; [exact Hm|rewrite Hv; exact Nr].
      * apply NoDup_rev in Nd. rewrite <- (rev_involutive (log ++ [i])). apply NoDup_rev. rewrite rev_app_distr. cbn [rev app]. constructor; [rewrite <- in_rev; exact Li|exact Nd].
      * intros j. rewrite in_app_iff. split.
        -- intros [Hin|[<-|[]]]; [|exists P', sp; split; [exact Pi|exists en; exact E2]].
           apply Ll in Hin. destruct Hin as (Q & sp2 & Hq & Hw). destruct (Mono j Q sp2 Hq Hw) as (Q' & H1 & H2 & _). eauto.
        -- intros (Q & sp2 & Hq & Hw). unfold proc_at in Hq. cbn [fst] in Hq. apply replace_cases in Hq.
           destruct Hq as [[-> ->]|[N Hq]]; [right; left; reflexivity|]. left. apply Ll. exists Q, sp2. auto.
  - exists [], t, log. rewrite app_nil_r.
    assert (Mono : forall j Q sp, proc_at (ps, f) j Q -> wrote Q sp -> exists Q', proc_at (replace_nth ps i (at_stage P Killed), f) j Q' /\ wrote Q' sp /\ p_cfg Q' = p_cfg Q).
    { intros j Q sp Hj Hw. destruct (Nat.eq_dec j i) as [->|N].
      - exfalso. unfold proc_at in Hj. cbn [fst] in Hj. assert (Q = P) by congruence. subst Q. destruct Hw as [en Hw]. apply Nen. unfold ended. rewrite Hw. exact I.
      - exists Q. split; [|auto]. unfold proc_at. cbn [fst]. rewrite replace_other by congruence. exact Hj. }
    unfold holding. cbn [fst snd]. split; [exact S|]. split; [exact T|]. split; [|split; [|split; [|split; [exact Nd|]]]].
    + intros j Q Hj. unfold proc_at in Hj. cbn [fst] in Hj. apply replace_cases in Hj. destruct Hj as [[-> ->]|[N Hj]]; [exact I|apply (F j Q Hj)].
    + intros j Q Hj. unfold proc_at in Hj. cbn [fst] in Hj. apply replace_cases in Hj. destruct Hj as [[-> ->]|[N Hj]]; [exact I|apply (An j Q Hj)].
    + apply (line_of_mono _ _ _ _ Lo Mono).
    + intros j. split.
      * intros Hin. apply Ll in Hin. destruct Hin as (Q & sp & Hq & Hw). destruct (Mono j Q sp Hq Hw) as (Q' & H1 & H2 & _). eauto.
      * intros (Q & sp & Hq & Hw). unfold proc_at in Hq. cbn [fst] in Hq. apply replace_cases in Hq. destruct Hq as [[-> ->]|[N Hq]].
        -- destruct Hw as [en Hw]. discriminate Hw.
        -- apply Ll. exists Q, sp. auto.
  - exists [], t, log. rewrite app_nil_r.
    assert (Mono : forall j Q sp, proc_at (ps, f) j Q -> wrote Q sp -> exists Q', proc_at ((ps ++ [P])%list, f) j Q' /\ wrote Q' sp /\ p_cfg Q' = p_cfg Q).
    { intros j Q sp Hj Hw. exists Q. split; [|auto]. unfold proc_at in *. cbn [fst] in *. rewrite nth_error_app1; [exact Hj|]. apply (nth_some_lt _ _ _ Hj). }
    assert (Cases : forall j Q, nth_error (ps ++ [P])%list j = Some Q -> nth_error ps j = Some Q \/ Q = P).
    { intros j Q Hj. destruct (Nat.lt_ge_cases j (length ps)) as [Lt|Ge]; [rewrite nth_error_app1 in Hj by exact Lt; auto|].
      rewrite nth_error_app2 in Hj by exact Ge. destruct (j - length ps)%nat as [|[|k]]; cbn in Hj; [right; congruence|discriminate|discriminate]. }
    unfold holding. cbn [fst snd]. split; [exact S|]. split; [exact T|]. split; [|split; [|split; [|split; [exact Nd|]]]].
    + intros j Q Hj. destruct (Cases j Q Hj) as [Hj'| ->]; [apply (F j Q Hj')|]. unfold fits. rewrite Hs. exact I.
    + intros j Q Hj. destruct (Cases j Q Hj) as [Hj'| ->]; [apply (An j Q Hj')|]. unfold answered. rewrite Hs. exact I.
    + apply (line_of_mono _ _ _ _ Lo Mono).
    + intros j. split.
      * intros Hin. apply Ll in Hin. destruct Hin as (Q & sp & Hq & Hw). destruct (Mono j Q sp Hq Hw) as (Q' & H1 & H2 & _). eauto.
      * intros (Q & sp & Hq & Hw). destruct (Cases j Q Hq) as [Hj'| ->]; [apply Ll; exists Q, sp; auto|].
        destruct Hw as [en Hw]. rewrite Hs in Hw. discriminate Hw.
Qed.

Lemma holding_steps w w' es0 es t log : es0 <> [] -> holding w es0 es t log -> all_readable w' -> wsteps R e w w' ->
  exists es' t' log', holding w' es0 (es ++ es')%list t' log'.
Proof.
  intros Ne H Rd Hs. induction Hs as [w|w1 w2 w3 Hs IH H3].
  - exists [], t, log. rewrite app_nil_r. exact H.
  - destruct (IH H (all_readable_back _ _ H3 Rd)) as (es1 & t1 & log1 & H1).
    destruct (holding_step w2 w3 es0 _ t1 log1 Ne H1 Rd H3) as (es2 & t2 & log2 & H2).
    exists (es1 ++ es2)%list, t2, log2. rewrite app_assoc. exact H2.
Qed.

Lemma holding_start f0 es0 : cache_holds e f0 es0 -> es0 <> [] -> exists t, holding ([], f0) es0 [] t [].
Proof.
  intros [[E _]|[_ (t & W & T)]] N; [congruence|]. exists t. unfold holding. cbn [fst snd]. rewrite app_nil_r.
  split; [exact W|]. split; [exact T|]. split; [intros [|i] P Hi; discriminate Hi|]. split; [intros [|i] P Hi; discriminate Hi|].
  split; [constructor|]. split; [constructor|]. intros i. split; [intros []|intros (P & sp & Hi & _); destruct i; discriminate Hi].
Qed.

Lemma holding_reachable f0 es0 w : cache_holds e f0 es0 -> es0 <> [] -> reachable R e f0 w -> all_readable w ->
  exists es t log, holding w es0 es t log.
Proof.
  intros C N Hr Rd. destruct (holding_start f0 es0 C N) as (t & H).
  destruct (holding_steps _ w es0 [] t [] N H Rd Hr) as (es & t' & log & H'). exists es, t', log. exact H'.
Qed.

Lemma holding_cache w es0 es t log : es0 <> [] -> holding w es0 es t log -> cache_holds e (snd w) (es0 ++ es).
Proof.
  intros N (S & T & _). right. split; [destruct es0; [congruence|discriminate]|]. exists t. split; [exact S|exact T].
Qed.

(** Every process can go on. *)
Lemma can_step w es0 es t log i P : es0 <> [] -> holding w es0 es t log -> proc_at w i P -> ~ ended P ->
  (exists P' f', pstep R e P (snd w) P' f') \/
  (p_stage P = AtCompute /\ fst (compute_partonic R (p_solver P) (p_cfg P) (p_eng P)) = OutOfFuel).
Proof.
  intros N0 (S & T & F & _) Hi Ne. specialize (F i P Hi). destruct (state_home e _ _ S) as (dh & D & G).
  assert (Tx : cache_text (es0 ++ es) t) by (apply (cache_lines_text _ _ T); destruct es0; [congruence|discriminate]).
  unfold ended in Ne. unfold fits in F. destruct (p_stage P) as [| | | |sp en|hit sp en|r en|] eqn:St; try (exfalso; apply Ne; exact I).
  - left. destruct (mkdir_state e _ _ dh S D) as (f' & E & _). eexists _, f'. eapply step_mkdir; [exact St|exact G|exact E].
  - left. destruct (loop_exists (p_cfg P) _ _ Tx) as (rounds & o & E).
    assert (Rc : reads_cache (p_cfg P) (cache_path dh) (snd w) (Ret o)).
    { unfold reads_cache. destruct S as (dh' & D' & _ & S'). assert (dh' = dh) by congruence. subst dh'.
      change (cache_path dh) with (cache_file dh). rewrite S'. exists rounds. split; [discriminate|exact E]. }
    destruct o as [sp|].
    + eexists _, _. eapply step_hit; [exact St|exact G|exact Rc].
    + eexists _, _. eapply step_miss; [exact St|exact G|exact Rc].
  - left. destruct (append_state e _ _ dh "" S D (F dh D)) as (f' & E & _). eexists _, f'. eapply step_open; [exact St|exact G|exact E].
  - destruct (compute_partonic R (p_solver P) (p_cfg P) (p_eng P)) as [r en] eqn:C. destruct r as [sp|x|u|].
    + left. eexists _, _. eapply step_compute; [exact St|exact C].
    + left. eexists _, _. eapply step_no_fit; [exact St|exact C|intros; discriminate|discriminate].
    + left. eexists _, _. eapply step_no_fit; [exact St|exact C|intros; discriminate|discriminate].
    + right. auto.
  - left. destruct F as [No _]. destruct (append_state e _ _ dh (line_for (p_cfg P) sp) S D (dir_of_text e _ _ dh S D No)) as (f' & E & _).
    eexists _, f'. eapply step_write; [exact St|exact G|exact E].
Qed.
End Entries.
