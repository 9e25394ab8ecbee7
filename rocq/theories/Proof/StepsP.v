(** Concurrent use of the cross-section cache: the invariant. *)
From Coq Require Import Ascii.
From Verif.Base Require Import Result Arith Rng.
From Verif.Model Require Import Random Config Nucleon Text Files CrossSection CacheSteps.
From Verif.Spec Require Import Decimal Cache Concurrent.
From Verif.Proof Require Import Basics TextP FsP FsTree CacheP CacheRun CacheWrite.
From Verif.Properties Require Import Cache.
Local Open Scope string_scope.

Section ListNth.
Context {X : Type}.
Lemma replace_length (l : list X) i x : length (replace_nth l i x) = length l.
Proof. revert i. induction l as [|y l IH]; intros [|i]; simpl; auto. Qed.
Lemma replace_same (l : list X) i x : (i < length l)%nat -> nth_error (replace_nth l i x) i = Some x.
Proof. revert i. induction l as [|y l IH]; intros [|i] H; simpl in *; try lia; auto. apply IH. lia. Qed.
Lemma replace_other (l : list X) i j x : i <> j -> nth_error (replace_nth l i x) j = nth_error l j.
Proof. revert i j. induction l as [|y l IH]; intros [|i] [|j] H; simpl; auto; try congruence; apply IH; congruence. Qed.
Lemma nth_some_lt (l : list X) i x : nth_error l i = Some x -> (i < length l)%nat.
Proof. intros H. apply nth_error_Some. congruence. Qed.
Lemma replace_cases (l : list X) i j x y : nth_error (replace_nth l i x) j = Some y ->
  (j = i /\ y = x) \/ (j <> i /\ nth_error l j = Some y).
Proof.
  intros H. destruct (Nat.eq_dec j i) as [->|N].
  - left. split; auto. assert (L : (i < length l)%nat) by (rewrite <- (replace_length l i x); apply (nth_some_lt _ _ _ H)).
    rewrite replace_same in H by exact L. congruence.
  - right. rewrite replace_other in H by congruence. auto.
Qed.
End ListNth.

Lemma norm_le p : (String.length (norm p) <= String.length p)%nat.
Proof. induction p as [|c q IH]; [reflexivity|]. cbn [norm]. destruct (norm q); [destruct (is_slash c); cbn; lia|cbn in *; lia]. Qed.

Lemma dir_file_differ dh : norm (cache_dir dh) <> norm (cache_file dh).
Proof.
  unfold cache_file. assert (N : cache_dir dh <> "") by (apply join_not_empty; discriminate).
  destruct (join_plain (cache_dir dh) "cross_section.cache" cache_file_plain N) as (p' & E1 & E2 & E3 & _).
  intros E. rewrite E3, E2 in E. rewrite <- E1 in E.
  assert (L : String.length (norm p') = String.length (p' ++ "/" ++ "cross_section.cache")) by (rewrite E; reflexivity).
  rewrite length_app_s in L. pose proof (norm_le p'). cbn in L. lia.
Qed.

Section Inv.
Context {A : Arith} (R : Rng A) (e : env).

Lemma state_text f t : cache_state (A:=A) e f (Some t) <-> world_cache e f t.
Proof. reflexivity. Qed.
Lemma state_home f o : cache_state (A:=A) e f o -> exists dh, data_dir e = Some dh /\ get_data_home e = Ret dh.
Proof. intros (dh & D & _). exists dh. split; [exact D|apply data_home_dir, D]. Qed.

(** mkdir *)
Lemma mkdir_state f o dh : cache_state e f o -> data_dir e = Some dh -> exists f',
  create_directory (A:=A) (cache_dir dh) f = (Ret tt, f') /\ cache_state e f' o /\
  fs_lookup f' (cache_dir dh) = Some Dir /\ only_cache_dir_differs e f f'.
Proof.
  intros (dh' & D & H) D0. assert (dh' = dh) by congruence. subst dh'. unfold create_directory.
  assert (Same : fs_lookup f (cache_dir dh) = Some Dir -> exists f',
    match fs_lookup f (cache_dir dh) with
    | Some Dir => (Ret tt, f) | Some _ => (Throw (FilesystemError (cache_dir dh)), f)
    | None => if parent_ok f (cache_dir dh) then (Ret tt, fs_set f (cache_dir dh) Dir) else (Throw (FilesystemError (cache_dir dh)), f)
    end = (Ret tt, f') /\ cache_state e f' o /\ fs_lookup f' (cache_dir dh) = Some Dir /\ only_cache_dir_differs e f f').
  { intros Hd. rewrite Hd. exists f. split; [reflexivity|]. split; [exists dh; auto|]. split; [exact Hd|]. intros ? ? _ _ _. reflexivity. }
  destruct o as [t|].
  - apply Same. apply H.
  - destruct H as [[Hd|[Hd Hp]] Hf]; [apply Same, Hd|]. rewrite Hd, Hp.
    assert (NE : cache_dir dh <> "") by (apply join_not_empty; discriminate).
    exists (fs_set f (cache_dir dh) Dir). split; [reflexivity|].
    assert (L : fs_lookup (fs_set f (cache_dir dh) Dir) (cache_dir dh) = Some Dir) by (apply fs_set_eq, NE).
    split; [|split; [exact L|]].
    + exists dh. split; [exact D|]. split; [left; exact L|]. rewrite fs_set_neq; [exact Hf|]. apply not_eq_sym, dir_file_differ.
    + intros dh' p D' N1 _. assert (dh' = dh) by congruence. subst dh'. apply fs_set_neq, N1.
Qed.

(** Appending (and opening, which appends nothing). *)
Lemma append_state f o dh x : cache_state e f o -> data_dir e = Some dh -> fs_lookup f (cache_dir dh) = Some Dir ->
  exists f', append_file (A:=A) (cache_path dh) x f = (Ret tt, f') /\
    cache_state e f' (Some (match o with Some t => t | None => "" end ++ x)) /\ only_cache_dir_differs e f f'.
Proof.
  intros (dh' & D & H) D0 Hd. assert (dh' = dh) by congruence. subst dh'. unfold append_file. change (cache_path dh) with (cache_file dh).
  assert (NE : cache_file dh <> "") by (apply join_not_empty; discriminate).
  assert (K : forall y, cache_state e (fs_set f (cache_file dh) (File y)) (Some y) /\
              only_cache_dir_differs e f (fs_set f (cache_file dh) (File y))).
  { intros y. split.
    - exists dh. split; [exact D|]. split; [rewrite fs_set_neq by apply dir_file_differ; exact Hd|apply fs_set_eq, NE].
    - intros dh' p D' _ N2. assert (dh' = dh) by congruence. subst dh'. apply fs_set_neq, N2. }
  destruct o as [t|].
  - destruct H as [_ Hf]. rewrite Hf. eexists. split; [reflexivity|]. apply K.
  - destruct H as [_ Hf]. rewrite Hf.
    assert (P : parent_ok f (cache_file dh) = true).
    { apply parent_ok_join; [apply cache_file_plain|apply join_not_empty; discriminate|exact Hd]. }
    rewrite P. eexists. split; [reflexivity|]. apply K.
Qed.

(** What a reader sees. *)
Lemma reads_state f o dh cfg r : cache_state (A:=A) e f o -> data_dir e = Some dh -> reads_cache cfg (cache_path dh) f r ->
  match o with
  | None => r = Ret None
  | Some t => exists rounds, r <> OutOfFuel /\
      cache_loop rounds (nucleon_width cfg) (constit_width cfg) (constit_number cfg) (cross_section cfg)
        (Istream t false false) cvars_uninit = r
  end.
Proof.
  intros (dh' & D & H) D0 Hr. assert (dh' = dh) by congruence. subst dh'. unfold reads_cache in Hr. change (cache_path dh) with (cache_file dh) in Hr.
  destruct o as [t|]; destruct H as [_ Hf]; rewrite Hf in Hr; exact Hr.
Qed.

(** A process and the files fit together. *)
Definition fits (f : fs A) (o : option string) (P : proc R) : Prop :=
  match p_stage P with
  | AtStart | Killed | Returned true _ _ | Failed _ _ => True
  | AtLookup | AtOpen => forall dh, data_dir e = Some dh -> fs_lookup f (cache_dir dh) = Some Dir
  | AtCompute => o <> None
  | AtWrite sp en => o <> None /\ compute_partonic R (p_solver P) (p_cfg P) (p_eng P) = (Ret sp, en)
  | Returned false sp en => o <> None /\ compute_partonic R (p_solver P) (p_cfg P) (p_eng P) = (Ret sp, en)
  end.

Lemma dir_of_text f o dh : cache_state (A:=A) e f o -> data_dir e = Some dh -> o <> None -> fs_lookup f (cache_dir dh) = Some Dir.
Proof.
  intros (dh' & D & H) D0 N. assert (dh' = dh) by congruence. subst dh'. destruct o; [apply H|congruence].
Qed.


(** One step of one process: the text grows by [x], and only a writer's step has
    a non-empty [x]. *)
Inductive effect (P P' : proc R) (o : option string) : option string -> Prop :=
| eff_same : (forall sp en, p_stage P' <> Returned false sp en) -> effect P P' o o
| eff_open : p_stage P = AtOpen -> p_stage P' = AtCompute -> effect P P' o (Some (match o with Some t => t | None => "" end))
| eff_write : forall t sp en, o = Some t -> p_stage P' = Returned false sp en -> p_stage P = AtWrite sp en ->
    effect P P' o (Some (t ++ line_for (p_cfg P) sp)).

Lemma step_effect P P' f f' o : cache_state e f o -> fits f o P -> pstep R e P f P' f' ->
  exists o', cache_state e f' o' /\ effect P P' o o' /\ fits f' o' P' /\ only_cache_dir_differs e f f' /\
    (forall dh, data_dir e = Some dh -> fs_lookup f (cache_dir dh) = Some Dir -> fs_lookup f' (cache_dir dh) = Some Dir) /\
    p_cfg P' = p_cfg P /\ p_solver P' = p_solver P /\ p_eng P' = p_eng P.
Proof.
  intros S F H.
  assert (Refl : only_cache_dir_differs e f f) by (intros ? ? _ _ _; reflexivity).
  destruct H as [P f u Hs Hd|P f dh f' Hs Hd Hc|P f dh x f' Hs Hd Hc|P f dh sp Hs Hd Hr|P f dh Hs Hd Hr|P f dh u Hs Hd Hr
                |P f dh f' Hs Hd Ha|P f sp en Hs Hc|P f r en Hs Hc N1 N2|P f dh sp en f' Hs Hd Ha].
  - exists o. split; [exact S|]. split; [apply eff_same; discriminate|]. split; [exact I|]. split; auto.
  - destruct (state_home f o S) as (dh' & D & G). assert (dh' = dh) by congruence. subst dh'.
    destruct (mkdir_state f o dh S D) as (f2 & E & S' & L & O).
    assert (f2 = f') by (unfold cache_dir in E; congruence). subst f2.
    exists o. split; [exact S'|]. split; [apply eff_same; discriminate|]. split; [|split; [exact O|split; [|auto]]].
    + cbn. intros dh' D'. assert (dh' = dh) by congruence. subst. exact L.
    + intros dh' D' _. assert (dh' = dh) by congruence. subst. exact L.
  - destruct (state_home f o S) as (dh' & D & G). assert (dh' = dh) by congruence. subst dh'.
    destruct (mkdir_state f o dh S D) as (f2 & E & _). unfold cache_dir in E. congruence.
  - exists o. split; [exact S|]. split; [apply eff_same; discriminate|]. split; [exact I|]. split; auto.
  - exists o. split; [exact S|]. split; [apply eff_same; discriminate|]. split; [|split; auto].
    unfold fits in F. rewrite Hs in F. exact F.
  - exists o. split; [exact S|]. split; [apply eff_same; discriminate|]. split; [exact I|]. split; auto.
  - destruct (state_home f o S) as (dh' & D & G). assert (dh' = dh) by congruence. subst dh'.
    unfold fits in F. rewrite Hs in F.
    destruct (append_state f o dh "" S D (F dh D)) as (f2 & E & S' & O). assert (f2 = f') by congruence. subst f2.
    rewrite app_nil_r_s in S'. eexists. split; [exact S'|]. split; [apply eff_open; auto|]. split; [cbn; discriminate|]. split; [exact O|]. split; [|auto].
    intros dh' D' _. apply (dir_of_text _ _ dh' S' D'). discriminate.
  - exists o. split; [exact S|]. split; [apply eff_same; discriminate|]. split; [|split; auto].
    unfold fits in F. rewrite Hs in F. cbn. auto.
  - exists o. split; [exact S|]. split; [apply eff_same; discriminate|]. split; [exact I|]. split; auto.
  - destruct (state_home f o S) as (dh' & D & G). assert (dh' = dh) by congruence. subst dh'.
    unfold fits in F. rewrite Hs in F. destruct F as [No Ec]. pose proof (dir_of_text f o dh S D No) as Hdir.
    destruct (append_state f o dh (line_for (p_cfg P) sp) S D Hdir) as (f2 & E & S' & O). assert (f2 = f') by congruence. subst f2.
    destruct o as [t|]; [|congruence].
    eexists. split; [exact S'|]. split; [exact (eff_write P (at_stage P (Returned false sp en)) (Some t) t sp en eq_refl eq_refl Hs)|]. split; [cbn; split; [discriminate|exact Ec]|]. split; [exact O|]. split; [|auto].
    intros dh' D' _. apply (dir_of_text _ _ dh' S' D'). discriminate.
Qed.

Lemma effect_some P P' o o' : effect P P' o o' -> o <> None -> o' <> None.
Proof. intros [H|H1 H2|t sp en H1 H2 H3] N; auto; discriminate. Qed.

Lemma fits_other f f' o o' (Q : proc R) : fits f o Q -> (o <> None -> o' <> None) ->
  (forall dh, data_dir e = Some dh -> fs_lookup f (cache_dir dh) = Some Dir -> fs_lookup f' (cache_dir dh) = Some Dir) -> fits f' o' Q.
Proof.
  unfold fits. intros F N K. destruct (p_stage Q) as [| | | |sp en|[] sp en|r en|]; auto; destruct F; auto.
Qed.

Definition known (w : world R) f0 (o0 : option string) o (log : list nat) (t : string) : Prop :=
  cache_state e (snd w) o /\ only_cache_dir_differs e f0 (snd w) /\
  (forall i P, proc_at w i P -> fits (snd w) o P) /\
  written w log t /\ NoDup log /\ (forall i, In i log <-> exists P sp, proc_at w i P /\ wrote P sp) /\
  match o with Some s => s = match o0 with Some t0 => t0 | None => "" end ++ t | None => o0 = None /\ log = [] end.

Lemma written_mono (w w' : world R) log t : written w log t ->
  (forall i P sp, proc_at w i P -> wrote P sp -> exists P', proc_at w' i P' /\ wrote P' sp /\ p_cfg P' = p_cfg P) -> written w' log t.
Proof.
  induction 1 as [|log t i P sp W IH Hp Hw]; intros K; [constructor|].
  destruct (K i P sp Hp Hw) as (P' & Hp' & Hw' & E). rewrite <- E. econstructor; eauto.
Qed.

Lemma wstep_inv w w' f0 o0 o log t : known w f0 o0 o log t -> wstep R e w w' ->
  exists o' log' t', known w' f0 o0 o' log' t'.
Proof.
  intros (S & O & F & W & Nd & L & T) H. destruct H as [ps f i P P' f' Hi Hs|ps f i P Hi Ne|ps f P Hs]; cbn [fst snd] in *.
  - destruct (step_effect P P' f f' o S (F i P Hi) Hs) as (o' & S' & E & F' & O' & Kd & C1 & C2 & C3).
    assert (O2 : only_cache_dir_differs e f0 f') by (intros dh p D N1 N2; rewrite (O' dh p D N1 N2); apply (O dh p D N1 N2)).
    assert (Ff : forall j Q, proc_at (replace_nth ps i P', f') j Q -> fits f' o' Q).
    { intros j Q Hj. unfold proc_at in Hj. cbn [fst] in Hj. apply replace_cases in Hj. destruct Hj as [[-> ->]|[N Hj]]; [exact F'|].
      apply (fits_other f f' o o'); auto. apply (F j Q Hj). apply (effect_some P P'), E. }
    assert (NoW : forall sp, ~ wrote P sp).
    { intros sp [en Hw]. destruct Hs; cbn in *; congruence. }
    assert (Mono : forall j Q sp, proc_at (ps, f) j Q -> wrote Q sp -> exists Q', proc_at (replace_nth ps i P', f') j Q' /\ wrote Q' sp /\ p_cfg Q' = p_cfg Q).
    { intros j Q sp Hj Hw. destruct (Nat.eq_dec j i) as [->|N].
      - exfalso. unfold proc_at in Hj. cbn [fst] in Hj. assert (Q = P) by congruence. subst Q. apply (NoW sp Hw).
      - exists Q. split; [|auto]. unfold proc_at. cbn [fst]. rewrite replace_other by congruence. exact Hj. }
    pose proof (written_mono _ _ _ _ W Mono) as W'.
    assert (Li : ~ In i log).
    { intros Hin. apply L in Hin. destruct Hin as (Q & sp & Hq & Hw). unfold proc_at in Hq. cbn [fst] in Hq.
      assert (Q = P) by congruence. subst Q. apply (NoW sp Hw). }
    assert (Back : (forall sp en, p_stage P' <> Returned false sp en) -> forall j, In j log <-> exists Q sp, proc_at (replace_nth ps i P', f') j Q /\ wrote Q sp).
    { intros Np j. split.
      - intros Hin. apply L in Hin. destruct Hin as (Q & sp & Hq & Hw). destruct (Mono j Q sp Hq Hw) as (Q' & H1 & H2 & _). eauto.
      - intros (Q & sp & Hq & Hw). unfold proc_at in Hq. cbn [fst] in Hq. apply replace_cases in Hq. destruct Hq as [[-> ->]|[N Hq]].
        + destruct Hw as [en Hw]. destruct (Np sp en Hw).
        + apply L. exists Q, sp. auto. }
    destruct E as [Np|E1 E2|s sp en E1 E2 E3].
    + exists o, log, t. unfold known. cbn [fst snd]. repeat (split; [solve [auto]|]). exact T.
    + eexists _, log, t. unfold known. cbn [fst snd]. split; [exact S'|]. split; [exact O2|]. split; [exact Ff|]. split; [exact W'|]. split; [exact Nd|].
      split; [apply Back; rewrite E2; discriminate|].
      destruct o as [s|]; [exact T|]. destruct T as [-> T2]. subst log. inversion W as [E|? ? ? ? ? ? ? ? E]; [reflexivity|].
      match goal with X : [] = (_ ++ [_])%list |- _ => symmetry in X; apply app_eq_nil in X; destruct X as [_ X]; discriminate X | X : (_ ++ [_])%list = [] |- _ => apply app_eq_nil in X; destruct X as [_ X]; discriminate X end.
    + exists (Some (s ++ line_for (p_cfg P) sp)), (log ++ [i])%list, (t ++ line_for (p_cfg P) sp).
      assert (Pi : proc_at (replace_nth ps i P', f') i P').
      { unfold proc_at. cbn [fst]. apply replace_same. apply (nth_some_lt _ _ _ Hi). }
      unfold known. cbn [fst snd]. split; [exact S'|]. split; [exact O2|]. split; [exact Ff|].
      split; [|split; [|split]].
      * unfold line_for. rewrite <- C1. eapply written_then; [exact W'|exact Pi|exists en; exact E2].
      * apply NoDup_rev in Nd. rewrite <- (rev_involutive (log ++ [i])). apply NoDup_rev. rewrite rev_app_distr. cbn [rev app]. constructor; [rewrite <- in_rev; exact Li|exact Nd].
      * intros j. rewrite in_app_iff. split.
        -- intros [Hin|[<-|[]]]; [|exists P', sp; split; [exact Pi|exists en; exact E2]].
           apply L in Hin. destruct Hin as (Q & sp' & Hq & Hw). destruct (Mono j Q sp' Hq Hw) as (Q' & H1 & H2 & _). eauto.
        -- intros (Q & sp' & Hq & Hw). unfold proc_at in Hq. cbn [fst] in Hq. apply replace_cases in Hq.
           destruct Hq as [[-> ->]|[N Hq]]; [right; left; reflexivity|]. left. apply L. exists Q, sp'. auto.
      * subst o. rewrite T, app_assoc_s. reflexivity.
  - exists o, log, t.
    assert (Mono : forall j Q sp, proc_at (ps, f) j Q -> wrote Q sp -> exists Q', proc_at (replace_nth ps i (at_stage P Killed), f) j Q' /\ wrote Q' sp /\ p_cfg Q' = p_cfg Q).
    { intros j Q sp Hj Hw. destruct (Nat.eq_dec j i) as [->|N].
      - exfalso. unfold proc_at in Hj. cbn [fst] in Hj. assert (Q = P) by congruence. subst Q. destruct Hw as [en Hw]. apply Ne. unfold ended. rewrite Hw. exact I.
      - exists Q. split; [|auto]. unfold proc_at. cbn [fst]. rewrite replace_other by congruence. exact Hj. }
    unfold known. cbn [fst snd]. split; [exact S|]. split; [exact O|]. split; [|split; [|split; [exact Nd|split; [|exact T]]]].
    + intros j Q Hj. unfold proc_at in Hj. cbn [fst] in Hj. apply replace_cases in Hj. destruct Hj as [[-> ->]|[N Hj]]; [exact I|apply (F j Q Hj)].
    + apply (written_mono _ _ _ _ W Mono).
    + intros j. split.
      * intros Hin. apply L in Hin. destruct Hin as (Q & sp & Hq & Hw). destruct (Mono j Q sp Hq Hw) as (Q' & H1 & H2 & _). eauto.
      * intros (Q & sp & Hq & Hw). unfold proc_at in Hq. cbn [fst] in Hq. apply replace_cases in Hq. destruct Hq as [[-> ->]|[N Hq]].
        -- destruct Hw as [en Hw]. discriminate Hw.
        -- apply L. exists Q, sp. auto.
  - exists o, log, t.
    assert (Mono : forall j Q sp, proc_at (ps, f) j Q -> wrote Q sp -> exists Q', proc_at ((ps ++ [P])%list, f) j Q' /\ wrote Q' sp /\ p_cfg Q' = p_cfg Q).
    { intros j Q sp Hj Hw. exists Q. split; [|auto]. unfold proc_at in *. cbn [fst] in *. rewrite nth_error_app1; [exact Hj|]. apply (nth_some_lt _ _ _ Hj). }
    assert (Cases : forall j Q, nth_error (ps ++ [P])%list j = Some Q -> nth_error ps j = Some Q \/ Q = P).
    { intros j Q Hj. destruct (Nat.lt_ge_cases j (length ps)) as [Lt|Ge]; [rewrite nth_error_app1 in Hj by exact Lt; auto|].
      rewrite nth_error_app2 in Hj by exact Ge. destruct (j - length ps)%nat as [|[|k]]; cbn in Hj; [right; congruence|discriminate|discriminate]. }
    unfold known. cbn [fst snd]. split; [exact S|]. split; [exact O|]. split; [|split; [|split; [exact Nd|split; [|exact T]]]].
    + intros j Q Hj. destruct (Cases j Q Hj) as [Hj'| ->]; [apply (F j Q Hj')|]. unfold fits. rewrite Hs. exact I.
    + apply (written_mono _ _ _ _ W Mono).
    + intros j. split.
      * intros Hin. apply L in Hin. destruct Hin as (Q & sp & Hq & Hw). destruct (Mono j Q sp Hq Hw) as (Q' & H1 & H2 & _). eauto.
      * intros (Q & sp & Hq & Hw). destruct (Cases j Q Hq) as [Hj'| ->]; [apply L; exists Q, sp; auto|].
        destruct Hw as [en Hw]. rewrite Hs in Hw. discriminate Hw.
Qed.

Lemma reachable_known f0 o0 w : cache_state e f0 o0 -> reachable R e f0 w -> exists o log t, known w f0 o0 o log t.
Proof.
  intros S H. unfold reachable in H. remember ([], f0) as w0 eqn:E0. induction H as [w|w1 w2 w3 H IH Hs]; subst.
  - exists o0, [], "". split; [exact S|]. split; [intros ? ? _ _ _; reflexivity|]. split; [intros [|i] P Hi; discriminate Hi|].
    split; [constructor|]. split; [constructor|]. split; [intros i; split; [intros []|intros (P & sp & Hi & _); destruct i; discriminate Hi]|].
    destruct o0; [cbn; rewrite app_nil_r_s; reflexivity|auto].
  - destruct (IH eq_refl) as (o & log & t & K). apply (wstep_inv w2 w3 f0 o0 o log t K Hs).
Qed.
End Inv.
