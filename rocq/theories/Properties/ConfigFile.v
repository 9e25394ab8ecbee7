(** C70: configuration files, for every arithmetic, every file and command line. *)
From Coq Require Import Ascii.
From Verif.Base Require Import Result Arith FArith Rng.
From Verif.Model Require Import Config Text Files CrossSection Output Collider Main CommandLine.
From Verif.Spec Require Import Decimal Collision Contract Options CommandLine ConfigFile.
From Verif.Proof Require Import Basics TextP OptionsP CommandLineP CastP CommandLine2P ConfigFileP.
From Verif.Properties Require Import Options CommandLine.
Local Open Scope string_scope.

(** A file is read exactly if it is written like the grammar says, and the
    settings are those written. *)
Theorem C70_reads : forall t ls its, text_lines t ls ->
  (config_file ls its <-> config_file_tokens t = Ret (map (fun it => (fst it, [snd it])) its)).
Proof.
  intros t ls its L. rewrite (file_read t ls its L). split.
  - intros (ts & E & <-). rewrite E. f_equal. rewrite map_map. unfold config_file_tokens in E. revert E. generalize (lines t) "". clear. intros ls. revert ts.
    induction ls as [|l ls IH]; intros ts prefix E; [cbn in E; injection E as <-; reflexivity|]. rewrite config_step in E. destruct (classify l) as [|s|n v|]; try discriminate E.
    + exact (IH _ _ E).
    + destruct s; [discriminate E|]. exact (IH _ _ E).
    + destruct (file_name _); [|discriminate E]. destruct (config_tokens prefix ls) as [more|x|u|] eqn:E'; try discriminate E. cbn [rbind] in E. injection E as <-.
      cbn [map view fst snd text_of]. f_equal. exact (IH _ _ E').
  - intros E. eexists. split; [exact E|]. rewrite map_map. rewrite <- (map_id its) at 2. apply map_ext. intros [n v]. reflexivity.
Qed.

Section Program.
Context {A : Arith} {R : Rng A} (sv : Solver A) (bd : build) (tx : texts (A:=A)).

Lemma trento_body_start cfuel fuel sfuel e args g (s : sys R) : command_line args = Ret g -> info g = false ->
  trento_body R sv bd tx cfuel fuel sfuel e args s =
  bind (merge_files R (vmap [g]) (g_config_file g)) (fun v1 =>
    let* _ := lift (validate (config_of (fix_constit_width v1))) in
    let* _ := lift (notify (fix_constit_width v1)) in
    collide R sv bd cfuel fuel sfuel e (config_of (fix_constit_width v1))) s.
Proof.
  intros E Hi. unfold info in Hi. apply orb_false_iff in Hi. destruct Hi as [Hi H3]. apply orb_false_iff in Hi. destruct Hi as [H1 H2].
  unfold trento_body. rewrite E. erewrite bind_run by reflexivity. cbv zeta. rewrite H1, H2, H3. reflexivity.
Qed.

Lemma trento_body_run cfuel fuel sfuel e args its named (g : given A) gs total (s : sys R) :
  written its args -> settled word_names its named -> means named g -> info g = false ->
  files_say (s_fs s) named (g_config_file g) gs total ->
  trento_body R sv bd tx cfuel fuel sfuel e args s =
  match validate (effective (g :: gs)) with
  | Ret _ => if Nat.eqb (length (projectile (effective (g :: gs)))) 2
             then collide R sv bd cfuel fuel sfuel e (effective (g :: gs)) s
             else (Throw RequiredOption, s)
  | Throw x => (Throw x, s) | UB u => (UB u, s) | OutOfFuel => (OutOfFuel, s)
  end.
Proof.
  intros W S M Hi Hf. assert (E : command_line args = Ret g) by (apply reads; exists its, named; auto).
  rewrite (trento_body_start cfuel fuel sfuel e args g s E Hi).
  destruct (merge_files_ok R s named _ gs total Hf [g] (agrees_first named g M)) as [Mg _].
  rewrite (bind_run _ _ _ _ _ Mg). cbn [app]. rewrite effective_config, notify_effective. unfold bind at 1, lift at 1.
  destruct (validate (effective (g :: gs))); try reflexivity. unfold bind at 1, lift at 1. destruct (Nat.eqb _ 2); reflexivity.
Qed.

Lemma trento_exit cfuel fuel sfuel e args (s : sys R) :
  exit_of (trento_body R sv bd tx cfuel fuel sfuel e args s) (trento R sv bd tx cfuel fuel sfuel e args s).
Proof.
  unfold trento. destruct (trento_body R sv bd tx cfuel fuel sfuel e args s) as [[[]|x|u|] s']; try constructor.
  destruct x; unfold bind, print_err, ret; try (apply exit_std; discriminate); [|constructor].
  rewrite <- (app_assoc_s usage_str). apply exit_std. discriminate.
Qed.

Lemma trento_fails cfuel fuel sfuel e args x (s : sys R) : (forall h, x <> H5Exception h) ->
  trento_body R sv bd tx cfuel fuel sfuel e args s = (Throw x, s) ->
  exists m, trento R sv bd tx cfuel fuel sfuel e args s = (Ret 1%Z, Sys (s_eng s) (s_fs s) (s_out s) (s_err s ++ m ++ newline)).
Proof.
  intros N E. unfold trento. rewrite E. destruct x; try (eexists; reflexivity).
  - exists (usage_str ++ "run 'trento --help' for more information"). unfold bind, print_err, ret. rewrite !app_assoc_s. reflexivity.
  - exfalso. exact (N _ eq_refl).
Qed.
End Program.

(** Command line first, then the files in order, then the defaults. *)
Theorem C70_runs : forall (A : Arith) (R : Rng A) sv bd tx cfuel fuel sfuel e args its named (g : given A) gs total (s : sys R),
  written its args -> settled word_names its named -> means named g -> info g = false ->
  files_say (s_fs s) named (g_config_file g) gs total -> accepted (effective (g :: gs)) ->
  exit_of (collide R sv bd cfuel fuel sfuel e (effective (g :: gs)) s) (trento R sv bd tx cfuel fuel sfuel e args s).
Proof.
  intros A R sv bd tx cfuel fuel sfuel e args its named g gs total s W S M Hi Hf [Ha Hp].
  pose proof (trento_exit sv bd tx cfuel fuel sfuel e args s) as X. rewrite (trento_body_run sv bd tx cfuel fuel sfuel e args its named g gs total s W S M Hi Hf) in X.
  destruct (validate_spec (effective (g :: gs))) as [[V _]|(m & _ & B)]; [|contradiction]. rewrite V in X. rewrite Hp in X. exact X.
Qed.

(** A missing file, a line that is no setting, an unknown name or a bad value ends
    the program with status 1 and one message, and nothing is touched. *)
Theorem C70_refused : forall (A : Arith) (R : Rng A) sv bd tx cfuel fuel sfuel e args its named (g : given A) before p after gs total (s : sys R),
  written its args -> settled word_names its named -> means named g -> info g = false ->
  g_config_file g = (before ++ p :: after)%list -> files_say (s_fs s) named before gs total -> unusable (s_fs s) total p ->
  exists m, trento R sv bd tx cfuel fuel sfuel e args s = (Ret 1%Z, Sys (s_eng s) (s_fs s) (s_out s) (s_err s ++ m ++ newline)).
Proof.
  intros A R sv bd tx cfuel fuel sfuel e args its named g before p after gs total s W S M Hi C Hf U.
  assert (E : command_line args = Ret g) by (apply reads; exists its, named; auto).
  destruct (merge_files_ok R s named _ gs total Hf [g] (agrees_first named g M)) as [Mg Ag]. destruct (merge_files_bad R s total ([g] ++ gs) p after Ag U) as (m & Mb).
  apply (trento_fails sv bd tx cfuel fuel sfuel e args (PoError m)); [discriminate|]. rewrite (trento_body_start sv bd tx cfuel fuel sfuel e args g s E Hi). rewrite C.
  unfold bind at 1. rewrite merge_files_app. unfold bind at 1. rewrite Mg, Mb. reflexivity.
Qed.

(** So do values the program cannot use. *)
Theorem C70_rejected : forall (A : Arith) (R : Rng A) sv bd tx cfuel fuel sfuel e args its named (g : given A) gs total (s : sys R),
  written its args -> settled word_names its named -> means named g -> info g = false ->
  files_say (s_fs s) named (g_config_file g) gs total -> ~ accepted (effective (g :: gs)) ->
  exists m, trento R sv bd tx cfuel fuel sfuel e args s = (Ret 1%Z, Sys (s_eng s) (s_fs s) (s_out s) (s_err s ++ m ++ newline)).
Proof.
  intros A R sv bd tx cfuel fuel sfuel e args its named g gs total s W S M Hi Hf Ha.
  pose proof (trento_body_run sv bd tx cfuel fuel sfuel e args its named g gs total s W S M Hi Hf) as B.
  destruct (validate_spec (effective (g :: gs))) as [[V Bd]|(m & V & _)]; rewrite V in B.
  - destruct (Nat.eqb_spec (length (projectile (effective (g :: gs)))) 2) as [L|L]; [exfalso; apply Ha; split; assumption|].
    apply (trento_fails sv bd tx cfuel fuel sfuel e args RequiredOption); [discriminate|exact B].
  - apply (trento_fails sv bd tx cfuel fuel sfuel e args (PoError m)); [discriminate|exact B].
Qed.

(** These are all the cases: the files say something, or one of them is the first
    that is unusable or has a section without a name. *)
Theorem C70_cases : forall (A : Arith) (f : fs A) paths earlier,
  (exists (gs : list (given A)) total, files_say f earlier paths gs total) \/
  (exists before p after (gs : list (given A)) total, paths = (before ++ p :: after)%list /\ files_say f earlier before gs total /\
     (unusable f total p \/ exists n ls l, fs_lookup f p = Some n /\ text_lines (readable n) ls /\ In l ls /\ section_line l "")).
Proof.
  intros A f paths. induction paths as [|p paths IH]; intros earlier; [left; exists [], earlier; constructor|].
  assert (Now : (unusable f earlier p \/ exists n ls l, fs_lookup f p = Some n /\ text_lines (readable n) ls /\ In l ls /\ section_line l "") \/
    exists n ls its (g : given A), fs_lookup f p = Some n /\ text_lines (readable n) ls /\ config_file ls its /\ means (filter (not_yet earlier) its) g).
  { destruct (fs_lookup f p) as [n|] eqn:Hp; [|left; left; left; exact Hp].
    assert (L : text_lines (readable n) (lines (readable n))) by (apply lines_spec; reflexivity). set (ls := lines (readable n)) in *.
    destruct (existsb (fun l => match classify l with Section' "" => true | _ => false end) ls) eqn:Sx.
    - left. right. apply existsb_exists in Sx. destruct Sx as (l & Il & El). exists n, ls, l. split; [reflexivity|]. split; [exact L|]. split; [exact Il|]. apply classify_section.
      destruct (classify l) as [|[|]|?|]; try discriminate El. reflexivity.
    - assert (Ns : forall l, In l ls -> ~ section_line l "").
      { intros l Il Sl. apply classify_section in Sl. assert (X : existsb (fun l => match classify l with Section' "" => true | _ => false end) ls = true) by (apply existsb_exists; exists l; rewrite Sl; auto). congruence. }
      pose proof (tame_tokens ls "" Ns) as T. destruct (config_tokens "" ls) as [ts|x|u|] eqn:E; try contradiction.
      + pose proof (file_sound ls ts E) as C.
        assert (Det : forall its, config_file ls its -> its = map view ts). { intros its' C'. destruct (file_complete _ _ C') as (ts' & E' & <- & _). congruence. }
        set (ks := map (fun it : item => (fst it, [snd it])) (filter (not_yet earlier) (map view ts))).
        assert (Vk : map view ks = filter (not_yet earlier) (map view ts)). { unfold ks. rewrite map_map. rewrite <- (map_id (filter _ _)) at 2. apply map_ext. intros [a b]. reflexivity. }
        destruct (convert (A:=A) ks) as [g|x|u|] eqn:Cv.
        * right. exists n, ls, (map view ts), g. split; [reflexivity|]. split; [exact L|]. split; [exact C|]. rewrite <- Vk. apply convert_spec, Cv.
        * left. left. right. exists n, ls. split; [exact Hp|]. split; [exact L|]. split; [exact Ns|]. intros its g Ci M. rewrite (Det its Ci), <- Vk in M. apply convert_spec in M. congruence.
        * left. left. right. exists n, ls. split; [exact Hp|]. split; [exact L|]. split; [exact Ns|]. intros its g Ci M. rewrite (Det its Ci), <- Vk in M. apply convert_spec in M. congruence.
        * left. left. right. exists n, ls. split; [exact Hp|]. split; [exact L|]. split; [exact Ns|]. intros its g Ci M. rewrite (Det its Ci), <- Vk in M. apply convert_spec in M. congruence.
      + left. left. right. exists n, ls. split; [exact Hp|]. split; [exact L|]. split; [exact Ns|]. intros its g Ci _. destruct (file_complete _ _ Ci) as (ts' & E' & _). congruence. }
  destruct Now as [Bad|(n & ls & its & g & Hp & L & C & M)].
  - right. exists [], p, paths, [], earlier. split; [reflexivity|]. split; [constructor|exact Bad].
  - destruct (IH (earlier ++ its)%list) as [(gs & total & F)|(before & q & after & gs & total & -> & F & Bad)].
    + left. exists (g :: gs), total. eapply fs_more; eassumption.
    + right. exists (p :: before), q, after, (g :: gs), total. split; [reflexivity|]. split; [eapply fs_more; eassumption|exact Bad].
Qed.

(** ** A setting in a file and the same on the command line *)
Section Same.
Context {A : Arith} (fits named : list item) (pt p : string).
Context (Hfile : forall it, In it fits -> in_file (fst it)) (Hdis : forall n, given_to n fits = [] \/ given_to n named = []).
Context (Hno : given_to "config-file" named = []) (Hpt : path_text pt p).

Definition within (n : string) : bool := some_given (given_to n fits).
Definition unless {X} (b : bool) (o : option X) : option X := if b then None else o.

Lemma outside n : ~ in_file n -> given_to n fits = [].
Proof.
  intros N. clear Hdis. induction fits as [|[m v] l IH]; [reflexivity|]. cbn [given_to]. destruct (String.eqb_spec n m) as [->|_].
  - exfalso. apply N. apply (Hfile (m, v)). left. reflexivity.
  - apply IH. intros it I. apply Hfile. right. exact I.
Qed.

Lemma once_split {X} (P : string -> X -> Prop) n o : n <> "config-file" -> once P n (fits ++ named) o ->
  once P n (("config-file", pt) :: named) (unless (within n) o) /\ once P n fits (unless (negb (within n)) o).
Proof.
  intros N. unfold once, within. cbn [given_to]. apply String.eqb_neq in N. rewrite N. rewrite given_app. destruct (Hdis n) as [E|E]; rewrite E; cbn [app some_given negb unless].
  - intros H. split; [exact H|reflexivity].
  - rewrite app_nil_r. destruct (given_to n fits) as [|v l]; cbn [some_given negb unless]; [intros ->; auto|auto].
Qed.

Context (g2 : given A) (M : means (fits ++ named) g2).

Definition cmd_part : given A :=
  Given (g_help g2) (g_version g2) (g_bibtex g2) [p] (if within "projectile" then [] else g_projectile g2)
    (unless (within "number-events") (g_number_events g2)) (unless (within "quiet") (g_quiet g2)) (unless (within "output") (g_output g2))
    (unless (within "no-header") (g_no_header g2)) (unless (within "ncoll") (g_ncoll g2)) (unless (within "reduced-thickness") (g_reduced_thickness g2))
    (unless (within "fluctuation") (g_fluctuation g2)) (unless (within "nucleon-width") (g_nucleon_width g2)) (unless (within "constit-width") (g_constit_width g2))
    (unless (within "constit-number") (g_constit_number g2)) (unless (within "nucleon-min-dist") (g_nucleon_min_dist g2))
    (unless (within "cross-section") (g_cross_section g2)) (unless (within "normalization") (g_normalization g2)) (unless (within "b-min") (g_b_min g2))
    (unless (within "b-max") (g_b_max g2)) (unless (within "random-seed") (g_random_seed g2)) (unless (within "grid-max") (g_grid_max g2)) (unless (within "grid-step") (g_grid_step g2)).
Definition file_part : given A :=
  Given false false false [] (if within "projectile" then g_projectile g2 else [])
    (unless (negb (within "number-events")) (g_number_events g2)) (unless (negb (within "quiet")) (g_quiet g2)) (unless (negb (within "output")) (g_output g2))
    (unless (negb (within "no-header")) (g_no_header g2)) (unless (negb (within "ncoll")) (g_ncoll g2)) (unless (negb (within "reduced-thickness")) (g_reduced_thickness g2))
    (unless (negb (within "fluctuation")) (g_fluctuation g2)) (unless (negb (within "nucleon-width")) (g_nucleon_width g2)) (unless (negb (within "constit-width")) (g_constit_width g2))
    (unless (negb (within "constit-number")) (g_constit_number g2)) (unless (negb (within "nucleon-min-dist")) (g_nucleon_min_dist g2))
    (unless (negb (within "cross-section")) (g_cross_section g2)) (unless (negb (within "normalization")) (g_normalization g2)) (unless (negb (within "b-min")) (g_b_min g2))
    (unless (negb (within "b-max")) (g_b_max g2)) (unless (negb (within "random-seed")) (g_random_seed g2)) (unless (negb (within "grid-max")) (g_grid_max g2)) (unless (negb (within "grid-step")) (g_grid_step g2)).

Lemma not_in_file n : In n ["help"; "version"; "bibtex"; "config-file"] -> ~ in_file n.
Proof. intros I [_ N]. exact (N I). Qed.

Lemma flag_split n b : In n ["help"; "version"; "bibtex"] -> flagged n (fits ++ named) b -> flagged n (("config-file", pt) :: named) b.
Proof.
  intros I. unfold flagged. rewrite given_app. rewrite (outside n) by (apply not_in_file; cbn in *; tauto). cbn [app given_to].
  destruct (String.eqb_spec n "config-file") as [->|_]; [exfalso; cbn in I; repeat (destruct I as [I|I]; [discriminate I|]); exact I|auto].
Qed.
Lemma flag_none n : In n ["help"; "version"; "bibtex"] -> flagged n fits false.
Proof. intros I. unfold flagged. rewrite (outside n) by (apply not_in_file; cbn in *; tauto). reflexivity. Qed.

Lemma cmd_means : means (("config-file", pt) :: named) cmd_part.
Proof.
  destruct M. constructor; cbn -[within given_to]; try (apply once_split; [discriminate|assumption]); try (apply flag_split; [cbn; tauto|assumption]).
  - cbn [given_to]. change (String.eqb "config-file" "config-file") with true. cbn iota. rewrite Hno. constructor; [exact Hpt|constructor].
  - cbn [given_to]. change (String.eqb "projectile" "config-file") with false. cbn iota. rewrite me_projectile, given_app. unfold within. destruct (Hdis "projectile") as [E|E]; rewrite E; cbn [some_given app]; [reflexivity|].
    destruct (given_to "projectile" fits); reflexivity.
Qed.
Lemma file_means : means fits file_part.
Proof.
  destruct M. constructor; cbn -[within given_to]; try (apply once_split; [discriminate|assumption]); try (apply flag_none; cbn; tauto).
  - rewrite outside by (apply not_in_file; cbn; tauto). constructor.
  - rewrite me_projectile, given_app. unfold within. destruct (Hdis "projectile") as [E|E]; rewrite E; cbn [some_given app]; [reflexivity|].
    rewrite app_nil_r. destruct (given_to "projectile" fits); reflexivity.
Qed.

Lemma first_split {X} (f : given A -> option X) b d : f cmd_part = unless b (f g2) -> f file_part = unless (negb b) (f g2) -> first_of f [cmd_part; file_part] d = first_of f [g2] d.
Proof. intros E1 E2. cbn [first_of]. rewrite E1, E2. destruct b; cbn [unless negb]; destruct (f g2); reflexivity. Qed.
Lemma opt_split {X} (f : given A -> option X) b : f cmd_part = unless b (f g2) -> f file_part = unless (negb b) (f g2) -> first_opt f [cmd_part; file_part] = first_opt f [g2].
Proof. intros E1 E2. cbn [first_opt]. rewrite E1, E2. destruct b; cbn [unless negb]; destruct (f g2); reflexivity. Qed.

Lemma same_effective : effective [cmd_part; file_part] = effective [g2].
Proof.
  unfold effective.
  rewrite (opt_split projectiles_of (within "projectile")) by (unfold projectiles_of, cmd_part, file_part; cbn [g_projectile]; destruct (within "projectile"); reflexivity).
  rewrite (opt_split g_output (within "output")) by reflexivity.
  rewrite (first_split g_number_events (within "number-events")), (first_split g_quiet (within "quiet")), (first_split g_no_header (within "no-header")),
    (first_split g_ncoll (within "ncoll")), (first_split g_reduced_thickness (within "reduced-thickness")), (first_split g_fluctuation (within "fluctuation")),
    (first_split g_nucleon_width (within "nucleon-width")), (first_split g_constit_width (within "constit-width")), (first_split g_constit_number (within "constit-number")),
    (first_split g_nucleon_min_dist (within "nucleon-min-dist")), (first_split g_cross_section (within "cross-section")), (first_split g_normalization (within "normalization")),
    (first_split g_b_min (within "b-min")), (first_split g_b_max (within "b-max")), (first_split g_random_seed (within "random-seed")), (first_split g_grid_max (within "grid-max")),
    (first_split g_grid_step (within "grid-step")) by reflexivity.
  reflexivity.
Qed.
Lemma same_config_file : g_config_file g2 = [].
Proof.
  destruct M. rewrite given_app, Hno, outside in me_config by (apply not_in_file; cbn; tauto). cbn in me_config. inversion me_config. reflexivity.
Qed.
End Same.

Lemma config_file_names ls its : config_file ls its -> forall it, In it its -> in_file (fst it).
Proof.
  intros H it I. destruct (file_complete _ _ H) as (ts & _ & <- & F). apply in_map_iff in I. destruct I as (t & <- & I). exact (F t I).
Qed.

Definition on_command_line (its : list item) : list string := map (fun it => "--" ++ fst it ++ "=" ++ snd it) its.

Lemma written_options its rest args : (forall it, In it its -> in_file (fst it) /\ with_value (fst it) true /\ snd it <> "") -> written rest args ->
  written (its ++ rest) (on_command_line its ++ args).
Proof.
  intros H W. induction its as [|[n v] its IH]; [exact W|]. destruct (H (n, v) (or_introl eq_refl)) as ([Ho _] & Hv & Nv). cbn [fst snd] in *.
  change (written ([(n, v)] ++ (its ++ rest)) (["--" ++ n ++ "=" ++ v] ++ (on_command_line its ++ args))). apply w_more.
  - apply s_equals; try assumption; [left; split; [exact Ho|left; reflexivity]|apply option_without_eq, Ho].
  - apply IH. intros it I. apply H. right. exact I.
Qed.
Lemma settled_options its names rest out : (forall it, In it its -> in_file (fst it)) -> settled names rest out -> settled names (its ++ rest) (its ++ out).
Proof.
  intros H S. induction its as [|[n v] its IH]; [exact S|]. cbn [app]. apply t_option; [|apply IH; intros it I; apply H; right; exact I].
  pose proof (H (n, v) (or_introl eq_refl)) as [Ho _]. intros ->. exact (proj2 (option_not_dash "" "" Ho) eq_refl).
Qed.

(** Moving settings from the command line into a file changes nothing. *)
Theorem C70_as_on_command_line : forall (A : Arith) (R : Rng A) sv bd tx cfuel fuel sfuel e args its named fits pt p n ls (g : given A) (s : sys R),
  written its args -> settled word_names its named -> path_text pt p ->
  fs_lookup (s_fs s) p = Some n -> text_lines (readable n) ls -> config_file ls fits ->
  (forall it, In it fits -> with_value (fst it) true /\ snd it <> "") ->
  (forall k, given_to k fits = [] \/ given_to k named = []) -> given_to "config-file" named = [] ->
  says (on_command_line fits ++ args) g ->
  trento R sv bd tx cfuel fuel sfuel e (("--config-file=" ++ pt) :: args) s = trento R sv bd tx cfuel fuel sfuel e (on_command_line fits ++ args) s.
Proof.
  intros A R sv bd tx cfuel fuel sfuel e args its named fits pt p n ls g s W S Hpt Hp Hl Hc Hv Hdis Hno H.
  pose proof (config_file_names ls fits Hc) as Hf.
  assert (W2 : written (fits ++ its) (on_command_line fits ++ args)) by (apply written_options; [intros it I; split; [exact (Hf it I)|exact (Hv it I)]|exact W]).
  assert (S2 : settled word_names (fits ++ its) (fits ++ named)) by (apply settled_options; assumption).
  assert (M2 : means (fits ++ named) g).
  { destruct H as (its' & named' & W' & S' & M'). rewrite (written_unique _ _ _ W' W2) in S'. rewrite (settled_fun _ _ _ S' _ S2) in M'. exact M'. }
  set (g1 := cmd_part fits p g). set (gf := file_part fits g).
  assert (M1 : means (("config-file", pt) :: named) g1) by (apply cmd_means; assumption).
  assert (Mf : means fits gf) by (apply (file_means fits named pt Hf Hdis); assumption).
  assert (W1 : written (("config-file", pt) :: its) (("--config-file=" ++ pt) :: args)).
  { change (written ([("config-file", pt)] ++ its) (["--" ++ "config-file" ++ "=" ++ pt] ++ args)). apply w_more; [|exact W].
    assert (Ho : is_option "config-file") by (apply is_option_opt; exists (Odesc "config-file" "-c" TPaths); split; [cbn; auto 6|reflexivity]).
    apply s_equals; [left; split; [exact Ho|left; reflexivity]|apply option_without_eq, Ho| |destruct Hpt; discriminate].
    apply with_value_opt. exists (Odesc "config-file" "-c" TPaths). split; [cbn; auto 6|split; reflexivity]. }
  assert (S1 : settled word_names (("config-file", pt) :: its) (("config-file", pt) :: named)) by (apply t_option; [discriminate|exact S]).
  assert (E1 : command_line (("--config-file=" ++ pt) :: args) = Ret g1) by (apply reads; eexists; eexists; split; [exact W1|]; split; [exact S1|exact M1]).
  assert (E2 : command_line (on_command_line fits ++ args) = Ret g) by (apply reads, H).
  assert (B : trento_body R sv bd tx cfuel fuel sfuel e (("--config-file=" ++ pt) :: args) s = trento_body R sv bd tx cfuel fuel sfuel e (on_command_line fits ++ args) s).
  2: { unfold trento. rewrite B. reflexivity. }
  destruct (info g) eqn:Hi.
  - unfold trento_body. rewrite E1, E2. unfold bind at 1, lift at 1. cbv zeta. symmetry. unfold bind at 1, lift at 1. unfold info in Hi. unfold g1, cmd_part. cbn [g_help g_version g_bibtex].
    destruct (g_help g); [reflexivity|]. destruct (g_version g); [reflexivity|]. cbn [orb] in Hi. rewrite Hi. reflexivity.
  - assert (F1 : files_say (s_fs s) (("config-file", pt) :: named) (g_config_file g1) [gf] ((("config-file", pt) :: named) ++ fits)).
    { change (g_config_file g1) with [p]. eapply fs_more; [exact Hp|exact Hl|exact Hc| |constructor].
      assert (Fl : filter (not_yet (("config-file", pt) :: named)) fits = fits).
      { assert (X : forall it, In it fits -> not_yet (("config-file", pt) :: named) it = true).
        { intros [k v] I. unfold not_yet. cbn [fst given_to]. pose proof (Hf (k, v) I) as [_ Nk]. cbn [fst] in Nk.
          destruct (String.eqb_spec k "config-file") as [->|_]; [exfalso; apply Nk; cbn; auto|]. destruct (Hdis k) as [E|E]; [|rewrite E; reflexivity].
          exfalso. clear -I E. induction fits as [|[m w] l IH]; [exact I|]. cbn [given_to] in E. destruct I as [I|I]; [injection I as -> ->; rewrite String.eqb_refl in E; discriminate|].
          destruct (String.eqb k m); [discriminate|]. exact (IH I E). }
        clear -X. induction fits as [|it l IH]; [reflexivity|]. cbn [filter]. rewrite (X it (or_introl eq_refl)). f_equal. apply IH. intros it' I. apply X. right. exact I. }
      rewrite Fl. exact Mf. }
    rewrite (trento_body_run sv bd tx cfuel fuel sfuel e _ _ _ g1 [gf] _ s W1 S1 M1 Hi F1).
    assert (F2 : files_say (A:=A) (s_fs s) (fits ++ named) (g_config_file g) [] (fits ++ named)).
    { rewrite (same_config_file fits named Hf Hno g M2). constructor. }
    rewrite (trento_body_run sv bd tx cfuel fuel sfuel e _ _ _ g [] _ s W2 S2 M2 Hi F2).
    unfold g1, gf. rewrite same_effective. reflexivity.
Qed.

(** ** Instances *)
Definition nl : string := String newline_char "".
Definition conf_text : string :=
  "# settings" ++ nl ++ "projectile = Pb" ++ nl ++ "projectile = Pb" ++ nl ++ nl ++ "  number-events=10   # ten" ++ nl ++ "normalization = 1e1" ++ nl ++ "[unused]" ++ nl.

Theorem C70_instance : exists ls its, text_lines conf_text ls /\ config_file ls its /\
  its = [("projectile", "Pb"); ("projectile", "Pb"); ("number-events", "10"); ("normalization", "1e1")].
Proof.
  eexists. eexists. assert (L : text_lines conf_text (lines conf_text)) by (apply lines_spec; reflexivity). split; [exact L|]. split; [|reflexivity].
  apply (C70_reads _ _ _ L). reflexivity.
Qed.

(** Two files, the command line first; the bad value "many" in the second file is
    not even looked at, because the first file gives that option. *)
Definition second_text : string := "number-events = many" ++ nl ++ "fluctuation = 2" ++ nl.
Definition conf_files {A} : fs A := [("a.conf", File conf_text); ("b.conf", File second_text)].
Definition conf_args : list string := ["-c"; "a.conf"; "-c"; "b.conf"; "-n"; "3"].

Definition files_case (A : Arith) : Prop := exists its named (g g1 g2 : given A) total,
  written its conf_args /\ settled word_names its named /\ means named g /\ info g = false /\
  files_say conf_files named (g_config_file g) [g1; g2] total /\
  projectile (effective [g; g1; g2]) = ["Pb"; "Pb"] /\ number_events (effective [g; g1; g2]) = 10%Z /\
  normalization (effective [g; g1; g2]) = nlit A 3 0 /\ fluctuation (effective [g; g1; g2]) = nlit A 2 0.
Lemma files_case_holds (A : Arith) : ntrunc A (nlit A 3 0) <> None -> ntrunc A (nlit A 2 0) <> None -> files_case A.
Proof.
  intros H3 H2. unfold files_case.
  destruct (ntrunc A (nlit A 3 0)) as [z3|] eqn:E3; [|congruence]. destruct (ntrunc A (nlit A 2 0)) as [z2|] eqn:E2; [|congruence]. clear H3 H2.
  assert (W : forall args, match lex args with Ret ts => written (map view ts) args | _ => True end).
  { intros args. destruct (lex args) as [ts|x|u|] eqn:E; try exact I. apply written_lex. eauto. }
  set (its := [("config-file", "a.conf"); ("config-file", "b.conf"); ("normalization", "3")] : list item).
  set (g := Given false false false ["a.conf"; "b.conf"] [] None None None None None (A:=A) None None None None None None None (Some (nlit A 3 0)) None None None None None).
  set (g1 := Given false false false [] ["Pb"; "Pb"] (Some 10%Z) None None None None (A:=A) None None None None None None None None None None None None None).
  set (g2 := Given false false false [] [] None None None None None (A:=A) None (Some (nlit A 2 0)) None None None None None None None None None None None).
  assert (Mk : forall its (h : given A), convert (map (fun it : item => (fst it, [snd it])) its) = Ret h -> means its h).
  { intros l h E. apply convert_spec in E. rewrite map_map in E. replace (map (fun it : item => view (fst it, [snd it])) l) with l in E; [exact E|].
    rewrite <- (map_id l) at 1. apply map_ext. intros [a b]. reflexivity. }
  assert (L1 : text_lines conf_text (lines conf_text)) by (apply lines_spec; reflexivity).
  assert (L2 : text_lines second_text (lines second_text)) by (apply lines_spec; reflexivity).
  exists its, its, g, g1, g2. eexists. split; [exact (W conf_args)|]. split; [repeat (apply t_option; [discriminate|]); constructor|].
  assert (Cg : convert (map (fun it : item => (fst it, [snd it])) its) = Ret g) by (vm_compute in E3 |- *; rewrite E3; reflexivity).
  assert (C2 : convert (map (fun it : item => (fst it, [snd it])) [("fluctuation", "2")]) = Ret g2) by (vm_compute in E2 |- *; rewrite E2; reflexivity).
  split; [apply Mk; exact Cg|]. split; [reflexivity|]. split; [|repeat split].
  eapply fs_more with (its := [("projectile", "Pb"); ("projectile", "Pb"); ("number-events", "10"); ("normalization", "1e1")]); [reflexivity|exact L1|apply (C70_reads _ _ _ L1); reflexivity|apply Mk; reflexivity|].
  eapply fs_more with (its := [("number-events", "many"); ("fluctuation", "2")]); [reflexivity|exact L2|apply (C70_reads _ _ _ L2); reflexivity|apply Mk; exact C2|constructor].
Qed.
Lemma fits_double (m e : Z) : (match f64_trunc (f64_lit m e) with Some _ => true | None => false end) = true -> f64_trunc (f64_lit m e) <> None.
Proof. destruct (f64_trunc (f64_lit m e)); [discriminate|intros H; discriminate H]. Qed.
Theorem C70_files_instance : forall L : Libm, files_case (FA L).
Proof.
  assert (E3 : f64_trunc (f64_lit 3 0) <> None) by (apply fits_double; vm_compute; reflexivity).
  assert (E2 : f64_trunc (f64_lit 2 0) <> None) by (apply fits_double; vm_compute; reflexivity).
  intros L. exact (files_case_holds (FA L) E3 E2).
Qed.

(** Files that are refused. *)
Definition refused_texts : list string :=
  ["Pb Pb"; "norm = 2"; "help = 1"; "config-file = x"; "[physics]" ++ nl ++ "normalization = 2"; "normalization = two"; "quiet = maybe"; "output = a b"; "b-min = 1" ++ nl ++ "b-min = 2"].
Theorem C70_refused_instances : forall (A : Arith) t, In t refused_texts -> unusable [("f", File (A:=A) t)] [] "f".
Proof.
  intros A t I. right. exists (File t), (lines t). split; [reflexivity|]. split; [apply lines_spec; reflexivity|]. split.
  - intros l Il Sl. apply classify_section in Sl. unfold refused_texts in I. repeat (destruct I as [<-|I]; [repeat (destruct Il as [<-|Il]; [vm_compute in Sl; discriminate Sl|]); exact Il|]). exact I.
  - intros its g C M. destruct (file_complete _ _ C) as (ts & E & V & _).
    assert (F : filter (not_yet []) its = its) by (clear; induction its as [|x l IH]; [reflexivity|cbn [filter]; change (not_yet [] x) with true; cbn iota; rewrite IH; reflexivity]).
    rewrite F, <- V in M. apply convert_spec in M. unfold refused_texts in I.
    repeat (destruct I as [<-|I]; [vm_compute in E; first [discriminate E|injection E as <-; vm_compute in M; discriminate M]|]). exact I.
Qed.

(** C70_as_on_command_line applies to the file above. *)
Definition as_case (A : Arith) : Prop := exists its named fits ls,
  written its ["--random-seed=7"] /\ settled word_names its named /\ text_lines conf_text ls /\ config_file ls fits /\
  (forall it, In it fits -> with_value (fst it) true /\ snd it <> "") /\
  (forall k, given_to k fits = [] \/ given_to k named = []) /\ given_to "config-file" named = [] /\
  exists g : given A, says (on_command_line fits ++ ["--random-seed=7"]) g.
Lemma as_case_holds (A : Arith) : ntrunc A (nlit A 1 1) <> None -> as_case A.
Proof.
  intros H1. unfold as_case. destruct (ntrunc A (nlit A 1 1)) as [z1|] eqn:E1; [|congruence]. clear H1.
  assert (W : forall args, match lex args with Ret ts => written (map view ts) args | _ => True end).
  { intros args. destruct (lex args) as [ts|x|u|] eqn:E; try exact I. apply written_lex. eauto. }
  assert (L1 : text_lines conf_text (lines conf_text)) by (apply lines_spec; reflexivity).
  exists [("random-seed", "7")], [("random-seed", "7")], [("projectile", "Pb"); ("projectile", "Pb"); ("number-events", "10"); ("normalization", "1e1")], (lines conf_text).
  split; [exact (W ["--random-seed=7"])|]. split; [apply t_option; [discriminate|constructor]|]. split; [exact L1|]. split; [apply (C70_reads _ _ _ L1); reflexivity|].
  split; [|split; [|split; [reflexivity|]]].
  - intros it I. cbn in I. repeat (destruct I as [<-|I]; [split; [|discriminate]|]); [| | | |destruct I].
    1,2: apply with_value_opt; exists (Odesc "projectile" "" TTexts); cbn; auto 30.
    1: apply with_value_opt; exists (Odesc "number-events" "" TInt); cbn; auto 30.
    apply with_value_opt; exists (Odesc "normalization" "-n" TDouble); cbn; auto 30.
  - intros k. destruct (String.eqb_spec k "random-seed") as [->|N]; [left; reflexivity|right]. cbn [given_to]. apply String.eqb_neq in N. rewrite N. reflexivity.
  - exists (Given false false false [] ["Pb"; "Pb"] (Some 10%Z) None None None None (A:=A) None None None None None None None (Some (nlit A 1 1)) None None (Some 7%Z) None None).
    apply C69_reads. vm_compute in E1 |- *. rewrite E1. reflexivity.
Qed.
Theorem C70_as_instance : forall L : Libm, as_case (FA L).
Proof.
  assert (E1 : f64_trunc (f64_lit 1 1) <> None) by (apply fits_double; vm_compute; reflexivity).
  intros L. exact (as_case_holds (FA L) E1).
Qed.

(** A section without a name makes the library read the last character of an empty text. *)
Theorem C70_nameless_section : forall before l after t, text_lines t (before ++ l :: after) -> Forall empty_line before -> section_line l "" ->
  config_file_tokens t = UB UbIndex.
Proof.
  intros before l after t L H S. apply lines_spec in L. unfold config_file_tokens. rewrite L. clear L. apply classify_section in S.
  induction H as [|b before Hb H IH]; cbn [app]; rewrite config_step; [rewrite S; reflexivity|]. apply classify_empty in Hb. rewrite Hb. exact IH.
Qed.
