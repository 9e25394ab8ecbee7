(** C73: what any invocation of the program does. *)
From Coq Require Import ZArith Reals Lra Lia List String.
From Flocq Require Import Core BinarySingleNaN.
From Verif.Base Require Import Result Arith FArith Rng.
From Verif.Model Require Import Config Nucleon Nucleus Event Text Files CrossSection Output Collider Main CommandLine.
From Verif.Spec Require Import Decimal Collision Contract Finite Safe Options CommandLine ConfigFile Invocation Demo.
From Verif.Proof Require Import Basics TextP Ieee IeeeInt OptionsP CommandLineP CommandLine2P ConfigFileP.
From Verif.Properties Require Import CommandLine ConfigFile Safe SafeInst.
Import ListNotations.
Local Open Scope string_scope.

Lemma means_unique {A : Arith} its (g1 g2 : given A) : means its g1 -> means its g2 -> g1 = g2.
Proof.
  set (ks := map (fun it : item => (fst it, [snd it])) its).
  assert (V : map view ks = its) by (unfold ks; rewrite map_map; rewrite <- (map_id its) at 2; apply map_ext; intros [a b]; reflexivity).
  rewrite <- V. intros H1 H2. apply convert_spec in H1, H2. congruence.
Qed.

Lemma config_unique t ls1 ls2 its1 its2 : text_lines t ls1 -> text_lines t ls2 -> config_file ls1 its1 -> config_file ls2 its2 -> its1 = its2.
Proof.
  intros L1 L2 C1 C2. apply (file_read _ _ _ L1) in C1. apply (file_read _ _ _ L2) in C2.
  destruct C1 as (a & E1 & <-). destruct C2 as (b & E2 & <-). congruence.
Qed.

Lemma files_unique {A : Arith} (f : fs A) earlier paths gs total : files_say f earlier paths gs total ->
  forall gs' total', files_say f earlier paths gs' total' -> gs' = gs /\ total' = total.
Proof.
  induction 1 as [earlier|earlier p n ls its g paths gs total E T C M _ IH]; intros gs' total' H; inversion H as [|? ? n' ls' its' g' ? gs2 ? E' T' C' M' F']; subst; [split; reflexivity|].
  rewrite E in E'. injection E' as <-. pose proof (config_unique _ _ _ _ _ T T' C C') as <-. rewrite (means_unique _ _ _ M' M).
  destruct (IH _ _ F') as [-> ->]. split; reflexivity.
Qed.

Lemma unusable_stops {A : Arith} (f : fs A) before : forall p after earlier gs total gs' total', files_say f earlier before gs total ->
  unusable f total p -> ~ files_say f earlier (before ++ p :: after) gs' total'.
Proof.
  induction before as [|q before IH]; intros p after earlier gs total gs' total' F U H; cbn [app] in H;
    inversion H as [|? ? n' ls' its' g' ? gs2 ? E' T' C' M' F']; subst; inversion F as [|? ? n ls its g ? gs1 ? E T C M F1]; subst.
  - destruct U as [U|(n & ls & U1 & U2 & _ & U3)]; [congruence|]. rewrite U1 in E'. injection E' as <-.
    assert (its' = its') by reflexivity. apply (U3 its' g'); [|exact M'].
    assert (L : ls = ls'). { apply lines_spec in U2, T'. congruence. } rewrite L. exact C'.
  - rewrite E in E'. injection E' as <-. pose proof (config_unique _ _ _ _ _ T T' C C') as <-. eapply IH; eauto.
Qed.

Section Asks.
Context {A : Arith}.
Lemma asks_inv args (f : fs A) cfg its named g : written its args -> settled word_names its named -> means named g -> asks_for args f cfg ->
  exists gs total, files_say f named (g_config_file g) gs total /\ cfg = effective (g :: gs).
Proof.
  intros W S M (its' & named' & g' & gs & total & W' & S' & M' & _ & F & ->).
  pose proof (written_unique _ _ _ W W') as <-. pose proof (settled_fun _ _ _ S _ S') as <-. pose proof (means_unique _ _ _ M M') as <-. eauto.
Qed.
Lemma asks_unique args (f : fs A) cfg cfg' : asks_for args f cfg -> asks_for args f cfg' -> cfg = cfg'.
Proof.
  intros (its & named & g & gs & total & W & S & M & _ & F & ->) H. destruct (asks_inv _ _ _ _ _ _ W S M H) as (gs' & total' & F' & ->).
  destruct (files_unique _ _ _ _ _ F _ _ F') as [-> _]. reflexivity.
Qed.
End Asks.

(** Every list of arguments, whatever the files hold: a run with the configuration
    asked for; or information; or a refusal that touches nothing; or a
    configuration file has a section without a name. *)
Theorem C73_every_invocation : forall (A : Arith) (R : Rng A) sv bd (tx : texts (A:=A)) cfuel fuel sfuel e args (s : sys R),
  let r := trento R sv bd tx cfuel fuel sfuel e args s in
  (exists cfg, asks_for args (s_fs s) cfg /\ accepted cfg /\ exit_of (collide R sv bd cfuel fuel sfuel e cfg s) r) \/
  (exists g, says args g /\ info g = true /\ r = (Ret 0%Z, Sys (s_eng s) (s_fs s) (s_out s ++ info_text tx g) (s_err s))) \/
  ((forall cfg, asks_for args (s_fs s) cfg -> ~ accepted cfg) /\ refused s r) \/
  nameless_section args (s_fs s).
Proof.
  intros A R sv bd tx cfuel fuel sfuel e args s r.
  pose proof (tame_command_line (A:=A) args) as T. destruct (command_line (A:=A) args) as [g|x|u|] eqn:E; try contradiction.
  2:{ right. right. left. assert (N : forall g : given A, ~ says args g) by (intros g H; apply reads in H; congruence). split.
      - intros cfg (its & named & g & gs & total & W & S & M & _). exfalso. apply (N g). exists its, named. split; [exact W|]. split; [exact S|exact M].
      - apply C69_refused. exact N. }
  clear T. apply reads in E. pose proof E as (its & named & W & S & M).
  assert (U : forall g', says args g' -> g' = g) by (intros g' H; apply (C69_unambiguous A args); assumption).
  destruct (info g) eqn:Hi.
  { right. left. exists g. split; [exact E|]. split; [exact Hi|]. apply C69_information; assumption. }
  destruct (C70_cases A (s_fs s) (g_config_file g) named) as [(gs & total & F)|(before & p & after & gs & total & Hg & F & [B|B])].
  - set (cfg := effective (g :: gs)).
    assert (AF : asks_for args (s_fs s) cfg) by (exists its, named, g, gs, total; split; [exact W|split; [exact S|split; [exact M|split; [exact Hi|split; [exact F|reflexivity]]]]]).
    destruct (validate_spec cfg) as [[V Bd]|(m & _ & Bd)].
    + destruct (Nat.eq_dec (length (projectile cfg)) 2) as [L|L].
      * left. exists cfg. assert (Ac : accepted cfg) by (split; assumption). split; [exact AF|]. split; [exact Ac|].
        eapply C70_runs; eauto.
      * right. right. left. assert (NA : ~ accepted cfg) by (intros [_ L2]; contradiction).
        split; [|eapply C70_rejected; eauto]. intros cfg' AF'. rewrite (asks_unique _ _ _ _ AF' AF). exact NA.
    + right. right. left. assert (NA : ~ accepted cfg) by (intros [L2 _]; contradiction).
      split; [|eapply C70_rejected; eauto]. intros cfg' AF'. rewrite (asks_unique _ _ _ _ AF' AF). exact NA.
  - right. right. left. split; [|eapply C70_refused; eauto].
    intros cfg' AF'. exfalso. destruct (asks_inv _ _ _ _ _ _ W S M AF') as (gs' & total' & F' & _). rewrite Hg in F'. exact (unusable_stops _ _ _ _ _ _ _ _ _ F B F').
  - right. right. right. destruct B as (n & ls & l & H1 & H2 & H3 & H4). exists g, p, n, ls, l.
    split; [exact E|]. split; [rewrite Hg; apply in_or_app; right; left; reflexivity|]. auto.
Qed.

(** The arguments and files ask for at most one configuration. *)
Theorem C73_one_meaning : forall (A : Arith) args (f : fs A) cfg cfg', asks_for args f cfg -> asks_for args f cfg' -> cfg = cfg'.
Proof. intros A args f cfg cfg'. apply asks_unique. Qed.

(** No invocation is undefined, except with a section without a name or with a
    configuration outside the everyday range (C68). *)
Theorem C73_defined :
  forall (L : Libm) (rg : Rng (FA L)) (sv : Solver (FA L)) (bd : build) (tx : texts (A:=FA L)) cfuel fuel sfuel (e : env) args (s : sys rg) u,
  tame_libm L -> tame_rng rg -> careful sv -> good_cache e (s_fs s) -> ~ nameless_section args (s_fs s) ->
  (forall cfg, asks_for args (s_fs s) cfg -> accepted cfg ->
     everyday cfg /\ near_constituents rg cfg /\ no_zero_draw rg cfg /\ good_projectiles (s_fs s) cfg) ->
  fst (trento rg sv bd tx cfuel fuel sfuel e args s) <> UB u.
Proof.
  intros L rg sv bd tx cfuel fuel sfuel e args s u TL TR CS GC NN H.
  destruct (C73_every_invocation (FA L) rg sv bd tx cfuel fuel sfuel e args s) as [(cfg & AF & Ac & X)|[(g & _ & _ & X)|[(_ & (m & X))|N]]].
  - destruct (H cfg AF Ac) as (E & NC & NZ & GP).
    pose proof (C68_run L rg sv bd cfuel fuel sfuel e cfg s u TL TR CS E NC NZ GC GP) as K. clear -X K.
    intros C. apply K. clear K. destruct X as [| | | |]; cbn [fst] in *; try discriminate; injection C as ->; reflexivity.
  - rewrite X. discriminate.
  - rewrite X. discriminate.
  - contradiction.
Qed.

(** "trento d p 3 --ncoll" meets all the hypotheses. *)
Definition small_args : list string := ["d"; "p"; "3"; "--ncoll"].
Definition small_given (A : Arith) : given A :=
  plain_options "d" "p" (Some 3%Z) None None None (Some true) None None None None.

Lemma small_says (A : Arith) : says small_args (small_given A).
Proof. apply reads. reflexivity. Qed.

Lemma small_asks {A : Arith} (f : fs A) cfg : asks_for small_args f cfg <-> cfg = effective [small_given A].
Proof.
  pose proof (small_says A) as (its & named & W & S & M). split.
  - intros H. destruct (asks_inv _ _ _ _ _ _ W S M H) as (gs & total & F & ->). inversion F; subst. reflexivity.
  - intros ->. exists its, named, (small_given A), [], named. split; [exact W|]. split; [exact S|]. split; [exact M|]. split; [reflexivity|]. split; [constructor|reflexivity].
Qed.

Theorem C73_instance :
  tame_libm demo_libm /\ tame_rng demo_rng /\ careful demo_solver /\ good_cache demo_env (s_fs demo_sys) /\
  ~ nameless_section small_args (s_fs demo_sys) /\
  exists cfg, asks_for small_args (s_fs demo_sys) cfg /\ accepted cfg /\
    (projectile cfg = ["d"; "p"] /\ number_events cfg = 3%Z /\ ncoll cfg = true) /\
    (forall cfg', asks_for small_args (s_fs demo_sys) cfg' -> everyday cfg' /\ near_constituents demo_rng cfg' /\ no_zero_draw demo_rng cfg' /\ good_projectiles (s_fs demo_sys) cfg') /\
    forall bd tx cfuel fuel sfuel u, fst (trento demo_rng demo_solver bd tx cfuel fuel sfuel demo_env small_args demo_sys) <> UB u.
Proof.
  assert (N : ~ nameless_section small_args (s_fs demo_sys)).
  { intros (g & p & n & ls & l & Hs & Hp & _). rewrite (C69_unambiguous _ _ _ _ Hs (small_says _)) in Hp. destruct Hp. }
  assert (G : forall cfg', asks_for small_args (s_fs demo_sys) cfg' -> everyday cfg' /\ near_constituents demo_rng cfg' /\ no_zero_draw demo_rng cfg' /\ good_projectiles (s_fs demo_sys) cfg').
  { intros cfg' H. apply small_asks in H. subst cfg'. split; [apply default_everyday; try reflexivity; vm_compute; split; discriminate|].
    split; [|split].
    - intros x (st & e & _ & <-). cbn [demo_rng toy ndraw fst]. change (sized (f64_ofZ 0) 8192).
      destruct (ofZ_ok 0 ltac:(lia)) as [F V]. split; [exact F|]. rewrite V, Rabs_R0. lra.
    - intros _. apply demo_positive.
    - intros p Hp Hh. change (In p ["d"; "p"]) in Hp. destruct Hp as [<-|[<-|[]]]; vm_compute in Hh; discriminate. }
  split; [exact demo_tame|]. split; [exact demo_tame_rng|]. split; [exact demo_careful|]. split; [exact demo_cache|]. split; [exact N|].
  exists (effective [small_given _]). split; [apply small_asks; reflexivity|]. split.
  { destruct (validate_spec (effective [small_given (FA demo_libm)])) as [[_ B]|(m & B & _)]; [split; [exact B|reflexivity]|]. exfalso. revert B. vm_compute. discriminate. }
  split; [repeat split|]. split; [exact G|]. intros bd tx cfuel fuel sfuel u. apply C73_defined; [exact demo_tame|exact demo_tame_rng|exact demo_careful|exact demo_cache|exact N|].
  intros cfg' H _. apply G, H.
Qed.
