(** C48, C49, C50: options, validation and exit status, for every arithmetic. *)
From Verif.Base Require Import Result Arith FArith Rng.
From Verif.Model Require Import Config Text Files CrossSection Output Collider Main.
From Verif.Spec Require Import Collision Contract Demo Options.
From Verif.Proof Require Import Basics TextP OptionsP Writers.
From Verif.Properties Require Import Events.
Local Open Scope string_scope.

Section Exit.
Context {A : Arith} {R : Rng A} (sv : Solver A) (bd : build) (tx : texts (A:=A)).

Lemma main_exit cfuel fuel sfuel e cmd (s : sys R) :
  exit_of (main_body R sv bd tx cfuel fuel sfuel e cmd s) (main R sv bd tx cfuel fuel sfuel e cmd s).
Proof.
  unfold main. destruct (main_body R sv bd tx cfuel fuel sfuel e cmd s) as [[[]|x|u|] s']; try constructor.
  destruct x; unfold bind, print_err, ret; try (apply exit_std; discriminate); [|constructor].
  rewrite <- (app_assoc_s usage_str). apply exit_std. discriminate.
Qed.

(** The part of main after the information requests. *)
Lemma body_run cfuel fuel sfuel e g gs (s : sys R) :
  info g = false -> config_files tx (s_fs s) (g_config_file g) gs ->
  main_body R sv bd tx cfuel fuel sfuel e (Ret g) s =
  match validate (effective (g :: gs)) with
  | Ret _ => if Nat.eqb (length (projectile (effective (g :: gs)))) 2
             then collide R sv bd cfuel fuel sfuel e (effective (g :: gs)) s
             else (Throw RequiredOption, s)
  | Throw x => (Throw x, s) | UB u => (UB u, s) | OutOfFuel => (OutOfFuel, s)
  end.
Proof.
  intros Hi Hc. unfold info in Hi. apply orb_false_iff in Hi. destruct Hi as [Hi H3].
  apply orb_false_iff in Hi. destruct Hi as [H1 H2].
  unfold main_body. erewrite bind_run by reflexivity. cbv zeta. rewrite H1, H2, H3.
  change (store g varmap_empty) with (vmap [g]).
  rewrite (bind_run _ _ _ _ _ (merge_ok R tx gs _ [g] s Hc)). cbn [app].
  rewrite effective_config, notify_effective. unfold bind at 1, lift at 1.
  destruct (validate (effective (g :: gs))); try reflexivity.
  unfold bind at 1, lift at 1. destruct (Nat.eqb _ 2); reflexivity.
Qed.

Lemma body_accepted cfuel fuel sfuel e g gs (s : sys R) :
  info g = false -> config_files tx (s_fs s) (g_config_file g) gs -> accepted (effective (g :: gs)) ->
  main_body R sv bd tx cfuel fuel sfuel e (Ret g) s = collide R sv bd cfuel fuel sfuel e (effective (g :: gs)) s.
Proof.
  intros Hi Hc [Ha Hp]. rewrite (body_run cfuel fuel sfuel e g gs s Hi Hc).
  destruct (validate_spec (effective (g :: gs))) as [[-> _]|(m & _ & B)]; [|contradiction].
  rewrite Hp. reflexivity.
Qed.

Lemma body_rejected cfuel fuel sfuel e g gs (s : sys R) :
  info g = false -> config_files tx (s_fs s) (g_config_file g) gs -> ~ accepted (effective (g :: gs)) ->
  exists x, (forall h, x <> H5Exception h) /\ main_body R sv bd tx cfuel fuel sfuel e (Ret g) s = (Throw x, s).
Proof.
  intros Hi Hc Ha. rewrite (body_run cfuel fuel sfuel e g gs s Hi Hc).
  destruct (validate_spec (effective (g :: gs))) as [[-> B]|(m & -> & B)].
  - destruct (Nat.eqb_spec (length (projectile (effective (g :: gs)))) 2).
    + destruct Ha. split; assumption.
    + eexists. split; [|reflexivity]. discriminate.
  - eexists. split; [|reflexivity]. discriminate.
Qed.

Lemma body_info cfuel fuel sfuel e g (s : sys R) : info g = true ->
  main_body R sv bd tx cfuel fuel sfuel e (Ret g) s = (Ret tt, Sys (s_eng s) (s_fs s) (s_out s ++ info_text tx g) (s_err s)).
Proof.
  unfold info, info_text. intros Hi. unfold main_body. erewrite bind_run by reflexivity. cbv zeta.
  destruct (g_help g); [reflexivity|]. destruct (g_version g); [reflexivity|]. cbn [orb] in Hi. rewrite Hi. reflexivity.
Qed.
End Exit.

(** ** C48 *)

(** [first_of] is what it should be. *)
Lemma first_of_first : forall S X (f : S -> option X) before s after d x,
  (forall y, In y before -> f y = None) -> f s = Some x -> first_of f (before ++ s :: after) d = x.
Proof.
  intros S X f before s after d x Hb Hs. induction before as [|b before IH]; simpl.
  - rewrite Hs. reflexivity.
  - rewrite (Hb b (or_introl eq_refl)). apply IH. intros y Hy. apply Hb. right. exact Hy.
Qed.
Lemma first_of_none : forall S X (f : S -> option X) l d, (forall y, In y l -> f y = None) -> first_of f l d = d.
Proof.
  intros S X f l d H. induction l as [|b l IH]; simpl; [reflexivity|].
  rewrite (H b (or_introl eq_refl)). apply IH. intros y Hy. apply H. right. exact Hy.
Qed.

(** The program runs with the effective configuration: command line first, then
    the config files in order, then the defaults. *)
Theorem C48_precedence : forall (A : Arith) (R : Rng A) sv bd tx cfuel fuel sfuel e g gs (s : sys R),
  info g = false -> config_files tx (s_fs s) (g_config_file g) gs -> accepted (effective (g :: gs)) ->
  exit_of (collide R sv bd cfuel fuel sfuel e (effective (g :: gs)) s)
          (main R sv bd tx cfuel fuel sfuel e (Ret g) s).
Proof.
  intros A R sv bd tx cfuel fuel sfuel e g gs s Hi Hc Ha.
  rewrite <- (body_accepted sv bd tx cfuel fuel sfuel e g gs s Hi Hc Ha). apply main_exit.
Qed.

(** ** C49 *)

(** Why a command line that was parsed is rejected. *)
Inductive rejected {A} (tx : texts (A:=A)) (f : fs A) (g : given A) : Prop :=
| bad_values : forall gs, config_files tx f (g_config_file g) gs -> ~ accepted (effective (g :: gs)) -> rejected tx f g
| missing_file : forall before p after gs, g_config_file g = (before ++ p :: after)%list ->
    config_files tx f before gs -> fs_lookup f p = None -> rejected tx f g
| bad_file : forall before p after gs n x, g_config_file g = (before ++ p :: after)%list ->
    config_files tx f before gs -> fs_lookup f p = Some n -> parse_config tx (file_text n) = Throw x ->
    (forall h, x <> H5Exception h) -> rejected tx f g.

Lemma merge_app {A} {R : Rng A} tx (s : sys R) before after v : merge_config R tx v (before ++ after) s =
  bind (merge_config R tx v before) (fun v' => merge_config R tx v' after) s.
Proof. unfold merge_config. apply mfold_app. Qed.

(** A rejected command line: exit status 1, a message on stderr, and nothing
    else happens (no file, no stdout, no random number). *)
Theorem C49_rejected : forall (A : Arith) (R : Rng A) sv bd tx cfuel fuel sfuel e cmd (s : sys R),
  (exists x, cmd = Throw x /\ forall h, x <> H5Exception h) \/
  (exists g, cmd = Ret g /\ info g = false /\ rejected tx (s_fs s) g) ->
  exists m, main R sv bd tx cfuel fuel sfuel e cmd s
            = (Ret 1%Z, Sys (s_eng s) (s_fs s) (s_out s) (s_err s ++ m ++ newline)).
Proof.
  intros A R sv bd tx cfuel fuel sfuel e cmd s H.
  assert (B : exists x, (forall h, x <> H5Exception h) /\ main_body R sv bd tx cfuel fuel sfuel e cmd s = (Throw x, s)).
  { destruct H as [(x & -> & Hx)|(g & -> & Hi & Hr)]; [exists x; split; [exact Hx|reflexivity]|].
    destruct Hr as [gs Hc Ha|before p after gs E Hc Hp|before p after gs n x E Hc Hp Hx Hh].
    - eapply body_rejected; eauto.
    - unfold info in Hi. apply orb_false_iff in Hi. destruct Hi as [Hi H3]. apply orb_false_iff in Hi. destruct Hi as [H1 H2].
      unfold main_body. erewrite bind_run by reflexivity. cbv zeta. rewrite H1, H2, H3, E.
      eexists. split; [|unfold bind at 1; rewrite merge_app; change (store g varmap_empty) with (vmap [g]);
        unfold bind at 1; rewrite (merge_ok R tx gs before [g] s Hc); unfold merge_config; simpl;
        unfold bind at 1 2, get; rewrite Hp; reflexivity]. discriminate.
    - unfold info in Hi. apply orb_false_iff in Hi. destruct Hi as [Hi H3]. apply orb_false_iff in Hi. destruct Hi as [H1 H2].
      unfold main_body. erewrite bind_run by reflexivity. cbv zeta. rewrite H1, H2, H3, E.
      exists x. split; [exact Hh|]. unfold bind at 1; rewrite merge_app; change (store g varmap_empty) with (vmap [g]).
      unfold bind at 1; rewrite (merge_ok R tx gs before [g] s Hc); unfold merge_config; simpl.
      unfold bind at 1 2, get; rewrite Hp. unfold bind, lift. rewrite Hx. reflexivity. }
  destruct B as (x & Hx & B). pose proof (main_exit sv bd tx cfuel fuel sfuel e cmd s) as X. rewrite B in X.
  inversion X as [|? ? m ? E| m ? E | |]; subst.
  - exists m. reflexivity.
  - exfalso. apply (Hx m). reflexivity.
Qed.

(** Exit status 0 exactly when an information text was asked for, or the
    configuration was accepted and every event ran and was output. *)
Theorem C49_success : forall (A : Arith) (R : Rng A) sv bd tx cfuel fuel sfuel e cmd (s s' : sys R),
  main R sv bd tx cfuel fuel sfuel e cmd s = (Ret 0%Z, s') <->
  exists g, cmd = Ret g /\
    ((info g = true /\ s' = Sys (s_eng s) (s_fs s) (s_out s ++ info_text tx g) (s_err s)) \/
     (info g = false /\ exists gs, config_files tx (s_fs s) (g_config_file g) gs /\
        accepted (effective (g :: gs)) /\
        collide R sv bd cfuel fuel sfuel e (effective (g :: gs)) s = (Ret tt, s'))).
Proof.
  intros A R sv bd tx cfuel fuel sfuel e cmd s s'.
  pose proof (main_exit sv bd tx cfuel fuel sfuel e cmd s) as X. split.
  - intros H. rewrite H in X. inversion X as [t E1 E2| | | |]; subst t. clear X. symmetry in E1.
    destruct cmd as [g|x|x|]; try discriminate E1. exists g. split; [reflexivity|].
    destruct (info g) eqn:Hi.
    + left. split; [reflexivity|]. rewrite (body_info sv bd tx cfuel fuel sfuel e g s Hi) in E1. congruence.
    + right. split; [reflexivity|].
      destruct (merge_cases R tx (g_config_file g) (vmap [g]) s) as (r & M & Hr).
      assert (exists v', r = Ret v') as [v' ->].
      { pose proof Hi as Hi'. unfold info in Hi. apply orb_false_iff in Hi. destruct Hi as [Hi H3]. apply orb_false_iff in Hi. destruct Hi as [H1 H2].
        unfold main_body in E1. erewrite bind_run in E1 by reflexivity. cbv zeta in E1. rewrite H1, H2, H3 in E1.
        change (store g varmap_empty) with (vmap [g]) in E1. unfold bind at 1 in E1. rewrite M in E1.
        destruct r as [v'|x|x|]; try discriminate E1. eauto. }
      destruct (Hr v' eq_refl) as [gs Hc]. exists gs. split; [exact Hc|].
      pose proof (body_run sv bd tx cfuel fuel sfuel e g gs s Hi Hc) as B. rewrite E1 in B.
      destruct (validate_spec (effective (g :: gs))) as [[V W]|(m & V & _)]; rewrite V in B; [|discriminate B].
      destruct (Nat.eqb_spec (length (projectile (effective (g :: gs)))) 2); [|discriminate B].
      split; [split; assumption|congruence].
  - intros (g & -> & [[Hi ->] | (Hi & gs & Hc & Ha & C)]).
    + rewrite (body_info sv bd tx cfuel fuel sfuel e g s Hi) in X. inversion X; subst. reflexivity.
    + rewrite (body_accepted sv bd tx cfuel fuel sfuel e g gs s Hi Hc Ha), C in X. inversion X; subst. reflexivity.
Qed.

(** Every outcome of the process: a status 0 or 1, or an escaping HDF5
    exception; undefined behaviour and non-termination apart. *)
Theorem C49_status : forall (A : Arith) (R : Rng A) sv bd tx cfuel fuel sfuel e cmd (s s' : sys R) r,
  main R sv bd tx cfuel fuel sfuel e cmd s = (r, s') ->
  r = Ret 0%Z \/ r = Ret 1%Z \/ (exists m, r = Throw (H5Exception m)) \/ (exists u, r = UB u) \/ r = OutOfFuel.
Proof.
  intros A R sv bd tx cfuel fuel sfuel e cmd s s' r H.
  pose proof (main_exit sv bd tx cfuel fuel sfuel e cmd s) as X. rewrite H in X. inversion X; subst; eauto 6.
Qed.

(** With status 0 and no information request, all N events were output. *)
Theorem C49_all_events : forall (A : Arith) (R : Rng A) sv bd tx cfuel fuel sfuel e g (s s' : sys R),
  info g = false -> main R sv bd tx cfuel fuel sfuel e (Ret g) s = (Ret 0%Z, s') ->
  exists cfg co nA nB ev0 nst gst s1 ds,
    runs_with tx (s_fs s) (Ret g) cfg /\
    collider_new R sv bd cfuel e cfg s = (Ret (co, nA, nB, ev0, nst, gst), s1) /\
    length ds = Z.to_nat (number_events cfg) /\ delivered R (co_writers co) ds s1 s'.
Proof.
  intros A R sv bd tx cfuel fuel sfuel e g s s' Hi H.
  apply C49_success in H. destruct H as (g' & E & [[Hi' _] | (_ & gs & Hc & Ha & C)]); assert (g' = g) by congruence; subst g'; [congruence|].
  destruct (C01_exactly_N_records _ _ _ _ _ _ _ _ _ _ _ C) as (co & nA & nB & ev0 & nst & gst & s1 & w & ds & H1 & H2 & _ & H3 & _).
  exists (effective (g :: gs)), co, nA, nB, ev0, nst, gst, s1, ds.
  split; [exists g, gs; auto|]. auto.
Qed.

(** ** C50 *)

(** --help, --version and --bibtex (in this order of precedence) print their
    text and do nothing else, whatever else is on the command line and whatever
    the config files, cache and outputs. *)
Theorem C50_info : forall (A : Arith) (R : Rng A) sv bd tx cfuel fuel sfuel e g (s : sys R),
  g_help g = true \/ g_version g = true \/ g_bibtex g = true ->
  main R sv bd tx cfuel fuel sfuel e (Ret g) s
  = (Ret 0%Z, Sys (s_eng s) (s_fs s)
      (s_out s ++ (if g_help g then usage_str ++ help_text tx else if g_version g then version_text tx else bibtex_text tx))
      (s_err s)).
Proof.
  intros A R sv bd tx cfuel fuel sfuel e g s H. apply C49_success. exists g. split; [reflexivity|]. left. split; [|reflexivity].
  unfold info. destruct H as [-> | [-> | ->]]; rewrite ?orb_true_r; reflexivity.
Qed.

(** ** Instances *)
Definition no_given : given DA :=
  Given false false false [] [] None None None None None None None None None None None None None None None None None None.
(** trento d p -c a.conf -c b.conf *)
Definition cmd_given : given DA :=
  Given false false false ["a.conf"; "b.conf"] ["d"; "p"] None None None None None None None
        (Some (nlit DA 6 (-1))) None None None None None None None None None None.
Definition a_given : given DA :=
  Given false false false [] ["Pb"; "Pb"] (Some 3%Z) None None None None None None
        (Some (nlit DA 7 (-1))) None None None None None None None None None None.
Definition b_given : given DA :=
  Given false false false [] [] (Some 4%Z) (Some true) None None None None None
        None None None None None None None None None None None.
Definition demo_texts : texts (A:=DA) :=
  Texts "help" "version" "bibtex" (fun t => if String.eqb t "A" then Ret a_given else Ret b_given).
Definition conf_fs : fs DA := [("/data", Dir); ("a.conf", File "A"); ("b.conf", File "B")].

Example C48_instance :
  config_files demo_texts conf_fs (g_config_file cmd_given) [a_given; b_given] /\
  accepted (effective [cmd_given; a_given; b_given]) /\
  projectile (effective [cmd_given; a_given; b_given]) = ["d"; "p"] /\
  number_events (effective [cmd_given; a_given; b_given]) = 3%Z /\
  quiet (effective [cmd_given; a_given; b_given]) = true /\
  constit_width (effective [cmd_given; a_given; b_given]) = nlit DA 6 (-1).
Proof.
  split; [|split; [|repeat split]].
  - constructor; [exists (File "A"); split; reflexivity|]. constructor; [exists (File "B"); split; reflexivity|constructor].
  - split; [|reflexivity]. unfold widths_bad, below. intros [H|[H|[H|[H _]]]];
      match type of H with ?b = true => assert (b = false) as X by (vm_compute; reflexivity); rewrite X in H; discriminate H end.
Qed.

(** Rejections: a missing file, one projectile, a negative width. *)
Example C49_rejections :
  rejected demo_texts [("/data", Dir)] cmd_given /\
  rejected demo_texts conf_fs (Given false false false [] ["p"] None None None None None None None None None None None None None None None None None None) /\
  rejected demo_texts conf_fs (Given false false false [] ["p"; "p"] None None None None None None None (Some (nlit DA (-1) 0)) None None None None None None None None None None).
Proof.
  split; [|split].
  - apply (missing_file _ _ _ [] "a.conf" ["b.conf"] []); [reflexivity|constructor|reflexivity].
  - apply (bad_values _ _ _ []); [constructor|]. intros [_ H]. discriminate H.
  - apply (bad_values _ _ _ []); [constructor|]. intros [H _]. apply H. left. unfold below. vm_compute. reflexivity.
Qed.
