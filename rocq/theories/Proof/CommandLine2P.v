(** The command line: items to settings. *)
From Coq Require Import Ascii.
From Verif.Base Require Import Result Arith Rng.
From Verif.Model Require Import Config Text Main CommandLine.
From Verif.Spec Require Import Decimal CommandLine.
From Verif.Proof Require Import CommandLineP CastP.
Local Open Scope string_scope.

Section Convert.
Context {A : Arith}.

Lemma convert_spec ts (g : given A) : convert ts = Ret g <-> means (map view ts) g.
Proof.
  unfold convert. cbv zeta. rewrite !texts_view. split.
  - intros H.
    repeat (apply bind_ret_iff in H; let x := fresh "x" in let E := fresh "E" in destruct H as (x & E & H)).
    injection H as <-.
    repeat match goal with E : (letr o := single Ret _ in Ret (is_given o)) = Ret _ |- _ => apply flag_spec in E end.
    repeat match goal with E : single cast_bool _ = Ret _ |- _ => apply (single_spec _ _ _ _ _ cast_bool_spec) in E end.
    repeat match goal with E : single cast_double _ = Ret _ |- _ => apply (single_spec _ _ _ _ _ cast_double_spec) in E end.
    repeat match goal with E : single cast_path _ = Ret _ |- _ => apply (single_spec _ _ _ _ _ cast_path_spec) in E end.
    repeat match goal with E : single (cast_int in_int) _ = Ret _ |- _ => apply (single_spec _ _ _ _ _ int32_spec) in E end.
    repeat match goal with E : single (cast_int in_int64) _ = Ret _ |- _ => apply (single_spec _ _ _ _ _ int64_spec) in E end.
    repeat match goal with E : rfold _ _ _ = Ret _ |- _ => apply paths_spec in E; destruct E as (ps & -> & E) end.
    constructor; cbn; first [assumption|reflexivity].
  - intros [].
    destruct g; cbn in *. subst.
    repeat match goal with E : flagged _ _ _ |- _ => apply flag_spec in E; rewrite E; clear E; cbn [rbind] end.
    assert (E : rfold (fun acc v => letr p := cast_path v in Ret (acc ++ [p])%list) (given_to "config-file" (map view ts)) [] = Ret g_config_file)
      by (apply paths_spec; exists g_config_file; auto).
    rewrite E; clear E; cbn [rbind].
    repeat match goal with E : once int32 _ _ _ |- _ => apply (single_spec _ _ _ _ _ int32_spec) in E end.
    repeat match goal with E : once int64 _ _ _ |- _ => apply (single_spec _ _ _ _ _ int64_spec) in E end.
    repeat match goal with E : once truth _ _ _ |- _ => apply (single_spec _ _ _ _ _ cast_bool_spec) in E end.
    repeat match goal with E : once path_text _ _ _ |- _ => apply (single_spec _ _ _ _ _ cast_path_spec) in E end.
    repeat match goal with E : once real _ _ _ |- _ => apply (single_spec _ _ _ _ _ cast_double_spec) in E end.
    repeat match goal with E : single _ _ = Ret _ |- _ => rewrite E; clear E; cbn [rbind] end.
    reflexivity.
Qed.

Lemma reads args (g : given A) : command_line args = Ret g <-> says args g.
Proof.
  unfold command_line, says. split.
  - intros H. apply bind_ret_iff in H. destruct H as (ts & L & H). apply bind_ret_iff in H. destruct H as (named & N & H).
    exists (map view ts), (map view named). split; [apply (lex_sound (length args)); [reflexivity|exact L]|]. split; [apply settled_sound, N|apply convert_spec, H].
  - intros (its & named & W & S & M). apply lex_complete in W. destruct W as (ts & L & V). rewrite L. cbn [rbind].
    destruct (settled_complete _ _ _ S ts V) as (ts' & N & V'). change positional_opts with word_names. rewrite N. cbn [rbind]. apply convert_spec. rewrite V'. exact M.
Qed.

Lemma tame_find k b : tame (find_option k b).
Proof. pose proof (find_errors k b) as F. destruct (find_option k b) as [|[]| |]; exact F || exact I. Qed.

Lemma tame_next v : tame (looks_like v).
Proof.
  unfold looks_like. destruct (parse_long v) as [r|] eqn:E.
  - assert (T : tame r). { destruct v as [|a [|b [|c v]]]; try discriminate E; cbn [parse_long] in E; destruct a as [[] [] [] [] [] [] [] []]; try discriminate E; destruct b as [[] [] [] [] [] [] [] []]; try discriminate E.
      destruct (split_eq _) as [n [[|v0 v1]|]]; injection E as <-; exact I. }
    apply tame_bind; [exact T|intros; exact I].
  - unfold parse_short. destruct v as [|a [|b v]]; try exact I; destruct a as [[] [] [] [] [] [] [] []]; try exact I.
    destruct (Ascii.eqb b "-"); [exact I|]. destruct (group_total v ("-" ++ String b "")) as (ts & -> & _). exact I.
Qed.

Lemma tame_finish t next : tame (finish_option t next).
Proof.
  destruct t as [k vals]. cbn [finish_option]. apply tame_bind; [apply tame_find|]. intros [d|]; [|exact I]. destruct (takes_value (o_type d)).
  - destruct vals; [|exact I]. destruct next as [v|]; [|exact I]. fold (looks_like v). apply tame_bind; [apply tame_next|]. intros [|]; [|exact I].
    apply tame_bind; [apply tame_find|]. intros [?|]; exact I.
  - destruct vals; exact I.
Qed.

Lemma tame_group ts next : tame (finish_group ts next).
Proof.
  induction ts as [|t ts IH]; [exact I|]. destruct ts as [|t' ts].
  - cbn [finish_group]. apply tame_bind; [apply tame_finish|]. intros [? ?]. exact I.
  - rewrite finish_group_cons by discriminate. apply tame_bind; [apply tame_finish|]. intros [? ?]. apply tame_bind; [exact IH|]. intros [? ?]. exact I.
Qed.

Lemma tame_lex m : forall args, (length args <= m)%nat -> tame (lex args).
Proof.
  induction m as [|m IH]; intros args L; (destruct args as [|a rest]; [exact I|]); cbn [length] in L; [lia|].
  assert (G : forall r, tame r -> tame (goon r rest)).
  { intros r T. unfold goon. apply tame_bind; [exact T|]. intros [dn took]. apply tame_bind; [|intros; exact I]. destruct rest as [|v rest]; [exact I|]. cbn in L. destruct took; apply IH; cbn; lia. }
  destruct (argument_cases a) as [Wd|[->|[(s & Ns & ->)|(c & s & Nc & ->)]]].
  - rewrite lex_word by exact Wd. apply tame_bind; [apply IH; lia|intros; exact I].
  - exact I.
  - rewrite lex_long by exact Ns. destruct (split_eq s) as [n [[|v0 v1]|]]; [exact I| |]; apply G, tame_group.
  - rewrite lex_short by exact Nc. apply G. unfold grp. destruct (group_total s ("-" ++ String c "")) as (ts & -> & _). cbn [rbind]. apply tame_group.
Qed.

Lemma tame_positional ts : forall names, tame (name_positional names ts).
Proof.
  induction ts as [|[n vals] ts IH]; intros names; cbn [name_positional]; [exact I|]. destruct (String.eqb n "").
  - destruct names; [exact I|]. apply tame_bind; [apply IH|intros; exact I].
  - apply tame_bind; [apply IH|intros; exact I].
Qed.

Lemma tame_command_line args : tame (command_line (A:=A) args).
Proof. unfold command_line. apply tame_bind; [apply (tame_lex (length args)); reflexivity|]. intros ts. apply tame_bind; [apply tame_positional|]. intros. apply tame_convert. Qed.
End Convert.

(** ** One reading only; order; form *)
Lemma written_lex its args : written its args <-> exists ts, lex args = Ret ts /\ map view ts = its.
Proof.
  split; [apply lex_complete|]. intros (ts & L & <-). apply (lex_sound (length args)); [reflexivity|exact L].
Qed.

Lemma written_unique its1 its2 args : written its1 args -> written its2 args -> its1 = its2.
Proof. rewrite !written_lex. intros (t1 & L1 & <-) (t2 & L2 & <-). congruence. Qed.

Lemma lex_spells its toks : spells its toks -> exists dn, map view dn = its /\ forall args, lex (toks ++ args) = letr more := lex args in Ret (dn ++ more)%list.
Proof.
  assert (GL : forall dn args, goon (Ret (dn, false)) args = letr more := lex args in Ret (dn ++ more)%list) by (intros dn [|a args]; reflexivity).
  intros [v Hw|k n Hn We Hv|k n v Hn We Hv Nv|k n v Hn We Hv Sv|its' toks' L].
  - exists [("", [v])]. split; [reflexivity|]. intros args. cbn [app]. rewrite lex_word by exact Hw. reflexivity.
  - exists [(n, [])]. split; [reflexivity|]. intros args. cbn [app String.append]. rewrite lex_long by exact (names_nonempty k n Hn). rewrite split_eq_none by exact We.
    cbn [finish_group]. rewrite (finish_switch k n) by assumption. cbn [rbind]. apply GL.
  - exists [(n, [v])]. split; [reflexivity|]. intros args. cbn [app String.append]. rewrite lex_long by (intros F; destruct k; discriminate). rewrite split_eq_some by exact We.
    destruct v as [|v0 v]; [congruence|]. cbn [finish_group]. rewrite (finish_joined k n) by assumption. cbn [rbind]. apply GL.
  - exists [(n, [v])]. split; [reflexivity|]. intros args. cbn [app String.append]. rewrite lex_long by exact (names_nonempty k n Hn). rewrite split_eq_none by exact We.
    cbn [finish_group hd_error]. rewrite (finish_next k n) by assumption. reflexivity.
  - destruct (letters_complete _ _ L) as (c & s & tl & -> & Nc & [[-> G]|(v & dn & -> & G & Vd)]).
    + destruct (G None) as (dn & G0 & Vd). exists dn. split; [exact Vd|]. intros args. cbn [app]. rewrite lex_short by exact Nc.
      assert (G1 : grp c s (hd_error args) = Ret (dn, false)).
      { destruct (G (hd_error args)) as (dn' & G' & Vd'). rewrite G'. do 2 f_equal.
        assert (Det : forall s c n1 n2 d1 d2, grp c s n1 = Ret (d1, false) -> grp c s n2 = Ret (d2, false) -> d1 = d2).
        { clear. assert (F : forall t n1 n2 t1 t2, finish_option t n1 = Ret (t1, false) -> finish_option t n2 = Ret (t2, false) -> t1 = t2).
          { intros [k vals] n1 n2 t1 t2 H1 H2. destruct (finish_sound _ _ _ _ _ H1) as (n & Hn & C1). destruct (finish_sound _ _ _ _ _ H2) as (n' & Hn' & C2).
            destruct (names_known _ _ Hn) as (d & _ & <- & F1). destruct (names_known _ _ Hn') as (d' & _ & <- & F2). assert (d = d') by congruence. subst d'.
            destruct C1 as [(_ & E1 & -> & _)|[(_ & E1 & -> & _)|(_ & _ & v & _ & _ & _ & F)]]; [| |discriminate F];
            destruct C2 as [(_ & E2 & -> & _)|[(_ & E2 & -> & _)|(_ & _ & v & _ & _ & _ & F)]]; try discriminate F; congruence. }
          assert (FG : forall ts n1 n2 d1 d2, finish_group ts n1 = Ret (d1, false) -> finish_group ts n2 = Ret (d2, false) -> d1 = d2).
          { induction ts as [|t ts IH]; intros n1 n2 d1 d2 H1 H2; [cbn in *; congruence|]. destruct ts as [|t' ts].
            - cbn [finish_group] in *. destruct (finish_option t n1) as [[t1 k1]|x|u|] eqn:E1; try discriminate H1. destruct (finish_option t n2) as [[t2 k2]|x|u|] eqn:E2; try discriminate H2.
              cbn [rbind] in *. injection H1 as <- ->. injection H2 as <- ->. f_equal. exact (F _ _ _ _ _ E1 E2).
            - rewrite finish_group_cons in H1, H2 by discriminate. destruct (finish_option t None) as [[t1 k1]|x|u|]; try discriminate H1. cbn [rbind] in *.
              destruct (finish_group (t' :: ts) n1) as [[d1' k1']|x|u|] eqn:E1; try discriminate H1. destruct (finish_group (t' :: ts) n2) as [[d2' k2']|x|u|] eqn:E2; try discriminate H2.
              cbn [rbind] in *. injection H1 as <- ->. injection H2 as <- ->. f_equal. exact (IH _ _ _ _ E1 E2). }
          intros s c n1 n2 d1 d2. unfold grp. destruct (short_group _ s) as [ts|x|u|]; try discriminate. cbn [rbind]. apply FG. }
        exact (Det _ _ _ _ _ _ G' G0). }
      rewrite G1. apply GL.
    + exists dn. split; [exact Vd|]. intros args. cbn [app]. rewrite lex_short by exact Nc. cbn [hd_error]. rewrite G. reflexivity.
Qed.

Lemma lex_spelled its toks : spelled its toks -> exists dn, map view dn = its /\ forall args, lex (toks ++ args) = letr more := lex args in Ret (dn ++ more)%list.
Proof.
  intros S. induction S as [|its toks rest args Sp S (dn & V & IH)].
  - exists []. split; [reflexivity|]. intros args. cbn [app]. destruct (lex args); reflexivity.
  - destruct (lex_spells _ _ Sp) as (d1 & V1 & H1). exists (d1 ++ dn)%list. split; [rewrite map_app, V1, V; reflexivity|].
    intros args'. rewrite <- app_assoc, H1, IH. destruct (lex args'); cbn [rbind]; try reflexivity. rewrite app_assoc. reflexivity.
Qed.

Lemma written_swap its pre one toks1 toks2 post all : spelled its pre -> spells one toks1 -> spells one toks2 ->
  written all (pre ++ toks1 ++ post) -> written all (pre ++ toks2 ++ post).
Proof.
  intros Sp S1 S2. destruct (lex_spelled _ _ Sp) as (dn & _ & H). destruct (lex_spells _ _ S1) as (d1 & V1 & H1). destruct (lex_spells _ _ S2) as (d2 & V2 & H2).
  rewrite !written_lex. intros (ts & L & <-). rewrite H, H1 in L. destruct (lex post) as [more|x|u|] eqn:E; try discriminate L. cbn [rbind] in L. injection L as <-.
  exists (dn ++ d2 ++ more)%list. rewrite H, H2, E. split; [reflexivity|]. rewrite !map_app, V1, V2. reflexivity.
Qed.

Lemma option_without_eq n : is_option n -> without_eq n.
Proof.
  intros H. apply is_option_opt in H. destruct H as (d & Hd & <-). cut (forallb (fun d => every (fun c => negb (Ascii.eqb c "=")) (o_long d)) all_opts = true); [|reflexivity].
  intros F. apply (proj1 (forallb_forall _ _) F d Hd).
Qed.

Lemma gives_spells n v toks : is_option n -> with_value n true -> gives n v toks -> spells [(n, v)] toks.
Proof.
  intros Ho Hv. assert (Hn : names n n) by (left; split; [exact Ho|left; reflexivity]). assert (We := option_without_eq n Ho).
  intros [Sp|Nv|c Hc Sp|c Hc Nv].
  - apply s_next; assumption.
  - apply s_equals; assumption.
  - apply s_letters, l_next; assumption.
  - apply s_letters, l_joined; assumption.
Qed.

(** Settling looks at the words only. *)
Lemma settled_filter names its out : settled names its out -> settled names (filter positional its) (filter positional out) \/ exists n, In n names /\ existsb (String.eqb n) ["projectile"; "number-events"] = false.
Proof.
  intros S. induction S as [names|n names v its out S IH|names n v its out Nn S IH].
  - left. constructor.
  - destruct IH as [IH|(m & Hm & E)]; [|right; exists m; split; [right; exact Hm|exact E]]. destruct (existsb (String.eqb n) ["projectile"; "number-events"]) eqn:E; [|right; exists n; split; [left; reflexivity|exact E]].
    left. cbn [filter]. change (positional ("", v)) with true. cbn iota.
    assert (P : positional (n, v) = true). { unfold positional. cbn [fst existsb] in *. rewrite E. apply orb_true_r. }
    rewrite P. constructor. exact IH.
  - destruct IH as [IH|IH]; [left|right; exact IH]. cbn [filter]. destruct (positional (n, v)); [constructor; assumption|exact IH].
Qed.

Lemma settled_fun names its out1 : settled names its out1 -> forall out2, settled names its out2 -> out1 = out2.
Proof.
  intros S. induction S as [names|n names v its out S IH|names n v its out Nn S IH]; intros out2 S2; inversion S2; subst; try reflexivity; try congruence; f_equal; auto.
Qed.

Lemma given_filter n its : (forall v, positional (n, v) = true) -> given_to n (filter positional its) = given_to n its.
Proof.
  intros P. induction its as [|[m v] its IH]; [reflexivity|]. cbn [filter given_to]. destruct (String.eqb_spec n m) as [<-|N].
  - rewrite P. cbn [given_to]. rewrite String.eqb_refl, IH. reflexivity.
  - destruct (positional (m, v)); [cbn [given_to]; apply String.eqb_neq in N; rewrite N|]; exact IH.
Qed.

Lemma settled_other names its out n : settled names its out -> ~ In n names -> n <> "" -> given_to n out = given_to n its.
Proof.
  intros S. induction S as [names|m names v its out S IH|names m v its out Nn S IH]; intros Nn' Ne; [reflexivity| |].
  - cbn [given_to]. destruct (String.eqb_spec n m) as [->|_]; [exfalso; apply Nn'; left; reflexivity|]. apply String.eqb_neq in Ne. rewrite Ne. apply IH; [|apply String.eqb_neq, Ne]. intros I. apply Nn'. right. exact I.
  - cbn [given_to]. destruct (String.eqb n m); [f_equal|]; apply IH; assumption.
Qed.

Lemma settled_exists its : forall names out, settled names (filter positional its) out -> exists out', settled names its out'.
Proof.
  induction its as [|[n v] its IH]; intros names out S; [eexists; constructor|]. cbn [filter] in S. destruct (positional (n, v)) eqn:P.
  - inversion S; subst.
    + match goal with H : settled _ (filter positional its) _ |- _ => destruct (IH _ _ H) as (o & Ho) end. eexists. apply t_word. exact Ho.
    + match goal with H : settled _ (filter positional its) _ |- _ => destruct (IH _ _ H) as (o & Ho) end. eexists. apply t_option; eassumption.
  - destruct (IH _ _ S) as (o & Ho). exists ((n, v) :: o). apply t_option; [|exact Ho]. intros ->. discriminate P.
Qed.

Lemma means_same {A : Arith} its1 its2 (g : given A) : (forall n, n <> "" -> given_to n its1 = given_to n its2) -> means its1 g -> means its2 g.
Proof.
  intros E []. constructor; unfold flagged, once in *; rewrite <- E by discriminate; assumption.
Qed.

Lemma same_settled its1 its2 named1 : same_settings its1 its2 -> settled word_names its1 named1 ->
  exists named2, settled word_names its2 named2 /\ forall n, n <> "" -> given_to n named1 = given_to n named2.
Proof.
  intros [F G] S1. destruct (settled_filter _ _ _ S1) as [Sf|(n & Hn & En)].
  2: { exfalso. cbn in Hn. destruct Hn as [<-|[<-|[<-|[]]]]; discriminate En. }
  rewrite F in Sf. destruct (settled_exists its2 _ _ Sf) as (named2 & S2). exists named2. split; [exact S2|]. intros n Nn.
  destruct (settled_filter _ _ _ S2) as [Sf2|(n' & Hn & En)].
  2: { exfalso. cbn in Hn. destruct Hn as [<-|[<-|[<-|[]]]]; discriminate En. }
  assert (E := settled_fun _ _ _ Sf _ Sf2). destruct (in_dec string_dec n word_names) as [I|I].
  - rewrite <- (given_filter n named1), <- (given_filter n named2), E; [reflexivity| |]; intros v; cbn in I; destruct I as [<-|[<-|[<-|[]]]]; reflexivity.
  - rewrite (settled_other _ _ _ n S1 I Nn), (settled_other _ _ _ n S2 I Nn). apply G.
Qed.
