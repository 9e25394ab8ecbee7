(** The configuration-file reader against its grammar. *)
From Coq Require Import Ascii.
From Verif.Base Require Import Result Arith Rng.
From Verif.Model Require Import Config Text Files CrossSection Main CommandLine.
From Verif.Spec Require Import Decimal CommandLine ConfigFile Options.
From Verif.Proof Require Import Basics OptionsP CommandLineP CastP CommandLine2P.
Local Open Scope string_scope.

Ltac norm_s := repeat (first [rewrite append_assoc | progress cbn [String.append]]).

(** ** Lines *)
Lemma lines_from_app acc s : one_line s -> forall t, lines_from acc (s ++ String newline_char t) = (acc ++ s) :: lines_from "" t.
Proof.
  revert acc. induction s as [|c s IH]; intros acc H t.
  - cbn [String.append lines_from]. rewrite append_nil. reflexivity.
  - unfold one_line in H. cbn [every] in H. apply andb_prop in H. destruct H as [Hc H]. apply negb_true_iff in Hc. cbn [String.append lines_from]. unfold newline_char in Hc. rewrite Hc.
    rewrite IH by exact H. rewrite append_assoc. reflexivity.
Qed.
Lemma lines_from_last acc s : one_line s -> acc ++ s <> "" -> lines_from acc s = [acc ++ s].
Proof.
  revert acc. induction s as [|c s IH]; intros acc H N.
  - rewrite append_nil in *. cbn [lines_from]. destruct acc; [congruence|reflexivity].
  - unfold one_line in H. cbn [every] in H. apply andb_prop in H. destruct H as [Hc H]. apply negb_true_iff in Hc. cbn [lines_from]. unfold newline_char in Hc. rewrite Hc.
    rewrite IH; [rewrite append_assoc; reflexivity|exact H|]. rewrite append_assoc. exact N.
Qed.
Lemma lines_complete t ls : text_lines t ls -> lines t = ls.
Proof.
  unfold lines. induction 1 as [|l Hl Nl|l t ls Hl H IH].
  - reflexivity.
  - apply (lines_from_last "" l Hl). exact Nl.
  - rewrite lines_from_app by exact Hl. rewrite IH. reflexivity.
Qed.
Lemma one_line_app a b : one_line a -> one_line b -> one_line (a ++ b).
Proof. unfold one_line. induction a as [|c a IH]; [auto|]. cbn [every String.append]. intros H Hb. apply andb_prop in H. destruct H as [Hc H]. rewrite Hc. apply IH; assumption. Qed.
Lemma lines_sound t : forall acc, one_line acc -> text_lines (acc ++ t) (lines_from acc t).
Proof.
  induction t as [|c t IH]; intros acc Ha; cbn [lines_from].
  - rewrite append_nil. destruct acc as [|a acc]; [constructor|]. apply tl_last; [exact Ha|discriminate].
  - destruct (Ascii.eqb c "010") eqn:Ec.
    + apply Ascii.eqb_eq in Ec. subst c. apply tl_more; [exact Ha|]. apply (IH ""). reflexivity.
    + replace (acc ++ String c t) with ((acc ++ String c "") ++ t) by (rewrite append_assoc; reflexivity). apply IH. apply one_line_app; [exact Ha|].
      unfold one_line. cbn [every]. unfold newline_char. rewrite Ec. reflexivity.
Qed.
Lemma lines_spec t ls : text_lines t ls <-> lines t = ls.
Proof. split; [apply lines_complete|]. intros <-. apply (lines_sound t ""). reflexivity. Qed.

(** ** Comments and white space *)
Lemma white_char_ws c : white_char c = is_ws c.
Proof. unfold white_char, is_ws. cbn [existsb]. destruct (Ascii.eqb c " "), (Ascii.eqb c "009"), (Ascii.eqb c "010"), (Ascii.eqb c "013"); reflexivity. Qed.

Lemma every_app p a b : every p (a ++ b) = every p a && every p b.
Proof. induction a as [|c a IH]; [reflexivity|]. cbn [every String.append]. rewrite IH, andb_assoc. reflexivity. Qed.
Lemma white_app a b : white a -> white b -> white (a ++ b).
Proof. unfold white. rewrite every_app. intros -> ->. reflexivity. Qed.
Lemma no_hash_app a b : no_hash a -> no_hash b -> no_hash (a ++ b).
Proof. unfold no_hash. rewrite every_app. intros -> ->. reflexivity. Qed.
Lemma every_imp (p q : ascii -> bool) s : (forall c, p c = true -> q c = true) -> every p s = true -> every q s = true.
Proof. intros I. induction s as [|c s IH]; [reflexivity|]. cbn [every]. intros H. apply andb_prop in H. destruct H as [Hc H]. rewrite (I c Hc). apply IH, H. Qed.
Lemma white_no_hash s : white s -> no_hash s.
Proof. apply every_imp. intros c. destruct c as [[] [] [] [] [] [] [] []]; cbn; intros H; try discriminate H; reflexivity. Qed.

Lemma cut_spec l : exists c, l = cut_comment l ++ c /\ comment c /\ no_hash (cut_comment l).
Proof.
  induction l as [|a l (c & E & Hc & Hn)]; [exists ""; split; [reflexivity|split; [left; reflexivity|reflexivity]]|]. cbn [cut_comment]. destruct (Ascii.eqb a "#") eqn:Ea.
  - apply Ascii.eqb_eq in Ea. subst a. exists (String "#" l). split; [reflexivity|]. split; [right; eauto|reflexivity].
  - exists c. split; [cbn [String.append]; rewrite <- E; reflexivity|]. split; [exact Hc|]. unfold no_hash in *. cbn [every]. rewrite Ea, Hn. reflexivity.
Qed.
Lemma cut_app u c : no_hash u -> comment c -> cut_comment (u ++ c) = u.
Proof.
  intros Hu Hc. induction u as [|a u IH].
  - destruct Hc as [->|(t & ->)]; reflexivity.
  - unfold no_hash in Hu. cbn [every] in Hu. apply andb_prop in Hu. destruct Hu as [Ha Hu]. apply negb_true_iff in Ha. cbn [String.append cut_comment]. rewrite Ha, IH by exact Hu. reflexivity.
Qed.

Lemma left_spec s : exists b, s = b ++ trim_left s /\ white b /\ head_is is_ws (trim_left s) = false.
Proof.
  induction s as [|c s (b & E & Hb & Hh)]; [exists ""; repeat split|]. cbn [trim_left]. destruct (is_ws c) eqn:Ec.
  - exists (String c b). split; [cbn [String.append]; rewrite <- E; reflexivity|]. split; [|exact Hh]. unfold white in *. cbn [every]. rewrite white_char_ws, Ec, Hb. reflexivity.
  - exists "". split; [reflexivity|]. split; [reflexivity|exact Ec].
Qed.
Lemma left_app b s : white b -> trim_left (b ++ s) = trim_left s.
Proof.
  induction b as [|c b IH]; [reflexivity|]. unfold white. cbn [every String.append trim_left]. intros H. apply andb_prop in H. destruct H as [Hc H]. rewrite white_char_ws in Hc. rewrite Hc. apply IH, H.
Qed.
Lemma left_id s : head_is is_ws s = false -> trim_left s = s.
Proof. destruct s as [|c s]; [reflexivity|]. cbn [head_is trim_left]. intros ->. reflexivity. Qed.

Definition last_ok (s : string) : Prop := forall c s', s = s' ++ String c "" -> is_ws c = false.
Lemma right_white b : white b -> trim_right b = "".
Proof.
  induction b as [|c b IH]; [reflexivity|]. unfold white. cbn [every trim_right]. intros H. apply andb_prop in H. destruct H as [Hc H]. rewrite IH by exact H. rewrite white_char_ws in Hc. rewrite Hc. reflexivity.
Qed.
Lemma last_ok_tail c s : s <> "" -> last_ok (String c s) -> last_ok s.
Proof. intros N H x s' E. apply (H x (String c s')). rewrite E. reflexivity. Qed.
Lemma right_app s b : last_ok s -> white b -> trim_right (s ++ b) = s.
Proof.
  intros L W. induction s as [|c s IH]; [apply right_white, W|]. cbn [String.append trim_right]. destruct s as [|c' s].
  - cbn [String.append]. rewrite right_white by exact W. rewrite (L c ""); reflexivity.
  - rewrite IH by (apply (last_ok_tail c); [discriminate|exact L]). reflexivity.
Qed.
Lemma right_spec s : exists b, s = trim_right s ++ b /\ white b /\ last_ok (trim_right s).
Proof.
  induction s as [|c s (b & E & Hb & Hl)].
  - exists "". split; [reflexivity|]. split; [reflexivity|]. intros c s' E. destruct s'; discriminate.
  - cbn [trim_right]. destruct (trim_right s) as [|c' t] eqn:T.
    + cbn [String.append] in E. subst s. destruct (is_ws c) eqn:Ec.
      * exists (String c b). split; [reflexivity|]. split; [unfold white in *; cbn [every]; rewrite white_char_ws, Ec, Hb; reflexivity|]. intros x s' E. destruct s'; discriminate.
      * exists b. split; [reflexivity|]. split; [exact Hb|]. intros x s' E. destruct s' as [|y s']; [injection E as <-; exact Ec|]. injection E as _ E. destruct s'; discriminate.
    + exists b. split; [cbn [String.append] in *; rewrite <- E; reflexivity|]. split; [exact Hb|]. intros x s' E'. destruct s' as [|y s']; [discriminate|]. injection E' as _ E'. exact (Hl x s' E').
Qed.
Lemma trimmed_iff s : trimmed s <-> head_is is_ws s = false /\ last_ok s.
Proof.
  split.
  - intros T. split.
    + destruct s as [|c s]; [reflexivity|]. cbn [head_is]. destruct (is_ws c) eqn:E; [|reflexivity]. rewrite <- white_char_ws in E. exfalso. apply (proj1 (T c s E)). reflexivity.
    + intros c s' E. destruct (is_ws c) eqn:Ec; [|reflexivity]. rewrite <- white_char_ws in Ec. exfalso. exact (proj2 (T c s' Ec) E).
  - intros [H L] c s' W. rewrite white_char_ws in W. split.
    + intros ->. change (is_ws c = false) in H. congruence.
    + intros E. rewrite (L c s' E) in W. discriminate.
Qed.
Lemma trim_app b1 s b2 : white b1 -> white b2 -> trimmed s -> trim (b1 ++ s ++ b2) = s.
Proof.
  intros W1 W2 T. apply trimmed_iff in T. destruct T as [H L]. unfold trim. rewrite left_app by exact W1. destruct s as [|c s].
  - cbn [String.append]. destruct (left_spec b2) as (b & E & Wb & Hb). pose proof (left_app b2 "" W2) as E2. rewrite append_nil in E2. rewrite E2. reflexivity.
  - rewrite left_id by exact H. apply right_app; assumption.
Qed.
Lemma trim_spec s : exists b1 b2, s = b1 ++ trim s ++ b2 /\ white b1 /\ white b2 /\ trimmed (trim s).
Proof.
  unfold trim. destruct (left_spec s) as (b1 & E1 & W1 & H1). destruct (right_spec (trim_left s)) as (b2 & E2 & W2 & L2).
  exists b1, b2. split; [rewrite <- E2; exact E1|]. split; [exact W1|]. split; [exact W2|]. apply trimmed_iff. split; [|exact L2].
  destruct (trim_right (trim_left s)) as [|c t] eqn:T; [reflexivity|]. rewrite E2 in H1. exact H1.
Qed.

Lemma last_char_spec s : match last_char s with None => s = "" | Some c => s = but_last s ++ String c "" end.
Proof.
  induction s as [|c s IH]; [reflexivity|]. destruct s as [|c' s]; [reflexivity|]. change (last_char (String c (String c' s))) with (last_char (String c' s)).
  change (but_last (String c (String c' s))) with (String c (but_last (String c' s))). destruct (last_char (String c' s)); [|discriminate]. cbn [String.append]. rewrite <- IH. reflexivity.
Qed.
Lemma last_char_app s c : last_char (s ++ String c "") = Some c /\ but_last (s ++ String c "") = s.
Proof.
  induction s as [|a s [IH1 IH2]]; [split; reflexivity|]. cbn [String.append]. destruct (s ++ String c "") as [|x t] eqn:E; [destruct s; discriminate|].
  split; [exact IH1|]. change (but_last (String a (String x t))) with (String a (but_last (String x t))). rewrite IH2. reflexivity.
Qed.

(** ** Names *)
Definition file_name (n : string) : bool := existsb (fun d => String.eqb (o_long d) n) config_file_opts.
Lemma file_name_iff n : file_name n = true <-> in_file n.
Proof.
  unfold file_name. rewrite existsb_exists. split.
  - intros (d & Hd & E). apply String.eqb_eq in E. subst n. split.
    + apply is_option_opt. exists d. split; [|reflexivity]. unfold config_file_opts, all_opts in *. rewrite !in_app_iff in *. tauto.
    + cbn in Hd. repeat (destruct Hd as [<-|Hd]; [cbn; intros F; repeat (destruct F as [F|F]; [discriminate F|]); exact F|]). destruct Hd.
  - intros [Ho N]. apply is_option_opt in Ho. destruct Ho as (d & Hd & <-). exists d. rewrite String.eqb_refl. split; [|reflexivity].
    unfold config_file_opts, all_opts, general_opts in *. rewrite !in_app_iff in *. destruct Hd as [[Hd|Hd]|Hd]; [|tauto|tauto].
    exfalso. apply N. cbn in Hd. destruct Hd as [<-|[<-|[<-|[<-|[]]]]]; cbn; auto.
Qed.

Definition plain_char (c : ascii) : bool := negb (is_ws c) && negb (Ascii.eqb c "=") && negb (Ascii.eqb c "#") && negb (Ascii.eqb c ".") && negb (Ascii.eqb c "[").
Lemma file_plain n : in_file n -> every plain_char n = true /\ n <> "".
Proof.
  intros H. apply file_name_iff in H. unfold file_name in H. apply existsb_exists in H. destruct H as (d & Hd & E). apply String.eqb_eq in E. subst n.
  cut (forallb (fun d => every plain_char (o_long d) && negb (at_end (o_long d))) config_file_opts = true); [|reflexivity].
  intros F. pose proof (proj1 (forallb_forall _ _) F d Hd) as P. apply andb_prop in P. destruct P as [P Q]. split; [exact P|]. intros E. rewrite E in Q. discriminate.
Qed.
Lemma plain_facts c : plain_char c = true -> is_ws c = false /\ Ascii.eqb c "=" = false /\ Ascii.eqb c "#" = false /\ Ascii.eqb c "." = false /\ Ascii.eqb c "[" = false.
Proof.
  unfold plain_char. intros H. apply andb_prop in H. destruct H as [H H5]. apply andb_prop in H. destruct H as [H H4]. apply andb_prop in H. destruct H as [H H3]. apply andb_prop in H. destruct H as [H1 H2].
  apply negb_true_iff in H1, H2, H3, H4, H5. auto.
Qed.
Lemma every_last p s c : every p (s ++ String c "") = true -> p c = true.
Proof. rewrite every_app. intros H. apply andb_prop in H. destruct H as [_ H]. cbn in H. apply andb_prop in H. apply H. Qed.
Lemma name_trimmed n : in_file n -> trimmed n.
Proof.
  intros H. apply file_plain in H. destruct H as [H _]. apply trimmed_iff. split.
  - destruct n as [|c n]; [reflexivity|]. cbn [every] in H. apply andb_prop in H. apply (plain_facts c (proj1 H)).
  - intros c s' ->. apply every_last in H. apply (plain_facts c H).
Qed.
Lemma plain_without_eq n : every plain_char n = true -> without_eq n.
Proof. apply every_imp. intros c H. apply negb_true_iff. apply (plain_facts c H). Qed.
Lemma plain_no_hash n : every plain_char n = true -> no_hash n.
Proof. apply every_imp. intros c H. apply negb_true_iff. apply (plain_facts c H). Qed.
Lemma white_without_eq n : white n -> without_eq n.
Proof. apply every_imp. intros c. destruct c as [[] [] [] [] [] [] [] []]; cbn; intros H; try discriminate H; reflexivity. Qed.
Lemma without_eq_app a b : without_eq a -> without_eq b -> without_eq (a ++ b).
Proof. unfold without_eq. rewrite every_app. intros -> ->. reflexivity. Qed.

(** ** One line *)
Inductive kind : Type := Nothing | Section' (s : string) | Setting (n v : string) | Junk.
Definition classify (l : string) : kind :=
  let s := trim (cut_comment l) in
  match s with
  | "" => Nothing
  | String c0 s' =>
      match last_char s with
      | Some c1 =>
          if Ascii.eqb c0 "[" && Ascii.eqb c1 "]" then Section' (but_last s')
          else match split_eq s with
               | (n, Some v) => Setting (trim n) (trim v)
               | (_, None) => Junk
               end
      | None => Nothing
      end
  end.

Definition dotted (s : string) : string := match last_char s with Some c2 => if Ascii.eqb c2 "." then s else s ++ "." | None => s end.

Lemma config_step prefix l ls : config_tokens prefix (l :: ls) =
  match classify l with
  | Nothing => config_tokens prefix ls
  | Section' s => match s with "" => UB UbIndex | _ => config_tokens (dotted s) ls end
  | Setting n v => if file_name (prefix ++ n) then letr more := config_tokens prefix ls in Ret ((prefix ++ n, [v]) :: more) else Throw (PoError "unrecognised option")
  | Junk => Throw (PoError "the options configuration file contains an invalid line")
  end.
Proof.
  cbn [config_tokens]. unfold classify. destruct (trim (cut_comment l)) as [|c0 s'] eqn:T; [reflexivity|].
  destruct (last_char (String c0 s')) as [c1|]; [|reflexivity]. destruct (Ascii.eqb c0 "[" && Ascii.eqb c1 "]").
  - unfold dotted. pose proof (last_char_spec (but_last s')) as L. destruct (last_char (but_last s')) as [c2|]; [|rewrite L; reflexivity].
    destruct (but_last s') as [|x y] eqn:B; [destruct (but_last ""); discriminate|]. reflexivity.
  - destruct (split_eq (String c0 s')) as [n [v|]]; reflexivity.
Qed.

Lemma classify_empty l : classify l = Nothing <-> empty_line l.
Proof.
  split.
  - unfold classify. destruct (cut_spec l) as (c & E & Hc & _). destruct (trim_spec (cut_comment l)) as (b1 & b2 & E2 & W1 & W2 & _).
    destruct (trim (cut_comment l)) as [|c0 s'].
    + intros _. rewrite E, E2. cbn [String.append]. apply el; [apply white_app; assumption|exact Hc].
    + pose proof (last_char_spec (String c0 s')) as L. destruct (last_char (String c0 s')) as [c1|]; [|discriminate L]. destruct (_ && _); [discriminate|]. destruct (split_eq _) as [n [v|]]; discriminate.
  - intros [b c Wb Hc]. unfold classify. rewrite cut_app by (try exact Hc; apply white_no_hash, Wb).
    assert (T : trim b = ""). { pose proof (trim_app b "" "" Wb eq_refl) as T. cbn [String.append] in T. rewrite append_nil in T. apply T. intros c0 s' _. split; [discriminate|]. destruct s'; discriminate. }
    rewrite T. reflexivity.
Qed.

Lemma last_app (a b : string) c : exists s, a ++ (b ++ String c "") = s ++ String c "".
Proof. exists (a ++ b). rewrite append_assoc. reflexivity. Qed.

Lemma classify_section l s : classify l = Section' s <-> section_line l s.
Proof.
  split.
  - unfold classify. destruct (cut_spec l) as (c & E & Hc & Hn). destruct (trim_spec (cut_comment l)) as (b1 & b2 & E2 & W1 & W2 & _).
    destruct (trim (cut_comment l)) as [|c0 s']; [discriminate|]. pose proof (last_char_spec (String c0 s')) as L. destruct (last_char (String c0 s')) as [c1|]; [|discriminate L].
    destruct (Ascii.eqb c0 "[" && Ascii.eqb c1 "]") eqn:B.
    + intros H. injection H as <-. apply andb_prop in B. destruct B as [B0 B1]. apply Ascii.eqb_eq in B0, B1. subst c0 c1.
      destruct s' as [|x y]; [discriminate L|]. set (t := String x y) in *. change (but_last (String "[" t)) with (String "[" (but_last t)) in L.
      assert (L' : t = but_last t ++ "]") by (cbn [String.append] in L; injection L as L; exact L).
      rewrite E, E2. rewrite L' at 1. rewrite E2 in Hn. replace ((b1 ++ String "[" (but_last t ++ "]") ++ b2) ++ c) with (b1 ++ "[" ++ but_last t ++ "]" ++ b2 ++ c).
      2: { norm_s. reflexivity. }
      apply nl; try assumption. unfold no_hash in *. rewrite every_app in Hn. apply andb_prop in Hn. destruct Hn as [_ Hn]. rewrite every_app in Hn. apply andb_prop in Hn. destruct Hn as [Hn _].
      cbn [every] in Hn. apply andb_prop in Hn. destruct Hn as [_ Hn]. rewrite L' in Hn. rewrite every_app in Hn. apply andb_prop in Hn. apply Hn.
    + destruct (split_eq (String c0 s')) as [n [v|]]; discriminate.
  - intros [b1 t b2 c W1 W2 Ht Hc]. unfold classify.
    replace (b1 ++ "[" ++ t ++ "]" ++ b2 ++ c) with ((b1 ++ ("[" ++ t ++ "]") ++ b2) ++ c) by (norm_s; reflexivity).
    rewrite cut_app; [|repeat apply no_hash_app; try reflexivity; try exact Ht; apply white_no_hash; assumption|exact Hc].
    rewrite trim_app; [|exact W1|exact W2|].
    2: { apply trimmed_iff. split; [reflexivity|]. intros x s' E. change "]" with (String "]" "") in E. destruct (last_app "[" t "]") as (u & Eu). change (String "]" "") with "]" in Eu. change (String "]" "") with "]" in E. rewrite E in Eu.
      pose proof (proj1 (last_char_app s' x)) as L1. pose proof (proj1 (last_char_app u "]")) as L2. change (String "]" "") with "]" in L2. rewrite Eu in L1. rewrite L1 in L2. injection L2 as ->. reflexivity. }
    change ("[" ++ t ++ "]") with (String "[" (t ++ "]")). destruct (last_app "[" t "]") as (u & Eu). pose proof (proj1 (last_char_app u "]")) as L2. rewrite <- Eu in L2.
    change ("[" ++ t ++ String "]" "") with (String "[" (t ++ "]")) in L2. rewrite L2. cbn [Ascii.eqb Bool.eqb andb]. f_equal. apply (proj2 (last_char_app t "]")).
Qed.

Lemma split_white n v : exists b1 b2, n = b1 ++ trim n ++ b2 /\ white b1 /\ white b2 /\ trimmed (trim n) /\ n ++ v = b1 ++ trim n ++ b2 ++ v.
Proof.
  destruct (trim_spec n) as (b1 & b2 & E & W1 & W2 & T). exists b1, b2. split; [exact E|]. split; [exact W1|]. split; [exact W2|]. split; [exact T|]. rewrite E at 1. rewrite !append_assoc. reflexivity.
Qed.

Lemma no_hash_mid a b : no_hash (a ++ b) -> no_hash a /\ no_hash b.
Proof. unfold no_hash. rewrite every_app. intros H. apply andb_prop in H. exact H. Qed.

Lemma classify_setting_sound l n v : classify l = Setting n v -> in_file n -> setting_line l (n, v).
Proof.
  unfold classify. destruct (cut_spec l) as (c & E & Hc & Hn). destruct (trim_spec (cut_comment l)) as (b1 & b2 & E2 & W1 & W2 & _).
  destruct (trim (cut_comment l)) as [|c0 s'] eqn:T0; [discriminate|]. destruct (last_char (String c0 s')) as [c1|]; [|discriminate]. destruct (_ && _); [discriminate|].
  pose proof (split_eq_spec (String c0 s')) as Sp. destruct (split_eq (String c0 s')) as [k [u|]]; [|discriminate]. destruct Sp as [Es _].
  intros H Hin. injection H as <- <-. rewrite E, E2, Es. rewrite E2, Es in Hn.
  destruct (trim_spec k) as (k1 & k2 & Ek & Wk1 & Wk2 & _). destruct (trim_spec u) as (u1 & u2 & Eu & Wu1 & Wu2 & Tu).
  assert (Hu : no_hash (trim u)).
  { apply no_hash_mid in Hn. destruct Hn as [_ Hn]. apply no_hash_mid in Hn. destruct Hn as [Hn _]. apply no_hash_mid in Hn. destruct Hn as [_ Hn]. unfold no_hash in Hn. cbn [every] in Hn.
    apply andb_prop in Hn. destruct Hn as [_ Hn]. rewrite Eu in Hn. rewrite !every_app in Hn. apply andb_prop in Hn. destruct Hn as [_ Hn]. apply andb_prop in Hn. apply Hn. }
  replace ((b1 ++ (k ++ String "=" u) ++ b2) ++ c) with ((b1 ++ k1) ++ trim k ++ k2 ++ "=" ++ u1 ++ trim u ++ (u2 ++ b2) ++ c).
  - apply sl; try assumption; apply white_app; assumption.
  - rewrite Ek at 2. rewrite Eu at 2. norm_s. reflexivity.
Qed.

Lemma classify_setting_complete l n v : setting_line l (n, v) -> classify l = Setting n v.
Proof.
  intros H. remember (n, v) as it eqn:Ei. destruct H as [b1 n' b2 b3 v' b4 c W1 W2 W3 W4 Hin Hv Tv Hc]. injection Ei as -> ->.
  destruct (file_plain n Hin) as [Pn Nn]. pose proof (name_trimmed n Hin) as Tn.
  (* the part that is left after trimming *)
  assert (M : exists m b, b1 ++ n ++ b2 ++ "=" ++ b3 ++ v ++ b4 ++ c = (b1 ++ (n ++ b2 ++ String "=" m) ++ b) ++ c /\ white b /\ trimmed (n ++ b2 ++ String "=" m) /\ trim m = v /\ no_hash m).
  { assert (Hd : forall m, head_is is_ws (n ++ b2 ++ String "=" m) = false).
    { intros m. destruct n as [|a n]; [congruence|]. cbn [String.append head_is]. cbn [every] in Pn. apply andb_prop in Pn. apply (plain_facts a (proj1 Pn)). }
    destruct v as [|v0 v1].
    - exists "", (b3 ++ b4). split; [|split; [apply white_app; assumption|split; [|split; reflexivity]]].
      + norm_s. reflexivity.
      + apply trimmed_iff. split; [apply Hd|]. intros x s' E. destruct (last_app n b2 "=") as (u & Eu). rewrite Eu in E.
        pose proof (proj1 (last_char_app u "=")) as L1. rewrite E in L1. rewrite (proj1 (last_char_app s' x)) in L1. injection L1 as ->. reflexivity.
    - exists (b3 ++ String v0 v1), b4. split; [|split; [exact W4|split; [|split]]].
      + norm_s. reflexivity.
      + apply trimmed_iff. split; [apply Hd|]. apply trimmed_iff in Tv. destruct Tv as [_ Lv]. intros x s' E.
        pose proof (last_char_spec (String v0 v1)) as L. destruct (last_char (String v0 v1)) as [cl|]; [|discriminate L].
        assert (Eu : exists u, n ++ b2 ++ String "=" (b3 ++ String v0 v1) = u ++ String cl "").
        { exists (n ++ b2 ++ String "=" (b3 ++ but_last (String v0 v1))). rewrite L at 1. norm_s. reflexivity. }
        destruct Eu as (u & Eu). rewrite Eu in E. pose proof (proj1 (last_char_app u cl)) as L1. rewrite E in L1. rewrite (proj1 (last_char_app s' x)) in L1. injection L1 as ->. exact (Lv cl _ L).
      + pose proof (trim_app b3 (String v0 v1) "" W3 eq_refl Tv) as X. rewrite append_nil in X. exact X.
      + apply no_hash_app; [apply white_no_hash, W3|exact Hv]. }
  destruct M as (m & b & E & Wb & Tm & Em & Hm). unfold classify. rewrite E.
  rewrite cut_app; [|repeat apply no_hash_app; first [apply white_no_hash; assumption|apply plain_no_hash; assumption|unfold no_hash; cbn [every]; exact Hm]|exact Hc].
  rewrite trim_app by assumption.
  assert (Sp : split_eq (n ++ b2 ++ String "=" m) = (n ++ b2, Some m)).
  { rewrite <- append_assoc. apply split_eq_some. apply without_eq_app; [apply plain_without_eq, Pn|apply white_without_eq, W2]. }
  assert (Tn2 : trim (n ++ b2) = n). { pose proof (trim_app "" n b2 eq_refl W2 Tn) as X. exact X. }
  destruct n as [|a n]; [congruence|]. cbn [String.append] in *. pose proof (last_char_spec (String a (n ++ b2 ++ String "=" m))) as L.
  destruct (last_char (String a (n ++ b2 ++ String "=" m))) as [c1|]; [|discriminate L].
  cbn [every] in Pn. apply andb_prop in Pn. destruct Pn as [Pa _]. rewrite (proj2 (proj2 (proj2 (proj2 (plain_facts a Pa))))). cbn [andb]. rewrite Sp, Tn2, Em. reflexivity.
Qed.

(** ** A file *)
Lemma dotted_dot s : s <> "" -> every (fun c => negb (Ascii.eqb c ".")) (dotted s) = false.
Proof.
  intros N. unfold dotted. pose proof (last_char_spec s) as L. destruct (last_char s) as [c|]; [|contradiction]. destruct (Ascii.eqb c ".") eqn:E.
  - rewrite L, every_app. cbn [every]. rewrite E. cbn. apply andb_false_r.
  - rewrite every_app. cbn. apply andb_false_r.
Qed.
Lemma dotted_unknown prefix n : every (fun c => negb (Ascii.eqb c ".")) prefix = false -> file_name (prefix ++ n) = false.
Proof.
  intros H. destruct (file_name (prefix ++ n)) eqn:F; [|reflexivity]. apply file_name_iff, file_plain in F. destruct F as [F _]. exfalso.
  assert (D : every (fun c => negb (Ascii.eqb c ".")) (prefix ++ n) = true) by (apply (every_imp plain_char); [intros c Hc; apply negb_true_iff; apply (plain_facts c Hc)|exact F]).
  rewrite every_app, H in D. discriminate.
Qed.

Lemma silent_iff l : silent l <-> match classify l with Nothing => True | Section' s => s <> "" | _ => False end.
Proof.
  unfold silent. rewrite <- classify_empty. split.
  - intros [->|(s & N & H)]; [exact I|]. apply classify_section in H. rewrite H. exact N.
  - destruct (classify l) as [|s|n v|] eqn:E; try contradiction; [auto|]. intros N. right. exists s. split; [exact N|]. apply classify_section, E.
Qed.

Lemma section_sound ls : forall prefix ts, every (fun c => negb (Ascii.eqb c ".")) prefix = false -> config_tokens prefix ls = Ret ts -> ts = [] /\ Forall silent ls.
Proof.
  induction ls as [|l ls IH]; intros prefix ts P H; [cbn in H; injection H as <-; auto|]. rewrite config_step in H.
  assert (S : silent l -> config_tokens prefix ls = Ret ts \/ (exists s, s <> "" /\ config_tokens (dotted s) ls = Ret ts) -> ts = [] /\ Forall silent (l :: ls)).
  { intros S [E|(s & N & E)]; [destruct (IH _ _ P E)|destruct (IH _ _ (dotted_dot s N) E)]; auto. }
  pose proof (silent_iff l) as Sl. destruct (classify l) as [|s|n v|] eqn:C.
  - apply S; [apply Sl; exact I|left; exact H].
  - destruct s as [|a s]; [discriminate H|]. apply S; [apply Sl; discriminate|right; exists (String a s); split; [discriminate|exact H]].
  - rewrite (dotted_unknown prefix n P) in H. discriminate H.
  - discriminate H.
Qed.
Lemma section_complete ls : forall prefix, Forall silent ls -> config_tokens prefix ls = Ret [].
Proof.
  induction ls as [|l ls IH]; intros prefix H; [reflexivity|]. assert (H1 : silent l /\ Forall silent ls) by (inversion H; auto). destruct H1 as [Hl Hs]. rewrite config_step.
  apply silent_iff in Hl. destruct (classify l) as [|s|n v|]; try contradiction; [apply IH, Hs|]. destruct s as [|a s]; [contradiction|]. apply IH, Hs.
Qed.

Lemma file_sound ls : forall ts, config_tokens "" ls = Ret ts -> config_file ls (map view ts).
Proof.
  induction ls as [|l ls IH]; intros ts H; [cbn in H; injection H as <-; constructor|]. rewrite config_step in H. destruct (classify l) as [|s|n v|] eqn:C.
  - apply cf_empty; [apply classify_empty, C|apply IH, H].
  - destruct s as [|a s]; [discriminate H|]. apply section_sound in H; [|apply dotted_dot; discriminate]. destruct H as [-> S]. apply (cf_section l (String a s)); [discriminate|apply classify_section, C|exact S].
  - cbn [String.append] in H. destruct (file_name n) eqn:F; [|discriminate H]. apply file_name_iff in F. destruct (config_tokens "" ls) as [more|x|u|] eqn:E; try discriminate H. cbn [rbind] in H. injection H as <-.
    cbn [map view fst snd text_of]. apply cf_setting; [apply classify_setting_sound; assumption|apply IH; reflexivity].
  - discriminate H.
Qed.
Lemma file_complete ls its : config_file ls its -> exists ts, config_tokens "" ls = Ret ts /\ map view ts = its /\ forall t, In t ts -> in_file (fst t).
Proof.
  intros H. induction H as [|l ls its Hl H (ts & E & V & F)|l it ls its Hl H (ts & E & V & F)|l s ls N Hl Hs].
  - exists []. split; [reflexivity|]. split; [reflexivity|]. intros t [].
  - exists ts. rewrite config_step. apply classify_empty in Hl. rewrite Hl. auto.
  - destruct it as [n v]. exists ((n, [v]) :: ts). rewrite config_step. rewrite (classify_setting_complete l n v Hl). cbn [String.append].
    assert (Hn : in_file n). { remember (n, v) as it eqn:Ei. destruct Hl. injection Ei as -> ->. assumption. }
    rewrite (proj2 (file_name_iff n) Hn), E. cbn [rbind map view fst snd text_of]. rewrite V. split; [reflexivity|]. split; [reflexivity|]. intros t [<-|I]; [exact Hn|apply F, I].
  - exists []. rewrite config_step. apply classify_section in Hl. rewrite Hl. destruct s as [|a s]; [congruence|]. rewrite (section_complete ls _ Hs). split; [reflexivity|]. split; [reflexivity|]. intros t [].
Qed.

Lemma tame_tokens ls : forall prefix, (forall l, In l ls -> ~ section_line l "") -> tame (config_tokens prefix ls).
Proof.
  induction ls as [|l ls IH]; intros prefix H; [exact I|]. rewrite config_step. assert (H' : forall l', In l' ls -> ~ section_line l' "") by (intros l' I'; apply H; right; exact I').
  destruct (classify l) as [|s|n v|] eqn:C.
  - apply IH, H'.
  - destruct s as [|a s]; [|apply IH, H']. exfalso. apply (H l (or_introl eq_refl)). apply classify_section, C.
  - destruct (file_name (prefix ++ n)); [|exact I]. apply tame_bind; [apply IH, H'|intros; exact I].
  - exact I.
Qed.

Lemma file_read t ls its : text_lines t ls -> config_file ls its <-> exists ts, config_file_tokens t = Ret ts /\ map view ts = its.
Proof.
  intros L. apply lines_spec in L. unfold config_file_tokens. rewrite L. split.
  - intros H. apply file_complete in H. destruct H as (ts & E & V & _). eauto.
  - intros (ts & E & <-). apply file_sound, E.
Qed.

(** ** What is already given *)
Section Store.
Context {A : Arith}.

Definition getters : list (string * (given A -> bool)) :=
  [("projectile", fun g => is_given (projectiles_of g)); ("number-events", fun g => is_given (g_number_events g));
   ("quiet", fun g => is_given (g_quiet g)); ("output", fun g => is_given (g_output g));
   ("no-header", fun g => is_given (g_no_header g)); ("ncoll", fun g => is_given (g_ncoll g));
   ("reduced-thickness", fun g => is_given (g_reduced_thickness g)); ("fluctuation", fun g => is_given (g_fluctuation g));
   ("nucleon-width", fun g => is_given (g_nucleon_width g)); ("constit-width", fun g => is_given (g_constit_width g));
   ("constit-number", fun g => is_given (g_constit_number g)); ("nucleon-min-dist", fun g => is_given (g_nucleon_min_dist g));
   ("cross-section", fun g => is_given (g_cross_section g)); ("normalization", fun g => is_given (g_normalization g));
   ("b-min", fun g => is_given (g_b_min g)); ("b-max", fun g => is_given (g_b_max g));
   ("random-seed", fun g => is_given (g_random_seed g)); ("grid-max", fun g => is_given (g_grid_max g));
   ("grid-step", fun g => is_given (g_grid_step g))].

Lemma explicit_stored {X} (def : option X) (f : given A -> option X) gs : explicit (stored def f gs) = existsb (fun g => is_given (f g)) gs.
Proof.
  unfold stored. assert (G : forall e, explicit e = false -> explicit (fold_left (fun e g => store1 def (f g) e) gs e) = existsb (fun g => is_given (f g)) gs).
  { induction gs as [|g gs IH]; intros e He; [exact He|]. cbn [fold_left existsb]. destruct (f g) as [x|] eqn:E.
    - assert (Y : store1 def (Some x) e = Explicit x) by (destruct e; try reflexivity; discriminate).
      rewrite Y. rewrite explicit_stays. reflexivity.
    - cbn [is_given orb]. apply IH. unfold store1. destruct e; try exact He; destruct def; reflexivity. }
  apply G. reflexivity.
Qed.

Definition has_field (g : given A) (name : string) : bool := existsb (fun p => String.eqb name (fst p) && snd p g) getters.

Lemma swap_exists (gs : list (given A)) name : forall l : list (string * (given A -> bool)),
  existsb (fun p => String.eqb name (fst p) && existsb (snd p) gs) l = existsb (fun g => existsb (fun p => String.eqb name (fst p) && snd p g) l) gs.
Proof.
  induction l as [|[n h] l IH]; cbn [existsb fst snd].
  - induction gs; [reflexivity|]. cbn. assumption.
  - rewrite IH. clear IH. induction gs as [|g gs IH]; cbn [existsb]; [rewrite andb_false_r; reflexivity|]. rewrite <- IH.
    destruct (String.eqb name n), (h g), (existsb h gs), (existsb (fun p => String.eqb name (fst p) && snd p g) l); cbn; try reflexivity; rewrite ?orb_true_r; reflexivity.
Qed.

Lemma final_spec gs name : is_final (vmap gs) name = existsb (fun g => has_field g name) gs.
Proof.
  unfold has_field. rewrite <- swap_exists. unfold is_final. rewrite vmap_fields.
  cbn [v_projectile v_number_events v_quiet v_output v_no_header v_ncoll v_reduced_thickness v_fluctuation v_nucleon_width v_constit_width v_constit_number
       v_nucleon_min_dist v_cross_section v_normalization v_b_min v_b_max v_random_seed v_grid_max v_grid_step].
  rewrite !explicit_stored. reflexivity.
Qed.

Definition some_given (l : list string) : bool := match l with [] => false | _ => true end.
Lemma once_given {X} (P : string -> X -> Prop) n its o : once P n its o -> is_given o = some_given (given_to n its).
Proof. unfold once. destruct (given_to n its) as [|v [|]]; [intros ->; reflexivity|intros (x & -> & _); reflexivity|contradiction]. Qed.

Lemma means_fields its (g : given A) : means its g -> Forall (fun p => snd p g = some_given (given_to (fst p) its)) getters.
Proof.
  intros []. unfold getters. repeat (constructor; [cbn [fst snd]; try (eapply once_given; eassumption)|]); [|constructor].
  unfold projectiles_of. rewrite me_projectile. destruct (given_to "projectile" its); reflexivity.
Qed.

Definition field_name (name : string) : bool := existsb (fun p => String.eqb name (fst p)) getters.
Lemma field_names name : in_file name -> field_name name = true.
Proof.
  intros H. apply file_name_iff in H. unfold file_name in H. apply existsb_exists in H. destruct H as (d & Hd & E). apply String.eqb_eq in E. subst name.
  cut (forallb (fun d => existsb (String.eqb (o_long d)) (map fst getters)) config_file_opts = true); [|reflexivity]. intros F.
  pose proof (proj1 (forallb_forall _ _) F d Hd) as P. cbn beta in P. unfold field_name. clear -P. unfold getters in *. cbn [map fst existsb] in *. exact P.
Qed.

Lemma has_field_means its (g : given A) name : means its g -> has_field g name = field_name name && some_given (given_to name its).
Proof.
  intros M. apply means_fields in M. unfold has_field, field_name. induction M as [|[n h] l Hx M IH]; [reflexivity|]. cbn [existsb fst snd] in *. rewrite IH. destruct (String.eqb_spec name n) as [->|N].
  - rewrite Hx. cbn [andb orb]. destruct (some_given (given_to n its)); [reflexivity|]. rewrite andb_false_r. reflexivity.
  - reflexivity.
Qed.

Lemma given_app n a b : given_to n (a ++ b) = (given_to n a ++ given_to n b)%list.
Proof. induction a as [|[m v] a IH]; [reflexivity|]. cbn [app given_to]. destruct (String.eqb n m); [cbn; f_equal|]; exact IH. Qed.
Lemma given_not_yet n earlier its : given_to n (filter (not_yet earlier) its) = if some_given (given_to n earlier) then [] else given_to n its.
Proof.
  induction its as [|[m v] its IH]; [cbn; destruct (some_given _); reflexivity|]. cbn [filter given_to]. unfold not_yet at 1. cbn [fst]. destruct (String.eqb_spec n m) as [<-|N].
  - destruct (given_to n earlier) eqn:E; cbn [some_given] in *; [cbn [given_to]; rewrite String.eqb_refl; f_equal; exact IH|exact IH].
  - destruct (given_to m earlier); [cbn [given_to]; apply String.eqb_neq in N; rewrite N|]; exact IH.
Qed.

(** [earlier] are the settings of the sources [gs]. *)
Definition agrees (earlier : list item) (gs : list (given A)) : Prop :=
  forall name, in_file name -> is_final (vmap gs) name = some_given (given_to name earlier).

Lemma agrees_first named g : means named g -> agrees named [g].
Proof. intros M name Hn. rewrite final_spec. cbn [existsb]. rewrite (has_field_means named g name M), (field_names name Hn), orb_false_r. reflexivity. Qed.

Lemma agrees_next earlier gs its g : agrees earlier gs -> means (filter (not_yet earlier) its) g -> agrees (earlier ++ its) (gs ++ [g]).
Proof.
  intros Ag M name Hn. pose proof (Ag name Hn) as E. rewrite final_spec in *. rewrite existsb_app, E. cbn [existsb]. rewrite (has_field_means _ g name M), (field_names name Hn), given_not_yet, given_app.
  destruct (given_to name earlier); cbn; [|reflexivity]. destruct (given_to name its); reflexivity.
Qed.

Lemma store_file_spec earlier gs n ls : agrees earlier gs -> text_lines n ls ->
  forall v', store_file (vmap gs) n = Ret v' <-> exists its g, config_file ls its /\ means (filter (not_yet earlier) its) g /\ v' = vmap (gs ++ [g]).
Proof.
  intros Ag L v'. unfold store_file.
  assert (Flt : forall ts its, (forall t, In t ts -> in_file (fst t)) -> map view ts = its ->
    map view (filter (fun t => negb (is_final (vmap gs) (fst t))) ts) = filter (not_yet earlier) its).
  { intros ts its F <-. induction ts as [|t ts IH]; [reflexivity|]. cbn [filter map]. rewrite (Ag (fst t)) by (apply F; left; reflexivity).
    unfold not_yet at 1. cbn [view fst]. destruct (given_to (fst t) earlier); cbn [some_given negb map]; [f_equal|]; apply IH; intros t' I; apply F; right; exact I. }
  split.
  - intros H. apply bind_ret_iff in H. destruct H as (ts & E & H). apply bind_ret_iff in H. destruct H as (g & Hc & H). injection H as <-.
    assert (C : config_file ls (map view ts)) by (apply (file_read n ls); [exact L|eauto]).
    exists (map view ts), g. split; [exact C|]. split; [|unfold vmap; rewrite fold_left_app; reflexivity].
    destruct (file_complete _ _ C) as (ts' & E' & V & F). apply lines_spec in L. unfold config_file_tokens in E. rewrite L in E. rewrite E in E'. injection E' as <-.
    rewrite <- (Flt ts _ F eq_refl). apply convert_spec, Hc.
  - intros (its & g & C & M & ->). destruct (file_complete _ _ C) as (ts & E & V & F). apply lines_spec in L. unfold config_file_tokens. rewrite L, E. cbn [rbind].
    rewrite <- (Flt ts its F V) in M. apply convert_spec in M. rewrite M. cbn [rbind]. unfold vmap. rewrite fold_left_app. reflexivity.
Qed.

Lemma tame_store v n ls : text_lines n ls -> (forall l, In l ls -> ~ section_line l "") -> tame (store_file (A:=A) v n).
Proof.
  intros L H. unfold store_file, config_file_tokens. apply lines_spec in L. rewrite L. apply tame_bind; [apply tame_tokens, H|]. intros ts. apply tame_bind; [apply tame_convert|intros; exact I].
Qed.

Lemma readable_text (n : node A) : config_text n = readable n.
Proof. destruct n; reflexivity. Qed.
End Store.

Section Merge.
Context {A : Arith} (R : Rng A).

Lemma merge_files_cons v p paths (s : sys R) : merge_files R v (p :: paths) s =
  match fs_lookup (s_fs s) p with
  | None => (Throw (PoError ("configuration file '" ++ p ++ "' not found")), s)
  | Some n => match store_file v (config_text n) with
              | Ret v' => merge_files R v' paths s | Throw x => (Throw x, s) | UB u => (UB u, s) | OutOfFuel => (OutOfFuel, s)
              end
  end.
Proof.
  unfold merge_files. cbn [mfold]. unfold bind at 1 2. unfold get at 1. destruct (fs_lookup (s_fs s) p) as [n|]; [|reflexivity]. unfold lift at 1. destruct (store_file v (config_text n)); reflexivity.
Qed.

Lemma merge_files_ok (s : sys R) earlier paths gs total : files_say (s_fs s) earlier paths gs total -> forall g0s, agrees earlier g0s ->
  merge_files R (vmap g0s) paths s = (Ret (vmap (g0s ++ gs)), s) /\ agrees total (g0s ++ gs).
Proof.
  intros H. induction H as [earlier|earlier p n ls its g paths gs total Hp Hl Hc Hm H IH]; intros g0s Ag.
  - rewrite app_nil_r. split; [reflexivity|exact Ag].
  - rewrite merge_files_cons, Hp, readable_text.
    assert (E : store_file (vmap g0s) (readable n) = Ret (vmap (g0s ++ [g]))) by (apply (store_file_spec earlier g0s (readable n) ls Ag Hl); eauto).
    rewrite E. destruct (IH (g0s ++ [g])%list (agrees_next _ _ _ _ Ag Hm)) as [I1 I2]. rewrite I1. rewrite <- app_assoc in *. split; [reflexivity|exact I2].
Qed.

Lemma merge_files_bad (s : sys R) earlier g0s p after : agrees earlier g0s -> unusable (s_fs s) earlier p ->
  exists m, merge_files R (vmap g0s) (p :: after) s = (Throw (PoError m), s).
Proof.
  intros Ag U. rewrite merge_files_cons. destruct U as [Hp|(n & ls & Hp & Hl & Ns & Hbad)]; rewrite Hp.
  - eexists. reflexivity.
  - rewrite readable_text. pose proof (tame_store (vmap g0s) (readable n) ls Hl Ns) as T. destruct (store_file (vmap g0s) (readable n)) as [v'|x|u|] eqn:E; try contradiction.
    + exfalso. apply (store_file_spec earlier g0s _ ls Ag Hl) in E. destruct E as (its & g & C & M & _). exact (Hbad its g C M).
    + destruct x; try contradiction. eauto.
Qed.

Lemma merge_files_app v before after (s : sys R) : merge_files R v (before ++ after) s = bind (merge_files R v before) (fun v' => merge_files R v' after) s.
Proof.
  revert v s. induction before as [|p before IH]; intros v s; [reflexivity|]. cbn [app]. unfold bind. rewrite !merge_files_cons.
  destruct (fs_lookup (s_fs s) p) as [n|]; [|reflexivity]. destruct (store_file v (config_text n)) as [v'|x|u|]; try reflexivity. rewrite IH. reflexivity.
Qed.
End Merge.
