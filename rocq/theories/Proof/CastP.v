(** Values on the command line against their notation. *)
From Coq Require Import Ascii.
From Verif.Base Require Import Result Arith Rng.
From Verif.Model Require Import Config Text Main CommandLine.
From Verif.Spec Require Import Decimal CommandLine.
Local Open Scope string_scope.

Lemma append_assoc (a b c : string) : (a ++ b) ++ c = a ++ (b ++ c).
Proof. induction a as [|x a IH]; [reflexivity|]. cbn. rewrite IH. reflexivity. Qed.
Lemma append_nil (a : string) : a ++ "" = a.
Proof. induction a as [|x a IH]; [reflexivity|]. cbn. rewrite IH. reflexivity. Qed.
Lemma append_empty (a b : string) : a ++ b = "" -> a = "" /\ b = "".
Proof. destruct a; [auto|discriminate]. Qed.
Lemma length_pos s : s <> "" -> (0 < Z.of_nat (String.length s))%Z.
Proof. destruct s; [congruence|]. cbn [String.length]. lia. Qed.
Lemma dval_app a : forall b acc, dval_from acc (a ++ b) = dval_from (dval_from acc a) b.
Proof. induction a as [|c a IH]; intros b acc; [reflexivity|]. cbn. apply IH. Qed.

Definition head_is (p : ascii -> bool) (s : string) : bool := match s with String c _ => p c | "" => false end.

Lemma span_inv s : forall acc cnt v n r, span_digits s acc cnt = (v, n, r) ->
  exists d, s = d ++ r /\ digits d /\ v = dval_from acc d /\ (n = cnt + Z.of_nat (String.length d))%Z /\ head_is digit r = false.
Proof.
  induction s as [|c s IH]; intros acc cnt v n r H; cbn [span_digits] in H.
  - injection H as <- <- <-. exists "". repeat split. cbn. lia.
  - destruct (is_digit c) eqn:D.
    + apply IH in H. destruct H as (d & -> & Hd & -> & -> & Hr). exists (String c d). split; [reflexivity|]. split; [|split; [reflexivity|split; [cbn [String.length]; lia|exact Hr]]].
      unfold digits in *. cbn [every]. rewrite Hd. change (digit c) with (is_digit c). rewrite D. reflexivity.
    + injection H as <- <- <-. exists "". repeat split; [cbn; lia|exact D].
Qed.

Lemma span_app d : forall acc cnt r, digits d -> head_is digit r = false ->
  span_digits (d ++ r) acc cnt = (dval_from acc d, (cnt + Z.of_nat (String.length d))%Z, r).
Proof.
  induction d as [|c d IH]; intros acc cnt r Hd Hr; cbn [String.append].
  - cbn [String.length dval_from]. rewrite Z.add_0_r. destruct r as [|c r]; [reflexivity|]. cbn [span_digits]. cbn [head_is] in Hr. change (is_digit c) with (digit c). rewrite Hr. reflexivity.
  - unfold digits in Hd. cbn [every] in Hd. apply andb_prop in Hd. destruct Hd as [Hc Hd]. cbn [span_digits]. change (is_digit c) with (digit c). rewrite Hc. rewrite IH by assumption.
    cbn [dval_from String.length]. unfold digit_value. f_equal. f_equal. lia.
Qed.

Definition sign_char (c : ascii) : bool := Ascii.eqb c "-" || Ascii.eqb c "+".
Lemma sign_inv s neg r : take_sign s = (neg, r) -> exists sg, signed sg neg /\ s = sg ++ r.
Proof.
  intros H. destruct s as [|c s]; [cbn in H; injection H as <- <-; exists ""; split; [constructor|reflexivity]|].
  destruct (Ascii.ascii_dec c "-") as [->|N1]; [cbn in H; injection H as <- <-; exists "-"; split; [constructor|reflexivity]|].
  destruct (Ascii.ascii_dec c "+") as [->|N2]; [cbn in H; injection H as <- <-; exists "+"; split; [constructor|reflexivity]|].
  exists "". assert (E : take_sign (String c s) = (false, String c s)). { destruct c as [[] [] [] [] [] [] [] []]; try reflexivity; congruence. }
  rewrite E in H. injection H as <- <-. split; [constructor|reflexivity].
Qed.
Lemma sign_app sg neg r : signed sg neg -> head_is sign_char r = false -> take_sign (sg ++ r) = (neg, r).
Proof.
  intros [] H; try reflexivity. cbn [String.append]. destruct r as [|c r]; [reflexivity|]. cbn in H.
  destruct c as [[] [] [] [] [] [] [] []]; try reflexivity; discriminate.
Qed.
Lemma digit_facts c : digit c = true -> sign_char c = false /\ blank c = false /\ Ascii.eqb c "." = false /\ is_e c = false.
Proof. destruct c as [[] [] [] [] [] [] [] []]; cbn; intros H; try discriminate H; repeat split. Qed.
Lemma digits_head p s : digits s -> (forall c, digit c = true -> p c = false) -> head_is p s = false.
Proof. destruct s as [|c s]; [reflexivity|]. unfold digits. cbn [every head_is]. intros H F. apply F. apply andb_prop in H. apply H. Qed.
Lemma head_app p a b : head_is p (a ++ b) = if at_end a then head_is p b else head_is p a.
Proof. destruct a; reflexivity. Qed.

Lemma cast_int_spec range s z : cast_int range s = Ret z <-> whole s z /\ range z = true.
Proof.
  unfold cast_int. split.
  - destruct (take_sign s) as [neg s1] eqn:Es. apply sign_inv in Es. destruct Es as (sg & Hs & ->).
    destruct (span_digits s1 0 0) as [[v n] r] eqn:Ed. apply span_inv in Ed. destruct Ed as (d & -> & Hd & -> & -> & _).
    destruct (_ || _) eqn:B; [discriminate|]. intros H. injection H as <-. apply orb_false_elim in B. destruct B as [B Br]. apply orb_false_elim in B. destruct B as [Bn Be].
    apply Z.eqb_neq in Bn. apply negb_false_iff in Be, Br. destruct r; [|discriminate]. rewrite append_nil. split; [|exact Br].
    apply (wh sg neg d Hs Hd). intros ->. cbn in Bn. lia.
  - intros [[sg neg d Hs Hd Nd] Hr]. rewrite (sign_app sg neg d Hs) by (apply digits_head; [exact Hd|intros c Hc; apply (digit_facts c Hc)]).
    pose proof (span_app d 0 0 "" Hd eq_refl) as E. rewrite append_nil in E. rewrite E. pose proof (length_pos d Nd).
    replace ((0 + Z.of_nat (String.length d) =? 0)%Z) with false by (symmetry; apply Z.eqb_neq; lia). cbn [orb at_end negb].
    unfold negate, dval in Hr. rewrite Hr. reflexivity.
Qed.

Lemma cast_int_refuses range s : (exists z, cast_int range s = Ret z) \/ cast_int range s = invalid.
Proof. unfold cast_int. destruct (take_sign s). destruct (span_digits s0 0 0) as [[v n] r]. destruct (_ || _); eauto. Qed.

Lemma lowercase_eq s : lowercase s = in_lower_case s.
Proof. induction s as [|c s IH]; [reflexivity|]. cbn [lowercase in_lower_case]. rewrite IH. reflexivity. Qed.
Lemma existsb_in t l : existsb (String.eqb t) l = true <-> In t l.
Proof.
  rewrite existsb_exists. split; [intros (x & H & E); apply String.eqb_eq in E; congruence|]. intros H. exists t. rewrite String.eqb_refl. auto.
Qed.
Section Real.
Context {A : Arith}.

Lemma lower_length s : String.length (in_lower_case s) = String.length s.
Proof. induction s as [|c s IH]; cbn; congruence. Qed.
Lemma lower_letters s l : In l ["inf"; "infinity"; "nan"] -> in_lower_case s = l -> head_is sign_char s = false /\ head_is digit s = false /\ head_is (Ascii.eqb ".") s = false.
Proof.
  intros Hl E. assert (H : exists c s', s = String c s' /\ (lower_case c = "i"%char \/ lower_case c = "n"%char)).
  { destruct s as [|c s']; [cbn in E; subst l; cbn in Hl; destruct Hl as [|[|[|[]]]]; discriminate|]. exists c, s'. split; [reflexivity|].
    cbn in E. destruct Hl as [<-|[<-|[<-|[]]]]; injection E as E _; auto. }
  destruct H as (c & s' & -> & H). cbn [head_is]. clear - H.
  destruct c as [[] [] [] [] [] [] [] []]; destruct H as [H|H]; vm_compute in H; try discriminate H; vm_compute; repeat split.
Qed.
Lemma substring_all s n : (String.length s <= n)%nat -> String.substring 0 n s = s.
Proof. revert n. induction s as [|c s IH]; intros n H; [destruct n; reflexivity|]. destruct n; [cbn in H; lia|]. cbn in *. rewrite IH by lia. reflexivity. Qed.
Lemma substring_three s : s = String.substring 0 3 s ++ String.substring 3 (String.length s) s.
Proof.
  destruct s as [|a [|b [|c s]]]; try reflexivity. cbn [String.substring String.append String.length]. f_equal. f_equal. f_equal.
  destruct s as [|d s]; [reflexivity|]. symmetry. apply substring_all. cbn. lia.
Qed.
Lemma substring_word w t : String.length w = 3%nat -> String.substring 0 3 (w ++ t) = w /\ String.substring 3 (String.length (w ++ t)) (w ++ t) = t.
Proof.
  destruct w as [|a [|b [|c [|d w]]]]; try discriminate. intros _. cbn [String.substring String.append String.length].
  split; [destruct t; reflexivity|]. apply substring_all. lia.
Qed.
Lemma ends_paren_spec s : ends_paren s = true <-> exists t, s = t ++ ")".
Proof.
  induction s as [|c s IH]; [split; [discriminate|intros ([] & E); discriminate]|].
  destruct s as [|d s].
  - cbn [ends_paren]. rewrite Ascii.eqb_eq. split; [intros ->; exists ""; reflexivity|]. intros ([|e t] & E); [cbn in E; congruence|]. destruct t; discriminate.
  - change (ends_paren (String c (String d s))) with (ends_paren (String d s)). rewrite IH. split.
    + intros (t & E). exists (String c t). cbn [String.append]. congruence.
    + intros ([|e t] & E); [discriminate|]. cbn [String.append] in E. injection E as _ E. eauto.
Qed.
Lemma nan_tail_spec s : nan_tail s = true <-> s = "" \/ exists t, s = "(" ++ t ++ ")".
Proof.
  destruct s as [|c s]; [split; auto|]. cbn [nan_tail]. rewrite andb_true_iff, Ascii.eqb_eq, ends_paren_spec. split.
  - intros [-> (t & ->)]. right. exists t. reflexivity.
  - intros [E|(t & E)]; [discriminate|]. cbn [String.append] in E. injection E as -> ->. eauto.
Qed.

Lemma inf_nan_spec s (x : num A) : inf_nan s = Some x <-> special s x.
Proof.
  unfold inf_nan. split.
  - destruct (take_sign s) as [neg s1] eqn:Et. apply sign_inv in Et. destruct Et as (sg & Hs & ->).
    rewrite !lowercase_eq. destruct (String.eqb (in_lower_case (String.substring 0 3 s1)) "nan") eqn:En.
    + apply String.eqb_eq in En. destruct (nan_tail _) eqn:Tl; [|discriminate]. intros H. injection H as <-. apply nan_tail_spec in Tl.
      rewrite (substring_three s1). change (if neg then nneg A ?y else ?y) with (with_sign neg y). apply sp_nan; assumption.
    + destruct (existsb _ _) eqn:Ei; [|discriminate]. intros H. injection H as <-. apply existsb_in in Ei. apply sp_inf; [exact Hs|].
      rewrite lowercase_eq in Ei. destruct Ei as [Ei|[Ei|[]]]; symmetry in Ei; auto.
  - intros [sg neg w Hs Hw|sg neg w tail Hs Hw Ht].
    + assert (Hd : head_is sign_char w = false) by (destruct Hw as [Hw|Hw]; eapply lower_letters; try exact Hw; cbn; auto).
      rewrite (sign_app sg neg w Hs Hd). cbv iota beta. rewrite !lowercase_eq.
      assert (En : String.eqb (in_lower_case (String.substring 0 3 w)) "nan" = false).
      { apply String.eqb_neq. intros E. destruct w as [|a [|b [|c w]]]; try discriminate E. cbn in E. cbn in Hw.
        assert (substring 0 0 w = "") by (destruct w; reflexivity). rewrite H in E. cbn in E. injection E as E1 E2 E3. rewrite E1 in Hw. destruct Hw; discriminate. }
      rewrite En. assert (Ei : existsb (String.eqb (in_lower_case w)) ["inf"; "infinity"] = true) by (apply existsb_in; cbn; destruct Hw as [->| ->]; auto).
      rewrite ?(lowercase_eq w), Ei. reflexivity.
    + assert (Lw : String.length w = 3%nat) by (rewrite <- lower_length, Hw; reflexivity).
      assert (Hd : head_is sign_char (w ++ tail) = false).
      { destruct w as [|c w]; [discriminate|]. destruct (lower_letters _ "nan" ltac:(cbn; auto) Hw) as [H _]. exact H. }
      rewrite (sign_app sg neg _ Hs Hd). cbv iota beta. rewrite !lowercase_eq. destruct (substring_word w tail Lw) as [-> ->]. rewrite Hw. cbn [String.eqb Ascii.eqb].
      rewrite (proj2 (nan_tail_spec tail) Ht). reflexivity.
Qed.

Lemma numeral_plain s m e : numeral s m e -> inf_nan (A:=A) s = None.
Proof.
  intros N. destruct (inf_nan s) as [x|] eqn:E; [|reflexivity]. exfalso. apply inf_nan_spec in E.
  assert (K : exists neg r, take_sign s = (neg, r) /\ (head_is digit r = true \/ head_is (Ascii.eqb ".") r = true)).
  { destruct N as [sg neg i point f x' e' Hs Hi Hf Nif Hp Hx]. exists neg, (i ++ point ++ f ++ x').
    assert (Hh : head_is digit (i ++ point ++ f ++ x') = true \/ head_is (Ascii.eqb ".") (i ++ point ++ f ++ x') = true).
    { destruct i as [|c i]; [|left; unfold digits in Hi; cbn in Hi; apply andb_prop in Hi; cbn; tauto]. destruct Hp as [->|[-> ->]]; [right; reflexivity|]. destruct Nif; congruence. }
    split; [|exact Hh]. apply sign_app; [exact Hs|]. destruct (i ++ point ++ f ++ x') as [|c r]; [reflexivity|]. cbn [head_is] in *.
    destruct Hh as [Hh|Hh]; [apply (digit_facts c Hh)|]. apply Ascii.eqb_eq in Hh. subst c. reflexivity. }
  destruct K as (neg & r & Et & K).
  assert (T : exists neg' r', take_sign s = (neg', r') /\ head_is digit r' = false /\ head_is (Ascii.eqb ".") r' = false).
  { destruct E as [sg neg' w Hs Hw|sg neg' w tail Hs Hw Ht].
    - destruct (lower_letters w (in_lower_case w) ltac:(destruct Hw as [->| ->]; cbn; auto) eq_refl) as (H1 & H2 & H3).
      exists neg', w. split; [apply sign_app; assumption|auto].
    - destruct (lower_letters w "nan" ltac:(cbn; auto) Hw) as (H1 & H2 & H3). exists neg', (w ++ tail).
      destruct w as [|c w]; [discriminate|]. split; [apply sign_app; assumption|auto]. }
  destruct T as (neg' & r' & Et' & T1 & T2). rewrite Et in Et'. injection Et' as <- <-. destruct K; congruence.
Qed.

Lemma skip_none s : starts_blank s = false -> skip_space s = s.
Proof. destruct s as [|c s]; [reflexivity|]. cbn [starts_blank skip_space]. intros ->. reflexivity. Qed.

Lemma e_char c : is_e c = true <-> c = "e"%char \/ c = "E"%char.
Proof. unfold is_e. rewrite orb_true_iff, !Ascii.eqb_eq. reflexivity. Qed.

Lemma cast_double_sound s x : cast_double (A:=A) s = Ret x -> real s x.
Proof.
  unfold cast_double. destruct (inf_nan s) as [y|] eqn:En; [intros H; injection H as <-; right; apply inf_nan_spec; exact En|]. clear En.
  destruct (starts_blank s) eqn:Sb; [discriminate|]. unfold read_double, sentry. cbn [is_eof is_fail is_rest orb]. rewrite (skip_none s Sb).
  destruct (at_end s) eqn:Es; [cbn; discriminate|]. cbn [is_rest].
  destruct (take_sign s) as [neg s1] eqn:Et. apply sign_inv in Et. destruct Et as (sg & Hs & ->).
  destruct (span_digits s1 0 0) as [[iv icnt] s2] eqn:Ei. apply span_inv in Ei. destruct Ei as (i & -> & Hi & -> & -> & Hi2).
  assert (F : exists point f s3, digits f /\ (point = "." \/ point = "" /\ f = "") /\ s2 = point ++ f ++ s3 /\ head_is digit s3 = false /\
    (match s2 with String "." s' => span_digits s' (dval_from 0 i) 0 | _ => (dval_from 0 i, 0%Z, s2) end) = (dval_from 0 (i ++ f), Z.of_nat (String.length f), s3)).
  { assert (Non : forall s2, head_is digit s2 = false -> head_is (Ascii.eqb ".") s2 = false ->
       exists point f s3, digits f /\ (point = "." \/ point = "" /\ f = "") /\ s2 = point ++ f ++ s3 /\ head_is digit s3 = false /\
       (match s2 with String "." s' => span_digits s' (dval_from 0 i) 0 | _ => (dval_from 0 i, 0%Z, s2) end) = (dval_from 0 (i ++ f), Z.of_nat (String.length f), s3)).
    { intros s Hd Hp. exists "", "", s. split; [reflexivity|]. split; [right; auto|]. split; [reflexivity|]. split; [exact Hd|]. rewrite append_nil. destruct s as [|c s]; [reflexivity|].
      cbn [head_is] in Hp. destruct c as [[] [] [] [] [] [] [] []]; try reflexivity; discriminate. }
    destruct s2 as [|c s2]; [apply Non; reflexivity|]. destruct (Ascii.eqb "." c) eqn:Ec; [|apply Non; [exact Hi2|exact Ec]].
    apply Ascii.eqb_eq in Ec. subst c. destruct (span_digits s2 (dval_from 0 i) 0) as [[fv fcnt] s3] eqn:Ef. apply span_inv in Ef. destruct Ef as (f & -> & Hf & -> & -> & H3).
    exists ".", f, s3. split; [exact Hf|]. split; [left; reflexivity|]. split; [reflexivity|]. split; [exact H3|]. rewrite dval_app. repeat f_equal. }
  destruct F as (point & f & s3 & Hf & Hp & -> & H3 & ->).
  destruct ((0 + Z.of_nat (String.length i) + Z.of_nat (String.length f) =? 0)%Z) eqn:E0; [cbn; discriminate|]. apply Z.eqb_neq in E0.
  assert (Nif : i <> "" \/ f <> "") by (destruct i; [right; destruct f; [cbn in E0; lia|discriminate]|left; discriminate]).
  assert (Plain : s3 = "" -> ntrunc A (nlit A (negate neg (dval (i ++ f))) (- Z.of_nat (String.length f))) <> None -> real (sg ++ i ++ point ++ f ++ s3) (nlit A (negate neg (dval (i ++ f))) (- Z.of_nat (String.length f)))).
  { intros -> Tr. left. exists (negate neg (dval (i ++ f))), (0 - Z.of_nat (String.length f))%Z. split; [|split; [f_equal; lia|exact Tr]]. apply nu; auto. constructor. }
  destruct s3 as [|c s3].
  - cbn [is_fail is_rest at_end orb negb]. destruct (ntrunc A _) eqn:Tr; [|discriminate]. intros H. injection H as <-. apply Plain; [reflexivity|]. intros Z. unfold negate, dval in Z. congruence.
  - destruct (is_e c) eqn:Ee; [|cbn; discriminate]. apply e_char in Ee.
    destruct (take_sign s3) as [eneg s4] eqn:Et. apply sign_inv in Et. destruct Et as (esg & Hes & ->).
    destruct (span_digits s4 0 0) as [[ev ecnt] s5] eqn:Ex. apply span_inv in Ex. destruct Ex as (xd & -> & Hx & -> & -> & H5).
    destruct ((0 + Z.of_nat (String.length xd) =? 0)%Z) eqn:E1; [cbn; discriminate|]. apply Z.eqb_neq in E1. cbn [is_fail is_rest orb].
    destruct (at_end s5) eqn:E5; [|cbn; discriminate]. destruct s5; [|discriminate]. cbn [negb]. match goal with |- context [ntrunc A ?y] => destruct (ntrunc A y) eqn:Tr; [|discriminate] end. intros H. injection H as <-.
    left. exists (negate neg (dval (i ++ f))), (negate eneg (dval xd) - Z.of_nat (String.length f))%Z. split; [|split; [reflexivity|unfold negate, dval; congruence]].
    apply nu; auto. rewrite append_nil. apply ex_some; auto. intros ->. cbn in E1. lia.
Qed.

Lemma cast_double_complete s x : real s x -> cast_double (A:=A) s = Ret x.
Proof.
  intros [(m & e & N & -> & Tr)|Sp]; [|unfold cast_double; rewrite (proj2 (inf_nan_spec s x) Sp); reflexivity].
  pose proof (numeral_plain _ _ _ N) as Pn. destruct N as [sg neg i point f x e Hs Hi Hf Nif Hp Hx].
  assert (Hds : forall c, digit c = true -> sign_char c = false) by (intros c Hc; apply (digit_facts c Hc)).
  assert (Hx1 : head_is digit x = false /\ head_is sign_char x = false /\ head_is (Ascii.eqb ".") x = false /\ head_is blank x = false).
  { destruct Hx as [|c sg' neg' d [->| ->] _ _ _]; repeat split. }
  destruct Hx1 as (Xd & Xs & Xp & Xb).
  assert (Pf : head_is digit (point ++ f ++ x) = false).
  { destruct Hp as [->|[-> ->]]; [reflexivity|]. exact Xd. }
  assert (Ps : head_is sign_char (i ++ point ++ f ++ x) = false).
  { rewrite head_app. destruct i as [|c i]; cbn [at_end]; [|apply (digits_head sign_char _ Hi Hds)]. destruct Hp as [->|[-> ->]]; [reflexivity|exact Xs]. }
  assert (Bl : starts_blank (sg ++ i ++ point ++ f ++ x) = false /\ at_end (sg ++ i ++ point ++ f ++ x) = false).
  { destruct Hs; [|split; reflexivity|split; reflexivity]. cbn [String.append]. destruct i as [|c i].
    - cbn [String.append]. destruct Hp as [->|[-> ->]]; [split; reflexivity|]. destruct Nif; congruence.
    - split; [|reflexivity]. cbn [String.append starts_blank]. unfold digits in Hi. cbn [every] in Hi. apply andb_prop in Hi. change (is_space c) with (blank c). apply (digit_facts c (proj1 Hi)). }
  destruct Bl as [Bl Ne]. unfold cast_double. rewrite Pn, Bl. unfold read_double, sentry. cbn [is_eof is_fail is_rest orb]. rewrite (skip_none _ Bl), Ne. cbn [is_rest].
  rewrite (sign_app sg neg _ Hs Ps). rewrite (span_app i 0 0 _ Hi Pf).
  assert (F : (match point ++ f ++ x with String "." s' => span_digits s' (dval_from 0 i) 0 | _ => (dval_from 0 i, 0%Z, point ++ f ++ x) end)
     = (dval_from 0 (i ++ f), Z.of_nat (String.length f), x)).
  { destruct Hp as [->|[-> ->]].
    - cbn [String.append]. rewrite (span_app f _ 0 x Hf Xd). rewrite dval_app. reflexivity.
    - cbn [String.append]. rewrite append_nil. destruct x as [|c x]; [reflexivity|]. cbn [head_is] in Xp. destruct c as [[] [] [] [] [] [] [] []]; try reflexivity; discriminate. }
  rewrite F.
  replace ((0 + Z.of_nat (String.length i) + Z.of_nat (String.length f) =? 0)%Z) with false
    by (symmetry; apply Z.eqb_neq; destruct Nif as [Nn|Nn]; apply length_pos in Nn; lia).
  destruct Hx as [|c esg eneg d Hc Hes Hd Nd].
  - cbn [is_fail is_rest at_end orb negb]. match goal with |- context [ntrunc A ?y] => destruct (ntrunc A y) eqn:E; [reflexivity|] end. elim Tr. exact E.
  - rewrite (proj2 (e_char c) Hc). rewrite (sign_app esg eneg d Hes) by (apply digits_head; [exact Hd|exact Hds]).
    pose proof (span_app d 0 0 "" Hd eq_refl) as E. rewrite append_nil in E. rewrite E.
    replace ((0 + Z.of_nat (String.length d) =? 0)%Z) with false by (symmetry; apply Z.eqb_neq; apply length_pos in Nd; lia).
    cbn [is_fail is_rest at_end orb negb]. match goal with |- context [ntrunc A ?y] => destruct (ntrunc A y) eqn:Q; [reflexivity|] end. elim Tr. exact Q.
Qed.

Lemma cast_double_spec s x : cast_double (A:=A) s = Ret x <-> real s x.
Proof. split; [apply cast_double_sound|apply cast_double_complete]. Qed.
Lemma cast_double_refuses s : (exists x, cast_double (A:=A) s = Ret x) \/ cast_double (A:=A) s = invalid.
Proof.
  unfold cast_double. destruct (inf_nan s); [eauto|]. destruct (starts_blank s); [auto|]. destruct (read_double A _) as [[|x] i]; [auto|].
  destruct (_ || _); [eauto|]. destruct (ntrunc A x); eauto.
Qed.
End Real.

(** ** Paths *)
Lemma unquote_spec_aux m : forall t p, (String.length t <= m)%nat -> unquote t = Some p -> exists u, t = u ++ """" /\ escaped p u.
Proof.
  induction m as [|m IH]; intros t p L H; (destruct t as [|c t]; [discriminate|]); cbn [String.length] in L; [lia|].
  cbn [unquote] in H. destruct (Ascii.eqb c """") eqn:Eq.
  - apply Ascii.eqb_eq in Eq. subst c. destruct t; [|discriminate]. injection H as <-. exists "". split; [reflexivity|constructor].
  - apply Ascii.eqb_neq in Eq. destruct (Ascii.eqb c "&") eqn:Ea.
    + apply Ascii.eqb_eq in Ea. subst c. destruct t as [|c t]; [discriminate|]. destruct (unquote t) as [r|] eqn:E; [|discriminate]. injection H as <-.
      apply IH in E; [|cbn in L; lia]. destruct E as (u & -> & Hu). exists (String "&" (String c u)). split; [reflexivity|]. constructor. exact Hu.
    + apply Ascii.eqb_neq in Ea. destruct (unquote t) as [r|] eqn:E; [|discriminate]. injection H as <-.
      apply IH in E; [|lia]. destruct E as (u & -> & Hu). exists (String c u). split; [reflexivity|]. constructor; auto.
Qed.
Lemma unquote_complete p u : escaped p u -> unquote (u ++ """") = Some p.
Proof.
  induction 1 as [|c p t N1 N2 H IH|c p t H IH].
  - reflexivity.
  - cbn [String.append unquote]. apply Ascii.eqb_neq in N1, N2. rewrite N1, N2, IH. reflexivity.
  - cbn [String.append unquote Ascii.eqb Bool.eqb]. rewrite IH. reflexivity.
Qed.
Lemma no_space_every s : no_space s = every (fun c => negb (blank c)) s.
Proof. induction s as [|c s IH]; [reflexivity|]. cbn [no_space every]. rewrite IH. reflexivity. Qed.

Lemma cast_path_spec s p : cast_path s = Ret p <-> path_text s p.
Proof.
  split.
  - destruct s as [|c s]; [discriminate|]. cbn [cast_path]. destruct (Ascii.eqb c """") eqn:Eq.
    + apply Ascii.eqb_eq in Eq. subst c. destruct (unquote s) as [q|] eqn:E; [|discriminate]. intros H. injection H as <-.
      apply (unquote_spec_aux (String.length s)) in E; [|reflexivity]. destruct E as (u & -> & Hu). apply (pa_quoted q u Hu).
    + apply Ascii.eqb_neq in Eq. destruct (no_space (String c s)) eqn:E; [|discriminate]. intros H. injection H as <-. rewrite no_space_every in E. apply pa_plain; assumption.
  - intros [c q N E|q t H].
    + cbn [cast_path]. apply Ascii.eqb_neq in N. rewrite N. rewrite <- no_space_every in E. rewrite E. reflexivity.
    + cbn [String.append cast_path Ascii.eqb Bool.eqb]. change ("""" ++ "") with """". rewrite (unquote_complete q t H). reflexivity.
Qed.
Lemma cast_path_refuses s : (exists p, cast_path s = Ret p) \/ cast_path s = invalid.
Proof. destruct s as [|c s]; [auto|]. cbn [cast_path]. destruct (Ascii.eqb c """"); [destruct (unquote s)|destruct (no_space _)]; eauto. Qed.

(** ** Truth values *)
Lemma cast_bool_spec s b : cast_bool s = Ret b <-> truth s b.
Proof.
  unfold cast_bool. rewrite lowercase_eq. split.
  - destruct (existsb _ [""; "on"; "yes"; "1"; "true"]) eqn:E; [intros H; injection H as <-; apply existsb_in in E; constructor; exact E|].
    destruct (existsb _ ["off"; "no"; "0"; "false"]) eqn:E2; [|discriminate]. intros H; injection H as <-; apply existsb_in in E2; constructor; exact E2.
  - intros [t H|t H].
    + apply existsb_in in H. rewrite H. reflexivity.
    + destruct (existsb _ [""; "on"; "yes"; "1"; "true"]) eqn:E.
      * exfalso. apply existsb_in in E. cbn in H, E. repeat (destruct H as [H|H]; [rewrite <- H in E; repeat (destruct E as [E|E]; [discriminate E|]); exact E|]). exact H.
      * apply existsb_in in H. rewrite H. reflexivity.
Qed.
Lemma cast_bool_refuses s : (exists b, cast_bool s = Ret b) \/ cast_bool s = invalid.
Proof. unfold cast_bool. destruct (existsb _ _); [eauto|]. destruct (existsb _ _); eauto. Qed.

(** ** Storing *)
Lemma single_spec {X} (cast : string -> result X) (P : string -> X -> Prop) n its (o : option X) :
  (forall s x, cast s = Ret x <-> P s x) -> single cast (given_to n its) = Ret o <-> once P n its o.
Proof.
  intros H. unfold once, single. destruct (given_to n its) as [|v [|v' vs]].
  - split; [intros E; injection E as <-; reflexivity|intros ->; reflexivity].
  - split.
    + destruct (cast v) as [x|e|u|] eqn:E; try discriminate. cbn [rbind]. intros F. injection F as <-. exists x. split; [reflexivity|]. apply H, E.
    + intros (x & -> & Hx). apply H in Hx. rewrite Hx. reflexivity.
  - split; [discriminate|contradiction].
Qed.

Lemma flag_spec n its b : (letr o := single Ret (given_to n its) in Ret (is_given o)) = Ret b <-> flagged n its b.
Proof.
  unfold flagged, single. destruct (given_to n its) as [|v [|v' vs]]; cbn [rbind is_given].
  - split; [intros E; injection E as <-; reflexivity|intros ->; reflexivity].
  - split; [intros E; injection E as <-; reflexivity|intros ->; reflexivity].
  - split; [discriminate|contradiction].
Qed.

Lemma paths_spec vs : forall acc out, rfold (fun acc v => letr p := cast_path v in Ret (acc ++ [p])%list) vs acc = Ret out <->
  exists ps, out = (acc ++ ps)%list /\ Forall2 path_text vs ps.
Proof.
  induction vs as [|v vs IH]; intros acc out; cbn [rfold].
  - split.
    + intros E. injection E as <-. exists []. rewrite app_nil_r. split; [reflexivity|constructor].
    + intros (ps & -> & H). inversion H. rewrite app_nil_r. reflexivity.
  - destruct (cast_path v) as [p|e|u|] eqn:E; cbn [rbind].
    + rewrite IH. split.
      * intros (ps & -> & H). exists (p :: ps). rewrite <- app_assoc. split; [reflexivity|]. constructor; [apply cast_path_spec, E|exact H].
      * intros (ps & -> & H). destruct ps as [|p' ps]; [inversion H|]. assert (H1 : path_text v p' /\ Forall2 path_text vs ps) by (inversion H; auto). destruct H1 as [H1 H2].
        apply cast_path_spec in H1. assert (p' = p) by congruence. subst p'. exists ps. rewrite <- app_assoc. auto.
    + split; [discriminate|]. intros (ps & -> & H). destruct ps as [|p' ps]; inversion H as [|? ? ? ? H1 H2]. apply cast_path_spec in H1. congruence.
    + split; [discriminate|]. intros (ps & -> & H). destruct ps as [|p' ps]; inversion H as [|? ? ? ? H1 H2]. apply cast_path_spec in H1. congruence.
    + split; [discriminate|]. intros (ps & -> & H). destruct ps as [|p' ps]; inversion H as [|? ? ? ? H1 H2]. apply cast_path_spec in H1. congruence.
Qed.

Lemma int32_spec s z : cast_int in_int s = Ret z <-> int32 s z.
Proof. rewrite cast_int_spec. unfold int32, in_int, int_min, int_max. rewrite andb_true_iff, !Z.leb_le. reflexivity. Qed.
Lemma int64_spec s z : cast_int in_int64 s = Ret z <-> int64 s z.
Proof. rewrite cast_int_spec. unfold int64, in_int64. rewrite andb_true_iff, !Z.leb_le. reflexivity. Qed.

(** Either a value or one of the parser's errors. *)
Definition tame {X} (r : result X) : Prop := match r with Ret _ | Throw (PoError _) => True | _ => False end.
Lemma tame_bind {X Y} (r : result X) (k : X -> result Y) : tame r -> (forall x, tame (k x)) -> tame (letr x := r in k x).
Proof. destruct r as [x|e|u|]; cbn; auto. Qed.
Lemma tame_single {X} (cast : string -> result X) vs : (forall s, tame (cast s)) -> tame (single cast vs).
Proof. intros H. destruct vs as [|v [|]]; cbn [single]; try exact I. apply tame_bind; [apply H|intros; exact I]. Qed.
Lemma tame_int r s : tame (cast_int r s).
Proof. destruct (cast_int_refuses r s) as [[z ->]| ->]; exact I. Qed.
Lemma tame_path s : tame (cast_path s).
Proof. destruct (cast_path_refuses s) as [[z ->]| ->]; exact I. Qed.
Lemma tame_bool s : tame (cast_bool s).
Proof. destruct (cast_bool_refuses s) as [[z ->]| ->]; exact I. Qed.
Lemma tame_paths vs : forall acc, tame (rfold (fun acc v => letr p := cast_path v in Ret (acc ++ [p])%list) vs acc).
Proof. induction vs as [|v vs IH]; intros acc; cbn [rfold]; [exact I|]. apply tame_bind; [apply tame_bind; [apply tame_path|intros; exact I]|intros x; apply IH]. Qed.

Section Store.
Context {A : Arith}.
Lemma tame_double s : tame (cast_double (A:=A) s).
Proof. destruct (cast_double_refuses (A:=A) s) as [[z ->]| ->]; exact I. Qed.

Lemma tame_convert ts : tame (convert (A:=A) ts).
Proof.
  unfold convert.
  repeat (apply tame_bind; [first [apply tame_bind; [apply tame_single; intros; exact I|intros; exact I]
    | apply tame_paths | apply tame_single; intros s; first [apply tame_int|apply tame_path|apply tame_bool|apply tame_double]]|intros ?]).
  exact I.
Qed.
End Store.

(** ** All settings *)
Lemma bind_ret_iff {X Y} (r : result X) (k : X -> result Y) y : (letr x := r in k x) = Ret y <-> exists x, r = Ret x /\ k x = Ret y.
Proof.
  destruct r as [x|e|u|]; cbn [rbind].
  - split; [eauto|]. intros (x' & E & H). injection E as ->. exact H.
  - split; [discriminate|intros (x' & E & _); discriminate].
  - split; [discriminate|intros (x' & E & _); discriminate].
  - split; [discriminate|intros (x' & E & _); discriminate].
Qed.
