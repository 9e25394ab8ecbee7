(** Reading back printed numbers. *)
From Coq Require Import Ascii.
From Verif.Base Require Import Result Arith.
From Verif.Model Require Import Text.
From Verif.Spec Require Import Decimal.
From Verif.Proof Require Import Basics.
Local Open Scope string_scope.
Local Open Scope Z_scope.

Lemma app_nil_r_s s : s ++ "" = s.
Proof. induction s; simpl; congruence. Qed.
Lemma app_assoc_s (s t u : string) : (s ++ t) ++ u = s ++ (t ++ u).
Proof. induction s; simpl; congruence. Qed.
Lemma length_app_s (s t : string) : String.length (s ++ t) = (String.length s + String.length t)%nat.
Proof. induction s; simpl; auto. Qed.

Lemma every_app p s t : every p (s ++ t) = every p s && every p t.
Proof. induction s; simpl; auto. rewrite IHs, andb_assoc. reflexivity. Qed.
Lemma every_impl (p q : ascii -> bool) s : (forall c, p c = true -> q c = true) -> every p s = true -> every q s = true.
Proof.
  intros H. induction s; simpl; auto. intros E. apply andb_prop in E. destruct E as [E1 E2].
  rewrite (H _ E1), (IHs E2). reflexivity.
Qed.

Lemma dval_from_app a s t : dval_from a (s ++ t) = dval_from (dval_from a s) t.
Proof. revert a. induction s as [|c s IH]; intros a; simpl; auto. Qed.
Lemma dval_from_spec a s : dval_from a s = a * 10 ^ Z.of_nat (String.length s) + dval s.
Proof.
  unfold dval. revert a. induction s as [|c s IH]; intros a.
  - simpl. lia.
  - cbn [dval_from String.length]. rewrite IH. rewrite (IH (10 * 0 + _)). rewrite Nat2Z.inj_succ, Z.pow_succ_r by lia. ring.
Qed.

(** First character, if any, is not a digit. *)
Definition stops (p : ascii -> bool) (s : string) : Prop :=
  match s with "" => True | String c _ => p c = false end.

Lemma is_digit_eq c : is_digit c = digit c. Proof. reflexivity. Qed.
Lemma is_space_eq c : is_space c = blank c. Proof. reflexivity. Qed.

Lemma span_digits_app ds rest acc cnt :
  every digit ds = true -> stops digit rest ->
  span_digits (ds ++ rest) acc cnt = (dval_from acc ds, cnt + Z.of_nat (String.length ds), rest).
Proof.
  revert acc cnt. induction ds as [|c ds IH]; intros acc cnt Hd Hs.
  - simpl. destruct rest as [|c r]; simpl.
    + f_equal. f_equal. lia.
    + simpl in Hs. rewrite is_digit_eq, Hs. f_equal. f_equal. lia.
  - simpl in Hd. apply andb_prop in Hd. destruct Hd as [Hc Hd].
    cbn [append span_digits]. rewrite is_digit_eq, Hc, IH by assumption. cbn [dval_from String.length].
    unfold digit_value. f_equal. f_equal. lia.
Qed.

Lemma skip_space_app sp rest : every blank sp = true -> stops blank rest -> skip_space (sp ++ rest) = rest.
Proof.
  induction sp as [|c sp IH]; intros Hb Hs.
  - simpl. destruct rest as [|c r]; simpl; auto. simpl in Hs. rewrite is_space_eq, Hs. reflexivity.
  - simpl in Hb. apply andb_prop in Hb. destruct Hb as [Hc Hb]. simpl. rewrite is_space_eq, Hc. auto.
Qed.

Ltac by_char c := destruct c as [[] [] [] [] [] [] [] []]; cbn; try discriminate; auto.

Lemma digit_not_blank c : digit c = true -> blank c = false.
Proof. by_char c. Qed.
Lemma blank_not_digit c : blank c = true -> digit c = false.
Proof. by_char c. Qed.
Lemma digit_take_sign c s : digit c = true -> take_sign (String c s) = (false, String c s).
Proof. by_char c. Qed.

Lemma take_sign_text neg ds rest : every digit ds = true -> ds <> "" ->
  take_sign (sign_of neg ++ ds ++ rest) = (neg, ds ++ rest).
Proof.
  intros Hd Hn. destruct neg; [reflexivity|]. destruct ds as [|c ds]; [congruence|].
  simpl in Hd. apply andb_prop in Hd. destruct Hd as [Hc _]. cbn [sign_of append]. apply digit_take_sign. exact Hc.
Qed.

Lemma stops_sign_digits neg ds rest : every digit ds = true -> ds <> "" -> stops blank (sign_of neg ++ ds ++ rest).
Proof.
  intros Hd Hn. destruct neg; [reflexivity|]. destruct ds as [|c ds]; [congruence|].
  simpl in Hd. apply andb_prop in Hd. destruct Hd as [Hc _]. simpl. apply digit_not_blank. exact Hc.
Qed.

(** What may follow a number: white space or the end. *)
Definition ends_token (rest : string) : Prop := match rest with "" => True | String c _ => blank c = true end.
Lemma ends_token_stops rest : ends_token rest -> stops digit rest.
Proof. destruct rest; simpl; auto. apply blank_not_digit. Qed.

Lemma not_end neg ds rest : ds <> "" -> at_end (sign_of neg ++ ds ++ rest) = false.
Proof. intros H. destruct neg; [reflexivity|]. destruct ds; [congruence|reflexivity]. Qed.

Lemma read_int_text sp i rest :
  every blank sp = true -> integer_ok i -> ends_token rest -> in_int (integer_value i) = true ->
  read_int (Istream (sp ++ integer_text i ++ rest) false false) = (Assigned (integer_value i), Istream rest (at_end rest) false).
Proof.
  intros Hb [Hd Hn] He Hi. unfold read_int, sentry. cbn [is_eof is_fail is_rest orb].
  unfold integer_text. rewrite app_assoc_s.
  rewrite skip_space_app by (auto using stops_sign_digits). rewrite not_end by exact Hn. cbn [is_rest].
  rewrite take_sign_text by assumption.
  rewrite span_digits_app by auto using ends_token_stops.
  replace (0 + Z.of_nat (String.length (i_digits i)) =? 0) with false.
  2:{ symmetry. apply Z.eqb_neq. destruct (i_digits i); [congruence|]. cbn [String.length]. lia. }
  change (if i_neg i then - dval_from 0 (i_digits i) else dval_from 0 (i_digits i)) with (integer_value i).
  rewrite Hi. reflexivity.
Qed.

Lemma blank_not_e c : blank c = true -> is_e c = false.
Proof. by_char c. Qed.

Section Double.
Variable A : Arith.

Lemma read_double_text sp d rest :
  every blank sp = true -> decimal_ok d -> ends_token rest ->
  read_double A (Istream (sp ++ decimal_text d ++ rest) false false)
  = (Assigned (nlit A (mantissa d) (exponent d)), Istream rest (at_end rest) false).
Proof.
  intros Hb (Hd & Hn & Hf & Hx) He. unfold read_double, sentry. cbn [is_eof is_fail is_rest orb].
  unfold decimal_text. rewrite !app_assoc_s.
  rewrite skip_space_app by (auto using stops_sign_digits). rewrite not_end by exact Hn. cbn [is_rest].
  rewrite take_sign_text by assumption.
  assert (Se : stops digit (exp_text (c_exp d) ++ rest)).
  { destruct (c_exp d) as [[en x]|]; [reflexivity|]. apply ends_token_stops. exact He. }
  assert (Sf : stops digit (frac_text (c_frac d) ++ exp_text (c_exp d) ++ rest)).
  { destruct (c_frac d) as [f|]; [reflexivity|exact Se]. }
  rewrite span_digits_app by assumption.
  (* the fraction *)
  set (s2 := frac_text (c_frac d) ++ exp_text (c_exp d) ++ rest) in *.
  set (iv := dval_from 0 (c_int d)).
  assert (F : (match s2 with String "." s' => span_digits s' iv 0 | _ => (iv, 0, s2) end)
              = (dval_from iv (frac_digits d), Z.of_nat (String.length (frac_digits d)), exp_text (c_exp d) ++ rest)).
  { unfold s2, frac_digits. destruct (c_frac d) as [f|]; cbn [frac_text append].
    - cbn [append]. rewrite span_digits_app by assumption. rewrite Z.add_0_l. reflexivity.
    - cbn [dval_from String.length Z.of_nat]. destruct (c_exp d) as [[en x]|]; [reflexivity|]. cbn [exp_text append].
      destruct rest as [|c r]; [reflexivity|]. cbn in He. revert He. clear. by_char c. }
  replace (match s2 with
           | String (Ascii b b0 b1 b2 b3 b4 b5 b6) s' => _
           | _ => _
           end) with (match s2 with String "." s' => span_digits s' iv 0 | _ => (iv, 0, s2) end) by reflexivity.
  rewrite F. clear F.
  replace (0 + Z.of_nat (String.length (c_int d)) + Z.of_nat (String.length (frac_digits d)) =? 0) with false.
  2:{ symmetry. apply Z.eqb_neq. destruct (c_int d); [congruence|]. cbn [String.length]. lia. }
  assert (M : (if c_neg d then - dval_from iv (frac_digits d) else dval_from iv (frac_digits d)) = mantissa d).
  { unfold mantissa, iv, dval. rewrite dval_from_app. reflexivity. }
  rewrite M. unfold exponent.
  destruct (c_exp d) as [[en x]|]; cbn [exp_text].
  - destruct Hx as [Hx Hxn]. rewrite !app_assoc_s. cbn [append].
    change (is_e "e") with true. cbn iota.
    assert (T : take_sign ((if en then "-" else "+") ++ x ++ rest) = (en, x ++ rest)) by (destruct en; reflexivity).
    rewrite T. rewrite span_digits_app by auto using ends_token_stops.
    replace (0 + Z.of_nat (String.length x) =? 0) with false.
    2:{ symmetry. apply Z.eqb_neq. destruct x; [congruence|]. cbn [String.length]. lia. }
    unfold dval. destruct en; reflexivity.
  - cbn [append]. destruct rest as [|c r]; [reflexivity|]. cbn in He. rewrite (blank_not_e _ He). reflexivity.
Qed.
End Double.

(** ** Printed numbers as texts *)

Lemma every_str1 p c : every p (str1 c) = p c.
Proof. simpl. apply andb_true_r. Qed.

Lemma char_of_digit_ok d : 0 <= d < 10 ->
  digit (char_of_digit d) = true /\ Z.of_nat (nat_of_ascii (char_of_digit d)) - 48 = d.
Proof.
  intros H. unfold char_of_digit, digit. rewrite nat_ascii_embedding by lia.
  split; [|lia]. rewrite andb_true_iff, !Nat.leb_le. lia.
Qed.

Lemma zdigits_spec k n : every digit (zdigits k n) = true /\ String.length (zdigits k n) = k /\
  (dval (zdigits k n) = n mod 10 ^ Z.of_nat k).
Proof.
  revert n. induction k as [|k IH]; intros n.
  - repeat split. rewrite Z.mod_1_r. reflexivity.
  - cbn [zdigits]. destruct (IH (n / 10)) as (H1 & H2 & H3).
    destruct (char_of_digit_ok (n mod 10)) as [C1 C2]; [apply Z.mod_pos_bound; lia|].
    split; [|split].
    + rewrite every_app, every_str1, H1, C1. reflexivity.
    + rewrite length_app_s, H2. simpl. lia.
    + unfold dval in *. rewrite dval_from_app, H3. cbn [dval_from str1]. rewrite C2.
      rewrite Nat2Z.inj_succ, Z.pow_succ_r by lia.
      rewrite Z.rem_mul_r by (try apply Z.pow_nonzero; try apply Z.pow_pos_nonneg; lia). ring.
Qed.

Lemma ndigits_aux_spec f n : 0 <= n -> n < 2 ^ Z.of_nat (S f) ->
  n < 10 ^ Z.of_nat (ndigits_aux f n) /\ (1 <= ndigits_aux f n)%nat /\
  (0 < n -> 10 ^ (Z.of_nat (ndigits_aux f n) - 1) <= n).
Proof.
  revert n. induction f as [|f IH]; intros n H0 H1.
  - change (2 ^ Z.of_nat 1) with 2 in H1. cbn. lia.
  - cbn [ndigits_aux]. destruct (Z.ltb_spec n 10) as [L|L].
    + cbn. lia.
    + assert (B : 0 <= n / 10) by (apply Z.div_pos; lia).
      destruct (IH (n / 10)) as (I1 & I2 & I3); auto.
      { rewrite Nat2Z.inj_succ, Z.pow_succ_r in H1 by lia. apply Z.div_lt_upper_bound; lia. }
      rewrite Nat2Z.inj_succ. split; [|split; [lia|]].
      * rewrite Z.pow_succ_r by lia. pose proof (Z.mod_pos_bound n 10 ltac:(lia)). pose proof (Z.div_mod n 10 ltac:(lia)). lia.
      * intros _. replace (Z.succ (Z.of_nat (ndigits_aux f (n / 10))) - 1) with (Z.succ (Z.of_nat (ndigits_aux f (n / 10)) - 1)) by lia.
        rewrite Z.pow_succ_r by lia. assert (0 < n / 10) by (apply Z.div_str_pos; lia). specialize (I3 H).
        pose proof (Z.mul_div_le n 10 ltac:(lia)). lia.
Qed.

Lemma ndigits_spec n : 0 <= n -> n < 10 ^ Z.of_nat (ndigits n) /\ (1 <= ndigits n)%nat /\
  (0 < n -> 10 ^ (Z.of_nat (ndigits n) - 1) <= n).
Proof.
  intros H. unfold ndigits. apply ndigits_aux_spec; auto.
  destruct (Z.eq_dec n 0) as [->|Hn]; [reflexivity|].
  rewrite Nat2Z.inj_succ, Z2Nat.id by apply Z.log2_nonneg.
  apply Z.log2_spec. lia.
Qed.

(** n has at most k digits iff n < 10^k. *)
Lemma ndigits_le n k : 0 <= n < 10 ^ Z.of_nat k -> (1 <= k)%nat -> (ndigits n <= k)%nat.
Proof.
  intros [H0 H1] Hk. destruct (ndigits_spec n H0) as (N1 & N2 & N3).
  destruct (Z.eq_dec n 0) as [->|Hn]; [cbn; lia|].
  specialize (N3 ltac:(lia)). apply Nat2Z.inj_le. apply Z.nlt_ge. intros L.
  assert (10 ^ Z.of_nat k <= 10 ^ (Z.of_nat (ndigits n) - 1)) by (apply Z.pow_le_mono_r; lia). lia.
Qed.

Lemma print_N_spec n : 0 <= n -> every digit (print_N n) = true /\ print_N n <> "" /\ dval (print_N n) = n /\
  String.length (print_N n) = ndigits n.
Proof.
  intros H. destruct (ndigits_spec n H) as (N1 & N2 & _). destruct (zdigits_spec (ndigits n) n) as (Z1 & Z2 & Z3).
  unfold print_N. split; [exact Z1|]. split; [|split; [|exact Z2]].
  - intros E. rewrite E in Z2. cbn in Z2. lia.
  - rewrite Z3. apply Z.mod_small. lia.
Qed.

Definition int_of (z : Z) : integer := Integer (z <? 0) (print_N (Z.abs z)).
Lemma print_Z_text z : print_Z z = integer_text (int_of z) /\ integer_ok (int_of z) /\ integer_value (int_of z) = z.
Proof.
  unfold print_Z, int_of, integer_text, integer_ok, integer_value. cbn [i_neg i_digits].
  destruct (print_N_spec (Z.abs z) (Z.abs_nonneg z)) as (P1 & P2 & P3 & _).
  destruct (Z.ltb_spec z 0) as [L|L].
  - split; [rewrite Z.abs_neq by lia; reflexivity|]. split; [auto|]. rewrite P3. lia.
  - split; [rewrite Z.abs_eq by lia; reflexivity|]. split; [auto|]. rewrite P3. lia.
Qed.

Definition dec_of_fixed (k : nat) (s : bool) (n : Z) : decimal :=
  Decimal s (print_N (n / 10 ^ Z.of_nat k)) (Some (zdigits k n)) None.
Lemma print_fixed_text k s n : 0 <= n ->
  print_fixed k (FDec s n) = decimal_text (dec_of_fixed k s n) /\ decimal_ok (dec_of_fixed k s n) /\
  mantissa (dec_of_fixed k s n) = (if s then - n else n) /\ exponent (dec_of_fixed k s n) = - Z.of_nat k.
Proof.
  intros H. assert (P : 0 < 10 ^ Z.of_nat k) by (apply Z.pow_pos_nonneg; lia).
  destruct (print_N_spec (n / 10 ^ Z.of_nat k) (Z.div_pos _ _ H P)) as (P1 & P2 & P3 & _).
  destruct (zdigits_spec k n) as (Z1 & Z2 & Z3).
  split; [|split; [|split]].
  - unfold print_fixed, decimal_text, dec_of_fixed. cbn [c_neg c_int c_frac c_exp frac_text exp_text].
    unfold sign_str, sign_of. rewrite app_nil_r_s. destruct s; reflexivity.
  - repeat split; cbn; auto.
  - unfold mantissa, frac_digits, dec_of_fixed. cbn [c_neg c_int c_frac].
    assert (E : dval (print_N (n / 10 ^ Z.of_nat k) ++ zdigits k n) = n).
    { unfold dval. rewrite dval_from_app, dval_from_spec. fold (dval (print_N (n / 10 ^ Z.of_nat k))). rewrite P3, Z2, Z3.
      pose proof (Z.div_mod n (10 ^ Z.of_nat k) ltac:(lia)). lia. }
    rewrite E. reflexivity.
  - unfold exponent, frac_digits, dec_of_fixed. cbn [c_frac c_exp]. rewrite Z2. lia.
Qed.

Lemma repeat_char_every p c n : p c = true -> every p (repeat_char n c) = true.
Proof. intros H. induction n; simpl; auto. rewrite H. exact IHn. Qed.
Lemma repeat_char_length c n : String.length (repeat_char n c) = n.
Proof. induction n; simpl; auto. Qed.
Lemma dval_zeros n s : dval (repeat_char n "0"%char ++ s) = dval s.
Proof. unfold dval. rewrite dval_from_app. f_equal. induction n; simpl; auto. Qed.

Definition dec_of_sci (k : nat) (s : bool) (m e : Z) : decimal :=
  Decimal s (print_N (m / 10 ^ Z.of_nat k)) (Some (zdigits k m))
    (Some (e <? 0, pad_left "0"%char 2 (print_N (Z.abs e)))).
Lemma print_sci_text k s m e : 0 <= m ->
  print_sci k (SDec s m e) = decimal_text (dec_of_sci k s m e) /\ decimal_ok (dec_of_sci k s m e) /\
  mantissa (dec_of_sci k s m e) = (if s then - m else m) /\ exponent (dec_of_sci k s m e) = e - Z.of_nat k.
Proof.
  intros H. destruct (print_fixed_text k s m H) as (_ & (F1 & F2 & F3 & _) & F4 & _).
  destruct (print_N_spec (Z.abs e) (Z.abs_nonneg e)) as (P1 & P2 & P3 & _).
  destruct (zdigits_spec k m) as (Z1 & Z2 & Z3).
  split; [|split; [|split]].
  - unfold print_sci, decimal_text, dec_of_sci. cbn [c_neg c_int c_frac c_exp frac_text exp_text].
    unfold sign_str, sign_of, print_exp. rewrite !app_assoc_s. destruct s, (e <? 0); reflexivity.
  - repeat split; auto; unfold pad_left; cbn [dec_of_sci c_exp].
    + rewrite every_app, P1, repeat_char_every; reflexivity.
    + destruct (print_N (Z.abs e)); [congruence|]. destruct (repeat_char _ _); discriminate.
  - exact F4.
  - unfold exponent, frac_digits, dec_of_sci. cbn [c_frac c_exp]. rewrite Z2.
    unfold pad_left. rewrite dval_zeros, P3. destruct (Z.ltb_spec e 0); lia.
Qed.

(** Padding. *)
Lemma pad_left_blank w s : exists sp, every blank sp = true /\ setw w s = sp ++ s /\
  String.length sp = Z.to_nat (w - Z.of_nat (String.length s)).
Proof.
  exists (repeat_char (Z.to_nat (w - Z.of_nat (String.length s))) space). split; [apply repeat_char_every; reflexivity|].
  split; [reflexivity|]. apply repeat_char_length.
Qed.
