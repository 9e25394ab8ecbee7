(** Printed texts read back: fields, lines and values. *)
From Coq Require Import Reals Lra Ascii.
From Flocq Require Import Core BinarySingleNaN.
From Verif.Base Require Import Result Arith RArith FArith.
From Verif.Model Require Import Text.
From Verif.Spec Require Import Decimal Table.
From Verif.Proof Require Import Basics TextP Ieee DecR.
Local Open Scope string_scope.
Local Open Scope Z_scope.

Definition nonblank (c : ascii) : bool := negb (blank c).

Lemma push_app cur c s : push cur c ++ s = cur ++ String c s.
Proof. unfold push. rewrite app_assoc_s. reflexivity. Qed.

(** ** Fields *)
Lemma fields_from_token cur t rest : every nonblank t = true -> ends_token rest ->
  fields_from cur (t ++ rest) = (flush (cur ++ t) ++ fields_from "" rest)%list.
Proof.
  revert cur. induction t as [|c t IH]; intros cur H E.
  - rewrite app_nil_r_s. cbn [append]. destruct rest as [|c r]; cbn in *; [rewrite app_nil_r; reflexivity|]. rewrite E. reflexivity.
  - cbn [every] in H. apply andb_prop in H. destruct H as [H1 H2]. cbn [append fields_from].
    unfold nonblank in H1. apply negb_true_iff in H1. rewrite H1, IH by assumption.
    replace (push cur c ++ t) with (cur ++ String c t) by (rewrite <- push_app; reflexivity). reflexivity.
Qed.
Lemma fields_blank sp rest : every blank sp = true -> fields (sp ++ rest) = fields rest.
Proof.
  unfold fields. induction sp as [|c sp IH]; [reflexivity|]. cbn [every]. intros H. apply andb_prop in H. destruct H as [H1 H2].
  cbn [append fields_from]. rewrite H1. cbn [flush app]. apply IH. exact H2.
Qed.
Lemma fields_token t rest : every nonblank t = true -> t <> "" -> ends_token rest -> fields (t ++ rest) = t :: fields rest.
Proof.
  intros H N E. unfold fields. rewrite fields_from_token by assumption. cbn [append].
  destruct t; [congruence|]. reflexivity.
Qed.

(** A padded token followed by something that starts with a blank. *)
Lemma ends_setw w t rest : (Z.of_nat (String.length t) < w)%Z -> ends_token (setw w t ++ rest).
Proof.
  intros H. unfold setw, pad_left. destruct (Z.to_nat (w - Z.of_nat (String.length t))) eqn:E; [lia|]. reflexivity.
Qed.
Lemma fields_setw w t rest : every nonblank t = true -> t <> "" -> ends_token rest ->
  fields (setw w t ++ rest) = t :: fields rest.
Proof.
  intros H N E. destruct (pad_left_blank w t) as (sp & S1 & S2 & _). rewrite S2, app_assoc_s.
  rewrite fields_blank by exact S1. apply fields_token; assumption.
Qed.
Lemma setw_exact w t : (w <= Z.of_nat (String.length t))%Z -> setw w t = t.
Proof. intros H. unfold setw, pad_left. replace (Z.to_nat (w - Z.of_nat (String.length t))) with 0%nat by lia. reflexivity. Qed.

(** ** Lines *)
Lemma lines_from_line cur t rest : every (fun c => negb (is_lf c)) t = true ->
  lines_from cur (t ++ newline ++ rest) = (cur ++ t) :: lines_from "" rest.
Proof.
  revert cur. induction t as [|c t IH]; intros cur H.
  - rewrite app_nil_r_s. reflexivity.
  - cbn [every] in H. apply andb_prop in H. destruct H as [H1 H2]. cbn [append lines_from].
    apply negb_true_iff in H1. rewrite H1, IH by assumption.
    replace (push cur c ++ t) with (cur ++ String c t) by (rewrite <- push_app; reflexivity). reflexivity.
Qed.
Lemma lines_line t rest : every (fun c => negb (is_lf c)) t = true -> lines (t ++ newline ++ rest) = t :: lines rest.
Proof. intros H. unfold lines. rewrite lines_from_line by exact H. reflexivity. Qed.

Lemma nonblank_not_lf c : nonblank c = true -> negb (is_lf c) = true.
Proof.
  unfold nonblank, blank, is_lf. destruct (Nat.eqb_spec (nat_of_ascii c) 10) as [E|E]; [|reflexivity].
  rewrite E. intros H. cbn in H. discriminate H.
Qed.

(** ** Single spaces *)
Lemma split_from_part cur t rest : every nonblank t = true ->
  split_from cur (t ++ String " " rest) = (cur ++ t) :: split_from "" rest.
Proof.
  revert cur. induction t as [|c t IH]; intros cur H.
  - rewrite app_nil_r_s. reflexivity.
  - cbn [every] in H. apply andb_prop in H. destruct H as [H1 H2]. cbn [append split_from].
    assert (E : is_sp c = false).
    { unfold nonblank, blank in H1. unfold is_sp. destruct (Nat.eqb (nat_of_ascii c) 32); [discriminate H1|reflexivity]. }
    rewrite E, IH by assumption.
    replace (push cur c ++ t) with (cur ++ String c t) by (rewrite <- push_app; reflexivity). reflexivity.
Qed.
Lemma split_from_last cur t : every nonblank t = true -> split_from cur t = [cur ++ t].
Proof.
  revert cur. induction t as [|c t IH]; intros cur H.
  - rewrite app_nil_r_s. reflexivity.
  - cbn [every] in H. apply andb_prop in H. destruct H as [H1 H2]. cbn [split_from].
    assert (E : is_sp c = false).
    { unfold nonblank, blank in H1. unfold is_sp. destruct (Nat.eqb (nat_of_ascii c) 32); [discriminate H1|reflexivity]. }
    rewrite E, IH by assumption.
    replace (push cur c ++ t) with (cur ++ String c t) by (rewrite <- push_app; reflexivity). reflexivity.
Qed.

(** ** Texts without blanks *)
Lemma digit_nonblank c : digit c = true -> nonblank c = true.
Proof. intros H. unfold nonblank. rewrite digit_not_blank by exact H. reflexivity. Qed.
Lemma digits_nonblank s : every digit s = true -> every nonblank s = true.
Proof. apply every_impl. exact digit_nonblank. Qed.
Lemma sign_nonblank s : every nonblank (sign_of s) = true. Proof. destruct s; reflexivity. Qed.
Lemma integer_nonblank i : integer_ok i -> every nonblank (integer_text i) = true /\ integer_text i <> "".
Proof.
  intros [H1 H2]. unfold integer_text. rewrite every_app, sign_nonblank, digits_nonblank by exact H1. split; [reflexivity|].
  destruct (i_neg i); [discriminate|]. exact H2.
Qed.
Lemma decimal_nonblank d : decimal_ok d -> every nonblank (decimal_text d) = true /\ decimal_text d <> "".
Proof.
  intros (H1 & H2 & H3 & H4). unfold decimal_text. split.
  - rewrite !every_app, sign_nonblank, digits_nonblank by exact H1. cbn [andb].
    assert (F : every nonblank (frac_text (c_frac d)) = true).
    { destruct (c_frac d); [|reflexivity]. cbn [frac_text append every]. rewrite digits_nonblank by exact H3. reflexivity. }
    assert (X : every nonblank (exp_text (c_exp d)) = true).
    { destruct (c_exp d) as [[b x]|]; [|reflexivity]. destruct H4 as [H4 _]. cbn [exp_text append every].
      rewrite every_app, (digits_nonblank x H4). destruct b; reflexivity. }
    rewrite F, X. reflexivity.
  - destruct (c_neg d); [discriminate|]. destruct (c_int d); [congruence|discriminate].
Qed.

Lemma print_Z_shows z : shows_int z (print_Z z).
Proof. destruct (print_Z_text z) as (E & O & V). exists (int_of z). auto. Qed.
Lemma shows_int_nonblank z t : shows_int z t -> every nonblank t = true /\ t <> "".
Proof. intros (i & O & -> & _). apply integer_nonblank, O. Qed.
Lemma print_Z_length z k : (0 <= z < 10 ^ Z.of_nat k)%Z -> (1 <= k)%nat -> (String.length (print_Z z) <= k)%nat.
Proof.
  intros H K. unfold print_Z. destruct (Z.ltb_spec z 0); [lia|]. unfold print_N.
  destruct (zdigits_spec (ndigits z) z) as (_ & L & _). rewrite L. apply ndigits_le; assumption.
Qed.
Lemma print_Z_length_ge z k : (10 ^ Z.of_nat k <= z)%Z -> (S k <= String.length (print_Z z))%nat.
Proof.
  intros H. assert (P : (0 < 10 ^ Z.of_nat k)%Z) by (apply Z.pow_pos_nonneg; lia). unfold print_Z. destruct (Z.ltb_spec z 0); [lia|]. unfold print_N.
  destruct (zdigits_spec (ndigits z) z) as (_ & L & _). rewrite L.
  destruct (ndigits_spec z ltac:(lia)) as (U & _).
  destruct (Nat.le_gt_cases (S k) (ndigits z)); [assumption|]. exfalso.
  assert (10 ^ Z.of_nat (ndigits z) <= 10 ^ Z.of_nat k)%Z by (apply Z.pow_le_mono_r; lia). lia.
Qed.

(** ** Numbers *)
Local Open Scope R_scope.

Notation p10 := (bpow radix10).
Lemma p10_powerRZ k : powerRZ 10 k = p10 k.
Proof. symmetry. apply (bpow_powerRZ radix10). Qed.

(** Digits that are the real number [r]. *)
Definition sign_ok (s : bool) (r : R) : Prop := if s then r <= 0 else 0 <= r.
Definition fixed_ok (k : Z) (r : R) (d : fdec) : Prop :=
  exists s n, d = FDec s n /\ sign_ok s r /\ n = ZnearestE (Rabs r * p10 k).
Definition sci_ok (k : Z) (r : R) (d : sdec) : Prop :=
  exists s m e, d = SDec s m e /\ sign_ok s r /\
    ((m = 0%Z /\ e = 0%Z /\ r = 0) \/ ((10 ^ k <= m < 10 ^ (k + 1))%Z /\ r <> 0 /\ (mag radix10 r - 1 <= e <= mag radix10 r)%Z)) /\
    Rabs (IZR m * p10 (e - k) - Rabs r) <= / 2 * p10 (- k) * Rabs r.

Lemma sign_abs s r : sign_ok s r -> r = (if s then - Rabs r else Rabs r).
Proof. destruct s; cbn; intros H; [rewrite Rabs_left1 by exact H; lra|rewrite Rabs_pos_eq by exact H; reflexivity]. Qed.
Lemma sign_dist s r v : sign_ok s r -> Rabs ((if s then - v else v) - r) = Rabs (v - Rabs r).
Proof. intros H. rewrite (sign_abs s r H) at 1. destruct s; [rewrite <- Rabs_Ropp; f_equal; ring|reflexivity]. Qed.

Lemma Rsign x : sign_ok (Rltb x 0) x.
Proof. unfold sign_ok. destruct (Rltb x 0) eqn:E; [apply Rltb_true in E; lra|apply Rltb_false in E; exact E]. Qed.
Lemma Rfixed_ok k x : (0 <= k)%Z -> fixed_ok k x (Rfixed k x).
Proof. intros H. exists (Rltb x 0), (ZnearestE (Rabs x * p10 k)). split; [rewrite p10_Z by exact H; reflexivity|]. split; [apply Rsign|reflexivity]. Qed.
Lemma Rsci_ok k x : (0 <= k)%Z -> sci_ok k x (Rsci k x).
Proof.
  intros H. destruct (Req_dec x 0) as [->|N].
  - exists false, 0%Z, 0%Z. unfold Rsci. destruct (Req_EM_T 0 0); [|contradiction]. split; [reflexivity|]. split; [cbn; lra|].
    split; [left; auto|]. rewrite Rabs_R0, Rmult_0_l, Rmult_0_r, Rminus_0_r, Rabs_R0. lra.
  - destruct (Rsci_spec k x H N) as (m & e & E & M & C & B). exists (Rltb x 0), m, e.
    split; [exact E|]. split; [apply Rsign|]. split; [right; auto|exact C].
Qed.

Lemma Bsign_ok (x : f64) : is_finite x = true -> sign_ok (Bsign x) (B2R x).
Proof.
  intros F. destruct x as [s|s| |s m e He]; try discriminate F; cbn [Bsign B2R].
  - destruct s; cbn; lra.
  - unfold F2R. cbn [Fnum Fexp]. pose proof (bpow_ge_0 radix2 e). destruct s; cbn [sign_ok cond_Zopp].
    + assert (IZR (- Z.pos m) <= 0) by (apply IZR_le; lia). nra.
    + assert (0 <= IZR (Z.pos m)) by (apply IZR_le; lia). nra.
Qed.
Lemma f64_fixed_ok k (x : f64) : (0 <= k)%Z -> is_finite x = true -> fixed_ok k (B2R x) (f64_fixed k x).
Proof.
  intros H F. exists (Bsign x), (ZnearestE (Rabs (B2R x) * p10 k)). split; [rewrite p10_Z by exact H; apply f64_fixed_spec; assumption|].
  split; [apply Bsign_ok, F|reflexivity].
Qed.
Lemma f64_sci_ok k (x : f64) : (0 <= k)%Z -> is_finite x = true -> sci_ok k (B2R x) (f64_sci k x).
Proof.
  intros H F. destruct x as [s|s| |s m e He] eqn:Ex; try discriminate F.
  - exists s, 0%Z, 0%Z. cbn [f64_sci B2R]. split; [reflexivity|]. split; [destruct s; cbn; lra|]. split; [left; auto|].
    rewrite Rabs_R0, Rmult_0_l, Rmult_0_r, Rminus_0_r, Rabs_R0. lra.
  - set (y := B754_finite false m e He : f64).
    assert (Py : 0 < B2R y).
    { unfold y. cbn [B2R]. unfold F2R. cbn [Fnum Fexp cond_Zopp]. apply Rmult_lt_0_compat; [apply IZR_lt; lia|apply bpow_gt_0]. }
    assert (Ey : B2R (B754_finite s m e He : f64) = if s then - B2R y else B2R y).
    { unfold y. cbn [B2R]. unfold F2R. cbn [Fnum Fexp]. destruct s; cbn [cond_Zopp]; [change (Z.neg m) with (- Z.pos m)%Z; rewrite opp_IZR; ring|reflexivity]. }
    assert (S : exists s' mm ee, f64_sci k y = SDec s' mm ee /\ f64_sci k (B754_finite s m e He) = SDec s mm ee).
    { unfold y, f64_sci. destruct (scaled m e (k - f64_decexp m e)) as [a b]. destruct (rhe_div a b =? 10 ^ (k + 1))%Z; eauto. }
    destruct S as (s' & mm & ee & E1 & E2). pose proof (f64_sci_spec k y H eq_refl Py) as SP. rewrite E1 in SP.
    destruct (Rsci_ok k (B2R y) H) as (s2 & m2 & e2 & E3 & _ & C & D). rewrite <- SP in E3.
    assert (K : mm = m2 /\ ee = e2) by (split; congruence). destruct K as [-> ->].
    exists s, m2, e2. split; [exact E2|].
    assert (AB : Rabs (B2R (B754_finite s m e He : f64)) = Rabs (B2R y)) by (rewrite Ey; destruct s; [apply Rabs_Ropp|reflexivity]).
    split; [rewrite Ey; destruct s; cbn [sign_ok]; lra|]. rewrite AB. split; [|exact D].
    destruct C as [(C1 & C2 & C3)|(C1 & C2 & C3)]; [lra|]. right. split; [exact C1|]. split; [rewrite Ey; destruct s; lra|].
    rewrite Ey. destruct s; [rewrite mag_opp|]; exact C3.
Qed.

(** Printed with [std::fixed]. *)
Lemma fixed_shows k r d : fixed_ok (Z.of_nat k) r d -> shows_fixed k r (print_fixed k d).
Proof.
  intros (s & n & -> & S & En).
  assert (N0 : (0 <= n)%Z) by (rewrite En; apply ZnearestE_nonneg, Rmult_le_pos; [apply Rabs_pos|apply bpow_ge_0]).
  destruct (print_fixed_text k s n N0) as (E & O & M & X).
  exists (dec_of_fixed k s n), (zdigits k n). split; [exact O|]. split; [exact E|]. split; [reflexivity|]. split; [reflexivity|].
  split; [apply zdigits_spec|]. unfold denotes. rewrite M, X, !p10_powerRZ.
  replace (IZR (if s then - n else n) * p10 (- Z.of_nat k)) with (if s then - (IZR n * p10 (- Z.of_nat k)) else IZR n * p10 (- Z.of_nat k))
    by (destruct s; [rewrite opp_IZR; ring|reflexivity]).
  rewrite sign_dist by exact S. pose proof (ZnearestE_close (Rabs r * p10 (Z.of_nat k))) as C. rewrite <- En in C.
  pose proof (bpow_gt_0 radix10 (Z.of_nat k)) as P. pose proof (bpow_gt_0 radix10 (- Z.of_nat k)) as P'.
  assert (PP : p10 (Z.of_nat k) * p10 (- Z.of_nat k) = 1) by (rewrite <- bpow_plus, Z.add_opp_diag_r; reflexivity).
  replace (IZR n * p10 (- Z.of_nat k) - Rabs r) with ((IZR n - Rabs r * p10 (Z.of_nat k)) * p10 (- Z.of_nat k))
    by (transitivity (IZR n * p10 (- Z.of_nat k) - Rabs r * (p10 (Z.of_nat k) * p10 (- Z.of_nat k))); [ring|rewrite PP; ring]).
  rewrite Rabs_mult, (Rabs_pos_eq (p10 _)) by lra. apply Rmult_le_compat_r; lra.
Qed.

(** Printed with [std::scientific]. *)
Lemma print_N_1 n : (0 <= n < 10)%Z -> String.length (print_N n) = 1%nat.
Proof.
  intros H. unfold print_N. destruct (zdigits_spec (ndigits n) n) as (_ & L & _). rewrite L.
  pose proof (ndigits_le n 1 ltac:(cbn; lia) ltac:(lia)). destruct (ndigits_spec n ltac:(lia)) as (_ & ? & _). lia.
Qed.
Lemma sci_shows k r d : sci_ok (Z.of_nat k) r d -> shows_sci k r (print_sci k d).
Proof.
  intros (s & m & e & -> & S & B & C).
  assert (P : (0 < 10 ^ Z.of_nat k)%Z) by (apply Z.pow_pos_nonneg; lia).
  assert (M0 : (0 <= m)%Z) by (destruct B as [(-> & _)|(B & _)]; lia).
  destruct (print_sci_text k s m e M0) as (E & O & M & X).
  exists (dec_of_sci k s m e), (zdigits k m), (e <? 0)%Z, (pad_left "0"%char 2 (print_N (Z.abs e))).
  split; [exact O|]. split; [exact E|]. split; [reflexivity|]. split.
  { unfold pad_left. rewrite length_app_s, repeat_char_length. lia. }
  split; [reflexivity|]. split; [apply zdigits_spec|].
  assert (Q : (0 <= m / 10 ^ Z.of_nat k < 10)%Z).
  { split; [apply Z.div_pos; lia|]. apply Z.div_lt_upper_bound; [lia|]. destruct B as [(-> & _)|(B & _)]; [lia|].
    rewrite Z.pow_add_r in B by lia. lia. }
  split; [apply print_N_1, Q|]. split.
  { intros R0. destruct B as [(_ & _ & R1)|(B & _)]; [contradiction|]. cbn [dec_of_sci c_int]. intros Z0.
    destruct (print_N_spec (m / 10 ^ Z.of_nat k) ltac:(lia)) as (_ & _ & V & _). rewrite Z0 in V.
    change (dval "0") with 0%Z in V. assert (1 <= m / 10 ^ Z.of_nat k)%Z by (apply Z.div_le_lower_bound; lia). lia. }
  unfold denotes. rewrite M, X, !p10_powerRZ.
  replace (IZR (if s then - m else m) * p10 (e - Z.of_nat k)) with (if s then - (IZR m * p10 (e - Z.of_nat k)) else IZR m * p10 (e - Z.of_nat k))
    by (destruct s; [rewrite opp_IZR; ring|reflexivity]).
  rewrite sign_dist by exact S. exact C.
Qed.

(** Printed in the default notation. *)
Lemma strip_zeros_spec k n : (0 <= n < 10 ^ Z.of_nat k)%Z -> let (k', n') := strip_zeros k n in
  (k' <= k)%nat /\ (n = n' * 10 ^ (Z.of_nat k - Z.of_nat k') /\ 0 <= n' < 10 ^ Z.of_nat k')%Z /\ (k' = 0%nat \/ (n' mod 10 <> 0)%Z).
Proof.
  revert n. induction k as [|k IH]; intros n H; cbn [strip_zeros].
  - split; [lia|]. split; [|left; reflexivity]. rewrite Z.sub_diag. cbn in *. lia.
  - destruct (Z.eqb_spec (n mod 10) 0) as [E|E].
    + assert (D : n = (10 * (n / 10))%Z) by (pose proof (Z.div_mod n 10 ltac:(lia)); lia).
      assert (P : (10 ^ Z.of_nat (S k) = 10 * 10 ^ Z.of_nat k)%Z) by (rewrite Nat2Z.inj_succ, Z.pow_succ_r by lia; reflexivity).
      specialize (IH (n / 10)%Z ltac:(split; [apply Z.div_pos; lia|apply Z.div_lt_upper_bound; lia])).
      destruct (strip_zeros k (n / 10)) as [k' n']. destruct IH as (I1 & (I2 & I3) & I4). split; [lia|]. split; [|exact I4]. split; [|exact I3].
      rewrite D, I2 at 1. replace (Z.of_nat (S k) - Z.of_nat k')%Z with (Z.succ (Z.of_nat k - Z.of_nat k')) by lia.
      rewrite Z.pow_succ_r by lia. ring.
    + split; [lia|]. split; [|right; exact E]. split; [|exact H]. rewrite Z.sub_diag. lia.
Qed.

Lemma last_char_app s c : last_char (s ++ str1 c) = Some c.
Proof. induction s as [|a s IH]; [reflexivity|]. cbn [append]. destruct s; [reflexivity|]. cbn [append] in *. exact IH. Qed.

Definition frac_of (k : nat) (n : Z) : option string :=
  let (k', n') := strip_zeros k n in match k' with O => None | _ => Some (zdigits k' n') end.
Lemma print_frac_text k n : print_frac k n = frac_text (frac_of k n).
Proof. unfold print_frac, frac_of. destruct (strip_zeros k n) as [[|k'] n']; reflexivity. Qed.

(** The decimal with integer part m/10^k, the remaining k digits stripped. *)
Lemma stripped k s m x : (0 <= m)%Z -> match x with Some (_, t) => every digit t = true /\ t <> ""%string | None => True end ->
  let d := Decimal s (print_N (m / 10 ^ Z.of_nat k)) (frac_of k (m mod 10 ^ Z.of_nat k)) x in
  decimal_ok d /\
  match c_frac d with Some f => f <> ""%string /\ last_char f <> Some "0"%char | None => True end /\
  denotes d = (if s then - IZR m else IZR m) * p10 (match x with Some (true, t) => - dval t | Some (false, t) => dval t | None => 0 end - Z.of_nat k).
Proof.
  intros M X d. assert (P : (0 < 10 ^ Z.of_nat k)%Z) by (apply Z.pow_pos_nonneg; lia).
  destruct (print_N_spec (m / 10 ^ Z.of_nat k) (Z.div_pos _ _ M P)) as (N1 & N2 & N3 & _).
  pose proof (Z.mod_pos_bound m _ P) as MB. pose proof (strip_zeros_spec k _ MB) as SZ.
  assert (FR : c_frac d = frac_of k (m mod 10 ^ Z.of_nat k)) by reflexivity. unfold frac_of in FR.
  destruct (strip_zeros k (m mod 10 ^ Z.of_nat k)) as [k' n']. destruct SZ as (S1 & (S2 & S3) & S4).
  destruct (zdigits_spec k' n') as (Z1 & Z2 & Z3).
  assert (FD : frac_digits d = zdigits k' n').
  { unfold frac_digits. rewrite FR. destruct k'; reflexivity. }
  split; [|split].
  - unfold decimal_ok. rewrite FR. split; [exact N1|]. split; [exact N2|]. split; [destruct k'; [exact I|exact Z1]|]. exact X.
  - rewrite FR. destruct k' as [|k']; [exact I|]. split.
    + intros E. rewrite E in Z2. discriminate Z2.
    + cbn [zdigits]. rewrite last_char_app. destruct S4 as [S4|S4]; [discriminate S4|]. intros E. apply S4.
      assert (C : char_of_digit (n' mod 10) = "0"%char) by congruence.
      assert (V : nat_of_ascii (char_of_digit (n' mod 10)) = 48%nat) by (rewrite C; reflexivity).
      unfold char_of_digit in V. pose proof (Z.mod_pos_bound n' 10 ltac:(lia)).
      rewrite nat_ascii_embedding in V by lia. lia.
  - unfold denotes. rewrite p10_powerRZ.
    assert (MT : mantissa d = (if s then - ((m / 10 ^ Z.of_nat k) * 10 ^ Z.of_nat k' + n') else (m / 10 ^ Z.of_nat k) * 10 ^ Z.of_nat k' + n')%Z).
    { unfold mantissa. rewrite FD. cbn [d c_int c_neg]. unfold dval. rewrite dval_from_app, dval_from_spec.
      fold (dval (print_N (m / 10 ^ Z.of_nat k))). rewrite N3, Z2, Z3, (Z.mod_small n') by lia. reflexivity. }
    assert (EX : exponent d = (match x with Some (true, t) => - dval t | Some (false, t) => dval t | None => 0 end - Z.of_nat k')%Z).
    { unfold exponent. rewrite FD, Z2. reflexivity. }
    rewrite MT, EX. set (ex := match x with Some (true, t) => (- dval t)%Z | Some (false, t) => dval t | None => 0%Z end).
    assert (K : IZR m * p10 (ex - Z.of_nat k) = IZR (m / 10 ^ Z.of_nat k * 10 ^ Z.of_nat k' + n') * p10 (ex - Z.of_nat k')).
    { assert (D : m = ((m / 10 ^ Z.of_nat k * 10 ^ Z.of_nat k' + n') * 10 ^ (Z.of_nat k - Z.of_nat k'))%Z).
      { pose proof (Z.div_mod m (10 ^ Z.of_nat k) ltac:(lia)) as D. rewrite D at 1. rewrite S2 at 1.
        rewrite Z.mul_add_distr_r, <- Z.mul_assoc, <- Z.pow_add_r by lia.
        replace (Z.of_nat k' + (Z.of_nat k - Z.of_nat k'))%Z with (Z.of_nat k) by lia. ring. }
      rewrite D at 1. rewrite mult_IZR, <- p10_Z by lia. rewrite Rmult_assoc, <- bpow_plus. do 2 f_equal. lia. }
    destruct s; [rewrite opp_IZR, <- !Ropp_mult_distr_l; rewrite K; reflexivity|exact (eq_sym K)].
Qed.

Lemma general_shows P r d : (1 <= P)%nat -> sci_ok (Z.of_nat P - 1) r d -> shows_digits P r (print_general P d).
Proof.
  intros HP (s & m & e & -> & S & B & C).
  assert (M0 : (0 <= m)%Z) by (destruct B as [(-> & _)|(B & _)]; [lia|]; pose proof (Z.pow_nonneg 10 (Z.of_nat P - 1)); lia).
  assert (V : forall d', denotes d' = (if s then - IZR m else IZR m) * p10 (e - (Z.of_nat P - 1)) ->
    Rabs (denotes d' - r) <= / 2 * powerRZ 10 (1 - Z.of_nat P) * Rabs r).
  { intros d' ->. rewrite p10_powerRZ. replace (1 - Z.of_nat P)%Z with (- (Z.of_nat P - 1))%Z by lia.
    replace ((if s then - IZR m else IZR m) * p10 (e - (Z.of_nat P - 1))) with
      (if s then - (IZR m * p10 (e - (Z.of_nat P - 1))) else IZR m * p10 (e - (Z.of_nat P - 1))) by (destruct s; ring).
    rewrite sign_dist by exact S. exact C. }
  unfold print_general. destruct ((e <? -4)%Z || (Z.of_nat P <=? e)%Z) eqn:Br.
  - set (x := Some ((e <? 0)%Z, pad_left "0"%char 2 (print_N (Z.abs e)))).
    destruct (print_N_spec (Z.abs e) (Z.abs_nonneg e)) as (P1 & P2 & P3 & _).
    assert (X : match x with Some (_, t) => every digit t = true /\ t <> ""%string | None => True end).
    { cbn [x]. unfold pad_left. split; [rewrite every_app, P1, repeat_char_every; reflexivity|].
      destruct (print_N (Z.abs e)); [congruence|]. destruct (repeat_char _ _); discriminate. }
    destruct (stripped (P - 1) s m x M0 X) as (O & F & D).
    exists (Decimal s (print_N (m / 10 ^ Z.of_nat (P - 1))) (frac_of (P - 1) (m mod 10 ^ Z.of_nat (P - 1))) x).
    split; [exact O|]. split; [|split; [exact F|apply V; rewrite D]].
    + unfold decimal_text. cbn [c_neg c_int c_frac c_exp exp_text x]. rewrite print_frac_text. unfold print_exp, sign_str, sign_of.
      destruct (e <? 0)%Z; reflexivity.
    + f_equal. f_equal. cbn [x]. unfold pad_left. rewrite dval_zeros, P3. destruct (Z.ltb_spec e 0); lia.
  - apply orb_false_elim in Br. destruct Br as [B1 B2]. apply Z.ltb_ge in B1. apply Z.leb_gt in B2.
    set (k := Z.to_nat (Z.of_nat P - 1 - e)).
    destruct (stripped k s m None M0 I) as (O & F & D).
    exists (Decimal s (print_N (m / 10 ^ Z.of_nat k)) (frac_of k (m mod 10 ^ Z.of_nat k)) None).
    split; [exact O|]. split; [|split; [exact F|apply V; rewrite D; f_equal; f_equal; unfold k; lia]].
    unfold decimal_text. cbn [c_neg c_int c_frac c_exp exp_text]. rewrite print_frac_text, app_nil_r_s. reflexivity.
Qed.

(** ** Lengths *)
Lemma sign_length s : String.length (sign_of s) = if s then 1%nat else 0%nat. Proof. destruct s; reflexivity. Qed.
Lemma sign_str_length s : String.length (sign_str s) = if s then 1%nat else 0%nat. Proof. destruct s; reflexivity. Qed.
Lemma print_N_length n k : (0 <= n < 10 ^ Z.of_nat k)%Z -> (1 <= k)%nat -> (String.length (print_N n) <= k)%nat.
Proof.
  intros H K. unfold print_N. destruct (zdigits_spec (ndigits n) n) as (_ & L & _). rewrite L. apply ndigits_le; assumption.
Qed.
Lemma fixed_length k j r d : (1 <= j)%nat -> fixed_ok (Z.of_nat k) r d -> Rabs r <= p10 (Z.of_nat j) - p10 (- Z.of_nat k) ->
  (String.length (print_fixed k d) <= (if Rltb r 0 then 1 else 0) + j + 1 + k)%nat \/ (r = 0 /\ (String.length (print_fixed k d) <= 3 + k)%nat).
Proof.
  intros J (s & n & -> & S & En) Hr. cbn [print_fixed]. rewrite !length_app_s, sign_str_length.
  destruct (zdigits_spec k n) as (_ & -> & _). cbn [String.length].
  assert (P : (0 < 10 ^ Z.of_nat k)%Z) by (apply Z.pow_pos_nonneg; lia).
  assert (U : (n <= 10 ^ Z.of_nat (k + j) - 1)%Z).
  { rewrite En. rewrite <- (Zrnd_IZR ZnearestE (10 ^ Z.of_nat (k + j) - 1)). apply Zrnd_le; [typeclasses eauto|].
    rewrite minus_IZR, <- p10_Z by lia. rewrite Nat2Z.inj_add, Z.add_comm, bpow_plus.
    pose proof (bpow_gt_0 radix10 (Z.of_nat k)) as P1.
    assert (PP : p10 (- Z.of_nat k) * p10 (Z.of_nat k) = 1) by (rewrite <- bpow_plus, Z.add_opp_diag_l; reflexivity).
    rewrite <- PP. replace (p10 (Z.of_nat j) * p10 (Z.of_nat k) - p10 (- Z.of_nat k) * p10 (Z.of_nat k)) with
      ((p10 (Z.of_nat j) - p10 (- Z.of_nat k)) * p10 (Z.of_nat k)) by ring.
    apply Rmult_le_compat_r; lra. }
  assert (N0 : (0 <= n)%Z) by (rewrite En; apply ZnearestE_nonneg, Rmult_le_pos; [apply Rabs_pos|apply bpow_ge_0]).
  assert (L : (String.length (print_N (n / 10 ^ Z.of_nat k)) <= j)%nat).
  { apply print_N_length; [|exact J]. split; [apply Z.div_pos; lia|]. apply Z.div_lt_upper_bound; [lia|].
    rewrite <- Z.pow_add_r by lia. rewrite <- Nat2Z.inj_add. lia. }
  destruct s; cbn [sign_ok] in S.
  - destruct (Req_dec r 0) as [Z|Z].
    + right. split; [exact Z|]. assert (n = 0%Z) by (rewrite En, Z, Rabs_R0, Rmult_0_l; apply (Zrnd_IZR ZnearestE 0)). subst n.
      rewrite H. rewrite Z.div_0_l by lia. change (String.length (print_N 0)) with 1%nat. lia.
    + left. assert (E : Rltb r 0 = true) by (apply Rltb_true; lra). rewrite E. lia.
  - left. lia.
Qed.

Lemma sci_length k r d : sci_ok (Z.of_nat k) r d -> (r = 0 \/ p10 (-998) <= Rabs r < p10 998) ->
  (String.length (print_sci k d) <= (if Rltb r 0 then 1 else 0) + 1 + 1 + k + 2 + 3)%nat.
Proof.
  intros (s & m & e & -> & S & B & C) Hr. cbn [print_sci]. rewrite !length_app_s, sign_str_length.
  destruct (zdigits_spec k m) as (_ & -> & _). cbn [String.length]. unfold print_exp. rewrite length_app_s.
  assert (P : (0 < 10 ^ Z.of_nat k)%Z) by (apply Z.pow_pos_nonneg; lia).
  assert (SL : String.length (if e <? 0 then "-" else "+")%Z = 1%nat) by (destruct (e <? 0)%Z; reflexivity). rewrite SL.
  destruct B as [(-> & -> & R0)|(B & R0 & Be)].
  - rewrite Z.div_0_l by lia. change (String.length (print_N 0)) with 1%nat. change (String.length (pad_left "0"%char 2 (print_N (Z.abs 0)))) with 2%nat. destruct s; destruct (Rltb r 0); lia.
  - destruct Hr as [Hr|[H1 H2]]; [contradiction|].
    assert (Q : String.length (print_N (m / 10 ^ Z.of_nat k)) = 1%nat).
    { apply print_N_1. split; [apply Z.div_pos; lia|]. apply Z.div_lt_upper_bound; [lia|]. rewrite Z.pow_add_r in B by lia. lia. }
    rewrite Q.
    assert (M1 : (-997 <= mag radix10 r)%Z).
    { apply mag_ge_bpow. exact H1. }
    assert (M2 : (mag radix10 r <= 998)%Z) by (apply mag_le_bpow; assumption).
    assert (L : (String.length (print_N (Z.abs e)) <= 3)%nat) by (apply print_N_length; [change (10 ^ Z.of_nat 3)%Z with 1000%Z; lia|lia]).
    assert (L2 : (String.length (pad_left "0"%char 2 (print_N (Z.abs e))) <= 3)%nat).
    { unfold pad_left. rewrite length_app_s, repeat_char_length. lia. }
    destruct s; cbn [sign_ok] in S.
    + assert (E : Rltb r 0 = true) by (apply Rltb_true; lra). rewrite E. lia.
    + destruct (Rltb r 0); lia.
Qed.
