(** The line appended to the cache reads back. *)
From Coq Require Import Ascii.
From Verif.Base Require Import Result Arith Rng.
From Verif.Model Require Import Random Config Nucleon Text Files CrossSection.
From Verif.Spec Require Import Decimal Cache.
From Verif.Proof Require Import Basics TextP FsP CacheP CacheRun.
From Verif.Properties Require Import Cache.
Local Open Scope string_scope.

(** Appending a closed line. *)
Lemma cache_text_snoc es t : cache_text es t -> forall sp en l tail, gap sp -> centry_ok en -> entry_line en l ->
  every blank tail = true -> cache_text (es ++ [en]) (t ++ sp ++ l ++ tail).
Proof.
  induction 1 as [x l0 tail0 Ox El Ht|x l0 s es t Ox El G H IH]; intros sp en l tail Gs Ok Hl Hb; cbn [app].
  - replace ((l0 ++ tail0) ++ sp ++ l ++ tail) with (l0 ++ (tail0 ++ sp) ++ (l ++ tail)) by (rewrite !app_assoc_s; reflexivity).
    constructor; auto; [|constructor; auto].
    destruct Gs as [Gb Gn]. split; [rewrite every_app, Ht, Gb; reflexivity|]. destruct tail0; [exact Gn|discriminate].
  - replace ((l0 ++ s ++ t) ++ sp ++ l ++ tail) with (l0 ++ s ++ (t ++ sp ++ l ++ tail)) by (rewrite !app_assoc_s; reflexivity).
    constructor; auto.
Qed.
(** A closing gap can be counted to the text. *)
Lemma cache_text_tail es t : cache_text es t -> forall sp, every blank sp = true -> cache_text es (t ++ sp).
Proof.
  induction 1 as [x l0 tail0 Ox El Ht|x l0 s es t Ox El G H IH]; intros sp Hb.
  - rewrite app_assoc_s. constructor; auto. rewrite every_app, Ht, Hb. reflexivity.
  - replace ((l0 ++ s ++ t) ++ sp) with (l0 ++ s ++ (t ++ sp)) by (rewrite !app_assoc_s; reflexivity). constructor; auto.
Qed.

Lemma cache_lines_text es t : cache_lines es t -> es <> [] -> cache_text es t.
Proof.
  intros [[E _]|(t0 & sp & T & G & ->)] N; [congruence|]. apply cache_text_tail; [exact T|apply G].
Qed.

Lemma cache_lines_snoc es t en l tail : cache_lines es t -> centry_ok en -> entry_line en l -> gap tail ->
  cache_lines (es ++ [en]) (t ++ l ++ tail).
Proof.
  intros H Ok Hl G. right. destruct H as [[-> ->]|(t0 & sp & T & Gs & ->)].
  - exists l, tail. split; [|split; [exact G|reflexivity]]. cbn. rewrite <- (app_nil_r_s l). constructor; auto.
  - exists (t0 ++ sp ++ l), tail. split; [|split; [exact G|rewrite !app_assoc_s; reflexivity]].
    rewrite <- (app_nil_r_s l). apply cache_text_snoc; auto.
Qed.

(** The appended line is [en], which stands for the configuration, with parameter [sp']. *)
Definition reads_back {A} (cfg : config A) (sp sp' : num A) : Prop :=
  exists en l, centry_ok en /\ entry_line en l /\
    cache_line (constit_number cfg) (nucleon_width cfg) (constit_width cfg) (cross_section cfg) sp = l ++ newline /\
    entry_for cfg en /\ valued A (e_sp en) = sp'.

Section Field.
Variable A : Arith.

Lemma fixed_length k s n : (0 <= n)%Z -> String.length (print_fixed k (FDec s n))
  = ((if s then 1 else 0) + ndigits (n / 10 ^ Z.of_nat k) + 1 + k)%nat.
Proof.
  intros H. assert (P : (0 < 10 ^ Z.of_nat k)%Z) by (apply Z.pow_pos_nonneg; lia).
  destruct (print_N_spec (n / 10 ^ Z.of_nat k) (Z.div_pos _ _ H P)) as (_ & _ & _ & L).
  destruct (zdigits_spec k n) as (_ & Z2 & _).
  unfold print_fixed. rewrite !length_app_s, L, Z2. destruct s; cbn [sign_str String.length]; lia.
Qed.

(** Digits that leave a blank in a ten-character column. *)
Definition fits10 (s : bool) (n : Z) : Prop := (0 <= n < 10 ^ 7 \/ (s = false /\ 0 <= n < 10 ^ 8))%Z.

Lemma fits10_gap s n : fits10 s n ->
  exists sp, gap sp /\ setw 10 (print_fixed 6 (FDec s n)) = sp ++ decimal_text (dec_of_fixed 6 s n).
Proof.
  intros F. assert (N0 : (0 <= n)%Z) by (destruct F as [F|[_ F]]; lia).
  destruct (pad_left_blank 10 (print_fixed 6 (FDec s n))) as (sp & B & E & L).
  exists sp. split; [|rewrite E; f_equal; apply print_fixed_text; exact N0]. split; [exact B|].
  intros ->. cbn [String.length] in L. rewrite fixed_length in L by exact N0.
  change (10 ^ Z.of_nat 6)%Z with 1000000%Z in L.
  assert (D : (n < 10 ^ 7)%Z -> (ndigits (n / 1000000) <= 1)%nat).
  { intros Hn. apply ndigits_le; [|lia]. split; [apply Z.div_pos; lia|]. apply Z.div_lt_upper_bound; lia. }
  assert (D2 : (n < 10 ^ 8)%Z -> (ndigits (n / 1000000) <= 2)%nat).
  { intros Hn. apply ndigits_le; [|lia]. split; [apply Z.div_pos; lia|]. apply Z.div_lt_upper_bound; lia. }
  destruct F as [F|[-> F]]; [specialize (D ltac:(lia)); destruct s; lia|specialize (D2 ltac:(lia)); lia].
Qed.

Lemma sci_length s m e : (0 <= m < 10 ^ 7)%Z -> (Z.abs e < 1000)%Z -> (String.length (print_sci 6 (SDec s m e)) <= 14)%nat /\
  (s = false -> String.length (print_sci 6 (SDec s m e)) <= 13)%nat.
Proof.
  intros H He. destruct (print_N_spec (m / 10 ^ Z.of_nat 6) (Z.div_pos m (10 ^ Z.of_nat 6) (proj1 H) eq_refl)) as (_ & _ & _ & L1).
  destruct (print_N_spec (Z.abs e) (Z.abs_nonneg e)) as (_ & _ & _ & L2).
  destruct (zdigits_spec 6 m) as (_ & Z2 & _).
  assert (D1 : (ndigits (m / 10 ^ Z.of_nat 6) <= 1)%nat).
  { change (10 ^ Z.of_nat 6)%Z with 1000000%Z. apply ndigits_le; [|lia]. split; [apply Z.div_pos; lia|]. apply Z.div_lt_upper_bound; lia. }
  assert (D2 : (ndigits (Z.abs e) <= 3)%nat) by (apply ndigits_le; lia).
  unfold print_sci, print_exp, pad_left. rewrite !length_app_s, L1, Z2, repeat_char_length, L2.
  cbn [String.length]. destruct s, (e <? 0)%Z; cbn [sign_str String.length]; split; intros; try discriminate; lia.
Qed.

Lemma reads_back_digits (cfg : config A) (sp : num A) nw sw nv sv_ ns ss m e :
  in_int (constit_number cfg) = true ->
  nfixed A 6 (nucleon_width cfg) = FDec sw nw -> fits10 sw nw ->
  nfixed A 6 (constit_width cfg) = FDec sv_ nv -> fits10 sv_ nv ->
  nfixed A 6 (cross_section cfg) = FDec ss ns -> fits10 ss ns ->
  nsci A 6 sp = SDec false m e -> (0 <= m < 10 ^ 7)%Z -> (Z.abs e < 1000)%Z ->
  close A (nucleon_width cfg) (nlit A (if sw then - nw else nw) (-6)) ->
  close A (constit_width cfg) (nlit A (if sv_ then - nv else nv) (-6)) ->
  close A (cross_section cfg) (nlit A (if ss then - ns else ns) (-6)) ->
  reads_back cfg sp (nlit A m (e - 6)).
Proof.
  intros Hi Ew Fw Ev Fv Es Fs Ep Hm He Cw Cv Cs.
  destruct (print_Z_text (constit_number cfg)) as (I1 & I2 & I3).
  destruct (fits10_gap sw nw Fw) as (gw & Gw & Tw).
  destruct (fits10_gap sv_ nv Fv) as (gv & Gv & Tv).
  destruct (fits10_gap ss ns Fs) as (gs & Gs & Ts).
  assert (W0 : (0 <= nw)%Z) by (destruct Fw as [F|[_ F]]; lia).
  assert (V0 : (0 <= nv)%Z) by (destruct Fv as [F|[_ F]]; lia).
  assert (S0 : (0 <= ns)%Z) by (destruct Fs as [F|[_ F]]; lia).
  destruct (print_fixed_text 6 sw nw W0) as (_ & Ow & Mw & Xw).
  destruct (print_fixed_text 6 sv_ nv V0) as (_ & Ov & Mv & Xv).
  destruct (print_fixed_text 6 ss ns S0) as (_ & Os & Ms & Xs).
  destruct (print_sci_text 6 false m e ltac:(lia)) as (Tp & Op & Mp & Xp).
  destruct (pad_left_blank 14 (print_sci 6 (SDec false m e))) as (gp & Bp & Eqp & Lp).
  assert (Gp : gap gp).
  { split; [exact Bp|]. intros ->. cbn [String.length] in Lp. pose proof (proj2 (sci_length false m e Hm He) eq_refl). lia. }
  set (pr := repeat_char (Z.to_nat (4 - Z.of_nat (String.length (print_Z (constit_number cfg))))) space).
  assert (Bpr : every blank pr = true) by (apply repeat_char_every; reflexivity).
  set (en := CEntry (int_of (constit_number cfg)) (dec_of_fixed 6 sw nw) (dec_of_fixed 6 sv_ nv) (dec_of_fixed 6 ss ns) (dec_of_sci 6 false m e)).
  exists en. eexists. split; [|split; [|split; [|split]]].
  - unfold centry_ok, en. cbn [e_number e_nw e_cw e_sigma e_sp]. rewrite I3. auto 10.
  - apply (EntryLine en "" (pr ++ gw) gv gs gp); auto.
    destruct Gw as [Gb Gn]. split; [rewrite every_app, Bpr, Gb; reflexivity|]. destruct pr; [exact Gn|discriminate].
  - unfold cache_line. rewrite Ew, Ev, Es, Ep, Tw, Tv, Ts. rewrite Eqp, Tp.
    unfold pad_right. fold pr. rewrite I1. unfold en. cbn [e_number e_nw e_cw e_sigma e_sp append].
    rewrite !app_assoc_s. reflexivity.
  - unfold entry_for, matches, en, valued. cbn [e_number e_nw e_cw e_sigma e_sp].
    rewrite Mw, Xw, Mv, Xv, Ms, Xs. auto.
  - unfold valued, en. cbn [e_sp]. rewrite Mp, Xp. reflexivity.
Qed.
End Field.

(** ** Runs *)
Section Runs.
Context {A : Arith} (R : Rng A).

Lemma dir_not_file (f : fs A) dh : fs_lookup f (cache_dir dh) = Some Dir -> fs_lookup f (cache_file dh) <> Some Dir ->
  norm (cache_dir dh) <> norm (cache_file dh).
Proof.
  intros H1 H2 E. assert (N1 : cache_dir dh <> "") by (apply join_not_empty; discriminate). assert (N2 : cache_file dh <> "") by (apply join_not_empty; discriminate).
  rewrite lookup_ne in H1, H2 by assumption. rewrite E in H1. contradiction.
Qed.

(** A run that returned: either a hit, or computed and appended. *)
Lemma run_step sv fuel e cfg (s s1 : sys R) es sp :
  cache_holds e (s_fs s) es -> (length es < fuel)%nat ->
  partonic_cross_section R sv fuel e cfg s = (Ret sp, s1) ->
  (exists en, first_for cfg es en /\ sp = valued A (e_sp en) /\ s1 = s) \/
  ((forall x, In x es -> ~ entry_for cfg x) /\
   compute_partonic R sv cfg (s_eng s) = (Ret sp, s_eng s1) /\
   forall sp', reads_back cfg sp sp' ->
     exists en, entry_for cfg en /\ valued A (e_sp en) = sp' /\ cache_holds e (s_fs s1) (es ++ [en])).
Proof.
  intros [[-> (dh & D1 & D2 & D3)]|[Hn (t & (dh & D1 & D2 & D3) & Hl)]] Hf H.
  - right. split; [intros x []|]. rewrite (partonic_no_file R sv fuel e cfg s dh D1 D2 D3) in H.
    assert (NE : norm (cache_dir dh) <> norm (cache_file dh)) by (apply (dir_not_file (s_fs s)); congruence).
    unfold computed in H. destruct (compute_partonic R sv cfg (s_eng s)) as [[x|x|x|] en] eqn:C; try discriminate H.
    apply pair_Ret_inj in H. destruct H as [-> <-]. cbn [set_fs s_eng s_fs]. split; [reflexivity|].
    intros sp' (ne & l & Ok & Hl & El & Hm & Hv). exists ne. split; [exact Hm|]. split; [exact Hv|].
    right. split; [discriminate|]. eexists. split.
    + exists dh. split; [exact D1|]. split; [rewrite fs_set_neq by exact NE; exact D2|apply fs_set_eq, join_not_empty; discriminate].
    + rewrite El. apply cache_lines_snoc; auto; [left; auto|apply nl_gap].
  - destruct (C37_lookup A R sv fuel e cfg s es t) as [(en & F & E)|(N & s' & E & E1 & _ & _ & _ & W)].
    + exists dh; auto.
    + apply cache_lines_text; auto.
    + exact Hf.
    + left. exists en. split; [exact F|]. rewrite E in H. apply pair_Ret_inj in H. destruct H as [-> ->]. auto.
    + right. split; [exact N|]. rewrite E in H.
      destruct (compute_partonic R sv cfg (s_eng s)) as [r en] eqn:C. cbn [fst snd] in *.
      destruct r as [x|x|x|]; try discriminate H.
      apply pair_Ret_inj in H. destruct H as [-> <-]. rewrite E1. split; [reflexivity|].
      intros sp' (ne & l & Ok & Hl' & El & Hm & Hv). exists ne. split; [exact Hm|]. split; [exact Hv|].
      right. split; [destruct es; discriminate|]. eexists. split; [exact W|].
      rewrite El. apply cache_lines_snoc; auto. apply nl_gap.
Qed.

(** A run on a cache with an entry for the configuration hits. *)
Lemma run_hit sv fuel e cfg (s : sys R) es en :
  cache_holds e (s_fs s) es -> (length es < fuel)%nat -> first_for cfg es en ->
  partonic_cross_section R sv fuel e cfg s = (Ret (valued A (e_sp en)), s).
Proof.
  intros [[-> _]|[Hn (t & (dh & D1 & D2 & D3) & Hl)]] Hf F.
  - destruct F as (b & a & E & _). destruct b; discriminate E.
  - rewrite (partonic_cached R sv fuel e cfg s t dh D1 D2 D3).
    rewrite (cache_loop_text A _ _ _ _ es t cvars_uninit fuel (cache_lines_text _ _ Hl Hn) Hf).
    rewrite (find_first cfg es en F). reflexivity.
Qed.

Lemma first_app (cfg : config A) es en more : first_for cfg es en -> first_for cfg (es ++ more) en.
Proof. intros (b & a & -> & H). exists b, (a ++ more)%list. split; [rewrite <- app_assoc; reflexivity|exact H]. Qed.
Lemma first_new (cfg : config A) es en : (forall x, In x es -> ~ entry_for cfg x) -> entry_for cfg en -> first_for cfg (es ++ [en]) en.
Proof. intros H1 H2. exists es, []. auto. Qed.
End Runs.
