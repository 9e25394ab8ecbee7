(** C37 and C39: looking up the cross-section cache, for every arithmetic. *)
From Coq Require Import Ascii.
From Flocq Require Import Core BinarySingleNaN.
From Verif.Base Require Import Result Arith FArith Rng.
From Verif.Model Require Import Random Config Nucleon Text Files CrossSection.
From Verif.Spec Require Import Contract Demo Decimal Cache.
From Verif.Proof Require Import Basics TextP FsP CacheP CacheRun.
Local Open Scope string_scope.

(** The entry is for the parameters of a configuration. *)
Definition entry_for {A} (cfg : config A) (en : centry) : Prop :=
  matches A (nucleon_width cfg) (constit_width cfg) (constit_number cfg) (cross_section cfg) en.

(** [en] is the first entry of [es] for the configuration. *)
Definition first_for {A} (cfg : config A) (es : list centry) (en : centry) : Prop :=
  exists before after, es = (before ++ en :: after)%list /\
    (forall x, In x before -> ~ entry_for cfg x) /\ entry_for cfg en.

Section Find.
Context {A : Arith} (cfg : config A).
Local Notation mb := (matchesb A (nucleon_width cfg) (constit_width cfg) (constit_number cfg) (cross_section cfg)).

Lemma find_first es en : first_for cfg es en -> find mb es = Some en.
Proof.
  intros (b & a & -> & Hb & Hm). induction b as [|x b IH]; simpl.
  - destruct (mb en) eqn:E; [reflexivity|]. apply matchesb_spec in Hm. congruence.
  - destruct (mb x) eqn:E; [|apply IH; intros y Hy; apply Hb; right; exact Hy].
    exfalso. apply (Hb x (or_introl eq_refl)). apply matchesb_spec. exact E.
Qed.
Lemma find_none es : (forall en, In en es -> ~ entry_for cfg en) -> find mb es = None.
Proof.
  induction es as [|x es IH]; simpl; auto. intros H.
  destruct (mb x) eqn:E; [|apply IH; intros y Hy; apply H; right; exact Hy].
  exfalso. apply (H x (or_introl eq_refl)). apply matchesb_spec. exact E.
Qed.
Lemma first_or_none es : (exists en, first_for cfg es en) \/ (forall en, In en es -> ~ entry_for cfg en).
Proof.
  induction es as [|x es [[en (b & a & E & Hb & Hm)]|H]].
  - right. intros en [].
  - destruct (mb x) eqn:E1.
    + left. exists x, [], es. split; [reflexivity|]. split; [intros y []|]. apply matchesb_spec. exact E1.
    + left. exists en, (x :: b), a. split; [rewrite E; reflexivity|]. split; [|exact Hm].
      intros y [->|Hy]; [|apply Hb; exact Hy]. intros M. apply matchesb_spec in M. congruence.
  - destruct (mb x) eqn:E1.
    + left. exists x, [], es. split; [reflexivity|]. split; [intros y []|]. apply matchesb_spec. exact E1.
    + right. intros y [->|Hy]; [|apply H; exact Hy]. intros M. apply matchesb_spec in M. congruence.
Qed.
End Find.

(** C37: on a well-formed cache the parameter returned is that of the first
    entry for the configuration, and nothing else happens: no file changes, no
    random number is drawn, nothing is printed.  Only when there is no such entry
    is the parameter computed; the line is then appended to the file. *)
Theorem C37_lookup : forall (A : Arith) (R : Rng A) (sv : Solver A) fuel e (cfg : config A) (s : sys R) es t,
  world_cache e (s_fs s) t -> cache_text es t -> (length es < fuel)%nat ->
  (exists en, first_for cfg es en /\ partonic_cross_section R sv fuel e cfg s = (Ret (valued A (e_sp en)), s)) \/
  ((forall en, In en es -> ~ entry_for cfg en) /\
   exists s', partonic_cross_section R sv fuel e cfg s = (fst (compute_partonic R sv cfg (s_eng s)), s') /\
     s_eng s' = snd (compute_partonic R sv cfg (s_eng s)) /\ s_out s' = s_out s /\ s_err s' = s_err s /\
     only_cache_differs e (s_fs s) (s_fs s') /\
     world_cache e (s_fs s') match fst (compute_partonic R sv cfg (s_eng s)) with
       | Ret sp => t ++ cache_line (constit_number cfg) (nucleon_width cfg) (constit_width cfg) (cross_section cfg) sp
       | _ => t
       end).
Proof.
  intros A R sv fuel e cfg s es t (dh & D1 & D2 & D3) Ht Hf.
  rewrite (partonic_cached R sv fuel e cfg s t dh D1 D2 D3).
  rewrite (cache_loop_text A _ _ _ _ es t cvars_uninit fuel Ht Hf).
  destruct (first_or_none cfg es) as [[en F]|N].
  - left. exists en. split; [exact F|]. rewrite (find_first cfg es en F). reflexivity.
  - right. split; [exact N|]. rewrite (find_none cfg es N). cbn [option_map].
    unfold computed.
    assert (NE : norm (cache_dir dh) <> norm (cache_file dh)).
    { intros E. assert (fs_lookup (s_fs s) (cache_dir dh) = fs_lookup (s_fs s) (cache_file dh)) by (rewrite !lookup_ne by (apply join_not_empty; discriminate); rewrite E; reflexivity).
      congruence. }
    assert (OD : forall n, only_cache_differs e (s_fs s) (fs_set (s_fs s) (cache_file dh) n)).
    { intros n dh' p D Hp. rewrite D1 in D. assert (dh' = dh) by congruence. subst dh'. apply fs_set_neq. exact Hp. }
    assert (WC : forall x, world_cache e (fs_set (s_fs s) (cache_file dh) (File x)) x).
    { intros x. exists dh. split; [exact D1|]. split; [rewrite fs_set_neq by exact NE; exact D2|apply fs_set_eq, join_not_empty; discriminate]. }
    destruct (compute_partonic R sv cfg (s_eng s)) as [[sp|x|u|] en] eqn:C; cbn [fst snd];
      eexists; (split; [reflexivity|]); cbn [set_fs s_eng s_fs s_out s_err];
      (split; [reflexivity|]); (split; [reflexivity|]); (split; [reflexivity|]); split; auto.
Qed.

(** ** C39 *)

(** Text whose first non-blank character cannot start an integer. *)
Definition not_a_number (t : string) : Prop :=
  exists sp rest, t = sp ++ rest /\ every blank sp = true /\
    match rest with
    | String c _ => digit c = false /\ blank c = false /\ c <> "+"%char /\ c <> "-"%char
    | "" => True
    end.
(** ... and which has such a character. *)
Definition garbage (t : string) : Prop :=
  exists sp c rest, t = sp ++ String c rest /\ every blank sp = true /\
    digit c = false /\ blank c = false /\ c <> "+"%char /\ c <> "-"%char.

Lemma garbage_not_a_number t : garbage t -> not_a_number t.
Proof. intros (sp & c & rest & E & B & H). exists sp, (String c rest). auto. Qed.

Lemma no_sign c rest : c <> "+"%char -> c <> "-"%char -> take_sign (String c rest) = (false, String c rest).
Proof.
  intros H1 H2. unfold take_sign.
  destruct c as [[] [] [] [] [] [] [] []]; try reflexivity; exfalso; first [apply H1; reflexivity|apply H2; reflexivity].
Qed.

Section Garbage.
Variable A : Arith.

Lemma fail_double i : is_fail i = true -> read_double A i = (Unchanged, Istream (is_rest i) (is_eof i) true).
Proof. intros H. unfold read_double, sentry. rewrite H, orb_true_r. reflexivity. Qed.
Lemma fail_int i : is_fail i = true -> read_int i = (Unchanged, Istream (is_rest i) (is_eof i) true).
Proof. intros H. unfold read_int, sentry. rewrite H, orb_true_r. reflexivity. Qed.

Lemma read_entry_failed rest eof (v : cvars A) :
  read_entry (Istream rest eof true) v = (Istream rest eof true, v).
Proof.
  unfold read_entry. rewrite fail_int by reflexivity. rewrite !fail_double by reflexivity. destruct v; reflexivity.
Qed.

Lemma read_entry_garbage sp c rest (v : cvars A) : every blank sp = true ->
  digit c = false -> blank c = false -> c <> "+"%char -> c <> "-"%char ->
  read_entry (Istream (sp ++ String c rest) false false) v
  = (Istream (String c rest) false true, CVars (Some 0%Z) (cv_nw v) (cv_cw v) (cv_sigma v) (cv_sp v)).
Proof.
  intros Hb Hd Hk H1 H2. unfold read_entry.
  assert (S : read_int (Istream (sp ++ String c rest) false false) = (Assigned 0%Z, Istream (String c rest) false true)).
  { unfold read_int, sentry. cbn [is_eof is_fail is_rest orb].
    rewrite (skip_space_app sp (String c rest)) by (auto; exact Hk). cbn [at_end is_rest].
    rewrite no_sign by assumption. cbn [span_digits]. change (is_digit c) with (digit c). rewrite Hd. reflexivity. }
  rewrite S. rewrite !fail_double by reflexivity. destruct v; reflexivity.
Qed.
End Garbage.

(** An empty file, or one that does not start with a number: the first
    comparison reads an uninitialised variable, whatever is requested. *)
Theorem C39_uninitialised : forall (A : Arith) (R : Rng A) (sv : Solver A) fuel e (cfg : config A) (s : sys R) t,
  world_cache e (s_fs s) t -> not_a_number t -> (0 < fuel)%nat ->
  partonic_cross_section R sv fuel e cfg s = (UB UbUninit, s).
Proof.
  intros A R sv fuel e cfg s t (dh & D1 & D2 & D3) (sp & rest & Et & Hb & Hr) Hf.
  rewrite (partonic_cached R sv fuel e cfg s t dh D1 D2 D3). subst t.
  destruct fuel as [|fuel]; [lia|]. cbn [cache_loop is_eof].
  destruct rest as [|c rest].
  - rewrite app_nil_r_s, read_entry_end by exact Hb. reflexivity.
  - destruct Hr as (H1 & H2 & H3 & H4). rewrite read_entry_garbage by assumption. reflexivity.
Qed.

(** After entries that do not match, text that is not a number makes the loop
    run forever (every amount of fuel is exhausted, nothing is ever changed). *)
Lemma spin (A : Arith) w v m sigma en c rest fuel (cv : cvars A) :
  (0 <> m)%Z -> cv = CVars (Some 0%Z) (cv_nw (vars_of A en)) (cv_cw (vars_of A en)) (cv_sigma (vars_of A en)) (cv_sp (vars_of A en)) ->
  cache_loop fuel w v m sigma (Istream (String c rest) false true) cv = OutOfFuel.
Proof.
  intros Hm ->. induction fuel as [|fuel IH]; [reflexivity|]. cbn [cache_loop is_eof].
  rewrite read_entry_failed. unfold entry_matches at 1. cbn [vars_of cv_nw cv_cw cv_sigma cv_number read_var rbind].
  destruct (almost_equal w _); [|exact IH]. cbn [negb].
  destruct (almost_equal v _); [|exact IH]. cbn [negb].
  destruct (almost_equal sigma _); [|exact IH]. cbn [negb].
  replace (m =? 0)%Z with false by (symmetry; apply Z.eqb_neq; auto). exact IH.
Qed.

Lemma spin_entries (A : Arith) w v m sigma es t g : cache_text es t -> garbage g -> (0 <> m)%Z ->
  (forall en, In en es -> ~ matches A w v m sigma en) ->
  forall tail pre fuel (cv : cvars A), every blank pre = true -> gap tail ->
  cache_loop fuel w v m sigma (Istream (pre ++ t ++ tail ++ g) false false) cv = OutOfFuel.
Proof.
  intros H (sp & c & rest & -> & Hb & G1 & G2 & G3 & G4) Hm Hn.
  assert (Gcase : forall en tail fuel, every blank tail = true -> ~ matches A w v m sigma en ->
    cache_loop fuel w v m sigma (Istream (tail ++ sp ++ String c rest) false false) (vars_of A en) = OutOfFuel).
  { intros en tail fuel Ht Hne. destruct fuel as [|fuel]; [reflexivity|]. cbn [cache_loop is_eof].
    rewrite <- app_assoc_s. rewrite read_entry_garbage by (auto; rewrite every_app, Ht, Hb; reflexivity).
    unfold entry_matches at 1. cbn [vars_of cv_nw cv_cw cv_sigma cv_number read_var rbind].
    assert (K : cache_loop fuel w v m sigma (Istream (String c rest) false true)
      (CVars (Some 0%Z) (Some (valued A (e_nw en))) (Some (valued A (e_cw en))) (Some (valued A (e_sigma en))) (Some (valued A (e_sp en)))) = OutOfFuel)
      by (apply (spin A w v m sigma en); auto).
    destruct (almost_equal w _); [|exact K]. cbn [negb].
    destruct (almost_equal v _); [|exact K]. cbn [negb].
    destruct (almost_equal sigma _); [|exact K]. cbn [negb].
    replace (m =? 0)%Z with false by (symmetry; apply Z.eqb_neq; auto). exact K. }
  induction H as [en l tail0 Ok El Ht|en l s es t Ok El G H IH]; intros tail pre fuel cv Hp Gt.
  - destruct fuel as [|fuel]; [reflexivity|]. cbn [cache_loop is_eof].
    replace (pre ++ (l ++ tail0) ++ tail ++ sp ++ String c rest) with ((pre ++ l) ++ ((tail0 ++ tail) ++ sp ++ String c rest))
      by (rewrite !app_assoc_s; reflexivity).
    rewrite (read_entry_line A en (pre ++ l) _ cv Ok (entry_line_blank _ _ _ Hp El)).
    2:{ apply gap_ends. destruct Gt as [Gb Gn]. split; [rewrite every_app, Ht, Gb; reflexivity|].
        destruct tail0; [exact Gn|discriminate]. }
    rewrite entry_matches_vars. cbn [rbind].
    destruct (matchesb A w v m sigma en) eqn:M.
    { exfalso. apply (Hn en (or_introl eq_refl)). apply matchesb_spec. exact M. }
    assert (E : at_end ((tail0 ++ tail) ++ sp ++ String c rest) = false).
    { destruct Gt as [_ Gn]. destruct tail0; [destruct tail; [congruence|reflexivity]|reflexivity]. }
    rewrite E. apply Gcase; [rewrite every_app, Ht; apply Gt|apply Hn; left; reflexivity].
  - destruct fuel as [|fuel]; [reflexivity|]. cbn [cache_loop is_eof].
    replace (pre ++ (l ++ s ++ t) ++ tail ++ sp ++ String c rest) with ((pre ++ l) ++ s ++ t ++ tail ++ sp ++ String c rest)
      by (rewrite !app_assoc_s; reflexivity).
    rewrite (read_entry_line A en (pre ++ l) _ cv Ok (entry_line_blank _ _ _ Hp El)) by (apply gap_ends; exact G).
    rewrite entry_matches_vars. cbn [rbind].
    destruct (matchesb A w v m sigma en) eqn:M.
    { exfalso. apply (Hn en (or_introl eq_refl)). apply matchesb_spec. exact M. }
    assert (E : at_end (s ++ t ++ tail ++ sp ++ String c rest) = false).
    { destruct G as [_ Gn]. destruct s; [congruence|reflexivity]. }
    rewrite E. apply IH; auto; [|apply G]. intros x Hx. apply Hn. right. exact Hx.
Qed.

Theorem C39_endless : forall (A : Arith) (R : Rng A) (sv : Solver A) fuel e (cfg : config A) (s : sys R) es t sp g,
  world_cache e (s_fs s) (t ++ sp ++ g) -> cache_text es t -> gap sp -> garbage g ->
  (forall en, In en es -> ~ entry_for cfg en) -> constit_number cfg <> 0%Z ->
  partonic_cross_section R sv fuel e cfg s = (OutOfFuel, s).
Proof.
  intros A R sv fuel e cfg s es t sp g (dh & D1 & D2 & D3) Ht Gs Gg Hn Hm.
  rewrite (partonic_cached R sv fuel e cfg s _ dh D1 D2 D3).
  pose proof (spin_entries A (nucleon_width cfg) (constit_width cfg) (constit_number cfg) (cross_section cfg) es t g Ht Gg
                (not_eq_sym Hm) Hn sp "" fuel cvars_uninit eq_refl Gs) as K. cbn [append] in K. rewrite K. reflexivity.
Qed.

(** A run that cannot determine the parameter leaves an empty file behind when
    there was none, and then every following run is undefined. *)
Theorem C39_failed_fit : forall (A : Arith) (R : Rng A) (sv : Solver A) fuel e (cfg : config A) (s : sys R),
  world_no_cache e (s_fs s) -> (forall x, fst (compute_partonic R sv cfg (s_eng s)) <> Ret x) ->
  exists r s', partonic_cross_section R sv fuel e cfg s = (r, s') /\ (forall x, r <> Ret x) /\
    world_cache e (s_fs s') "" /\
    forall fuel' (sv' : Solver A) (cfg' : config A) (s2 : sys R), s_fs s2 = s_fs s' -> (0 < fuel')%nat ->
      partonic_cross_section R sv' fuel' e cfg' s2 = (UB UbUninit, s2).
Proof.
  intros A R sv fuel e cfg s (dh & D1 & D2 & D3) Hc.
  rewrite (partonic_no_file R sv fuel e cfg s dh D1 D2 D3). unfold computed.
  assert (NE : norm (cache_dir dh) <> norm (cache_file dh)).
  { intros E. assert (fs_lookup (s_fs s) (cache_dir dh) = fs_lookup (s_fs s) (cache_file dh)) by (rewrite !lookup_ne by (apply join_not_empty; discriminate); rewrite E; reflexivity).
    congruence. }
  assert (WC : world_cache e (fs_set (s_fs s) (cache_file dh) (File "")) "").
  { exists dh. split; [exact D1|]. split; [rewrite fs_set_neq by exact NE; exact D2|apply fs_set_eq, join_not_empty; discriminate]. }
  destruct (compute_partonic R sv cfg (s_eng s)) as [[sp|x|u|] en] eqn:C; cbn [fst] in Hc; [exfalso; eapply Hc; reflexivity| | |];
    eexists; eexists; (split; [reflexivity|]); (split; [intros y; discriminate|]); (split; [exact WC|]);
    intros fuel' sv' cfg' s2 E Hf; apply (C39_uninitialised A R sv' fuel' e cfg' s2 ""); auto;
    try (rewrite E; exact WC); exists "", ""; auto.
Qed.

(** A line cut off after its fourth number: the parameter of the line before is
    returned for it. *)
Inductive cut_line (en : centry) : string -> Prop :=
| CutLine : forall s0 s1 s2 s3 tail,
    every blank s0 = true -> gap s1 -> gap s2 -> gap s3 -> every blank tail = true ->
    cut_line en (s0 ++ integer_text (e_number en) ++ s1 ++ decimal_text (e_nw en) ++ s2 ++
                 decimal_text (e_cw en) ++ s3 ++ decimal_text (e_sigma en) ++ tail).

Lemma read_cut (A : Arith) en l (cv : cvars A) : centry_ok en -> cut_line en l ->
  exists i, read_entry (Istream l false false) cv
   = (i, CVars (cv_number (vars_of A en)) (cv_nw (vars_of A en)) (cv_cw (vars_of A en)) (cv_sigma (vars_of A en)) (cv_sp cv)).
Proof.
  intros (O1 & O1' & O2 & O3 & O4 & O5) [s0 s1 s2 s3 tail B0 G1 G2 G3 B4].
  unfold read_entry.
  rewrite read_int_text by auto using gap_ends.
  assert (NE : forall s t, gap s -> at_end (s ++ t) = false).
  { intros s t [_ Hn]. destruct s; [congruence|reflexivity]. }
  rewrite NE by assumption.
  rewrite (read_double_text A s1) by (try apply G1; auto using gap_ends). rewrite NE by assumption.
  rewrite (read_double_text A s2) by (try apply G2; auto using gap_ends). rewrite NE by assumption.
  rewrite (read_double_text A s3) by (try apply G3; auto using blank_ends).
  assert (L : exists i, read_double A (Istream tail (at_end tail) false) = (Unchanged, i)).
  { unfold read_double, sentry. cbn [is_fail is_eof is_rest]. destruct (at_end tail) eqn:E; cbn [orb]; [eexists; reflexivity|].
    assert (K : skip_space tail = "") by (rewrite <- (app_nil_r_s tail); apply skip_space_app; [exact B4|exact I]).
    rewrite K. eexists; reflexivity. }
  destruct L as [i ->]. exists i. reflexivity.
Qed.

Lemma cut_line_blank en l pre : every blank pre = true -> cut_line en l -> cut_line en (pre ++ l).
Proof.
  intros Hp [s0 s1 s2 s3 tail B0 G1 G2 G3 G4].
  rewrite <- app_assoc_s. constructor; auto. rewrite every_app, Hp, B0. reflexivity.
Qed.

Lemma cut_entries (A : Arith) w v m sigma en l : centry_ok en -> cut_line en l -> matches A w v m sigma en ->
  forall es t, cache_text es t -> (forall x, In x es -> ~ matches A w v m sigma x) ->
  forall tail pre fuel (cv : cvars A), every blank pre = true -> gap tail -> (length es < fuel)%nat ->
  cache_loop fuel w v m sigma (Istream (pre ++ t ++ tail ++ l) false false) cv
  = Ret (option_map (fun x => valued A (e_sp x)) (last (map Some es) None)).
Proof.
  intros Ok Hl Hm es t H Hn. induction H as [x l0 tail0 Ox El Ht|x l0 s es t Ox El G H IH]; intros tail pre fuel cv Hp Gt Hf.
  - destruct fuel as [|fuel]; [simpl in Hf; lia|]. cbn [cache_loop is_eof].
    replace (pre ++ (l0 ++ tail0) ++ tail ++ l) with ((pre ++ l0) ++ ((tail0 ++ tail) ++ l)) by (rewrite !app_assoc_s; reflexivity).
    assert (GG : gap (tail0 ++ tail)).
    { destruct Gt as [Gb Gn]. split; [rewrite every_app, Ht, Gb; reflexivity|]. destruct tail0; [exact Gn|discriminate]. }
    rewrite (read_entry_line A x (pre ++ l0) _ cv Ox (entry_line_blank _ _ _ Hp El)) by (apply gap_ends; exact GG).
    rewrite entry_matches_vars. cbn [rbind].
    destruct (matchesb A w v m sigma x) eqn:M.
    { exfalso. apply (Hn x (or_introl eq_refl)). apply matchesb_spec. exact M. }
    assert (E : at_end ((tail0 ++ tail) ++ l) = false).
    { destruct GG as [_ Gn]. destruct (tail0 ++ tail); [congruence|reflexivity]. }
    rewrite E. destruct fuel as [|fuel]; [simpl in Hf; lia|]. cbn [cache_loop is_eof].
    destruct (read_cut A en ((tail0 ++ tail) ++ l) (vars_of A x) Ok (cut_line_blank _ _ _ (proj1 GG) Hl)) as [i ->].
    apply matchesb_spec in Hm.
    assert (EM : entry_matches w v m sigma (CVars (cv_number (vars_of A en)) (cv_nw (vars_of A en)) (cv_cw (vars_of A en))
        (cv_sigma (vars_of A en)) (cv_sp (vars_of A x))) = Ret true).
    { rewrite <- Hm. rewrite <- entry_matches_vars. reflexivity. }
    rewrite EM. reflexivity.
  - destruct fuel as [|fuel]; [simpl in Hf; lia|]. cbn [cache_loop is_eof].
    replace (pre ++ (l0 ++ s ++ t) ++ tail ++ l) with ((pre ++ l0) ++ s ++ t ++ tail ++ l) by (rewrite !app_assoc_s; reflexivity).
    rewrite (read_entry_line A x (pre ++ l0) _ cv Ox (entry_line_blank _ _ _ Hp El)) by (apply gap_ends; exact G).
    rewrite entry_matches_vars. cbn [rbind].
    destruct (matchesb A w v m sigma x) eqn:M.
    { exfalso. apply (Hn x (or_introl eq_refl)). apply matchesb_spec. exact M. }
    assert (E : at_end (s ++ t ++ tail ++ l) = false).
    { destruct G as [_ Gn]. destruct s; [congruence|reflexivity]. }
    rewrite E. rewrite IH; auto; [|intros y Hy; apply Hn; right; exact Hy|apply G|simpl in Hf; lia].
    destruct H; reflexivity.
Qed.

Theorem C39_cut_line : forall (A : Arith) (R : Rng A) (sv : Solver A) fuel e (cfg : config A) (s : sys R) es before t sp en l,
  world_cache e (s_fs s) (t ++ sp ++ l) -> cache_text (es ++ [before]) t -> gap sp ->
  centry_ok en -> cut_line en l -> entry_for cfg en ->
  (forall x, In x (es ++ [before])%list -> ~ entry_for cfg x) -> (S (length es) < fuel)%nat ->
  partonic_cross_section R sv fuel e cfg s = (Ret (valued A (e_sp before)), s).
Proof.
  intros A R sv fuel e cfg s es before t sp en l (dh & D1 & D2 & D3) Ht Gs Ok Hl Hm Hn Hf.
  rewrite (partonic_cached R sv fuel e cfg s _ dh D1 D2 D3).
  pose proof (cut_entries A (nucleon_width cfg) (constit_width cfg) (constit_number cfg) (cross_section cfg) en l Ok Hl Hm
                (es ++ [before]) t Ht Hn sp "" fuel cvars_uninit eq_refl Gs) as K.
  cbn [append] in K. rewrite K by (rewrite app_length; simpl; lia).
  rewrite map_app. cbn [map]. rewrite last_last. reflexivity.
Qed.

(** Reading a well-formed file ends: the run itself ends exactly if determining
    the parameter does. *)
Theorem C39_well_formed_ends : forall (A : Arith) (R : Rng A) (sv : Solver A) fuel e (cfg : config A) (s : sys R) es t,
  world_cache e (s_fs s) t -> cache_text es t -> (length es < fuel)%nat ->
  (exists sp, partonic_cross_section R sv fuel e cfg s = (Ret sp, s)) \/
  fst (partonic_cross_section R sv fuel e cfg s) = fst (compute_partonic R sv cfg (s_eng s)).
Proof.
  intros A R sv fuel e cfg s es t W T F.
  destruct (C37_lookup A R sv fuel e cfg s es t W T F) as [(en & _ & E)|(_ & s' & E & _)]; rewrite E; [left; eauto|right; reflexivity].
Qed.

(** ** Concrete cases *)
Definition ex_text : string :=
"6    0.700000  0.400000  6.400000  1.250000e+01
1    0.500000  0.500000  6.400000  9.100000e+00
".
Definition ex_first : centry := CEntry (Integer false "6") (Decimal false "0" (Some "700000") None)
  (Decimal false "0" (Some "400000") None) (Decimal false "6" (Some "400000") None)
  (Decimal false "1" (Some "250000") (Some (false, "01"))).
Definition ex_second : centry := CEntry (Integer false "1") (Decimal false "0" (Some "500000") None)
  (Decimal false "0" (Some "500000") None) (Decimal false "6" (Some "400000") None)
  (Decimal false "9" (Some "100000") (Some (false, "00"))).

Lemma ex_first_ok : centry_ok ex_first.
Proof. repeat split; discriminate. Qed.
Lemma ex_second_ok : centry_ok ex_second.
Proof. repeat split; discriminate. Qed.
Lemma ex_gap k : gap (repeat_char (S k) " ").
Proof. split; [apply repeat_char_every; reflexivity|discriminate]. Qed.

Definition ex_line1 := "6    0.700000  0.400000  6.400000  1.250000e+01".
Definition ex_line2 := "1    0.500000  0.500000  6.400000  9.100000e+00".
Lemma ex_line1_ok : entry_line ex_first ex_line1.
Proof. exact (EntryLine ex_first "" "    " "  " "  " "  " eq_refl (ex_gap 3) (ex_gap 1) (ex_gap 1) (ex_gap 1)). Qed.
Lemma ex_line2_ok : entry_line ex_second ex_line2.
Proof. exact (EntryLine ex_second "" "    " "  " "  " "  " eq_refl (ex_gap 3) (ex_gap 1) (ex_gap 1) (ex_gap 1)). Qed.
Lemma nl_gap : gap newline.
Proof. split; [reflexivity|discriminate]. Qed.
Lemma ex_text_ok : cache_text [ex_first; ex_second] ex_text.
Proof.
  exact (cache_more ex_first ex_line1 newline [ex_second] _ ex_first_ok ex_line1_ok nl_gap
    (cache_last ex_second ex_line2 newline ex_second_ok ex_line2_ok eq_refl)).
Qed.

Definition ex_fs (t : string) : fs DA :=
  [("/data", Dir); ("/data/trento", Dir); ("/data/trento/cross_section.cache", File t)].
Definition ex_sys (t : string) : sys demo_rng := @Sys DA demo_rng 0%nat (ex_fs t) "" "".
Lemma ex_world t : world_cache demo_env (s_fs (ex_sys t)) t.
Proof. exists "/data". repeat split. Qed.

Lemma ex_match_second : entry_for demo_config ex_second.
Proof. split; [reflexivity|]. split; [|split]; vm_cast_no_check (eq_refl true). Qed.
Lemma ex_no_match_first : ~ entry_for demo_config ex_first.
Proof. intros [E _]. discriminate E. Qed.

(** The second line is found (C37). *)
Example C37_instance : first_for demo_config [ex_first; ex_second] ex_second /\
  partonic_cross_section demo_rng demo_solver 3 demo_env demo_config (ex_sys ex_text)
  = (Ret (nlit DA 9100000 (-6)), ex_sys ex_text).
Proof.
  assert (F : first_for demo_config [ex_first; ex_second] ex_second).
  { exists [ex_first], []. split; [reflexivity|]. split; [|exact ex_match_second].
    intros x [<-|[]]. exact ex_no_match_first. }
  split; [exact F|].
  destruct (C37_lookup DA demo_rng demo_solver 3 demo_env demo_config (ex_sys ex_text) _ ex_text
    (ex_world _) ex_text_ok ltac:(simpl; lia)) as [(en & (b & a & E & Hb & Hm) & R)|(N & _)].
  - destruct b as [|b1 [|b2 [|b3 b]]]; simpl in E.
    + exfalso. apply ex_no_match_first. assert (en = ex_first) by congruence. subst en. exact Hm.
    + assert (en = ex_second) by congruence. subst en. exact R.
    + exfalso. assert (N : @nil centry = (en :: a)%list) by congruence. discriminate N.
    + exfalso. assert (N : @nil centry = (b3 :: b ++ en :: a)%list) by congruence. discriminate N.
  - exfalso. apply (N ex_second (or_intror (or_introl eq_refl))). exact ex_match_second.
Qed.

(** An empty file, a file of text, a stale tail (C39). *)
Example C39_instances :
  partonic_cross_section demo_rng demo_solver 5 demo_env demo_config (ex_sys "") = (UB UbUninit, ex_sys "") /\
  partonic_cross_section demo_rng demo_solver 5 demo_env demo_config (ex_sys "cache") = (UB UbUninit, ex_sys "cache") /\
  (forall fuel, partonic_cross_section demo_rng demo_solver fuel demo_env demo_config (ex_sys (ex_line1 ++ newline ++ "oops"))
    = (OutOfFuel, ex_sys (ex_line1 ++ newline ++ "oops"))) /\
  (* the second line was cut: the parameter of the first line is returned *)
  partonic_cross_section demo_rng demo_solver 3 demo_env demo_config
    (ex_sys (ex_line1 ++ newline ++ "1    0.500000  0.500000  6.400000  "))
  = (Ret (nlit DA 1250000 (-5)), ex_sys (ex_line1 ++ newline ++ "1    0.500000  0.500000  6.400000  ")).
Proof.
  assert (L1 : cache_text [ex_first] ex_line1).
  { rewrite <- (app_nil_r_s ex_line1). apply cache_last; [apply ex_first_ok|apply ex_line1_ok|reflexivity]. }
  assert (N1 : forall x, In x [ex_first] -> ~ entry_for demo_config x).
  { intros x [<-|[]]. exact ex_no_match_first. }
  split; [|split; [|split]].
  - apply (C39_uninitialised DA demo_rng demo_solver 5 demo_env demo_config (ex_sys "") "" (ex_world _)); [|lia].
    exists "", "". split; [reflexivity|]. split; reflexivity.
  - apply (C39_uninitialised DA demo_rng demo_solver 5 demo_env demo_config (ex_sys "cache") "cache" (ex_world _)); [|lia].
    exists "", "cache". repeat split; discriminate.
  - intros fuel. apply (C39_endless DA demo_rng demo_solver fuel demo_env demo_config _ [ex_first] ex_line1 newline "oops" (ex_world _) L1 nl_gap).
    + exists "", "o"%char, "ops". repeat split; discriminate.
    + exact N1.
    + discriminate.
  - apply (C39_cut_line DA demo_rng demo_solver 3 demo_env demo_config _ [] ex_first ex_line1 newline ex_second
       "1    0.500000  0.500000  6.400000  " (ex_world _) L1 nl_gap ex_second_ok).
    + exact (CutLine ex_second "" "    " "  " "  " "  " eq_refl (ex_gap 3) (ex_gap 1) (ex_gap 1) eq_refl).
    + exact ex_match_second.
    + exact N1.
    + simpl; lia.
Qed.

(** A solver that fails leaves the empty file (C39). *)
Definition failing_solver : Solver DA :=
  MkSolver DA (fun S f lo hi _ _ => throw (DomainError "no sign change")).
Example C39_failed_fit_instance :
  let s := @Sys DA demo_rng 0%nat [("/data", Dir); ("/data/trento", Dir)] "" "" in
  world_no_cache demo_env (s_fs s) /\
  forall x, fst (compute_partonic demo_rng failing_solver demo_config (s_eng s)) <> Ret x.
Proof.
  split; [exists "/data"; repeat split|]. intros x H. discriminate H.
Qed.
