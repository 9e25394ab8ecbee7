(** C38, negative part: sigma_NN of 100 or more fills its ten-character column,
    merges with the one before, and is never found again. *)
From Coq Require Import Ascii Reals Lra Psatz.
From Flocq Require Import Core BinarySingleNaN.
From Verif.Base Require Import Result Arith RArith FArith Rng.
From Verif.Model Require Import Random Config Nucleon Text Files CrossSection.
From Verif.Spec Require Import Contract Demo Decimal Cache.
From Verif.Proof Require Import Basics TextP FsP CacheP CacheRun CacheWrite Ieee DecR.
From Verif.Properties Require Import Cache RoundTrip.
Local Open Scope string_scope.
Local Open Scope Z_scope.

Section Merged.
Variable A : Arith.

(** "ddd.ddd" followed by a second point. *)
Lemma read_merged sp neg ip f rest : every blank sp = true -> every digit ip = true -> ip <> "" -> every digit f = true ->
  read_double A (Istream (sp ++ sign_of neg ++ ip ++ "." ++ f ++ "." ++ rest) false false)
  = (Assigned (nlit A (if neg then - dval (ip ++ f) else dval (ip ++ f)) (- Z.of_nat (String.length f))),
     Istream ("." ++ rest) false false).
Proof.
  intros Hb Hi Hn Hf. unfold read_double, sentry. cbn [is_eof is_fail is_rest orb].
  rewrite skip_space_app by (auto using stops_sign_digits). rewrite not_end by exact Hn. cbn [is_rest].
  rewrite take_sign_text by assumption.
  rewrite span_digits_app by (try assumption; reflexivity).
  cbn [append].
  rewrite (span_digits_app f (String "." rest)) by (try assumption; reflexivity).
  rewrite !Z.add_0_l.
  replace (Z.of_nat (String.length ip) + Z.of_nat (String.length f) =? 0) with false.
  2:{ symmetry. apply Z.eqb_neq. destruct ip; [congruence|]. cbn [String.length]. lia. }
  change (is_e ".") with false. cbn iota. unfold dval. rewrite dval_from_app. reflexivity.
Qed.

(** ".ddd" followed by white space. *)
Lemma read_point f rest : every digit f = true -> f <> "" -> ends_token rest ->
  read_double A (Istream ("." ++ f ++ rest) false false)
  = (Assigned (nlit A (dval f) (- Z.of_nat (String.length f))), Istream rest (at_end rest) false).
Proof.
  intros Hf Hn He. unfold read_double, sentry. cbn [is_eof is_fail is_rest orb append skip_space].
  change (is_space ".") with false. cbn [at_end is_rest take_sign span_digits].
  change (is_digit ".") with false. cbn iota.
  rewrite (span_digits_app f rest) by (auto using ends_token_stops).
  rewrite !Z.add_0_l.
  replace (Z.of_nat (String.length f) =? 0) with false.
  2:{ symmetry. apply Z.eqb_neq. destruct f; [congruence|]. cbn [String.length]. lia. }
  destruct rest as [|c r]; [reflexivity|]. cbn in He. rewrite (blank_not_e _ He). reflexivity.
Qed.

Lemma wide_lookup (cfg : config A) (sp : num A) sw nw sv_ nv ns m e fuel :
  in_int (constit_number cfg) = true ->
  nfixed A 6 (nucleon_width cfg) = FDec sw nw -> fits10 sw nw ->
  nfixed A 6 (constit_width cfg) = FDec sv_ nv -> fits10 sv_ nv ->
  nfixed A 6 (cross_section cfg) = FDec false ns -> 10 ^ 8 <= ns < 10 ^ 9 ->
  nsci A 6 sp = SDec false m e -> 0 <= m < 10 ^ 7 -> Z.abs e < 1000 ->
  ~ close A (cross_section cfg) (nlit A (ns mod 10 ^ 6) (-6)) -> (1 < fuel)%nat ->
  cache_loop fuel (nucleon_width cfg) (constit_width cfg) (constit_number cfg) (cross_section cfg)
    (Istream (cache_line (constit_number cfg) (nucleon_width cfg) (constit_width cfg) (cross_section cfg) sp) false false)
    cvars_uninit = Ret None.
Proof.
  intros Hi Ew Fw Ev Fv Es Hs Ep Hm He Nc Hf.
  destruct (print_Z_text (constit_number cfg)) as (I1 & I2 & I3).
  destruct (fits10_gap sw nw Fw) as (gw & Gw & Tw).
  destruct (fits10_gap sv_ nv Fv) as (gv & Gv & Tv).
  assert (W0 : 0 <= nw) by (destruct Fw as [F|[_ F]]; lia).
  assert (V0 : 0 <= nv) by (destruct Fv as [F|[_ F]]; lia).
  destruct (print_fixed_text 6 sw nw W0) as (_ & Ow & Mw & Xw).
  destruct (print_fixed_text 6 sv_ nv V0) as (_ & Ov & Mv & Xv).
  destruct (print_sci_text 6 false m e (proj1 Hm)) as (Tp & Op & Mp & Xp).
  destruct (pad_left_blank 14 (print_sci 6 (SDec false m e))) as (gp & Bp & Eqp & Lp).
  assert (Gp : gap gp).
  { split; [exact Bp|]. intros ->. cbn [String.length] in Lp. pose proof (proj2 (sci_length false m e Hm He) eq_refl). lia. }
  (* the column of sigma is full *)
  set (si := print_N (ns / 10 ^ Z.of_nat 6)). set (sf := zdigits 6 ns).
  assert (Ps : 0 <= ns / 10 ^ Z.of_nat 6) by (apply Z.div_pos; [lia|reflexivity]).
  destruct (print_N_spec _ Ps) as (S1 & S2 & S3 & S4). fold si in S1, S2, S3, S4.
  destruct (zdigits_spec 6 ns) as (Z1 & Z2 & Z3). fold sf in Z1, Z2, Z3.
  assert (Full : setw 10 (print_fixed 6 (FDec false ns)) = si ++ "." ++ sf).
  { unfold setw, pad_left. rewrite fixed_length by lia.
    assert (Nd : (3 <= ndigits (ns / 10 ^ Z.of_nat 6))%nat).
    { destruct (ndigits_spec (ns / 10 ^ Z.of_nat 6) Ps) as (Q1 & _ & _).
      assert (Q2 : 100 <= ns / 10 ^ Z.of_nat 6) by (apply Z.div_le_lower_bound; [reflexivity|change (10 ^ Z.of_nat 6) with 1000000; lia]).
      assert (Q3 : ~ (ndigits (ns / 10 ^ Z.of_nat 6) <= 2)%nat); [|lia]. intros Q.
      assert (10 ^ Z.of_nat (ndigits (ns / 10 ^ Z.of_nat 6)) <= 10 ^ 2) by (apply Z.pow_le_mono_r; lia). lia. }
    replace (Z.to_nat _) with O by lia. reflexivity. }
  assert (Sv : decimal_text (dec_of_fixed 6 sv_ nv) = sign_of sv_ ++ print_N (nv / 10 ^ Z.of_nat 6) ++ "." ++ zdigits 6 nv).
  { unfold decimal_text, dec_of_fixed. cbn [c_neg c_int c_frac c_exp frac_text exp_text]. rewrite app_nil_r_s. reflexivity. }
  destruct Ov as (Ov1 & Ov2 & Ov3 & _). cbn [dec_of_fixed c_int c_frac] in Ov1, Ov2, Ov3.
  set (pr := repeat_char (Z.to_nat (4 - Z.of_nat (String.length (print_Z (constit_number cfg))))) space).
  assert (Bpr : every blank pr = true) by (apply repeat_char_every; reflexivity).
  assert (Gpw : gap (pr ++ gw)).
  { destruct Gw as [Gb Gn]. split; [rewrite every_app, Bpr, Gb; reflexivity|]. destruct pr; [exact Gn|discriminate]. }
  assert (Ln : cache_line (constit_number cfg) (nucleon_width cfg) (constit_width cfg) (cross_section cfg) sp
    = "" ++ integer_text (int_of (constit_number cfg)) ++ (pr ++ gw) ++ decimal_text (dec_of_fixed 6 sw nw) ++
      gv ++ sign_of sv_ ++ print_N (nv / 10 ^ Z.of_nat 6) ++ "." ++ (zdigits 6 nv ++ si) ++ "." ++ sf ++ gp ++
      decimal_text (dec_of_sci 6 false m e) ++ newline).
  { unfold cache_line. rewrite Ew, Ev, Es, Ep, Tw, Tv, Full, Eqp, Tp, Sv.
    unfold pad_right. fold pr. rewrite I1. cbn [append]. rewrite !app_assoc_s. cbn [append]. reflexivity. }
  rewrite Ln. destruct fuel as [|[|fuel]]; [lia|lia|].
  cbn [cache_loop is_eof]. unfold read_entry at 1.
  rewrite read_int_text; [|reflexivity|exact I2|apply gap_ends; exact Gpw|rewrite I3; exact Hi].
  assert (NE : forall s t, gap s -> at_end (s ++ t) = false).
  { intros s t [_ Hn]. destruct s; [congruence|reflexivity]. }
  rewrite NE by assumption.
  rewrite (read_double_text A (pr ++ gw)) by (try apply Gpw; auto using gap_ends). rewrite NE by assumption.
  rewrite read_merged; [|apply Gv|exact Ov1|exact Ov2|rewrite every_app, Ov3, S1; reflexivity].
  rewrite read_point; [|exact Z1|destruct sf; [cbn in Z2; lia|discriminate]|apply gap_ends; exact Gp].
  rewrite NE by assumption.
  rewrite (read_double_text A gp) by (try apply Gp; auto; reflexivity).
  cbn [assign cv_number cv_nw cv_cw cv_sigma cv_sp cvars_uninit].
  rewrite Z3, Z2. change (10 ^ Z.of_nat 6) with (10 ^ 6). change (- Z.of_nat 6) with (-6).
  set (w' := nlit A (mantissa _) _). set (v' := nlit A (if sv_ then _ else _) _).
  set (s' := nlit A (ns mod 10 ^ 6) (-6)). set (p' := nlit A (mantissa (dec_of_sci _ _ _ _)) _).
  assert (Nm : forall n, entry_matches (nucleon_width cfg) (constit_width cfg) (constit_number cfg) (cross_section cfg)
            (CVars (Some n) (Some w') (Some v') (Some s') (Some p')) = Ret false).
  { intros n. unfold entry_matches. cbn [cv_nw cv_cw cv_sigma cv_number read_var rbind].
    destruct (almost_equal (nucleon_width cfg) w'); [|reflexivity]. cbn [negb].
    destruct (almost_equal (constit_width cfg) v'); [|reflexivity]. cbn [negb].
    destruct (almost_equal (cross_section cfg) s') eqn:E; [|reflexivity]. contradiction. }
  rewrite Nm. cbn [rbind]. cbn [at_end newline str1].
  rewrite read_entry_end by reflexivity. rewrite Nm. destruct fuel; reflexivity.
Qed.
End Merged.

(** The second run computes again. *)
Lemma wide_run {A} (R : Rng A) (sv : Solver A) fuel e (cfg : config A) (s s1 : sys R) sp :
  world_no_cache e (s_fs s) ->
  partonic_cross_section R sv fuel e cfg s = (Ret sp, s1) ->
  (forall fuel2, (1 < fuel2)%nat -> cache_loop fuel2 (nucleon_width cfg) (constit_width cfg) (constit_number cfg) (cross_section cfg)
    (Istream (cache_line (constit_number cfg) (nucleon_width cfg) (constit_width cfg) (cross_section cfg) sp) false false)
    cvars_uninit = Ret None) ->
  forall sv2 fuel2 (s2 : sys R), s_fs s2 = s_fs s1 -> (1 < fuel2)%nat ->
    fst (partonic_cross_section R sv2 fuel2 e cfg s2) = fst (compute_partonic R sv2 cfg (s_eng s2)).
Proof.
  intros (dh & D1 & D2 & D3) H K sv2 fuel2 s2 Es Hf.
  assert (NE : norm (cache_dir dh) <> norm (cache_file dh)) by (apply (dir_not_file (s_fs s)); congruence).
  rewrite (partonic_no_file R sv fuel e cfg s dh D1 D2 D3) in H. unfold computed in H.
  destruct (compute_partonic R sv cfg (s_eng s)) as [[x|x|x|] en] eqn:C; try discriminate H.
  apply pair_Ret_inj in H. destruct H as [-> <-]. cbn [set_fs s_fs] in Es.
  erewrite (partonic_cached R sv2 fuel2 e cfg s2 _ dh D1).
  3:{ rewrite Es. apply fs_set_eq, join_not_empty; discriminate. }
  2:{ rewrite Es, fs_set_neq by exact NE. exact D2. }
  cbn [append]. rewrite K by exact Hf. unfold computed.
  destruct (compute_partonic R sv2 cfg (s_eng s2)) as [[y|y|y|] en2]; reflexivity.
Qed.

Local Open Scope R_scope.

Lemma wide_digits x n : 99.9999995 <= x < 999.9999995 -> n = ZnearestE (Rabs x * IZR (10 ^ 6)) -> 99.9999995 < x ->
  (10 ^ 8 <= n < 10 ^ 9)%Z.
Proof.
  intros Hx -> Hlt. rewrite Rabs_pos_eq by lra. change (IZR (10 ^ 6)) with 1000000.
  pose proof (ZnearestE_close (x * 1000000)) as C. apply Rabs_le_inv in C. split.
  - assert (10 ^ 8 - 1 < ZnearestE (x * 1000000))%Z; [|lia]. apply lt_IZR. change (IZR (10 ^ 8 - 1)) with 99999999. lra.
  - apply lt_IZR. change (IZR (10 ^ 9)) with 1000000000. lra.
Qed.

(** Real arithmetic. *)
Theorem C38_wide_sigma_real : forall (rg : Rng RA) (sv : Solver RA) fuel e (cfg : config RA) (s s1 : sys rg) sp,
  world_no_cache e (s_fs s) -> in_int (constit_number cfg) = true ->
  0 <= nucleon_width cfg < 99.9999995 -> 0 <= constit_width cfg < 99.9999995 ->
  99.9999995 < cross_section cfg < 999.9999995 -> parameter_real sp ->
  partonic_cross_section rg sv fuel e cfg s = (Ret sp, s1) ->
  forall sv2 fuel2 (s2 : sys rg), s_fs s2 = s_fs s1 -> (1 < fuel2)%nat ->
    fst (partonic_cross_section rg sv2 fuel2 e cfg s2) = fst (compute_partonic rg sv2 cfg (s_eng s2)).
Proof.
  intros rg sv fuel e cfg s s1 sp W Hi Hw Hv Hs Hp H. apply (wide_run rg sv fuel e cfg s s1 sp W H).
  intros fuel2 Hf. destruct (mag_range sp Hp) as (P & Mg).
  destruct (fixed_real _ Hw) as (nw & Ew & Fw & _). destruct (fixed_real _ Hv) as (nv & Ev & Fv & _).
  destruct (Rsci_spec 6 sp ltac:(lia) ltac:(lra)) as (m & e' & Ep & Hm & _ & He).
  assert (L : Rltb sp 0 = false) by (apply Rltb_false; lra). rewrite L in Ep.
  set (ns := ZnearestE (Rabs (cross_section cfg) * IZR (10 ^ 6))).
  pose proof (wide_digits (cross_section cfg) ns ltac:(lra) eq_refl ltac:(lra)) as Ns.
  apply (wide_lookup RA cfg sp false nw false nv ns m e' fuel2); auto; try lia.
  - cbn [nfixed RA RA_with]. unfold Rfixed. assert (L2 : Rltb (cross_section cfg) 0 = false) by (apply Rltb_false; lra).
    rewrite L2. reflexivity.
  - unfold close. cbn [nltb nabs nsub nlit RA RA_with]. rewrite !Rlit_spec, p10_m6. intros K. apply Rltb_true in K.
    pose proof (Z.mod_pos_bound ns (10 ^ 6) ltac:(lia)) as B. destruct B as [B1 B2]. apply IZR_le in B1. apply IZR_lt in B2.
    change (IZR (10 ^ 6)) with 1000000 in B2. apply Rabs_lt_inv in K. lra.
Qed.

(** Binary64. *)
Theorem C38_wide_sigma_ieee : forall (L : Libm) (R : Rng (FA L)) (sv : Solver (FA L)) fuel e (cfg : config (FA L)) (s s1 : sys R) (sp : f64),
  world_no_cache e (s_fs s) -> in_int (constit_number cfg) = true ->
  printable (nucleon_width cfg) -> printable (constit_width cfg) ->
  is_finite (cross_section cfg : f64) = true -> 99.9999995 < B2R (cross_section cfg : f64) < 999.9999995 -> parameter_ieee sp ->
  partonic_cross_section R sv fuel e cfg s = (Ret (sp : num (FA L)), s1) ->
  forall sv2 fuel2 (s2 : sys R), s_fs s2 = s_fs s1 -> (1 < fuel2)%nat ->
    fst (partonic_cross_section R sv2 fuel2 e cfg s2) = fst (compute_partonic R sv2 cfg (s_eng s2)).
Proof.
  intros L R sv fuel e cfg s s1 sp W Hi Hw Hv Fs Hs Hp H. apply (wide_run R sv fuel e cfg s s1 sp W H).
  intros fuel2 Hf. destruct Hp as [Fp Hp]. destruct (mag_range (B2R sp) Hp) as (P & Mg).
  destruct (fixed_ieee L _ Hw) as (sw & nw & Ew & Fw & _). destruct (fixed_ieee L _ Hv) as (sv' & nv & Ev & Fv & _).
  destruct (Rsci_spec 6 (B2R sp) ltac:(lia) ltac:(lra)) as (m & e' & Ep & Hm & _ & He).
  assert (Lt : Rltb (B2R sp) 0 = false) by (apply Rltb_false; lra). rewrite Lt in Ep.
  rewrite <- (f64_sci_spec 6 sp ltac:(lia) Fp P) in Ep.
  set (ns := ZnearestE (Rabs (B2R (cross_section cfg : f64)) * IZR (10 ^ 6))).
  pose proof (wide_digits (B2R (cross_section cfg : f64)) ns ltac:(lra) eq_refl ltac:(lra)) as Ns.
  apply (wide_lookup (FA L) cfg sp sw nw sv' nv ns m e' fuel2); auto; try lia.
  - cbn [nfixed FA]. rewrite f64_fixed_spec by (try exact Fs; lia).
    destruct (pos_sign (cross_section cfg : f64) ltac:(lra)) as [-> _]. reflexivity.
  - unfold close. cbn [nltb nabs nsub nlit FA]. intros K.
    pose proof (Z.mod_pos_bound ns (10 ^ 6) ltac:(lia)) as B. set (k := (ns mod 10 ^ 6)%Z) in *. destruct B as [B1 B2].
    assert (B1' := B1). assert (B2' := B2). apply IZR_le in B1'. apply IZR_lt in B2'. change (IZR (10 ^ 6)) with 1000000 in B2'.
    destruct (lit_ok k (-6)) as (Fl & Cl & _).
    + exact B1.
    + rewrite p10_m6. apply Rle_trans with (bpow radix2 0); [cbn [bpow]; lra|apply bpow_le; lia].
    + destruct (Z.eq_dec k 0) as [Z|Z]; [left; exact Z|right]. rewrite p10_m6.
      apply Rle_trans with (bpow radix2 (-20)); [apply bpow_le; lia|]. change (bpow radix2 (-20)) with (/ 1048576).
      assert (1 <= IZR k) by (apply IZR_le; lia). lra.
    + rewrite p10_m6 in Cl. pose proof e52 as E52. pose proof (bpow_gt_0 radix2 (-52)) as P52.
      assert (Cl' : Rabs (B2R (f64_lit k (-6)) - IZR k * / 1000000) <= 1) by (eapply Rle_trans; [exact Cl|]; nra).
      apply Rabs_le_inv in Cl'.
      destruct (sub_ok (cross_section cfg) (f64_lit k (-6)) Fs Fl) as (Es' & Fs' & _).
      { apply Rle_trans with (bpow radix2 10); [|apply bpow_le; lia]. apply Rabs_le. change (bpow radix2 10) with 1024. lra. }
      destruct one_e6 as (F6 & _).
      assert (Fab : is_finite (Babs (f64_sub (cross_section cfg) (f64_lit k (-6)))) = true) by (rewrite is_finite_Babs; exact Fs').
      rewrite (ltb_ok _ _ Fab F6) in K. revert K. rewrite B2R_Babs, Es'.
      assert (Up : B2R (f64_lit 1 (-6)) <= 1).
      { destruct (lit_ok 1 (-6)) as (_ & C1 & _).
        - lia.
        - rewrite p10_m6. apply Rle_trans with (bpow radix2 0); [cbn [bpow]; lra|apply bpow_le; lia].
        - right. rewrite p10_m6. apply Rle_trans with (bpow radix2 (-20)); [apply bpow_le; lia|]. change (bpow radix2 (-20)) with (/ 1048576). lra.
        - rewrite p10_m6 in C1. apply Rabs_le_inv in C1. lra. }
      rewrite Rlt_bool_false; [discriminate|]. eapply Rle_trans; [exact Up|].
      apply Rle_trans with (bpow radix2 0); [right; reflexivity|].
      apply (abs_round_ge_generic radix2 (FLT_exp (-1074) 53) ZnearestE); [apply rep_bpow; lia|].
      rewrite Rabs_pos_eq by lra. cbn [bpow]. lra.
Qed.
