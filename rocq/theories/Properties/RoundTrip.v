(** C38: what a run writes to the cache, the next run reads. *)
From Coq Require Import Ascii Reals Lra Psatz.
From Flocq Require Import Core BinarySingleNaN.
From Verif.Base Require Import Result Arith RArith FArith Rng.
From Verif.Model Require Import Random Config Nucleon Text Files CrossSection.
From Verif.Spec Require Import Contract Demo Decimal Cache.
From Verif.Proof Require Import Basics TextP FsP CacheP CacheRun CacheWrite Ieee DecR.
From Verif.Properties Require Import Cache.
Local Open Scope string_scope.

(** Successive runs (other processes, any engines, any solvers) against one file
    system: the requests and the parameters they returned, and the final files. *)
Inductive runs {A} (R : Rng A) (e : env) (f0 : fs A) : list (config A * num A) -> fs A -> Prop :=
| runs_none : runs R e f0 [] f0
| runs_then : forall h f cfg sv fuel s sp s1,
    runs R e f0 h f -> s_fs s = f -> (length h < fuel)%nat ->
    partonic_cross_section R sv fuel e cfg s = (Ret sp, s1) ->
    runs R e f0 (h ++ [(cfg, sp)]) (s_fs s1).

Section History.
Context {A : Arith} (R : Rng A) (near : num A -> num A -> Prop).

Lemma history_inv e f0 h f : world_no_cache e f0 -> runs R e f0 h f ->
  (forall cfg sp, In (cfg, sp) h -> near sp sp /\ exists sp', reads_back cfg sp sp' /\ near sp' sp) ->
  exists es, cache_holds e f es /\ (length es <= length h)%nat /\
    forall cfg sp, In (cfg, sp) h -> exists en, first_for cfg es en /\ near (valued A (e_sp en)) sp.
Proof.
  intros W H. induction H as [|h f cfg sv fuel s sp s1 H IH Es Hf E]; intros Hr.
  - exists []. split; [left; auto|]. split; [auto|]. intros cfg sp [].
  - destruct IH as (es & Ch & Le & Hn).
    { intros c x Hin. apply Hr. apply in_or_app. left. exact Hin. }
    destruct (Hr cfg sp ltac:(apply in_or_app; right; left; reflexivity)) as (Nr & sp' & Rb & Nr').
    subst f. destruct (run_step R sv fuel e cfg s s1 es sp Ch ltac:(lia) E) as [(en & F & -> & ->)|(No & _ & K)].
    + exists es. split; [exact Ch|]. split; [rewrite app_length; lia|].
      intros c x Hin. apply in_app_or in Hin. destruct Hin as [Hin|[Hin|[]]]; [apply Hn; exact Hin|].
      assert (c = cfg /\ x = valued A (e_sp en)) as [-> ->] by (split; congruence). exists en. auto.
    + destruct (K sp' Rb) as (en & Hm & Hv & Ch'). exists (es ++ [en])%list. split; [exact Ch'|].
      split; [rewrite !app_length; simpl; lia|].
      intros c x Hin. apply in_app_or in Hin. destruct Hin as [Hin|[Hin|[]]].
      * destruct (Hn c x Hin) as (en' & F & N). exists en'. split; [apply first_app; exact F|exact N].
      * assert (c = cfg /\ x = sp) as [-> ->] by (split; congruence).
        exists en. split; [apply first_new; assumption|]. rewrite Hv. exact Nr'.
Qed.

Lemma history_hits e f0 h f : world_no_cache e f0 -> runs R e f0 h f ->
  (forall cfg sp, In (cfg, sp) h -> near sp sp /\ exists sp', reads_back cfg sp sp' /\ near sp' sp) ->
  forall cfg sp, In (cfg, sp) h -> exists sp', near sp' sp /\
    forall sv fuel (s : sys R), s_fs s = f -> (length h < fuel)%nat ->
      partonic_cross_section R sv fuel e cfg s = (Ret sp', s).
Proof.
  intros W H Hr cfg sp Hin. destruct (history_inv e f0 h f W H Hr) as (es & Ch & Le & Hn).
  destruct (Hn cfg sp Hin) as (en & F & N). exists (valued A (e_sp en)). split; [exact N|].
  intros sv fuel s Es Hf. apply (run_hit R sv fuel e cfg s es en); [rewrite Es; exact Ch|lia|exact F].
Qed.

(** One more run on a given cache. *)
Lemma round_trip e es sv fuel cfg (s s1 : sys R) sp sp' :
  cache_holds e (s_fs s) es -> (length es < fuel)%nat ->
  (forall x, In x es -> ~ entry_for cfg x) ->
  partonic_cross_section R sv fuel e cfg s = (Ret sp, s1) ->
  reads_back cfg sp sp' ->
  exists new, entry_for cfg new /\ cache_holds e (s_fs s1) (es ++ [new]) /\
    forall sv2 fuel2 (s2 : sys R), s_fs s2 = s_fs s1 -> (S (length es) < fuel2)%nat ->
      partonic_cross_section R sv2 fuel2 e cfg s2 = (Ret sp', s2).
Proof.
  intros Ch Hf No E Rb. destruct (run_step R sv fuel e cfg s s1 es sp Ch Hf E) as [(en & (b & a & -> & _ & Hm) & _)|(_ & _ & K)].
  { exfalso. apply (No en); [apply in_elt|exact Hm]. }
  destruct (K sp' Rb) as (en & Hm & Hv & Ch'). exists en. split; [exact Hm|]. split; [exact Ch'|].
  intros sv2 fuel2 s2 Es Hf2. rewrite <- Hv.
  apply (run_hit R sv2 fuel2 e cfg s2 (es ++ [en]) en); [rewrite Es; exact Ch'|rewrite app_length; simpl; lia|apply first_new; assumption].
Qed.
End History.

(** ** Real arithmetic *)
Local Open Scope R_scope.

Lemma pow10_300 : 10 ^ 300 = bpow radix10 300.
Proof. rewrite p10_Z by lia. rewrite pow_IZR. reflexivity. Qed.

Lemma mag_range x : / 10 ^ 300 <= x <= 10 ^ 300 -> 0 < x /\ (-300 <= mag radix10 x <= 301)%Z.
Proof.
  rewrite pow10_300. rewrite <- bpow_opp. intros [H1 H2]. pose proof (bpow_gt_0 radix10 (- (300))) as P.
  split; [lra|]. split.
  - apply Z.lt_le_incl. apply (mag_gt_bpow radix10 x). rewrite Rabs_pos_eq by lra. exact H1.
  - change 301%Z with (300 + 1)%Z. apply Z.le_trans with (mag radix10 (bpow radix10 300)); [|rewrite mag_bpow; lia].
    apply mag_le; lra.
Qed.

(** Widths and sigma_NN that fit the columns. *)
Definition printable_real (cfg : config RA) : Prop :=
  in_int (constit_number cfg) = true /\
  0 <= nucleon_width cfg < 99.9999995 /\ 0 <= constit_width cfg < 99.9999995 /\ 0 <= cross_section cfg < 99.9999995.
Definition parameter_real (sp : R) : Prop := / 10 ^ 300 <= sp <= 10 ^ 300.
(** Seven significant digits. *)
Definition seven_digits (sp' sp : R) : Prop := Rabs (sp' - sp) <= 5e-7 * sp.

Lemma p10_m6 : bpow radix10 (-6) = / 1000000.
Proof. reflexivity. Qed.

Lemma fixed_real x : 0 <= x < 99.9999995 -> exists n, nfixed RA 6 x = FDec false n /\ fits10 false n /\
  close RA x (nlit RA n (-6)).
Proof.
  intros Hx. destruct (Rfixed_spec 6 x ltac:(lia)) as (n & E & N0 & C & U).
  exists n. cbn [nfixed RA RA_with]. rewrite E.
  assert (L : Rltb x 0 = false) by (apply Rltb_false; lra). rewrite L. split; [reflexivity|].
  rewrite (Rabs_pos_eq x) in * by lra. change (Z.opp 6) with (-6)%Z in C. rewrite p10_m6 in C. change (bpow radix10 6) with 1000000 in U. split.
  - right. split; [reflexivity|]. split; [exact N0|]. apply lt_IZR. change (IZR (10 ^ 8)) with 100000000. lra.
  - unfold close. cbn [nltb nabs nsub nlit RA RA_with]. rewrite !Rlit_spec, p10_m6. apply Rltb_true.
    rewrite Rabs_minus_sym. lra.
Qed.

Lemma reads_back_real cfg sp : printable_real cfg -> parameter_real sp ->
  exists sp', reads_back (A:=RA) cfg sp sp' /\ seven_digits sp' sp.
Proof.
  intros (Hi & Hw & Hv & Hs) Hp. destruct (mag_range sp Hp) as (P & Mg).
  destruct (fixed_real _ Hw) as (nw & Ew & Fw & Cw). destruct (fixed_real _ Hv) as (nv & Ev & Fv & Cv).
  destruct (fixed_real _ Hs) as (ns & Es & Fs & Cs).
  destruct (Rsci_spec 6 sp ltac:(lia) ltac:(lra)) as (m & e & Ep & Hm & C & He).
  assert (L : Rltb sp 0 = false) by (apply Rltb_false; lra). rewrite L in Ep.
  exists (nlit RA m (e - 6)). split.
  - apply (reads_back_digits RA cfg sp nw false nv false ns false m e); auto; lia.
  - unfold seven_digits. cbn [nlit RA RA_with]. rewrite Rlit_spec. rewrite (Rabs_pos_eq sp) in C by lra.
    change (Z.opp 6) with (-6)%Z in C. rewrite p10_m6 in C. lra.
Qed.

(** C38: a run that computed the parameter [sp] appended one entry; the following
    runs with the same configuration find it, whatever their engine or solver,
    and return [sp] to seven significant digits.  The entries before are kept. *)
Theorem C38_round_trip_real : forall (rg : Rng RA) (sv : Solver RA) fuel e (cfg : config RA) (s s1 : sys rg) es sp,
  cache_holds e (s_fs s) es -> (length es < fuel)%nat -> (forall en, In en es -> ~ entry_for cfg en) ->
  printable_real cfg -> parameter_real sp ->
  partonic_cross_section rg sv fuel e cfg s = (Ret sp, s1) ->
  exists new sp', entry_for cfg new /\ cache_holds e (s_fs s1) (es ++ [new]) /\ seven_digits sp' sp /\
    forall sv2 fuel2 (s2 : sys rg), s_fs s2 = s_fs s1 -> (S (length es) < fuel2)%nat ->
      partonic_cross_section rg sv2 fuel2 e cfg s2 = (Ret sp', s2).
Proof.
  intros rg sv fuel e cfg s s1 es sp Ch Hf No Hc Hp E.
  destruct (reads_back_real cfg sp Hc Hp) as (sp' & Rb & Sd).
  destruct (round_trip rg e es sv fuel cfg s s1 sp sp' Ch Hf No E Rb) as (new & H1 & H2 & H3).
  exists new, sp'. auto.
Qed.

(** C38 for any history of runs that started without a cache file: a request that
    has been answered once is answered the same, to seven digits, ever after. *)
Theorem C38_history_real : forall (rg : Rng RA) e f0 h f,
  world_no_cache e f0 -> runs rg e f0 h f ->
  (forall cfg sp, In (cfg, sp) h -> printable_real cfg /\ parameter_real sp) ->
  forall cfg sp, In (cfg, sp) h -> exists sp', seven_digits sp' sp /\
    forall sv fuel (s : sys rg), s_fs s = f -> (length h < fuel)%nat ->
      partonic_cross_section rg sv fuel e cfg s = (Ret sp', s).
Proof.
  intros rg e f0 h f W H Hr. apply (history_hits rg seven_digits e f0 h f W H).
  intros cfg sp Hin. destruct (Hr cfg sp Hin) as [Hc Hp]. split; [|apply reads_back_real; assumption].
  destruct (mag_range sp Hp) as [P _]. unfold seven_digits. rewrite Rminus_diag_eq, Rabs_R0 by reflexivity. lra.
Qed.

(** ** Binary64, for every libm *)
Section Ieee.
Variable L : Libm.

Definition printable (x : f64) : Prop := is_finite x = true /\ 0 <= B2R x < 99.9999995.
Definition printable_ieee (cfg : config (FA L)) : Prop :=
  in_int (constit_number cfg) = true /\
  printable (nucleon_width cfg) /\ printable (constit_width cfg) /\ printable (cross_section cfg).
Definition parameter_ieee (sp : f64) : Prop := is_finite sp = true /\ / 10 ^ 300 <= B2R sp <= 10 ^ 300.
Definition seven_digits_ieee (sp' sp : f64) : Prop :=
  is_finite sp' = true /\ Rabs (B2R sp' - B2R sp) <= 5.00001e-7 * B2R sp.

Lemma e52 : bpow radix2 (-52) <= 2.3e-16.
Proof. change (bpow radix2 (-52)) with (/ 4503599627370496). lra. Qed.

Lemma one_e6 : is_finite (f64_lit 1 (-6)) = true /\ bpow radix2 (-20) < B2R (f64_lit 1 (-6)).
Proof.
  destruct (lit_ok 1 (-6)) as (F & C & _).
  - lia.
  - rewrite p10_m6. apply Rle_trans with (bpow radix2 0); [simpl; lra|apply bpow_le; lia].
  - right. rewrite p10_m6. apply Rle_trans with (bpow radix2 (-20)); [apply bpow_le; lia|]. change (bpow radix2 (-20)) with (/ 1048576). lra.
  - split; [exact F|]. rewrite p10_m6 in C. apply Rabs_le_inv in C. pose proof e52.
    change (bpow radix2 (-20)) with (/ 1048576). lra.
Qed.

Lemma fixed_ieee (x : f64) : printable x -> exists s n, nfixed (FA L) 6 x = FDec s n /\ fits10 s n /\
  close (FA L) x (nlit (FA L) (if s then - n else n) (-6)).
Proof.
  intros [Fx Hx]. set (n := ZnearestE (Rabs (B2R x) * IZR (10 ^ 6))).
  exists (Bsign x), n. split; [apply f64_fixed_spec; [lia|exact Fx]|].
  assert (An : Rabs (B2R x) = B2R x) by (apply Rabs_pos_eq; lra).
  pose proof (ZnearestE_close (Rabs (B2R x) * IZR (10 ^ 6))) as C. fold n in C. rewrite An in C. change (IZR (10 ^ 6)) with 1000000 in C.
  apply Rabs_le_inv in C.
  assert (N0 : (0 <= n)%Z) by (apply ZnearestE_nonneg; rewrite An; change (IZR (10 ^ 6)) with 1000000; lra).
  assert (N8 : (n < 10 ^ 8)%Z) by (apply lt_IZR; change (IZR (10 ^ 8)) with 100000000; lra).
  assert (Zs : Bsign x = true -> n = 0%Z).
  { intros Sx. assert (B2R x = 0).
    { destruct (Req_dec (B2R x) 0) as [Z|Z]; [exact Z|]. destruct (pos_sign x ltac:(lra)) as [S _]. congruence. }
    unfold n. rewrite An, H, Rmult_0_l. apply (Zrnd_IZR ZnearestE 0). }
  assert (En : (if Bsign x then (- n)%Z else n) = n) by (destruct (Bsign x); [rewrite Zs by reflexivity; reflexivity|reflexivity]).
  split.
  { destruct (Bsign x); [left; rewrite Zs by reflexivity; lia|right; auto]. }
  rewrite En. unfold close. cbn [nltb nabs nsub nlit FA].
  assert (Vn : 0 <= IZR n * / 1000000 <= 100).
  { apply IZR_le in N0. apply IZR_lt in N8. change (IZR (10 ^ 8)) with 100000000 in N8. lra. }
  destruct (lit_ok n (-6)) as (Fl & Cl & _).
  - exact N0.
  - rewrite p10_m6. apply Rle_trans with (bpow radix2 7); [change (bpow radix2 7) with 128; lra|apply bpow_le; lia].
  - destruct (Z.eq_dec n 0) as [Z|Z]; [left; exact Z|right]. rewrite p10_m6.
    apply Rle_trans with (bpow radix2 (-20)); [apply bpow_le; lia|]. change (bpow radix2 (-20)) with (/ 1048576).
    assert (1 <= IZR n) by (apply IZR_le; lia). lra.
  - rewrite p10_m6 in Cl. pose proof e52 as E52. pose proof (bpow_gt_0 radix2 (-52)) as P52.
    assert (Cl' : Rabs (B2R (f64_lit n (-6)) - IZR n * / 1000000) <= 1e-12) by (eapply Rle_trans; [exact Cl|]; nra).
    apply Rabs_le_inv in Cl'.
    assert (Df : Rabs (B2R x - B2R (f64_lit n (-6))) <= bpow radix2 (-20)).
    { apply Rabs_le. change (bpow radix2 (-20)) with (/ 1048576). lra. }
    destruct (sub_ok x (f64_lit n (-6)) Fx Fl) as (Es & Fs & _).
    { eapply Rle_trans; [exact Df|apply bpow_le; lia]. }
    destruct one_e6 as (F6 & B6).
    assert (Fab : is_finite (Babs (f64_sub x (f64_lit n (-6)))) = true) by (rewrite is_finite_Babs; exact Fs).
    rewrite (ltb_ok _ _ Fab F6). apply Rlt_bool_true. rewrite B2R_Babs, Es.
    eapply Rle_lt_trans; [|exact B6].
    apply (abs_round_le_generic radix2 (FLT_exp (-1074) 53) ZnearestE); [apply rep_bpow; lia|exact Df].
Qed.

Lemma reads_back_ieee (cfg : config (FA L)) (sp : f64) : printable_ieee cfg -> parameter_ieee sp ->
  exists sp', reads_back cfg (sp : num (FA L)) sp' /\ seven_digits_ieee sp' sp.
Proof.
  intros (Hi & Hw & Hv & Hs) (Fp & Hp). destruct (mag_range (B2R sp) Hp) as (P & Mg).
  destruct (fixed_ieee _ Hw) as (sw & nw & Ew & Fw & Cw). destruct (fixed_ieee _ Hv) as (sv & nv & Ev & Fv & Cv).
  destruct (fixed_ieee _ Hs) as (ss & ns & Es & Fs & Cs).
  destruct (Rsci_spec 6 (B2R sp) ltac:(lia) ltac:(lra)) as (m & e & Ep & Hm & C & He).
  assert (Lt : Rltb (B2R sp) 0 = false) by (apply Rltb_false; lra). rewrite Lt in Ep.
  rewrite <- (f64_sci_spec 6 sp ltac:(lia) Fp P) in Ep.
  exists (nlit (FA L) m (e - 6)). split.
  - apply (reads_back_digits (FA L) cfg sp nw sw nv sv ns ss m e); auto; lia.
  - cbn [nlit FA]. unfold seven_digits_ieee. rewrite (Rabs_pos_eq (B2R sp)) in C by lra.
    change (Z.opp 6) with (-6)%Z in C. rewrite p10_m6 in C. apply Rabs_le_inv in C.
    set (x := IZR m * bpow radix10 (e - 6)) in *.
    assert (Up : 10 ^ 300 * 2 <= bpow radix2 999).
    { rewrite pow10_300, p10_Z by lia. rewrite <- two_pow by lia. rewrite <- mult_IZR. apply IZR_le. apply Z.leb_le. vm_compute. reflexivity. }
    assert (Lo : bpow radix2 (-1000) * 2 <= / 10 ^ 300).
    { rewrite pow10_300, p10_Z by lia.
      replace (bpow radix2 (-1000) * 2) with (bpow radix2 (- (999))).
      - rewrite bpow_opp. apply Rinv_le; [apply IZR_lt; reflexivity|]. rewrite <- two_pow by lia. apply IZR_le. apply Z.leb_le. vm_compute. reflexivity.
      - change (-1000)%Z with (- (999) + -1)%Z. rewrite bpow_plus. change (bpow radix2 (-1)) with (/ 2). field. }
    destruct (lit_ok m (e - 6)) as (Fl & Cl & _).
    + lia.
    + fold x. lra.
    + right. fold x. lra.
    + split; [exact Fl|]. fold x in Cl. pose proof e52 as E52.
      assert (Cl' : Rabs (B2R (f64_lit m (e - 6)) - x) <= 2.3e-16 * x).
      { eapply Rle_trans; [exact Cl|]. apply Rmult_le_compat_r; [lra|exact E52]. }
      apply Rabs_le_inv in Cl'. apply Rabs_le. lra.
Qed.

Lemma same_digits sp : parameter_ieee sp -> seven_digits_ieee sp sp.
Proof.
  intros (Fp & Hp). destruct (mag_range (B2R sp) Hp) as [P _]. split; [exact Fp|].
  rewrite Rminus_diag_eq, Rabs_R0 by reflexivity. lra.
Qed.
End Ieee.

Theorem C38_round_trip_ieee : forall (L : Libm) (R : Rng (FA L)) (sv : Solver (FA L)) fuel e (cfg : config (FA L)) (s s1 : sys R) es (sp : f64),
  cache_holds e (s_fs s) es -> (length es < fuel)%nat -> (forall en, In en es -> ~ entry_for cfg en) ->
  printable_ieee L cfg -> parameter_ieee sp ->
  partonic_cross_section R sv fuel e cfg s = (Ret (sp : num (FA L)), s1) ->
  exists new (sp' : f64), entry_for cfg new /\ cache_holds e (s_fs s1) (es ++ [new]) /\ seven_digits_ieee sp' sp /\
    forall sv2 fuel2 (s2 : sys R), s_fs s2 = s_fs s1 -> (S (length es) < fuel2)%nat ->
      partonic_cross_section R sv2 fuel2 e cfg s2 = (Ret (sp' : num (FA L)), s2).
Proof.
  intros L R sv fuel e cfg s s1 es sp Ch Hf No Hc Hp E.
  destruct (reads_back_ieee L cfg sp Hc Hp) as (sp' & Rb & Sd).
  destruct (round_trip R e es sv fuel cfg s s1 sp sp' Ch Hf No E Rb) as (new & H1 & H2 & H3).
  exists new, sp'. auto.
Qed.

Theorem C38_history_ieee : forall (L : Libm) (R : Rng (FA L)) e f0 h f,
  world_no_cache e f0 -> runs R e f0 h f ->
  (forall cfg (sp : f64), In (cfg, sp : num (FA L)) h -> printable_ieee L cfg /\ parameter_ieee sp) ->
  forall cfg (sp : f64), In (cfg, sp : num (FA L)) h -> exists sp' : f64, seven_digits_ieee sp' sp /\
    forall sv fuel (s : sys R), s_fs s = f -> (length h < fuel)%nat ->
      partonic_cross_section R sv fuel e cfg s = (Ret (sp' : num (FA L)), s).
Proof.
  intros L R e f0 h f W H Hr. apply (history_hits R seven_digits_ieee e f0 h f W H).
  intros cfg sp Hin. destruct (Hr cfg sp Hin) as [Hc Hp]. split; [apply same_digits; exact Hp|apply reads_back_ieee; assumption].
Qed.
