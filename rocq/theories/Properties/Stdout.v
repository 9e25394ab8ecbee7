(** C42: the lines on standard output. *)
From Coq Require Import Reals Lra Ascii.
From Flocq Require Import Core BinarySingleNaN.
From Verif.Base Require Import Result Arith RArith FArith Rng.
From Verif.Model Require Import Config Nucleon Nucleus Event Text Files CrossSection Output Collider.
From Verif.Spec Require Import Decimal Table History Collision Runs Demo.
From Verif.Proof Require Import Basics TextP TableP Ieee DecR Ctor Writers.
From Verif.Properties Require Import Events ImpactIeee.
Local Open Scope string_scope.
Local Open Scope Z_scope.

(** A token. *)
Definition tok (t : string) : Prop := every nonblank t = true /\ t <> "".
Lemma int_tok z t : shows_int z t -> tok t. Proof. apply shows_int_nonblank. Qed.
Lemma fixed_tok k r t : shows_fixed k r t -> tok t.
Proof. intros (d & f & O & -> & _). apply decimal_nonblank, O. Qed.
Lemma sci_tok k r t : shows_sci k r t -> tok t.
Proof. intros (d & f & n & x & O & -> & _). apply decimal_nonblank, O. Qed.

(** A row of padded tokens. *)
Definition row (l : list (Z * string)) : string := sconcat (map (fun p => setw (fst p) (snd p)) l).
Definition roomy (l : list (Z * string)) : Prop := Forall (fun p => tok (snd p) /\ Z.of_nat (String.length (snd p)) < fst p) l.
Lemma ends_row l rest : roomy l -> ends_token rest -> ends_token (row l ++ rest).
Proof.
  intros H E. destruct H as [|[w t] l [_ H] Hl]; [exact E|]. cbn [row map sconcat fold_right fst snd].
  rewrite append_assoc. apply ends_setw. exact H.
Qed.
Lemma fields_row l rest : roomy l -> ends_token rest -> fields (row l ++ rest) = (map snd l ++ fields rest)%list.
Proof.
  intros H E. induction H as [|[w t] l [[T1 T2] H] Hl IH]; [reflexivity|]. cbn [row map sconcat fold_right fst snd app].
  change (fold_right append "" (map (fun p => setw (fst p) (snd p)) l)) with (row l). rewrite append_assoc.
  rewrite fields_setw; [rewrite IH; reflexivity|exact T1|exact T2|]. apply ends_row; assumption.
Qed.
Lemma no_lf_setw w t : every nonblank t = true -> every (fun c => negb (is_lf c)) (setw w t) = true.
Proof.
  intros H. unfold setw, pad_left. rewrite every_app, repeat_char_every by reflexivity.
  apply (every_impl _ _ t nonblank_not_lf H).
Qed.
Lemma no_lf_row l : Forall (fun p => every nonblank (snd p) = true) l -> every (fun c => negb (is_lf c)) (row l) = true.
Proof.
  induction 1 as [|[w t] l H Hl IH]; [reflexivity|]. cbn [row map sconcat fold_right fst snd].
  rewrite every_app, no_lf_setw by exact H. exact IH.
Qed.

Section Any.
Context {A : Arith}.

Definition cells (width : Z) (d : delivery A) : list (Z * string) :=
  ([(width, print_Z (d_num d)); (15, print_fixed 10 (nfixed A 10 (d_b d))); (5, print_Z (ev_npart (d_event d)))]
  ++ (if 0 <? d_ncoll d then [(6, print_Z (d_ncoll d))] else [])
  ++ [(18, print_sci 10 (nsci A 10 (ev_mult (d_event d))))]
  ++ map (fun e => (14, print_fixed 10 (nfixed A 10 (snd e)))) (ev_ecc (d_event d)))%list.
Lemma row_app a b : row (a ++ b)%list = row a ++ row b.
Proof. unfold row. rewrite map_app. induction (map _ a) as [|x l IH]; [reflexivity|]. cbn [app sconcat fold_right]. rewrite append_assoc. cbn [sconcat] in IH. f_equal. exact IH. Qed.
Lemma line_row width (d : delivery A) : line_of width d = row (cells width d) ++ newline.
Proof.
  unfold line_of, stream_line, cells. rewrite !row_app.
  assert (E : row (map (fun e => (14, print_fixed 10 (nfixed A 10 (snd e)))) (ev_ecc (d_event d))) =
     fold_right append "" (map (fun e => setw 14 (print_fixed 10 (nfixed A 10 (snd e)))) (ev_ecc (d_event d)))).
  { unfold row, sconcat. rewrite map_map. reflexivity. }
  rewrite E. cbn [row map sconcat fold_right fst snd].
  destruct (0 <? d_ncoll d); cbn [row map sconcat fold_right fst snd]; rewrite ?append_assoc, ?append_nil_r; cbn [append]; rewrite ?append_nil_r; reflexivity.
Qed.
End Any.

(** ** The statement *)

Section Record.
Context {A : Arith} (val : num A -> R).

(** The line [l] is the record [d]: event number, impact parameter, participants,
    binary collisions (if positive), multiplicity, eccentricities. *)
Definition record_line (d : delivery A) (l : string) : Prop :=
  exists tn tb tp tc tm te,
    fields l = ([tn; tb; tp] ++ (if 0 <? d_ncoll d then [tc] else []) ++ [tm] ++ te)%list /\
    shows_int (d_num d) tn /\ shows_fixed 10 (val (d_b d)) tb /\ shows_int (ev_npart (d_event d)) tp /\
    (0 < d_ncoll d -> shows_int (d_ncoll d) tc) /\ shows_sci 10 (val (ev_mult (d_event d))) tm /\
    Forall2 (fun e t => shows_fixed 10 (val (snd e)) t) (ev_ecc (d_event d)) te.

(** The ranges in which the fields stay apart. *)
Definition in_width (d : delivery A) : Prop :=
  (0 <= val (d_b d) <= 1000 - powerRZ 10 (-10))%R /\ 0 <= ev_npart (d_event d) < 10000 /\ d_ncoll d < 100000 /\
  (0 <= val (ev_mult (d_event d)))%R /\
  (val (ev_mult (d_event d)) = 0 \/ powerRZ 10 (-998) <= val (ev_mult (d_event d)) < powerRZ 10 998)%R /\
  Forall (fun e => Rabs (val (snd e)) <= 10 - powerRZ 10 (-10))%R (ev_ecc (d_event d)).

Variable fin : num A -> Prop.
Hypothesis Hfixed : forall x, fin x -> fixed_ok 10 (val x) (nfixed A 10 x).
Hypothesis Hsci : forall x, fin x -> sci_ok 10 (val x) (nsci A 10 x).
Definition all_fin (d : delivery A) : Prop :=
  fin (d_b d) /\ fin (ev_mult (d_event d)) /\ Forall (fun e => fin (snd e)) (ev_ecc (d_event d)).

Lemma line_ok width (d : delivery A) : all_fin d -> in_width d ->
  exists l, line_of width d = l ++ String (ascii_of_nat 10) "" /\ every (fun c => negb (is_lf c)) l = true /\ record_line d l.
Proof.
  intros (F1 & F2 & F3) (W1 & W2 & W3 & W4 & W5 & W6). exists (row (cells width d)).
  pose proof (fixed_shows 10 _ _ (Hfixed _ F1)) as Sb. pose proof (sci_shows 10 _ _ (Hsci _ F2)) as Sm.
  pose proof (print_Z_shows (d_num d)) as Sn. pose proof (print_Z_shows (ev_npart (d_event d))) as Sp.
  pose proof (print_Z_shows (d_ncoll d)) as Sc.
  assert (Se : Forall2 (fun e t => shows_fixed 10 (val (snd e)) t) (ev_ecc (d_event d))
    (map (fun e => print_fixed 10 (nfixed A 10 (snd e))) (ev_ecc (d_event d)))).
  { clear W6. induction F3 as [|e l He Hl IH]; constructor; [|exact IH]. apply fixed_shows, Hfixed, He. }
  assert (Lb : Z.of_nat (String.length (print_fixed 10 (nfixed A 10 (d_b d)))) < 15).
  { destruct (fixed_length 10 3 _ _ ltac:(lia) (Hfixed _ F1)) as [L|[_ L]].
    - rewrite Rabs_pos_eq by lra. rewrite <- !p10_powerRZ. change (powerRZ 10 (Z.of_nat 3)) with (10 * (10 * (10 * 1)))%R.
      change (- Z.of_nat 10)%Z with (-10)%Z. lra.
    - assert (E : Rltb (val (d_b d)) 0 = false) by (apply Rltb_false; lra). rewrite E in L. lia.
    - lia. }
  assert (Lm : Z.of_nat (String.length (print_sci 10 (nsci A 10 (ev_mult (d_event d))))) < 18).
  { pose proof (sci_length 10 _ _ (Hsci _ F2)) as L. rewrite Rabs_pos_eq in L by lra. rewrite <- !p10_powerRZ in L.
    specialize (L W5). assert (E : Rltb (val (ev_mult (d_event d))) 0 = false) by (apply Rltb_false; lra). rewrite E in L. lia. }
  assert (Le : roomy (map (fun e => (14, print_fixed 10 (nfixed A 10 (snd e)))) (ev_ecc (d_event d)))).
  { clear Se. revert W6. induction F3 as [|e l He Hl IH]; intros W6; [constructor|]. inversion W6 as [|e' l' W7 W8]; subst. constructor; [|apply IH, W8].
    cbn [fst snd]. split; [apply (fixed_tok _ _ _ (fixed_shows 10 _ _ (Hfixed _ He)))|].
    destruct (fixed_length 10 1 _ _ ltac:(lia) (Hfixed _ He)) as [L|[_ L]].
    - rewrite <- !p10_powerRZ. change (powerRZ 10 (Z.of_nat 1)) with (10 * 1)%R. change (- Z.of_nat 10)%Z with (-10)%Z. lra.
    - destruct (Rltb (val (snd e)) 0); lia.
    - lia. }
  assert (Lp : Z.of_nat (String.length (print_Z (ev_npart (d_event d)))) < 5).
  { pose proof (print_Z_length (ev_npart (d_event d)) 4 ltac:(change (10 ^ Z.of_nat 4) with 10000; lia) ltac:(lia)). lia. }
  assert (RM : roomy ([(15, print_fixed 10 (nfixed A 10 (d_b d))); (5, print_Z (ev_npart (d_event d)))]
    ++ (if 0 <? d_ncoll d then [(6, print_Z (d_ncoll d))] else [])
    ++ [(18, print_sci 10 (nsci A 10 (ev_mult (d_event d))))]
    ++ map (fun e => (14, print_fixed 10 (nfixed A 10 (snd e)))) (ev_ecc (d_event d)))%list).
  { apply Forall_app. split; [constructor; [split; [exact (fixed_tok _ _ _ Sb)|exact Lb]|constructor; [split; [exact (int_tok _ _ Sp)|exact Lp]|constructor]]|].
    apply Forall_app. split.
    - destruct (Z.ltb_spec 0 (d_ncoll d)); [|constructor]. constructor; [|constructor]. split; [exact (int_tok _ _ Sc)|].
      pose proof (print_Z_length (d_ncoll d) 5 ltac:(change (10 ^ Z.of_nat 5) with 100000; lia) ltac:(lia)). cbn [fst snd]. lia.
    - constructor; [split; [exact (sci_tok _ _ _ Sm)|exact Lm]|exact Le]. }
  split; [exact (line_row width d)|]. split.
  - apply no_lf_row. unfold cells. constructor; [apply (int_tok _ _ Sn)|].
    eapply Forall_impl; [|exact RM]. intros [w t] [[T _] _]. exact T.
  - unfold record_line. exists (print_Z (d_num d)), (print_fixed 10 (nfixed A 10 (d_b d))), (print_Z (ev_npart (d_event d))), (print_Z (d_ncoll d)),
      (print_sci 10 (nsci A 10 (ev_mult (d_event d)))), (map (fun e => print_fixed 10 (nfixed A 10 (snd e))) (ev_ecc (d_event d))).
    split; [|auto 10]. unfold cells.
    set (rest := ((if 0 <? d_ncoll d then [(6, print_Z (d_ncoll d))] else [])
      ++ [(18, print_sci 10 (nsci A 10 (ev_mult (d_event d))))]
      ++ map (fun e => (14, print_fixed 10 (nfixed A 10 (snd e)))) (ev_ecc (d_event d)))%list) in *.
    change (row ([(width, print_Z (d_num d)); (15, print_fixed 10 (nfixed A 10 (d_b d))); (5, print_Z (ev_npart (d_event d)))] ++ rest)%list)
      with (setw width (print_Z (d_num d)) ++ row ([(15, print_fixed 10 (nfixed A 10 (d_b d))); (5, print_Z (ev_npart (d_event d)))] ++ rest)%list).
    pose proof (ends_row _ "" RM I) as ER. rewrite append_nil_r in ER.
    rewrite fields_setw; [|apply (int_tok _ _ Sn)|apply (int_tok _ _ Sn)|exact ER].
    pose proof (fields_row _ "" RM I) as FR. rewrite append_nil_r in FR. rewrite FR. cbn [fields fields_from flush]. rewrite app_nil_r.
    unfold rest. rewrite !map_app. cbn [map snd app]. f_equal. f_equal. f_equal. rewrite map_map. cbn [snd]. f_equal. destruct (0 <? d_ncoll d); reflexivity.
Qed.
End Record.

(** ** C42 *)

(** Real arithmetic. *)
Theorem C42_line_real : forall width (d : delivery RA), in_width (fun x : num RA => x) d ->
  exists l, line_of width d = l ++ String (ascii_of_nat 10) "" /\ every (fun c => negb (is_lf c)) l = true /\
    record_line (fun x : num RA => x) d l.
Proof.
  intros width d H. apply (line_ok (A:=RA) (fun x => x) (fun _ => True)); [| | |exact H].
  - intros x _. apply Rfixed_ok. lia.
  - intros x _. apply Rsci_ok. lia.
  - split; [exact I|]. split; [exact I|]. apply Forall_forall. intros; exact I.
Qed.

(** Binary64, any libm.  Every finite multiplicity that is not negative has a
    two or three digit exponent. *)
Local Open Scope R_scope.
Definition valF (x : f64) : R := B2R x.
Definition finite_record {L} (d : delivery (FA L)) : Prop :=
  is_finite (d_b d : f64) = true /\ is_finite (ev_mult (d_event d) : f64) = true /\
  Forall (fun e => is_finite (snd e : f64) = true) (ev_ecc (d_event d)).
Definition in_width_ieee {L} (d : delivery (FA L)) : Prop :=
  0 <= valF (d_b d) <= 1000 - powerRZ 10 (-10) /\ (0 <= ev_npart (d_event d) < 10000)%Z /\ (d_ncoll d < 100000)%Z /\
  0 <= valF (ev_mult (d_event d)) /\
  Forall (fun e => Rabs (valF (snd e)) <= 10 - powerRZ 10 (-10)) (ev_ecc (d_event d)).

Lemma finite_magnitude (x : f64) : is_finite x = true -> B2R x = 0 \/ powerRZ 10 (-998) <= Rabs (B2R x) < powerRZ 10 998.
Proof.
  intros F. destruct (Req_dec (B2R x) 0) as [Z|Z]; [left; exact Z|right].
  rewrite !p10_powerRZ. split.
  - assert (S : bpow radix2 (-1074) <= Rabs (B2R x)).
    { destruct x as [s|s| |s m e He]; try discriminate F; [cbn [B2R] in Z; contradiction|].
      rewrite B2R_abs. pose proof He as B. apply andb_prop in B. destruct B as [B _]. unfold SpecFloat.canonical_mantissa in B.
      apply Zeq_bool_eq in B. unfold SpecFloat.fexp, SpecFloat.emin in B.
      assert (E : (-1074 <= e)%Z) by (unfold emax64, prec64 in *; lia).
      apply Rle_trans with (bpow radix2 e); [apply bpow_le, E|]. rewrite <- (Rmult_1_l (bpow radix2 e)) at 1.
      apply Rmult_le_compat_r; [apply bpow_ge_0|apply IZR_le; lia]. }
    apply Rle_trans with (2 := S). rewrite p10_div by lia. change (- (-998))%Z with 998%Z.
    change (-1074)%Z with (Z.opp 1074). rewrite bpow_opp, <- (IZR_Zpower radix2) by lia.
    apply Rinv_le_contravar; [apply IZR_lt; reflexivity|]. apply IZR_le. vm_compute. discriminate.
  - apply Rlt_trans with (bpow radix2 emax64).
    + destruct (Rabs_lt_inv (B2R x) (bpow radix2 emax64)) as []; [|apply Rabs_lt; split; assumption].
      apply abs_B2R_lt_emax.
    + rewrite p10_Z by lia. unfold emax64. rewrite <- (IZR_Zpower radix2) by lia. apply IZR_lt. vm_compute. reflexivity.
Qed.

Theorem C42_line_ieee : forall L width (d : delivery (FA L)), finite_record d -> in_width_ieee d ->
  exists l, line_of width d = (l ++ String (ascii_of_nat 10) "")%string /\ every (fun c => negb (is_lf c)) l = true /\
    record_line (A:=FA L) valF d l.
Proof.
  intros L width d F (W1 & W2 & W3 & W4 & W5). apply (line_ok (A:=FA L) valF (fun x : f64 => is_finite x = true)); [| |exact F|].
  - intros x Fx. apply (f64_fixed_ok 10 x); [lia|exact Fx].
  - intros x Fx. apply (f64_sci_ok 10 x); [lia|exact Fx].
  - repeat (split; [assumption|]). split; [|exact W5]. destruct F as (_ & F & _). unfold valF in *.
    destruct (finite_magnitude _ F) as [M|M]; [left; exact M|]. right. rewrite Rabs_pos_eq in M by exact W4. exact M.
Qed.

(** A whole run: as many lines as events, line number i is event number i. *)
Definition well_printed {A} (val : num A -> R) (ok : delivery A -> Prop) (r : Rng A) (cfg : config A) (s s' : sys r) : Prop :=
  exists ds text, length ds = Z.to_nat (number_events cfg) /\
    (forall i d, nth_error ds i = Some d -> d_num d = Z.of_nat i) /\
    s_out s' = (s_out s ++ text)%string /\
    (Forall ok ds -> Forall2 (record_line val) ds (lines text)).

Lemma lines_concat {A} (val : num A -> R) width (ds : list (delivery A)) :
  Forall (fun d => exists l, line_of width d = (l ++ String (ascii_of_nat 10) "")%string /\ every (fun c => negb (is_lf c)) l = true /\ record_line val d l) ds ->
  Forall2 (record_line val) ds (lines (sconcat (map (line_of width) ds))).
Proof.
  induction 1 as [|d ds (l & E & N & Hl) H IH]; [constructor|]. cbn [map sconcat fold_right]. rewrite E, append_assoc.
  change (String (ascii_of_nat 10) "") with newline. rewrite lines_line by exact N. constructor; [exact Hl|exact IH].
Qed.

Theorem C42_run_real : forall (rg : Rng RA) sv bd cfuel fuel sfuel e cfg (s s' : sys rg), quiet cfg = false ->
  collide rg sv bd cfuel fuel sfuel e cfg s = (Ret tt, s') ->
  well_printed (fun x : num RA => x) (in_width (fun x : num RA => x)) rg cfg s s'.
Proof.
  intros rg sv bd cfuel fuel sfuel e cfg s s' Q H. apply C01_exactly_N_records in H.
  destruct H as (co & nA & nB & ev0 & nst & gst & s1 & width & ds & _ & L & N & _ & O & _). rewrite Q in O.
  exists ds, (sconcat (map (line_of width) ds)). split; [exact L|]. split; [exact N|]. split; [exact O|].
  intros W. apply lines_concat. eapply Forall_impl; [|exact W]. intros d. apply C42_line_real.
Qed.

Theorem C42_run_ieee : forall L (rg : Rng (FA L)) sv bd cfuel fuel sfuel e cfg (s s' : sys rg), quiet cfg = false ->
  collide rg sv bd cfuel fuel sfuel e cfg s = (Ret tt, s') ->
  well_printed (A:=FA L) valF (fun d => finite_record d /\ in_width_ieee d) rg cfg s s'.
Proof.
  intros L rg sv bd cfuel fuel sfuel e cfg s s' Q H. apply C01_exactly_N_records in H.
  destruct H as (co & nA & nB & ev0 & nst & gst & s1 & width & ds & _ & Ln & N & _ & O & _). rewrite Q in O.
  exists ds, (sconcat (map (line_of width) ds)). split; [exact Ln|]. split; [exact N|]. split; [exact O|].
  intros W. apply lines_concat. eapply Forall_impl; [|exact W]. intros d [F I]. apply C42_line_ieee; assumption.
Qed.

(** Outside the ranges fields run together: from 10000 participants on, b and
    npart are one field; from 100000 binary collisions on, npart and ncoll are. *)
Local Open Scope Z_scope.
Lemma fields_glued w w' t u rest : tok t -> tok u -> (w' <= Z.of_nat (String.length u)) -> ends_token rest ->
  fields (setw w t ++ setw w' u ++ rest) = (t ++ u) :: fields rest.
Proof.
  intros [T1 T2] [U1 U2] H E. rewrite (setw_exact w' u H).
  destruct (pad_left_blank w t) as (sp & S1 & S2 & _). rewrite S2, append_assoc.
  rewrite fields_blank by exact S1. rewrite <- append_assoc. apply fields_token; [rewrite every_app, T1, U1; reflexivity| |exact E].
  destruct t; [congruence|discriminate].
Qed.

Section Glued.
Variable d : delivery RA.
Hypothesis W1 : (0 <= (d_b d : R) <= 1000 - powerRZ 10 (-10))%R.
Hypothesis W4 : (0 <= (ev_mult (d_event d) : R))%R.
Hypothesis W5 : ((ev_mult (d_event d) : R) = 0 \/ powerRZ 10 (-998) <= ev_mult (d_event d) < powerRZ 10 998)%R.

Let Fb := Rfixed_ok 10 (d_b d) ltac:(lia).
Let Fm := Rsci_ok 10 (ev_mult (d_event d)) ltac:(lia).
Let Sb := fixed_shows 10 _ _ Fb.
Let Sm := sci_shows 10 _ _ Fm.
Let Sn := print_Z_shows (d_num d).
Let Sp := print_Z_shows (ev_npart (d_event d)).
Let Sc := print_Z_shows (d_ncoll d).

Lemma b_fits : Z.of_nat (String.length (print_fixed 10 (Rfixed 10 (d_b d)))) < 15.
Proof.
  destruct (fixed_length 10 3 _ _ ltac:(lia) Fb) as [L|[_ L]].
  - rewrite Rabs_pos_eq by lra. rewrite <- !p10_powerRZ. change (powerRZ 10 (Z.of_nat 3)) with (10 * (10 * (10 * 1)))%R.
    change (- Z.of_nat 10)%Z with (-10)%Z. lra.
  - assert (E : Rltb (d_b d) 0 = false) by (apply Rltb_false; lra). rewrite E in L. lia.
  - lia.
Qed.
Lemma mult_fits : Z.of_nat (String.length (print_sci 10 (Rsci 10 (ev_mult (d_event d))))) < 18.
Proof.
  pose proof (sci_length 10 _ _ Fm) as L. rewrite Rabs_pos_eq in L by exact W4. rewrite <- !p10_powerRZ in L.
  specialize (L W5). assert (E : Rltb (ev_mult (d_event d)) 0 = false) by (apply Rltb_false; exact W4). rewrite E in L. lia.
Qed.

Theorem C42_npart_runs_together : forall width, 10000 <= ev_npart (d_event d) -> d_ncoll d < 100000 ->
  exists tn tb tp more, fields (line_of width d) = tn :: (tb ++ tp) :: more /\
    shows_int (d_num d) tn /\ shows_fixed 10 (d_b d) tb /\ shows_int (ev_npart (d_event d)) tp.
Proof.
  intros width W2 W3.
  exists (print_Z (d_num d)), (print_fixed 10 (Rfixed 10 (d_b d))), (print_Z (ev_npart (d_event d))).
  pose proof (print_Z_length_ge (ev_npart (d_event d)) 4 ltac:(change (10 ^ Z.of_nat 4) with 10000; lia)) as Lp.
  unfold line_of, stream_line. cbn [nfixed nsci RA RA_with].
  eexists. split; [|split; [exact Sn|split; [exact Sb|exact Sp]]].
  rewrite fields_setw; [|apply (int_tok _ _ Sn)|apply (int_tok _ _ Sn)|apply ends_setw; exact b_fits].
  f_equal. apply fields_glued; [exact (fixed_tok _ _ _ Sb)|exact (int_tok _ _ Sp)|lia|].
  destruct (Z.ltb_spec 0 (d_ncoll d)).
  - apply ends_setw. pose proof (print_Z_length (d_ncoll d) 5 ltac:(change (10 ^ Z.of_nat 5) with 100000; lia) ltac:(lia)). lia.
  - cbn [append]. apply ends_setw. exact mult_fits.
Qed.

Theorem C42_ncoll_runs_together : forall width, 0 <= ev_npart (d_event d) < 10000 -> 100000 <= d_ncoll d ->
  exists tn tb tp tc more, fields (line_of width d) = tn :: tb :: (tp ++ tc) :: more /\
    shows_int (d_num d) tn /\ shows_fixed 10 (d_b d) tb /\ shows_int (ev_npart (d_event d)) tp /\ shows_int (d_ncoll d) tc.
Proof.
  intros width W2 W3.
  exists (print_Z (d_num d)), (print_fixed 10 (Rfixed 10 (d_b d))), (print_Z (ev_npart (d_event d))), (print_Z (d_ncoll d)).
  pose proof (print_Z_length (ev_npart (d_event d)) 4 ltac:(change (10 ^ Z.of_nat 4) with 10000; lia) ltac:(lia)) as Lp.
  pose proof (print_Z_length_ge (d_ncoll d) 5 ltac:(change (10 ^ Z.of_nat 5) with 100000; lia)) as Lc.
  unfold line_of, stream_line. cbn [nfixed nsci RA RA_with]. destruct (Z.ltb_spec 0 (d_ncoll d)); [|lia].
  eexists. split; [|split; [exact Sn|split; [exact Sb|split; [exact Sp|exact Sc]]]].
  rewrite fields_setw; [|apply (int_tok _ _ Sn)|apply (int_tok _ _ Sn)|apply ends_setw; exact b_fits]. f_equal.
  rewrite fields_setw; [|apply (fixed_tok _ _ _ Sb)|apply (fixed_tok _ _ _ Sb)|apply ends_setw; lia]. f_equal.
  apply fields_glued; [exact (int_tok _ _ Sp)|exact (int_tok _ _ Sc)|lia|]. apply ends_setw. exact mult_fits.
Qed.
End Glued.

(** ** Instances *)

(** Records with b = 1, [np] participants, [nc] collisions, multiplicity 1 and
    eccentricities 1, 0, 1, 0. *)
Definition sample_record (A : Arith) (np nc : Z) : delivery A :=
  let one := nlit A 1 0 in let zero := nlit A 0 0 in
  Delivery 3 one nc (@Event A GGeometric one one 2 one [] [] [] zero zero np one [(2, one); (3, zero); (4, one); (5, zero)]) [] [].
Local Open Scope R_scope.

Lemma tiny : powerRZ 10 (-10) <= 1 /\ powerRZ 10 (-998) <= 1 /\ 1 < powerRZ 10 998.
Proof.
  rewrite !p10_powerRZ. change 1 with (p10 0). repeat split; try (apply bpow_le; lia). apply bpow_lt; lia.
Qed.
Example C42_real_instance : in_width (fun x : num RA => x) (sample_record RA 402 1500).
Proof.
  destruct tiny as (T1 & T2 & T3). unfold in_width, sample_record. cbn [d_b d_event d_ncoll ev_npart ev_mult ev_ecc nlit RA RA_with].
  replace (Rlit 1 0) with 1 by (rewrite Rlit_spec; cbn; ring). replace (Rlit 0 0) with 0 by (rewrite Rlit_spec; cbn; ring).
  repeat split; try lia; try lra.
  repeat constructor; cbn [snd]; rewrite ?Rabs_R1, ?Rabs_R0; lra.
Qed.
Example C42_ieee_instance : finite_record (sample_record (FA demo_libm) 402 1500) /\ in_width_ieee (sample_record (FA demo_libm) 402 1500).
Proof.
  destruct tiny as (T1 & T2 & T3).
  assert (V1 : valF (f64_lit 1 0) = 1) by apply B2R_one. assert (V0 : valF (f64_lit 0 0) = 0) by apply B2R_zero.
  assert (F1 : is_finite (f64_lit 1 0) = true) by (vm_compute; reflexivity). assert (F0 : is_finite (f64_lit 0 0) = true) by (vm_compute; reflexivity).
  split.
  - split; [exact F1|]. split; [exact F1|]. repeat (constructor; [first [exact F1|exact F0]|]). constructor.
  - unfold in_width_ieee, sample_record. cbn [d_b d_event d_ncoll ev_npart ev_mult ev_ecc].
    change (nlit (FA demo_libm) 1 0) with (f64_lit 1 0). change (nlit (FA demo_libm) 0 0) with (f64_lit 0 0). rewrite V1.
    repeat split; try lia; try lra.
    repeat (constructor; [cbn [snd]; rewrite ?V1, ?V0, ?Rabs_R1, ?Rabs_R0; lra|]). constructor.
Qed.
Example C42_glued_instance : exists tn tb tp more,
  fields (line_of 1 (sample_record RA 10000 0)) = tn :: (tb ++ tp)%string :: more /\ shows_fixed 10 1 tb /\ shows_int 10000 tp.
Proof.
  assert (E : Rlit 1 0 = 1) by (rewrite Rlit_spec; cbn; ring).
  destruct tiny as (T1 & T2 & T3).
  assert (W4 : 0 <= Rlit 1 0) by lra.
  assert (W1 : 0 <= Rlit 1 0 <= 1000 - powerRZ 10 (-10)) by lra.
  assert (W5 : Rlit 1 0 = 0 \/ powerRZ 10 (-998) <= Rlit 1 0 < powerRZ 10 998) by (right; lra).
  destruct (C42_npart_runs_together (sample_record RA 10000 0) W1 W4 W5 1%Z ltac:(cbn; lia) ltac:(cbn; lia)) as (tn & tb & tp & more & F & S1 & S2 & S3).
  exists tn, tb, tp, more. split; [exact F|split; [rewrite <- E; exact S2|exact S3]].
Qed.

(** The demonstration run prints two lines. *)
Example C42_run_instance : exists s' ds text, demo_run = (Ret tt, s') /\ length ds = 2%nat /\ s_out s' = text /\
  (Forall (fun d => finite_record d /\ in_width_ieee d) ds -> Forall2 (record_line (A:=FA demo_libm) valF) ds (lines text)).
Proof.
  destruct demo_finishes as [s' H]. pose proof H as H0. unfold demo_run in H.
  destruct (C42_run_ieee demo_libm demo_rng demo_solver demo_build 10 10 10 demo_env demo_config demo_sys s' eq_refl H) as (ds & text & L & _ & O & P).
  exists s', ds, text. split; [exact H0|]. split; [exact L|]. split; [exact O|exact P].
Qed.
