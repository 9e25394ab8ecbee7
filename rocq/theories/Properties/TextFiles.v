(** C43: the event files. *)
From Coq Require Import Reals Lra Ascii.
From Flocq Require Import Core BinarySingleNaN.
From Verif.Base Require Import Result Arith RArith FArith Rng.
From Verif.Model Require Import Config Nucleon Nucleus Event Text Files CrossSection Output Collider.
From Verif.Spec Require Import Decimal Table Grid History Collision Runs Demo.
From Verif.Proof Require Import Basics TextP TableP Ieee DecR Ctor Writers.
From Verif.Properties Require Import Events ImpactIeee Stdout.
Local Open Scope string_scope.
Local Open Scope Z_scope.

Lemma digits_tok k r t : shows_digits k r t -> tok t.
Proof. intros (d & O & -> & _). apply decimal_nonblank, O. Qed.
Lemma tok_no_lf t : tok t -> every (fun c => negb (is_lf c)) t = true.
Proof. intros [T _]. apply (every_impl _ _ t nonblank_not_lf T). Qed.

Section Spec.
Context {A : Arith} (val : num A -> R).

(** A line with the numbers [row], [prec] significant digits each, separated by
    single spaces. *)
Definition row_line (prec : nat) (row : list (num A)) (l : string) : Prop :=
  Forall2 (fun x t => shows_digits prec (val x) t) row (split_spaces l).

(** The header lines of a record. *)
Definition header_lines (d : delivery A) (hs : list string) : Prop :=
  exists tn tb tp tc tm te,
    hs = (["# event " ++ tn; "# b     = " ++ tb; "# npart = " ++ tp]%string ++ (if 0 <? d_ncoll d then ["# ncoll = " ++ tc]%string else [])
          ++ ["# mult  = " ++ tm]%string ++ map (fun kt => "# e" ++ fst kt ++ "    = " ++ snd kt)%string te)%list /\
    shows_int (d_num d) tn /\ shows_digits 10 (val (d_b d)) tb /\ shows_int (ev_npart (d_event d)) tp /\
    (0 < d_ncoll d -> shows_int (d_ncoll d) tc) /\ shows_digits 10 (val (ev_mult (d_event d))) tm /\
    Forall2 (fun e kt => shows_int (fst e) (fst kt) /\ shows_digits 10 (val (snd e)) (snd kt)) (ev_ecc (d_event d)) te.

(** The text of an event file. *)
Definition event_file (header : bool) (d : delivery A) (text : string) : Prop :=
  exists hs gs, lines text = (hs ++ gs)%list /\ (if header then header_lines d hs else hs = []) /\
    Forall2 (row_line (if header then 10%nat else 6%nat)) (ev_TR (d_event d)) gs /\
    last_char text = Some (ascii_of_nat 10).

Variable fin : num A -> Prop.
Hypothesis Hsci : forall k x, 0 <= k -> fin x -> sci_ok k (val x) (nsci A k x).
Definition all_numbers (d : delivery A) : Prop :=
  fin (d_b d) /\ fin (ev_mult (d_event d)) /\ Forall (fun e => fin (snd e)) (ev_ecc (d_event d)) /\
  Forall (Forall fin) (ev_TR (d_event d)).

Lemma default_shows prec x : (1 <= prec)%nat -> fin x -> shows_digits prec (val x) (print_default prec x).
Proof. intros P F. apply general_shows; [exact P|]. apply Hsci; [lia|exact F]. Qed.

Lemma row_text_ok prec row : (1 <= prec)%nat -> (2 <= length row)%nat -> Forall fin row ->
  exists l, row_text prec row = Ret (l ++ newline) /\ every (fun c => negb (is_lf c)) l = true /\ row_line prec row l.
Proof.
  intros P. induction row as [|x row IH]; intros L F; [cbn in L; lia|]. inversion F as [|x' r' Fx Fr]; subst.
  pose proof (default_shows prec x P Fx) as Sx. pose proof (digits_tok _ _ _ Sx) as Tx.
  destruct row as [|y [|z row]].
  - cbn in L. lia.
  - inversion Fr as [|y' r' Fy _]; subst. pose proof (default_shows prec y P Fy) as Sy. pose proof (digits_tok _ _ _ Sy) as Ty.
    exists (print_default prec x ++ " " ++ print_default prec y). split; [|split].
    + cbn [row_text]. rewrite !append_assoc. reflexivity.
    + rewrite !every_app, (tok_no_lf _ Tx), (tok_no_lf _ Ty). reflexivity.
    + unfold row_line, split_spaces. change (" " ++ print_default prec y) with (String " " (print_default prec y)). rewrite split_from_part by apply Tx. rewrite split_from_last by apply Ty.
      constructor; [exact Sx|]. constructor; [exact Sy|constructor].
  - destruct (IH ltac:(cbn; lia) Fr) as (l & E & N & Hl).
    exists (print_default prec x ++ " " ++ l). split; [|split].
    + change (row_text prec (x :: y :: z :: row)) with (rbind (row_text prec (y :: z :: row)) (fun t => Ret ((print_default prec x ++ " ") ++ t))).
      rewrite E. cbn [rbind]. rewrite !append_assoc. reflexivity.
    + rewrite !every_app, N, (tok_no_lf _ Tx). reflexivity.
    + unfold row_line, split_spaces. change (" " ++ l) with (String " " l). rewrite split_from_part by apply Tx. cbn [append]. constructor; [exact Sx|exact Hl].
Qed.

Lemma last_char_line s t : last_char (s ++ t ++ newline) = Some (ascii_of_nat 10).
Proof. rewrite <- append_assoc. apply last_char_app. Qed.
Lemma last_char_cat s t : t <> "" -> last_char (s ++ t) = last_char t.
Proof.
  intros H. induction s as [|c s IH]; [reflexivity|]. cbn [append last_char]. destruct (s ++ t) eqn:E; [destruct s; [cbn in E; congruence|discriminate E]|]. exact IH.
Qed.

Lemma grid_text_ok prec g : (1 <= prec)%nat -> Forall (fun row => (2 <= length row)%nat) g -> Forall (Forall fin) g ->
  exists t gs, grid_text prec g = Ret t /\ lines t = gs /\ Forall2 (row_line prec) g gs /\ (t <> "" -> last_char t = Some (ascii_of_nat 10)) /\ (g <> [] -> t <> "").
Proof.
  intros P L F. induction g as [|row g IH].
  - exists "", []. split; [reflexivity|]. split; [reflexivity|]. split; [constructor|]. split; congruence.
  - inversion L as [|? ? L1 L2]; subst. inversion F as [|? ? F1 F2]; subst.
    destruct (row_text_ok prec row P L1 F1) as (l & E & N & Hl). destruct (IH L2 F2) as (t & gs & E2 & Lt & Hg & La & Ne).
    exists (l ++ newline ++ t), (l :: gs). split; [|split; [|split; [|split]]].
    + cbn [grid_text]. rewrite E, E2. cbn [rbind]. rewrite append_assoc. reflexivity.
    + rewrite lines_line by exact N. rewrite Lt. reflexivity.
    + constructor; assumption.
    + intros _. destruct t as [|c t].
      * rewrite <- append_assoc, append_nil_r. apply last_char_app.
      * rewrite <- append_assoc, last_char_cat by discriminate. apply La. discriminate.
    + intros _. destruct l; discriminate.
Qed.

(** A line followed by a line feed. *)
Lemma line_then pre t rest : every (fun c => negb (is_lf c)) pre = true -> tok t ->
  lines (pre ++ t ++ newline ++ rest) = (pre ++ t) :: lines rest.
Proof. intros N T. rewrite <- append_assoc. apply lines_line. rewrite every_app, N, tok_no_lf by exact T. reflexivity. Qed.

Lemma ecc_lines l rest : Forall (fun e => fin (snd e)) l -> exists te,
  lines (fold_right append "" (map (fun e => "# e" ++ print_Z (fst e) ++ "    = " ++ print_default 10 (snd e) ++ newline) l) ++ rest)
    = (map (fun kt => "# e" ++ fst kt ++ "    = " ++ snd kt)%string te ++ lines rest)%list /\
  Forall2 (fun e kt => shows_int (fst e) (fst kt) /\ shows_digits 10 (val (snd e)) (snd kt)) l te.
Proof.
  induction 1 as [|e l He Hl (te & IH1 & IH2)]; [exists []; split; [reflexivity|constructor]|].
  exists ((print_Z (fst e), print_default 10 (snd e)) :: te).
  pose proof (default_shows 10 (snd e) ltac:(lia) He) as S. pose proof (print_Z_shows (fst e)) as Sk. split; [|constructor; auto].
  cbn [map fold_right fst snd app]. rewrite <- IH1. rewrite !append_assoc.
  assert (N : every (fun c => negb (is_lf c)) ("# e" ++ print_Z (fst e) ++ "    = ") = true).
  { rewrite !every_app, (tok_no_lf (print_Z (fst e))) by exact (int_tok _ _ Sk). reflexivity. }
  pose proof (line_then ("# e" ++ print_Z (fst e) ++ "    = ") (print_default 10 (snd e))
    (fold_right append "" (map (fun e => "# e" ++ print_Z (fst e) ++ "    = " ++ print_default 10 (snd e) ++ newline) l) ++ rest) N (digits_tok _ _ _ S)) as LT.
  rewrite !append_assoc in LT. rewrite LT. reflexivity.
Qed.

Lemma event_text_ok header (d : delivery A) : all_numbers d -> Forall (fun row => (2 <= length row)%nat) (ev_TR (d_event d)) -> ev_TR (d_event d) <> [] ->
  exists text, event_text (d_num d) (d_b d) (d_ncoll d) (d_event d) header = Ret text /\ event_file header d text.
Proof.
  intros (F1 & F2 & F3 & F4) L G0. unfold event_text.
  destruct (grid_text_ok (if header then 10 else 6)%nat (ev_TR (d_event d)) ltac:(destruct header; lia) L F4) as (t & gs & E & Lt & Hg & La & Ne).
  specialize (Ne G0). specialize (La Ne). rewrite E. cbn [rbind]. destruct header; cbn [append].
  2:{ eexists. split; [reflexivity|]. exists [], gs. split; [exact Lt|]. split; [reflexivity|]. split; [exact Hg|exact La]. }
  pose proof (print_Z_shows (d_num d)) as Sn. pose proof (print_Z_shows (ev_npart (d_event d))) as Sp. pose proof (print_Z_shows (d_ncoll d)) as Sc.
  pose proof (default_shows 10 (d_b d) ltac:(lia) F1) as Sb. pose proof (default_shows 10 (ev_mult (d_event d)) ltac:(lia) F2) as Sm.
  destruct (ecc_lines (ev_ecc (d_event d)) t F3) as (te & El & Se).
  eexists. split; [reflexivity|].
  exists (["# event " ++ print_Z (d_num d); "# b     = " ++ print_default 10 (d_b d); "# npart = " ++ print_Z (ev_npart (d_event d))]%string
       ++ (if 0 <? d_ncoll d then ["# ncoll = " ++ print_Z (d_ncoll d)]%string else [])
       ++ ["# mult  = " ++ print_default 10 (ev_mult (d_event d))]%string ++ map (fun kt => "# e" ++ fst kt ++ "    = " ++ snd kt)%string te)%list, gs.
  split; [|split; [|split; [exact Hg|]]].
  - unfold header_text. rewrite !append_assoc.
    rewrite (line_then "# event ") by (first [reflexivity|exact (int_tok _ _ Sn)]).
    rewrite (line_then "# b     = ") by (first [reflexivity|exact (digits_tok _ _ _ Sb)]).
    rewrite (line_then "# npart = ") by (first [reflexivity|exact (int_tok _ _ Sp)]).
    destruct (0 <? d_ncoll d).
    + rewrite !append_assoc. rewrite (line_then "# ncoll = ") by (first [reflexivity|exact (int_tok _ _ Sc)]).
      rewrite (line_then "# mult  = ") by (first [reflexivity|exact (digits_tok _ _ _ Sm)]). rewrite El, Lt. reflexivity.
    + match goal with |- context [ "" ++ ?x ] => change ("" ++ x) with x end. rewrite (line_then "# mult  = ") by (first [reflexivity|exact (digits_tok _ _ _ Sm)]). rewrite El, Lt. reflexivity.
  - exists (print_Z (d_num d)), (print_default 10 (d_b d)), (print_Z (ev_npart (d_event d))), (print_Z (d_ncoll d)), (print_default 10 (ev_mult (d_event d))), te.
    auto 10.
  - rewrite last_char_cat by exact Ne. exact La.
Qed.
End Spec.

(** ** C43 *)
(** For every record with finite numbers on a grid of N x N cells, N >= 2: the
    text of its file is the header (if enabled) and N lines of N numbers, row by
    row, separated by single spaces; 10 significant digits with the header, 6
    without. *)
Lemma size_rows {A : Arith} N (g : grid A) : 2 <= N -> square N g -> Forall (fun row => (2 <= length row)%nat) g /\ g <> [].
Proof. intros H [L F]. split; [eapply Forall_impl; [|exact F]; cbn; intros r E; lia|intros ->; cbn in L; lia]. Qed.

Theorem C43_real : forall header (d : delivery RA) N, 2 <= N -> square N (ev_TR (d_event d)) ->
  exists text, event_text (d_num d) (d_b d) (d_ncoll d) (d_event d) header = Ret text /\
    event_file (A:=RA) (fun x => x) header d text.
Proof.
  intros header d N H G. destruct (size_rows N _ H G) as [L NE].
  apply (event_text_ok (A:=RA) (fun x => x) (fun _ => True)); [|split; [exact I|split; [exact I|split]]|exact L|exact NE].
  - intros k x Hk _. apply (Rsci_ok k x Hk).
  - apply Forall_forall. intros; exact I.
  - apply Forall_forall. intros r _. apply Forall_forall. intros; exact I.
Qed.

Definition finite_grid {L} (d : delivery (FA L)) : Prop := Forall (Forall (fun x : f64 => is_finite x = true)) (ev_TR (d_event d)).

Theorem C43_ieee : forall L header (d : delivery (FA L)) N, 2 <= N -> square N (ev_TR (d_event d)) -> finite_record d -> finite_grid d ->
  exists text, event_text (d_num d) (d_b d) (d_ncoll d) (d_event d) header = Ret text /\
    event_file (A:=FA L) valF header d text.
Proof.
  intros L header d N H G (F1 & F2 & F3) F4. destruct (size_rows N _ H G) as [Lr NE].
  apply (event_text_ok (A:=FA L) valF (fun x : f64 => is_finite x = true)); [|split; [exact F1|split; [exact F2|split; [exact F3|exact F4]]]|exact Lr|exact NE].
  intros k x Hk F. apply (f64_sci_ok k x Hk F).
Qed.

(** On a grid of one cell the writer reads past the end of the row. *)
Theorem C43_one_cell : forall (A : Arith) header (d : delivery A), square 1 (ev_TR (d_event d)) ->
  event_text (d_num d) (d_b d) (d_ncoll d) (d_event d) header = UB UbDerefEnd.
Proof.
  intros A header d [L F]. unfold event_text. destruct (ev_TR (d_event d)) as [|row g]; [cbn in L; lia|].
  inversion F as [|? ? Lr _]; subst. destruct row as [|x [|y row]]; cbn in Lr; try lia. reflexivity.
Qed.

(** ** Non-vacuity *)
Definition sample_grid (A : Arith) : delivery A :=
  let one := nlit A 1 0 in let zero := nlit A 0 0 in
  Delivery 3 one 7 (@Event A GGeometric one one 2 one [] [] [[one; zero]; [zero; one]] zero zero 5 one [(2, one); (3, zero)]) [] [].
Example C43_real_instance : square 2 (ev_TR (d_event (sample_grid RA))).
Proof. split; [reflexivity|]. repeat constructor. Qed.
Example C43_ieee_instance : finite_record (sample_grid (FA demo_libm)) /\ finite_grid (sample_grid (FA demo_libm)) /\
  event_text (A:=FA demo_libm) 3 (f64_lit 1 0) 7 (d_event (sample_grid (FA demo_libm))) true
  = Ret ("# event 3" ++ newline ++ "# b     = 1" ++ newline ++ "# npart = 5" ++ newline ++ "# ncoll = 7" ++ newline ++ "# mult  = 1" ++ newline
         ++ "# e2    = 1" ++ newline ++ "# e3    = 0" ++ newline ++ "1 0" ++ newline ++ "0 1" ++ newline).
Proof.
  assert (F1 : is_finite (f64_lit 1 0) = true) by (vm_compute; reflexivity). assert (F0 : is_finite (f64_lit 0 0) = true) by (vm_compute; reflexivity).
  split; [|split].
  - split; [exact F1|]. split; [exact F1|]. repeat (constructor; [first [exact F1|exact F0]|]). constructor.
  - repeat (constructor; [first [exact F1|exact F0|repeat (constructor; [first [exact F1|exact F0]|]); constructor]|]). constructor.
  - vm_compute. reflexivity.
Qed.
Example C43_one_cell_instance : square (A:=RA) 1 [[nlit RA 1 0]].
Proof. split; [reflexivity|]. repeat constructor. Qed.
