(** Reading the cross-section cache. *)
From Coq Require Import Ascii.
From Verif.Base Require Import Result Arith Rng.
From Verif.Model Require Import Random Config Nucleon Text Files CrossSection.
From Verif.Spec Require Import Decimal Cache.
From Verif.Proof Require Import Basics TextP.
Local Open Scope string_scope.

Lemma gap_ends s t : gap s -> ends_token (s ++ t).
Proof. intros [Hb Hn]. destruct s as [|c s]; [congruence|]. simpl in *. apply andb_prop in Hb. apply Hb. Qed.
Lemma blank_ends s : every blank s = true -> ends_token s.
Proof. destruct s as [|c s]; simpl; auto. intros H. apply andb_prop in H. apply H. Qed.

Section Read.
Variable A : Arith.

Definition vars_of (en : centry) : cvars A :=
  CVars (Some (integer_value (e_number en))) (Some (valued A (e_nw en))) (Some (valued A (e_cw en)))
        (Some (valued A (e_sigma en))) (Some (valued A (e_sp en))).

Lemma read_entry_line en l rest v : centry_ok en -> entry_line en l -> ends_token rest ->
  read_entry (A:=A) (Istream (l ++ rest) false false) v = (Istream rest (at_end rest) false, vars_of en).
Proof.
  intros (O1 & O1' & O2 & O3 & O4 & O5) [s0 s1 s2 s3 s4 B0 G1 G2 G3 G4] He.
  unfold read_entry. rewrite !app_assoc_s.
  rewrite read_int_text by auto using gap_ends.
  assert (NE : forall s t, gap s -> at_end (s ++ t) = false).
  { intros s t [_ Hn]. destruct s; [congruence|reflexivity]. }
  rewrite NE by assumption.
  rewrite (read_double_text A s1) by (try apply G1; auto using gap_ends). rewrite NE by assumption.
  rewrite (read_double_text A s2) by (try apply G2; auto using gap_ends). rewrite NE by assumption.
  rewrite (read_double_text A s3) by (try apply G3; auto using gap_ends). rewrite NE by assumption.
  rewrite (read_double_text A s4) by (try apply G4; auto). reflexivity.
Qed.

(** At the end of the data (only white space left) all five extractions fail. *)
Lemma read_entry_end tail v : every blank tail = true ->
  read_entry (A:=A) (Istream tail false false) v = (Istream "" true true, v).
Proof.
  intros Hb. unfold read_entry.
  assert (S : sentry (Istream tail false false) = (Istream "" true true, false)).
  { unfold sentry. cbn [is_eof is_fail is_rest orb].
    rewrite <- (app_nil_r_s tail), (skip_space_app tail "") by (auto; exact I). reflexivity. }
  unfold read_int at 1. rewrite S. cbn. destruct v; reflexivity.
Qed.

Definition matchesb (w v : num A) (m : Z) (sigma : num A) (en : centry) : bool :=
  almost_equal w (valued A (e_nw en)) && almost_equal v (valued A (e_cw en)) &&
  almost_equal sigma (valued A (e_sigma en)) && (m =? integer_value (e_number en))%Z.

Lemma matchesb_spec w v m sigma en : matchesb w v m sigma en = true <-> matches A w v m sigma en.
Proof.
  unfold matchesb, matches, close, almost_equal. rewrite !andb_true_iff, Z.eqb_eq. intuition congruence.
Qed.

Lemma entry_matches_vars w v m sigma en : entry_matches w v m sigma (vars_of en) = Ret (matchesb w v m sigma en).
Proof.
  unfold entry_matches, matchesb. cbn [vars_of cv_nw cv_cw cv_sigma cv_number read_var rbind].
  destruct (almost_equal w _); [|reflexivity]. cbn [negb andb].
  destruct (almost_equal v _); [|reflexivity]. cbn [negb andb].
  destruct (almost_equal sigma _); reflexivity.
Qed.

(** White space in front can be absorbed into the first line. *)
Lemma entry_line_blank en l pre : every blank pre = true -> entry_line en l -> entry_line en (pre ++ l).
Proof.
  intros Hp [s0 s1 s2 s3 s4 B0 G1 G2 G3 G4].
  rewrite <- app_assoc_s. constructor; auto. rewrite every_app, Hp, B0. reflexivity.
Qed.

Lemma cache_loop_text_pre w v m sigma es t : cache_text es t -> forall pre cv fuel,
  every blank pre = true -> (length es < fuel)%nat ->
  cache_loop fuel w v m sigma (Istream (pre ++ t) false false) cv
  = Ret (option_map (fun en => valued A (e_sp en)) (find (matchesb w v m sigma) es)).
Proof.
  intros H. induction H as [en l tail Ok El Hb|en l s es t Ok El G H IH]; intros pre cv fuel Hp Hf.
  - destruct fuel as [|fuel]; [simpl in Hf; lia|]. cbn [cache_loop is_eof].
    rewrite <- app_assoc_s.
    rewrite (read_entry_line en (pre ++ l) tail cv Ok (entry_line_blank _ _ _ Hp El) (blank_ends _ Hb)).
    rewrite entry_matches_vars. cbn [rbind find].
    destruct (matchesb w v m sigma en) eqn:M; [reflexivity|].
    destruct fuel as [|fuel]; [simpl in Hf; lia|]. cbn [cache_loop is_eof].
    destruct tail as [|c tail']; [reflexivity|]. cbn [at_end].
    rewrite read_entry_end by exact Hb. rewrite entry_matches_vars, M. cbn [rbind]. destruct fuel; reflexivity.
  - destruct fuel as [|fuel]; [simpl in Hf; lia|]. cbn [cache_loop is_eof].
    rewrite <- app_assoc_s.
    rewrite (read_entry_line en (pre ++ l) (s ++ t) cv Ok (entry_line_blank _ _ _ Hp El) (gap_ends s t G)).
    rewrite entry_matches_vars. cbn [rbind find].
    destruct (matchesb w v m sigma en) eqn:M; [reflexivity|].
    assert (at_end (s ++ t) = false) as ->. { destruct G as [_ Gn]. destruct s; [congruence|reflexivity]. }
    apply IH; [apply G|simpl in Hf; lia].
Qed.

(** The loop on a well-formed text finds the first matching entry. *)
Lemma cache_loop_text w v m sigma es t cv fuel : cache_text es t -> (length es < fuel)%nat ->
  cache_loop fuel w v m sigma (Istream t false false) cv
  = Ret (option_map (fun en => valued A (e_sp en)) (find (matchesb w v m sigma) es)).
Proof. intros H Hf. exact (cache_loop_text_pre w v m sigma es t H "" cv fuel eq_refl Hf). Qed.
End Read.
