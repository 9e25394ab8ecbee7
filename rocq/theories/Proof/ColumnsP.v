(** Radii and sizes of the named nuclei; deliveries of a run are genuine. *)
From Coq Require Import ZArith Reals Lra Lia Bool List Psatz String.
From Flocq Require Import Core BinarySingleNaN.
From Verif.Base Require Import Result Arith FArith Rng.
From Verif.Model Require Import Config Nucleon Nucleus Event Files CrossSection Output Collider Main.
From Verif.Spec Require Import History Collision Replay Finite Distributions Safe Species Columns.
From Verif.Proof Require Import Basics Ieee Pairs Sampling Ctor Collision EveryEvent SafeP SafeNuclei SafeRun SafeNew.
From Verif.Properties Require Import ImpactIeee ThicknessIeee GridIeee Replay.
Import ListNotations.
Local Open Scope R_scope.

(** At most 238 nucleons. *)
Lemma named_size {A : Arith} bd (f : fs A) p (dmin : num A) nu : lookup p species <> None ->
  nucleus_create bd f p dmin = Ret nu -> (length (nu_nucleons nu) <= 238)%nat.
Proof.
  unfold nucleus_create, species. cbn [lookup]. intros H E.
  repeat match type of H with (if ?c then _ else _) <> _ =>
    destruct c; [injection E as <-; cbn [nu_nucleons proton deuteron deuteron_of woods_saxon deformed nucleus_new]; rewrite repeat_length; lia|] end.
  congruence.
Qed.

Section Radii.
Context {L : Libm} (UL : usual_libm L).
Notation A := (FA L).

Lemma ws_radius n (r a : f64) dmin : sizedb (f64_add r (f64_mul (f64_lit 3 0) a)) 32 = true -> nonnegb (f64_add r (f64_mul (f64_lit 3 0) a)) = true ->
  finite_upto (radius (woods_saxon (A:=A) n r a dmin)) 32.
Proof. intros H1 H2. change (finite_upto (f64_add r (f64_mul (f64_lit 3 0) a)) 32). apply (upto_b _ 32); auto. lia. Qed.
Lemma deformed_radius n (r a b2 b4 : f64) dmin :
  let rmax := f64_add (f64_mul r (f64_add (f64_add (f64_lit 1 0) (f64_mul (f64_lit 63 (-2)) (Babs b2))) (f64_mul (f64_lit 85 (-2)) (Babs b4)))) (f64_mul (f64_lit 10 0) a) in
  sizedb (f64_sub rmax (f64_mul (f64_lit 7 0) a)) 32 = true -> nonnegb (f64_sub rmax (f64_mul (f64_lit 7 0) a)) = true ->
  finite_upto (radius (deformed (A:=A) n r a b2 b4 dmin)) 32.
Proof. intros rmax H1 H2. change (finite_upto (f64_sub rmax (f64_mul (f64_lit 7 0) a)) 32). apply (upto_b _ 32); auto. lia. Qed.

Lemma deuteron_small : finite_upto (radius (deuteron (A:=A))) 32.
Proof.
  destruct UL as (_ & _ & Fl & Bl). set (l := m_log L (f64_lit 1 (-2))) in *.
  set (den := f64_mul (f64_ofZ 2) (f64_fmin (f64_lit 457 (-3)) (f64_lit 235 (-2)))).
  change (finite_upto (f64_div (Bopp l) den) 32).
  assert (Fd : is_finite den = true) by (vm_compute; reflexivity).
  assert (Bd : / 2 <= B2R den).
  { assert (K : f64_ltb den (f64_lit 5 (-1)) = false) by (vm_compute; reflexivity). rewrite ltb_ok in K by (auto; vm_compute; reflexivity).
    destruct (Rlt_bool_spec (B2R den) (B2R (f64_lit 5 (-1)))) as [|C]; [discriminate|].
    assert (Q : B2R (f64_lit 5 (-1)) = / 2).
    { rewrite (B2R_SF _ (SpecFloat.S754_finite false 4503599627370496 (-53))) by (vm_compute; reflexivity).
      cbn [SF2R cond_Zopp]. unfold F2R. cbn [Fnum Fexp]. change (bpow radix2 (-53)) with (/ 9007199254740992). lra. }
    lra. }
  assert (Fo : is_finite (Bopp l) = true) by (rewrite is_finite_Bopp; exact Fl).
  assert (Vo : B2R (Bopp l) = - B2R l) by apply B2R_Bopp.
  assert (Q : 0 <= B2R (Bopp l) / B2R den <= 32).
  { rewrite Vo. split; [apply Rmult_le_pos; [lra|left; apply Rinv_0_lt_compat; lra]|].
    apply Rmult_le_reg_r with (B2R den); [lra|]. unfold Rdiv. rewrite Rmult_assoc, Rinv_l by lra. nra. }
  destruct (div_ok (Bopp l) den Fo) as (D1 & D2 & _); [lra|rewrite Rabs_pos_eq by lra; apply Rle_trans with 32; [lra|okc]|].
  split; [exact D2|]. rewrite D1. split; [apply rnd_nonneg; lra|apply rnd_upper; [okc|lra]].
Qed.

Lemma named_radius_all bd (f : fs A) p (dmin : f64) : lookup p species <> None ->
  outcome (fun _ => True) (fun nu : nucleus A => finite_upto (radius nu) 32) (nucleus_create bd f p dmin).
Proof.
  unfold nucleus_create, species. cbn [lookup]. intros H.
  destruct (String.eqb p "p"); [change (finite_upto (f64_lit 0 0) 32); apply (upto_b _ 32); [lia|vm_compute; reflexivity|vm_compute; reflexivity]|].
  destruct (String.eqb p "d"); [exact deuteron_small|].
  repeat (destruct (String.eqb p _);
    [match goal with
     | |- outcome _ _ (Ret (woods_saxon ?n ?r ?a ?d)) => apply (ws_radius n r a d); vm_cast_no_check (eq_refl true)
     | |- outcome _ _ (Ret (deformed ?n ?r ?a ?b2 ?b4 ?d)) => apply (deformed_radius n r a b2 b4 d); vm_cast_no_check (eq_refl true)
     end|]).
  congruence.
Qed.
Lemma named_radius bd (f : fs A) p (dmin : f64) nu : lookup p species <> None ->
  nucleus_create bd f p dmin = Ret nu -> finite_upto (radius nu) 32.
Proof. intros H E. pose proof (named_radius_all bd f p dmin H) as O. rewrite E in O. exact O. Qed.

(** The range of impact parameters. *)
Lemma max_impact_128 (cfg : config A) sp : everyday cfg -> B2R (nucleon_width cfg : f64) <= 128 ->
  B2R (max_impact (nucleon_common_of cfg sp) : f64) <= 768.
Proof.
  intros Ed Hw. destruct (ed_nucleon _ Ed) as [Fw Bw]. set (w := nucleon_width cfg : f64) in *.
  assert (P20 : bpow radix2 (-20) = / 1048576) by reflexivity.
  destruct (sizedb_ok (f64_lit 6 0) 6 ltac:(lia) eq_refl) as [F6 _].
  assert (V6 : B2R (f64_lit 6 0) = 6).
  { rewrite (B2R_SF _ (SpecFloat.S754_finite false 6755399441055744 (-50))) by (vm_compute; reflexivity).
    cbn [SF2R cond_Zopp]. unfold F2R. cbn [Fnum Fexp]. change (bpow radix2 (-50)) with (/ 1125899906842624). lra. }
  destruct (mul_ok (f64_lit 6 0) w F6 Fw) as (M1 & M2 & _).
  { rewrite V6, Rabs_pos_eq by lra. apply Rle_trans with 3072; [lra|okc]. }
  rewrite V6 in M1. set (x := f64_mul (f64_lit 6 0) w) in *.
  assert (Bx : 5 * B2R w <= B2R x <= 768).
  { rewrite M1. split; [|apply rnd_upper; [okc|lra]].
    destruct (rnd_rel (6 * B2R w)) as (d & Hd & ->).
    - rewrite Rabs_pos_eq by lra. apply Rle_trans with (bpow radix2 (-20)); [apply bpow_le; lia|lra].
    - destruct eps_small as [e0 e1]. apply Rabs_le_inv in Hd. nra. }
  assert (Sm : bpow radix2 (-500) <= B2R x <= bpow radix2 500).
  { split.
    - apply Rle_trans with (bpow radix2 (-20)); [apply bpow_le; lia|lra].
    - apply Rle_trans with (bpow radix2 12); [change (bpow radix2 12) with 4096; lra|apply bpow_le; lia]. }
  destruct (mul_ok x x M2 M2) as (Q1 & Q2 & Q3).
  { rewrite Rabs_pos_eq by nra. apply Rle_trans with 9437184; [nra|okc]. }
  assert (S0 : Bsign (f64_mul x x) = false) by (rewrite Q3; destruct (Bsign x); reflexivity).
  destruct (sqrt_ok (f64_mul x x) Q2 S0) as (R1 & R2 & R3).
  change (max_impact (nucleon_common_of cfg sp) : f64) with (f64_sqrt (f64_mul x x)). rewrite R1, Q1. rewrite Ieee.sqrt_square by (try apply rep_B2R; exact Sm). lra.
Qed.

Lemma named_bmax (cfg : config A) (nA nB : nucleus A) (sp : f64) : everyday cfg -> printable cfg -> finite_upto (radius nA) 32 -> finite_upto (radius nB) 32 ->
  let bx := determine_bmax cfg nA nB (nucleon_common_of cfg sp) : f64 in
  moderate (b_min cfg) /\ moderate bx /\ B2R (b_min cfg : f64) <= B2R bx <= 999.
Proof.
  intros Ed [Pw Pb] [FA_ BA] [FB BB] bx. destruct (ed_bmin _ Ed) as (Fn & Sn & Vn). destruct (ed_bmax _ Ed) as (Fx & Vx).
  destruct (max_impact_ok cfg Ed sp) as (Fi & Bi). pose proof (max_impact_128 cfg sp Ed Pw) as Bi2. destruct (ed_nucleon _ Ed) as [Fw Bw].
  assert (P20 : bpow radix2 (-20) = / 1048576) by reflexivity. pose proof (bpow_gt_0 radix2 (-500)) as P5.
  assert (Top : forall r, r <= 16384 -> r <= bpow radix2 500).
  { intros r Hr. apply Rle_trans with (bpow radix2 14); [change (bpow radix2 14) with 16384; lra|apply bpow_le; lia]. }
  assert (Z0 : is_finite (f64_lit 0 0) = true) by reflexivity.
  assert (Lt : f64_ltb (b_max cfg) (f64_lit 0 0) = Rlt_bool (B2R (b_max cfg : f64)) 0) by (rewrite ltb_ok by auto; rewrite B2R_zero; reflexivity).
  change bx with (if f64_ltb (b_max cfg) (f64_lit 0 0) then f64_add (f64_add (radius nA) (radius nB)) (max_impact (nucleon_common_of cfg sp)) else b_max cfg).
  rewrite Lt. destruct Vx as [[Neg Bn]|[Sx [[Bn Bm] Vx]]].
  - rewrite Rlt_bool_true by exact Neg. set (mi := max_impact (nucleon_common_of cfg sp) : f64) in *.
    destruct (add_ok (radius nA) (radius nB) FA_ FB) as (A1 & A2 & _).
    { rewrite Rabs_pos_eq by lra. apply Rle_trans with 64; [lra|okc]. }
    set (s := f64_add (radius nA) (radius nB)) in *.
    assert (Bs : 0 <= B2R s <= 64) by (rewrite A1; split; [apply rnd_nonneg; lra|apply rnd_upper; [okc|lra]]).
    destruct (add_ok s mi A2 Fi) as (C1 & C2 & _).
    { rewrite Rabs_pos_eq by lra. apply Rle_trans with 16384; [lra|okc]. }
    assert (Bt : B2R mi <= B2R (f64_add s mi) <= 832).
    { rewrite C1. split; [|apply rnd_upper; [okc|lra]]. rewrite <- (rnd_id (B2R mi)) at 1 by apply rep_B2R. apply rnd_le. lra. }
    assert (Pt : 0 < B2R (f64_add s mi)) by lra.
    assert (G5 : bpow radix2 (-500) <= bpow radix2 (-20)) by (apply bpow_le; lia).
    split; [|split].
    + split; [exact Fn|]. split; [exact Sn|]. destruct Vn as [Vn|Vn]; [left; exact Vn|right]. split; [exact Vn|apply Top; lra].
    + split; [exact C2|]. split; [apply pos_sign; exact Pt|]. right. split; [lra|apply Top; lra].
    + lra.
  - rewrite Rlt_bool_false by (apply sign_nonneg; auto). split; [|split].
    + split; [exact Fn|]. split; [exact Sn|]. destruct Vn as [Vn|Vn]; [left; exact Vn|right]. split; [exact Vn|apply Top; lra].
    + split; [exact Fx|]. split; [exact Sx|]. destruct Vx as [Vx|Vx]; [left; exact Vx|right]. split; [exact Vx|apply Top; lra].
    + lra.
Qed.
End Radii.

(** Each delivery of a run is genuine. *)
Lemma events_genuine {A : Arith} (R : Rng A) bd fuel sfuel co nA nB ev0 l rs ds rs' : nucleus_wf nA -> nucleus_wf nB ->
  events_from R bd fuel sfuel co nA nB ev0 l rs ds rs' ->
  forall d, In d ds -> genuine R bd sfuel co ev0 (nu_kind nA) (nu_kind nB) (length (nu_nucleons nA)) (length (nu_nucleons nB)) d.
Proof.
  intros WA WB E. induction E as [|n ns rs x rs1 xs rs2 Hx _ IH]; intros d Hd; [destruct Hd|].
  destruct Hd as [<-|Hd]; [|apply IH; exact Hd]. destruct Hx as (_ & a & b & S & Ea & Eb & Ec).
  unfold sample_collision in S. destruct (collision_loop_sampled R _ _ _ _ _ _ _ _ _ _ _ _ WA WB S) as (sa & Hs & W1 & W2 & Hn & _).
  exists sa. rewrite Ea, Eb in *. split; [exact Hs|]. split; [exact W1|]. split; [exact W2|]. split; [lia|]. exact Ec.
Qed.
