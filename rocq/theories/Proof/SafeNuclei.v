(** Sampling nuclei in binary64: no undefined behaviour, bounded positions. *)
From Coq Require Import ZArith Reals Lra Lia Bool List Psatz Permutation.
From Flocq Require Import Core BinarySingleNaN.
From Verif.Base Require Import Result Arith FArith Rng.
From Verif.Model Require Import Random Config Nucleon Nucleus.
From Verif.Spec Require Import Finite Safe.
From Verif.Proof Require Import Basics Ieee IeeeInt SafeP.
Import ListNotations.
Local Open Scope R_scope.

(** ** binary32 *)
Lemma round32_real x z : (0 <= z <= 2 ^ 24)%Z -> Rabs x <= IZR z ->
  Rabs (round radix2 (SpecFloat.fexp 24 128) (round_mode mode_NE) x) <= IZR z /\
  Rlt_bool (Rabs (round radix2 (SpecFloat.fexp 24 128) (round_mode mode_NE) x)) (bpow radix2 128) = true.
Proof.
  intros Hz H. assert (Rz : generic_format radix2 (SpecFloat.fexp 24 128) (IZR z)).
  { change (SpecFloat.fexp 24 128) with (FLT_exp (-149) 24). 
    replace (IZR z) with (F2R (Float radix2 z 0)) by (unfold F2R; simpl; lra).
    destruct (Z.eq_dec z (2 ^ 24)) as [->|Hn].
    - replace (F2R {| Fnum := 2 ^ 24; Fexp := 0 |}) with (bpow radix2 24) by (unfold F2R; simpl; lra).
      apply generic_format_bpow. unfold FLT_exp. simpl. lia.
    - apply generic_format_FLT. exists (Float radix2 z 0); [reflexivity| |simpl; lia]. simpl. lia. }
  assert (V : Valid_exp (SpecFloat.fexp 24 128)) by (change (SpecFloat.fexp 24 128) with (FLT_exp (-149) 24); apply FLT_exp_valid; reflexivity).
  assert (G : Rabs (round radix2 (SpecFloat.fexp 24 128) (round_mode mode_NE) x) <= IZR z) by (apply abs_round_le_generic; auto with typeclass_instances).
  split; [exact G|]. apply Rlt_bool_true. eapply Rle_lt_trans; [exact G|]. apply Rle_lt_trans with (bpow radix2 24); [apply (IZR_le z (2 ^ 24)); lia|apply bpow_lt; lia].
Qed.

Lemma to_f32_ok (x : f64) z : (0 <= z <= 2 ^ 24)%Z -> is_finite x = true -> Rabs (B2R x) <= IZR z ->
  is_finite (f64_to_f32 x) = true /\ Rabs (B2R (f64_to_f32 x)) <= IZR z.
Proof.
  intros Hz F B. destruct x as [s|s| |s m e H]; try discriminate; cbn [f64_to_f32].
  - split; [reflexivity|]. exact B.
  - pose proof (binary_normalize_correct 24 128 prec32_gt_0 prec32_lt_emax mode_NE (cond_Zopp s (Zpos m)) e s) as C. cbv zeta in C.
    cbn [B2R] in B. destruct (round32_real _ z Hz B) as [R R2]. rewrite R2 in C.
    destruct C as (C1 & C2 & _). split; [exact C2|]. rewrite C1. exact R.
Qed.

Lemma f32_ok (x : f32) : is_finite x = true -> is_finite (f32_to_f64 x) = true /\ B2R (f32_to_f64 x) = B2R x.
Proof.
  intros F. destruct x as [s|s| |s m e H]; try discriminate; cbn [f32_to_f64]; [auto|].
  pose proof (binary_normalize_correct prec64 emax64 prec64_gt_0 prec64_lt_emax mode_NE (cond_Zopp s (Zpos m)) e s) as C. cbv zeta in C.
  set (v := F2R (Float radix2 (cond_Zopp s (Zpos m)) e)) in *.
  assert (G : generic_format radix2 (SpecFloat.fexp prec64 emax64) v).
  { apply (generic_inclusion_mag radix2 (SpecFloat.fexp 24 128)).
    - intros _. unfold SpecFloat.fexp, SpecFloat.emin, prec64, emax64. lia.
    - apply (generic_format_B2R 24 128 (B754_finite s m e H)). }
  rewrite (round_generic radix2 (SpecFloat.fexp prec64 emax64) (round_mode mode_NE) v G) in C.
  rewrite Rlt_bool_true in C.
  - destruct C as (C1 & C2 & _). split; [exact C2|exact C1].
  - pose proof (abs_B2R_lt_emax 24 128 (B754_finite s m e H)) as LT. eapply Rlt_le_trans; [exact LT|]. apply bpow_le. unfold emax64. lia.
Qed.

Lemma of32_sized (x : f64) z : (0 <= z <= 2 ^ 24)%Z -> sized x (IZR z) -> sized (f64_of32 x) (IZR z).
Proof.
  intros Hz [F B]. destruct (to_f32_ok x z Hz F B) as [F1 B1]. destruct (f32_ok _ F1) as [F2 B2].
  split; [exact F2|]. unfold f64_of32. rewrite B2. exact B1.
Qed.

Lemma mul32_sized (x y : f64) a b : (0 <= a <= 2 ^ 24)%Z -> (0 <= b <= 2 ^ 24)%Z -> (a * b <= 2 ^ 24)%Z ->
  sized x (IZR a) -> sized y (IZR b) -> sized (f64_mul32 x y) (IZR (a * b)).
Proof.
  intros Ha Hb Hab [F1 B1] [F2 B2]. destruct (to_f32_ok x a Ha F1 B1) as [F3 B3]. destruct (to_f32_ok y b Hb F2 B2) as [F4 B4].
  pose proof (Bmult_correct 24 128 prec32_gt_0 prec32_lt_emax mode_NE (f64_to_f32 x) (f64_to_f32 y)) as C.
  destruct (round32_real (B2R (f64_to_f32 x) * B2R (f64_to_f32 y)) (a * b)) as [R1 R2]; [nia| |].
  { rewrite Rabs_mult, mult_IZR. apply Rmult_le_compat; auto; apply Rabs_pos. }
  rewrite R2 in C. destruct C as (C1 & C2 & _). rewrite F3, F4 in C2. cbn [andb] in C2.
  destruct (f32_ok _ C2) as [G1 G2]. split; [exact G1|]. unfold f64_mul32. rewrite G2, C1. exact R1.
Qed.
Lemma add32_sized (x y : f64) a b : (0 <= a <= 2 ^ 24)%Z -> (0 <= b <= 2 ^ 24)%Z -> (a + b <= 2 ^ 24)%Z ->
  sized x (IZR a) -> sized y (IZR b) -> sized (f64_add32 x y) (IZR (a + b)).
Proof.
  intros Ha Hb Hab [F1 B1] [F2 B2]. destruct (to_f32_ok x a Ha F1 B1) as [F3 B3]. destruct (to_f32_ok y b Hb F2 B2) as [F4 B4].
  pose proof (Bplus_correct 24 128 prec32_gt_0 prec32_lt_emax mode_NE (f64_to_f32 x) (f64_to_f32 y) F3 F4) as C.
  destruct (round32_real (B2R (f64_to_f32 x) + B2R (f64_to_f32 y)) (a + b)) as [R1 R2]; [lia| |].
  { rewrite plus_IZR. eapply Rle_trans; [apply Rabs_triang|]. lra. }
  rewrite R2 in C. destruct C as (C1 & C2 & _).
  destruct (f32_ok _ C2) as [G1 G2]. split; [exact G1|]. unfold f64_add32. rewrite G2, C1. exact R1.
Qed.

(** ** Sampling *)
Ltac okc := first [apply rep_Z; lia | apply big_1000; lia | lra].

Section Sample.
Context {L : Libm} (TL : tame_libm L) (rg : Rng (FA L)) (TR : tame_rng rg) (Ex : exn -> Prop).
Notation I := (fun _ : engine rg => True).
Notation A := (FA L).

Lemma safe_act {X} (f : engine rg -> X * engine rg) (Q : X -> Prop) : (forall e, Q (fst (f e))) -> safe I Ex (act f) Q.
Proof. intros H e _. unfold act. specialize (H e). destruct (f e). split; [exact H|exact Logic.I]. Qed.

Definition unit (u : f64) : Prop := is_finite u = true /\ 0 <= B2R u < 1.
Lemma safe_canonical : safe I Ex (draw_canonical rg) (fun u => unit u /\ exists e, u = fst (canonical rg e)).
Proof. apply safe_act. intros e. split; [apply (tr_canonical _ TR)|eauto]. Qed.

Lemma cos_theta_sized (u : f64) : unit u -> sized (nsub A (nmul A (nofZ A 2) u) (nofZ A 1) : f64) 1.
Proof.
  intros [F B]. destruct (ofZ_ok 2 ltac:(lia)) as [F2 V2]. destruct (ofZ_ok 1 ltac:(lia)) as [F1 V1].
  change (sized (f64_sub (f64_mul (f64_ofZ 2) u) (f64_ofZ 1)) 1).
  assert (R2 : rep 2) by okc. assert (B2 : 2 <= bpow radix2 1000) by okc.
  destruct (mul_ok (f64_ofZ 2) u F2 F) as (E3 & F3 & _); [rewrite V2, Rabs_pos_eq; lra|]. rewrite V2 in E3.
  assert (V3 : 0 <= B2R (f64_mul (f64_ofZ 2) u) <= 2).
  { rewrite E3. split; [apply rnd_nonneg; lra|]. apply rnd_upper; [exact R2|lra]. }
  destruct (sub_ok _ _ F3 F1) as (E4 & F4 & _); [rewrite V1; apply Rabs_le; lra|].
  split; [exact F4|]. rewrite E4, V1. apply rnd_abs_le; [okc|]. apply Rabs_le. lra.
Qed.
Lemma safe_cos_theta : safe I Ex (cos_theta rg) (fun c => sized c 1).
Proof.
  unfold cos_theta. eapply safe_bind; [apply safe_canonical|]. intros u [U _]. apply safe_ret. apply cos_theta_sized. exact U.
Qed.
Lemma safe_phi : safe I Ex (phi rg) (fun p => is_finite (p : f64) = true).
Proof.
  unfold phi. eapply safe_bind; [apply safe_canonical|]. intros u [[F B] _]. apply safe_ret.
  assert (S : sized (f64_mul f64_two_pi u) 7); [|exact (proj1 S)].
  apply (sized_mul _ _ 7 1 7); [apply (sizedb_ok _ 7); [lia|vm_compute; reflexivity]|split; [exact F|rewrite Rabs_pos_eq; lra]|lra|okc|okc].
Qed.

(** Bounds that survive multiplication by a number in [-1, 1]. *)
Definition fine (b : R) : Prop := rep b /\ b <= bpow radix2 1000 /\ 0 <= b.
Lemma fine_Z z : (0 <= z <= 2 ^ 53)%Z -> fine (IZR z).
Proof. intros H. split; [apply rep_Z; lia|]. split; [apply big_1000; lia|]. apply IZR_le. lia. Qed.
Lemma sized_mul1 x y b : fine b -> sized x b -> sized y 1 -> sized (f64_mul x y) b.
Proof. intros (R & H & P) Hx Hy. apply (sized_mul _ _ b 1 b); auto. lra. Qed.
Lemma sized_1mul x y b : fine b -> sized x 1 -> sized y b -> sized (f64_mul x y) b.
Proof. intros (R & H & P) Hx Hy. apply (sized_mul _ _ 1 b b); auto. lra. Qed.
Lemma sine_sized c : sized c 1 -> sized (nsqrt A (nsub A (nlit A 1 0) (nmul A c c)) : f64) 1.
Proof. intros H. apply sized_upto. apply (sine_upto c H). Qed.

Lemma polar_sized r c ph b : fine b -> sized r b -> sized c 1 -> is_finite (ph : f64) = true ->
  let '(x, y, z) := polar (A:=A) r c ph in sized x b /\ sized y b.
Proof.
  intros Hb Hr Hc Hp. unfold polar.
  assert (S : sized (nmul A r (nsqrt A (nsub A (nlit A 1 0) (nmul A c c))) : f64) b) by (apply (sized_mul1 _ _ b Hb Hr), sine_sized, Hc).
  split; apply (sized_mul1 _ _ b Hb S); [apply (tl_cos _ TL)|apply (tl_sin _ TL)]; exact Hp.
Qed.

(** A freshly placed nucleon. *)
Definition seated (n : nucleon A) : Prop :=
  sized (n_x n) 32768 /\ sized (n_y n) 32768 /\ n_part n = false /\ n_cexist n = false.

Lemma seated_set (offset : f64) (n : nucleon A) (x y z : f64) : sized offset 16384 -> sized x 8192 -> sized y 8192 ->
  seated (set_nucleon_position (A:=A) offset n x y z).
Proof.
  intros Ho Hx Hy. unfold set_nucleon_position, set_position. split; [|split; [|split; reflexivity]]; cbn [n_x n_y].
  - apply (sized_add _ _ 8192 16384 32768); auto; okc.
  - eapply sized_le; [exact Hy|lra].
Qed.

Lemma sized_zero b : 0 <= b -> sized (f64_lit 0 0) b.
Proof. intros H. split; [reflexivity|]. change (B2R (f64_lit 0 0)) with 0. rewrite Rabs_R0. exact H. Qed.

Lemma safe_proton offset ns : sized offset 16384 -> length ns = 1%nat ->
  safe I Ex (sample_proton rg offset ns) (fun l => length l = length ns /\ Forall seated l).
Proof.
  intros Ho Hl. destruct ns as [|n [|? ?]]; try discriminate. cbn [sample_proton]. apply safe_ret. split; [reflexivity|].
  constructor; [|constructor]. apply seated_set; auto; apply sized_zero; lra.
Qed.

Lemma safe_deuteron_radius fuel (a b : f64) : (forall e, 0 < B2R (fst (canonical rg e) : f64)) ->
  is_finite a = true -> / 4 <= B2R a <= 1 -> safe I Ex (deuteron_radius rg fuel a b) (fun r => sized r 4096).
Proof.
  intros NZ Fa Ba. induction fuel as [|fuel IH]; cbn [deuteron_radius]; [apply safe_fuel|].
  eapply safe_bind; [apply safe_canonical|]. intros u [U (e & ->)]. cbv zeta.
  eapply safe_bind; [apply safe_canonical|]. intros v _.
  destruct (nltb A _ v); [exact IH|]. apply safe_ret. set (u := fst (canonical rg e)) in *.
  destruct (ofZ_ok 2 ltac:(lia)) as [F2 V2]. destruct U as [Fu Bu].
  destruct (tl_log _ TL u Fu) as [Fl Bl]; [specialize (NZ e); fold u in NZ; lra|].
  destruct (mul_ok (f64_ofZ 2) a F2 Fa) as (E3 & F3 & _).
  { rewrite V2, Rabs_pos_eq by lra. apply Rle_trans with 2; [lra|okc]. }
  rewrite V2 in E3. assert (V3 : / 2 <= B2R (f64_mul (f64_ofZ 2) a)).
  { rewrite E3. rewrite <- (rnd_id (/ 2)); [apply rnd_le; lra|]. change (/ 2) with (bpow radix2 (-1)). apply rep_bpow. lia. }
  apply (sized_div _ _ 1024 (/ 2) 4096); [|lra| |lra|okc|okc].
  - apply sized_opp. change (sized (m_log L u) 1024). split; [exact Fl|]. apply Rabs_le. lra.
  - rewrite Rabs_pos_eq; [exact V3|]. change (nmul A (nofZ A 2) a) with (f64_mul (f64_ofZ 2) a). lra.
Qed.

Lemma fine_4096 : fine 4096. Proof. apply (fine_Z 4096). lia. Qed.

Lemma safe_deuteron fuel (a b offset : f64) ns : (forall e, 0 < B2R (fst (canonical rg e) : f64)) ->
  is_finite a = true -> / 4 <= B2R a <= 1 -> sized offset 16384 -> length ns = 2%nat ->
  safe I Ex (sample_deuteron rg fuel a b offset ns) (fun l => length l = length ns /\ Forall seated l).
Proof.
  intros NZ Fa Ba Ho Hl. destruct ns as [|n1 [|n2 [|? ?]]]; try discriminate. unfold sample_deuteron.
  eapply safe_bind; [apply (safe_deuteron_radius fuel a b NZ Fa Ba)|]. intros r Hr.
  eapply safe_bind; [apply safe_cos_theta|]. intros c Hc. eapply safe_bind; [apply safe_phi|]. intros ph Hp.
  pose proof (polar_sized r c ph 4096 fine_4096 Hr Hc Hp) as P. destruct (polar (A:=A) r c ph) as [[x y] z]. destruct P as [Px Py].
  apply safe_ret. split; [reflexivity|]. assert (W : forall t, sized t 4096 -> sized t 8192) by (intros t Ht; eapply sized_le; [exact Ht|lra]).
  constructor; [|constructor; [|constructor]]; apply seated_set; auto; apply sized_opp; auto.
Qed.

Lemma safe_place_ws tries (dminsq offset r : f64) prev n : sized offset 16384 -> sized r 4096 -> (0 < tries)%nat ->
  safe I Ex (place_ws rg tries dminsq offset r prev n) seated.
Proof.
  intros Ho Hr. revert n. induction tries as [|tries IH]; intros n Ht; [lia|]. cbn [place_ws].
  eapply safe_bind; [apply safe_cos_theta|]. intros c Hc. eapply safe_bind; [apply safe_phi|]. intros ph Hp.
  pose proof (polar_sized r c ph 4096 fine_4096 Hr Hc Hp) as P. destruct (polar (A:=A) r c ph) as [[x y] z]. destruct P as [Px Py].
  assert (S : seated (set_nucleon_position (A:=A) offset n x y z)) by (apply seated_set; auto; eapply sized_le; eauto; lra).
  destruct tries as [|tries]; [apply safe_ret; exact S|].
  destruct (is_too_close (A:=A) dminsq prev _); [apply IH; lia|apply safe_ret; exact S].
Qed.

Lemma safe_place_all_ws (dminsq offset : f64) todo : sized offset 16384 -> forall radii prev,
  Forall (fun r => sized r 4096) radii -> length radii = length todo -> Forall seated prev ->
  safe I Ex (place_all_ws rg dminsq offset radii prev todo) (fun l => length l = (length prev + length todo)%nat /\ Forall seated l).
Proof.
  intros Ho. induction todo as [|n todo IH]; intros radii prev Hr Hl Hp.
  - destruct radii; [|discriminate]. cbn [place_all_ws]. apply safe_ret. split; [simpl; lia|exact Hp].
  - destruct radii as [|r radii]; [discriminate|]. cbn [place_all_ws]. inversion Hr; subst.
    eapply safe_bind; [apply (safe_place_ws 1000); auto; lia|]. intros n' Hn'.
    eapply safe_weaken; [apply IH; auto|].
    + apply Forall_app. auto.
    + intros l [Ll Fl]. split; [|exact Fl]. rewrite Ll, app_length. simpl. lia.
Qed.

Lemma Forall_perm {X} (P : X -> Prop) l l' : Permutation l l' -> Forall P l -> Forall P l'.
Proof. intros H F. rewrite Forall_forall in *. intros x Hx. apply F. eapply Permutation_in; [apply Permutation_sym; exact H|exact Hx]. Qed.

Lemma safe_ws (Rws a dminsq offset : f64) ns : sized offset 16384 -> finite_upto (nadd A Rws (nmul A (nlit A 10 0) a)) 4096 ->
  safe I Ex (sample_ws rg Rws a dminsq offset ns) (fun l => length l = length ns /\ Forall seated l).
Proof.
  intros Ho [Fh Bh]. unfold sample_ws. eapply safe_bind.
  - apply safe_mrepeat with (Q := fun r => sized r 4096). unfold draw_ws. apply safe_act. intros e.
    destruct (tr_pwl _ TR 1000 (nlit A 0 0) (nadd A Rws (nmul A (nlit A 10 0) a)) (ws_weight (A:=A) Rws a) e) as [F B].
    + reflexivity.
    + exact Fh.
    + apply Bh.
    + change (B2R (nlit A 0 0 : f64)) with 0 in B. split; [exact F|]. rewrite Rabs_pos_eq; [eapply Rle_trans; [apply B|apply Bh]|apply B].
  - intros radii [Hl Hr]. destruct (tr_sort _ TR) as [P _]. specialize (P radii).
    eapply safe_weaken; [apply safe_place_all_ws; auto|].
    + eapply Forall_perm; eauto.
    + transitivity (length radii); [symmetry; apply (Permutation_length P)|exact Hl].
    + intros l [Ll Fl]. split; [exact Ll|exact Fl].
Qed.

Lemma safe_deformed_point fuel (Rws a b2 b4 rmax : f64) : finite_upto rmax 64 ->
  safe I Ex (sample_deformed_point rg fuel Rws a b2 b4 rmax) (fun rc => sized (fst rc) 128 /\ sized (snd rc) 1).
Proof.
  intros Hm. induction fuel as [|fuel IH]; cbn [sample_deformed_point]; [apply safe_fuel|].
  eapply safe_bind; [apply safe_canonical|]. intros u [[Fu Bu] _]. cbv zeta.
  eapply safe_bind; [apply safe_cos_theta|]. intros c Hc. eapply safe_bind; [apply safe_canonical|]. intros v _.
  destruct (nltb A _ v); [exact IH|]. apply safe_ret. cbn [fst snd]. split; [|exact Hc].
  apply (sized_mul _ _ 64 2 128); [apply sized_upto; exact Hm|apply sized_upto, (tl_cbrt _ TL); split; [exact Fu|lra]|lra|okc|okc].
Qed.

Definition rotates (rot : num A * num A * num A -> num A * num A * num A) : Prop :=
  forall x y z, sized x 1024 -> sized y 1024 -> sized z 1024 ->
  let '(x', y', _) := rot (x, y, z) in sized x' 8192 /\ sized y' 8192.

Lemma fine_1024 : fine 1024. Proof. apply (fine_Z 1024). lia. Qed.

Lemma tilt_rotates (ca sa cb sb : f64) : sized ca 1 -> sized sa 1 -> sized cb 1 -> sized sb 1 -> rotates (rotate_tilt_spin (A:=A) ca sa cb sb).
Proof.
  intros H1 H2 H3 H4 x y z Hx Hy Hz. unfold rotate_tilt_spin. pose proof fine_1024 as F.
  assert (M : forall u v, sized u 1024 -> sized v 1 -> sized (nmul A u v : f64) 1024) by (intros; apply sized_mul1; auto).
  split; (eapply sized_le; [|instantiate (1 := 4096); lra]).
  - apply (sized_add _ _ 2048 1024 4096); auto; try okc. apply (sized_sub _ _ 1024 1024 2048); auto; okc.
  - apply (sized_sub _ _ 2048 1024 4096); auto; try okc. apply (sized_add _ _ 1024 1024 2048); auto; okc.
Qed.

Lemma euler_rotates (c1 s1 c2 s2 c3 s3 : f64) : sized c1 1 -> sized s1 1 -> sized c2 1 -> sized s2 1 -> sized c3 1 -> sized s3 1 ->
  rotates (rotate_euler (A:=A) c1 s1 c2 s2 c3 s3).
Proof.
  intros H1 H2 H3 H4 H5 H6 x y z Hx Hy Hz. unfold rotate_euler. pose proof fine_1024 as F. pose proof (fine_Z 1 ltac:(lia)) as F1.
  assert (M1 : forall u v, sized u 1 -> sized v 1 -> sized (nmul A u v : f64) 1) by (intros; apply sized_mul1; auto).
  assert (M : forall u v, sized u 1024 -> sized v 1 -> sized (nmul A u v : f64) 1024) by (intros; apply sized_mul1; auto).
  assert (M2 : forall u v, sized u 1024 -> sized v 2 -> sized (nmul A u v : f64) 2048) by (intros; apply (sized_mul _ _ 1024 2 2048); auto; okc).
  split.
  - apply (sized_add _ _ 4096 1024 8192); auto; try okc. apply (sized_sub _ _ 2048 2048 4096); try okc; apply M2; auto.
    + apply (sized_sub _ _ 1 1 2); auto; okc.
    + apply (sized_add _ _ 1 1 2); auto; okc.
  - apply (sized_sub _ _ 4096 1024 8192); auto; try okc. apply (sized_sub _ _ 2048 2048 4096); try okc; apply M2; auto.
    + apply (sized_add _ _ 1 1 2); auto; okc.
    + apply (sized_sub _ _ 1 1 2); auto; okc.
Qed.

Lemma safe_place_deformed tries (dminsq offset : f64) rot (rs : f64) prev : sized offset 16384 -> rotates rot -> sized rs 1024 ->
  forall (z : f64) n, sized z 1024 -> (0 < tries)%nat -> safe I Ex (place_deformed rg tries dminsq offset rot rs z prev n) seated.
Proof.
  intros Ho Hrot Hs. induction tries as [|tries IH]; intros z n Hz Ht; [lia|]. cbn [place_deformed].
  eapply safe_bind; [apply safe_phi|]. intros ph Hp.
  assert (Sx : sized (nmul A rs (ncos A ph) : f64) 1024) by (apply (sized_mul1 _ _ _ fine_1024 Hs), (tl_cos _ TL), Hp).
  assert (Sy : sized (nmul A rs (nsin A ph) : f64) 1024) by (apply (sized_mul1 _ _ _ fine_1024 Hs), (tl_sin _ TL), Hp).
  cbv zeta. pose proof (Hrot _ _ z Sx Sy Hz) as HR. destruct (rot _) as [[x y] z1]. destruct HR as [Px Py].
  assert (S : seated (set_nucleon_position (A:=A) offset n x y z1)) by (apply seated_set; auto).
  destruct tries as [|tries]; [apply safe_ret; exact S|].
  destruct (is_too_close (A:=A) dminsq prev _); [|apply safe_ret; exact S]. apply IH; [|lia].
  apply (sized_mul1 _ _ _ fine_1024 Hz). apply (sizedb_ok _ 1); [lia|vm_compute; reflexivity].
Qed.

Lemma safe_place_all_deformed (dminsq offset : f64) rot todo : sized offset 16384 -> rotates rot -> forall samples prev,
  Forall (fun rc => sized (fst rc) 128 /\ sized (snd rc) 1) samples -> length samples = length todo -> Forall seated prev ->
  safe I Ex (place_all_deformed rg dminsq offset rot samples prev todo) (fun l => length l = (length prev + length todo)%nat /\ Forall seated l).
Proof.
  intros Ho Hrot. induction todo as [|n todo IH]; intros samples prev Hr Hl Hp.
  - destruct samples; [|discriminate]. cbn [place_all_deformed]. apply safe_ret. split; [simpl; lia|exact Hp].
  - destruct samples as [|[r c] samples]; [discriminate|]. cbn [place_all_deformed]. inversion Hr as [|? ? [H1 H2] H3]; subst. cbn [fst snd] in H1, H2.
    assert (H1' : sized r 1024) by (eapply sized_le; [exact H1|lra]).
    eapply safe_bind; [apply (safe_place_deformed 1000); auto; [| |lia]|].
    + apply (sized_mul1 _ _ _ fine_1024 H1'), sine_sized, H2.
    + apply (sized_mul1 _ _ _ fine_1024 H1' H2).
    + intros n' Hn'. eapply safe_weaken; [apply IH; auto|].
      * apply Forall_app. auto.
      * intros l [Ll Fl]. split; [|exact Fl]. rewrite Ll, app_length. simpl. lia.
Qed.

Lemma safe_deformed fuel (Rws a b2 b4 rmax dminsq offset : f64) ns : sized offset 16384 -> finite_upto rmax 64 ->
  safe I Ex (sample_deformed rg fuel Rws a b2 b4 rmax dminsq offset ns) (fun l => length l = length ns /\ Forall seated l).
Proof.
  intros Ho Hm. unfold sample_deformed. eapply safe_bind; [apply safe_cos_theta|]. intros ca Hca.
  eapply safe_bind; [apply safe_phi|]. intros ph Hp.
  eapply safe_bind; [apply safe_mrepeat; apply (safe_deformed_point fuel Rws a b2 b4 rmax Hm)|].
  intros samples [Hl Hs]. destruct (tr_sort _ TR) as [_ P]. specialize (P samples).
  eapply safe_weaken; [apply safe_place_all_deformed; auto|].
  - apply tilt_rotates; [exact Hca|apply sine_sized; exact Hca|apply (tl_cos _ TL); exact Hp|apply (tl_sin _ TL); exact Hp].
  - eapply Forall_perm; eauto.
  - transitivity (length samples); [symmetry; apply (Permutation_length P)|exact Hl].
  - intros l [Ll Fl]. split; [exact Ll|exact Fl].
Qed.

Lemma at_index_ok (data : list (num A)) i : (forall x : f64, In x data -> sized x 1024) -> (0 <= i < Z.of_nat (length data))%Z ->
  exists x : f64, at_index data i = Ret x /\ sized x 1024.
Proof.
  intros Hd Hi. unfold at_index. destruct (Z.ltb_spec i 0); [lia|].
  destruct (nth_error data (Z.to_nat i)) as [x|] eqn:E; [|apply nth_error_None in E; lia].
  exists x. split; [reflexivity|]. apply Hd. eapply nth_error_In; eauto.
Qed.
Lemma position_ok (data : list (num A)) i : (forall x : f64, In x data -> sized x 1024) -> (0 <= i)%Z -> (3 * i + 2 < Z.of_nat (length data))%Z ->
  exists x y z : f64, position_at data i = Ret (x, y, z) /\ sized x 1024 /\ sized y 1024 /\ sized z 1024.
Proof.
  intros Hd H0 Hi. unfold position_at.
  destruct (at_index_ok data (3 * i) Hd) as (x & -> & Sx); [lia|]. destruct (at_index_ok data (3 * i + 1) Hd) as (y & -> & Sy); [lia|].
  destruct (at_index_ok data (3 * i + 2) Hd) as (z & -> & Sz); [lia|]. cbn [rbind].
  exists (f64_of32 x), (f64_of32 y), (f64_of32 z). split; [reflexivity|]. repeat split; apply (of32_sized _ 1024); auto; lia.
Qed.

Lemma place_manual_ok (offset : f64) rot (data : list (num A)) ns : sized offset 16384 -> rotates rot ->
  (forall x : f64, In x data -> sized x 1024) -> forall i, (0 <= i)%Z -> (3 * (i + Z.of_nat (length ns)) <= Z.of_nat (length data))%Z ->
  outcome Ex (fun l => length l = length ns /\ Forall seated l) (place_manual (A:=A) offset rot data i ns).
Proof.
  intros Ho Hrot Hd. induction ns as [|n ns IH]; intros i H0 Hi; cbn [place_manual]; [cbn; auto|]. cbn [length] in Hi. rewrite Nat2Z.inj_succ in Hi.
  destruct (position_ok data i Hd H0) as (x & y & z & -> & Sx & Sy & Sz); [lia|]. cbn [rbind].
  pose proof (Hrot x y z Sx Sy Sz) as HR. destruct (rot (x, y, z)) as [[x' y'] z']. destruct HR as [Rx Ry].
  eapply outcome_bind; [apply IH; lia|]. intros l [Ll Fl]. cbn [outcome]. split; [simpl; lia|].
  constructor; [apply seated_set; auto|exact Fl].
Qed.

Lemma safe_manual nconf nnuc (data : list (num A)) (offset : f64) ns : sized offset 16384 ->
  (0 <= nconf <= size_max)%Z -> (nconf = 0%Z -> forall m, Ex (H5Exception m)) -> (1 <= nnuc)%Z -> Z.of_nat (length ns) = nnuc ->
  (3 * (nconf * nnuc) <= Z.of_nat (length data))%Z -> (forall x : f64, In x data -> sized x 1024) ->
  safe I Ex (sample_manual rg nconf nnuc data offset ns) (fun l => length l = length ns /\ Forall seated l).
Proof.
  intros Ho Hc HE Hn Hl Hd Hs. unfold sample_manual.
  eapply safe_bind; [apply safe_phi|]. intros p1 H1. eapply safe_bind; [apply safe_cos_theta|]. intros c2 H2.
  eapply safe_bind; [apply safe_phi|]. intros p3 H3.
  eapply safe_bind; [apply (safe_act _ (fun i => 0 <= i <= to_size (nconf - 1))%Z); intros e; apply (tr_int _ TR); unfold to_size; apply Z.mod_pos_bound; lia|].
  intros i Hi. cbv beta in Hi. destruct (Z.leb_spec nconf i) as [C|C].
  - apply safe_throw. apply HE. destruct (Z.eq_dec nconf 0) as [E|E]; [exact E|]. exfalso.
    assert (to_size (nconf - 1) = nconf - 1)%Z by (unfold to_size; apply Z.mod_small; unfold size_max in Hc; lia). lia.
  - apply safe_lift. apply place_manual_ok; auto.
    + apply euler_rotates; try (apply (tl_cos _ TL) || apply (tl_sin _ TL)); auto. apply sine_sized; exact H2.
    + nia.
    + rewrite Hl. nia.
Qed.

(** The nuclei of a run. *)
Definition modest (nu : nucleus A) : Prop :=
  finite_upto (radius nu) 4096 /\
  match nu_kind nu with
  | KProton => length (nu_nucleons nu) = 1%nat
  | KDeuteron a b => length (nu_nucleons nu) = 2%nat /\ is_finite (a : f64) = true /\ / 4 <= B2R (a : f64) <= 1 /\
                     forall e, 0 < B2R (fst (canonical rg e) : f64)
  | KWoodsSaxon Rws a _ => finite_upto (nadd A Rws (nmul A (nlit A 10 0) a)) 4096
  | KDeformed _ _ _ _ rmax _ => finite_upto rmax 64
  | KManual nconf nnuc data _ =>
      (0 <= nconf <= size_max)%Z /\ (nconf = 0%Z -> forall m, Ex (H5Exception m)) /\ (1 <= nnuc)%Z /\
      Z.of_nat (length (nu_nucleons nu)) = nnuc /\ (3 * (nconf * nnuc) <= Z.of_nat (length data))%Z /\
      (forall x : f64, In x data -> sized x 1024)
  end.

Lemma safe_sample fuel nu (offset : f64) : modest nu -> sized offset 16384 ->
  safe I Ex (sample_nucleons rg fuel nu offset) (fun nu' => modest nu' /\ nu_kind nu' = nu_kind nu /\ length (nu_nucleons nu') = length (nu_nucleons nu) /\ Forall seated (nu_nucleons nu')).
Proof.
  intros [Hr Hk] Ho. unfold sample_nucleons. eapply safe_bind.
  - instantiate (1 := fun l => length l = length (nu_nucleons nu) /\ Forall seated l).
    destruct (nu_kind nu) as [|a b|Rws a d|Rws a b2 b4 rmax d|nconf nnuc data rmax].
    + apply safe_proton; auto.
    + destruct Hk as (H1 & H2 & H3 & H4). apply safe_deuteron; auto.
    + apply safe_ws; auto.
    + apply safe_deformed; auto.
    + destruct Hk as (H1 & H2 & H3 & H4 & H5 & H6). apply safe_manual; auto.
  - intros l [Ll Fl]. apply safe_ret. split; [|split; [reflexivity|split; [exact Ll|exact Fl]]]. split; [exact Hr|]. cbn [nu_kind nu_nucleons]. rewrite Ll. exact Hk.
Qed.
End Sample.
