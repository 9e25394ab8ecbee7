(** No undefined behaviour in the construction of a Collider, in binary64. *)
From Coq Require Import ZArith Reals Lra Lia Bool List Psatz String Permutation.
From Flocq Require Import Core BinarySingleNaN.
From Verif.Base Require Import Result Arith FArith Rng.
From Verif.Model Require Import Random Config Nucleon Nucleus Event Text Files CrossSection Output Collider.
From Verif.Spec Require Import Finite Distributions Safe Evolved Grid Cache Cyclic.
From Verif.Proof Require Import Basics Ieee IeeeInt FsP CacheP CacheRun StepsP CyclicP SafeP SafeNuclei SafeRun.
From Verif.Properties Require Import ImpactIeee GridIeee FiniteRun.
Import ListNotations.
Local Open Scope R_scope.

Lemma outcome_step {S X Y} Ex (Q : X -> Prop) (P : Y -> Prop) (m : M S X) (k : X -> M S Y) s :
  outcome Ex Q (fst (m s)) -> (forall x s', m s = (Ret x, s') -> Q x -> outcome Ex P (fst (k x s'))) ->
  outcome Ex P (fst (bind m k s)).
Proof.
  intros O K. unfold bind. destruct (m s) as [r s1]. cbn [fst] in O. destruct r; cbn [outcome fst] in *; auto.
Qed.
Lemma safe_outcome {S X} (Ex : exn -> Prop) (m : M S X) (Q : X -> Prop) : (forall s, outcome Ex Q (fst (m s))) <-> safe (fun _ => True) Ex m Q.
Proof. split; [intros H s _; split; [apply H|exact Logic.I]|intros H s; apply (H s Logic.I)]. Qed.

(** ** Nuclei *)
Section Nuclei.
Context {L : Libm} (TL : tame_libm L) (rg : Rng (FA L)) (Ex : exn -> Prop).
Notation A := (FA L).

Lemma woods_saxon_modest n (R a : f64) dmin :
  sizedb (f64_add R (f64_mul (f64_lit 3 0) a)) 4096 = true -> nonnegb (f64_add R (f64_mul (f64_lit 3 0) a)) = true ->
  sizedb (f64_add R (f64_mul (f64_lit 10 0) a)) 4096 = true -> nonnegb (f64_add R (f64_mul (f64_lit 10 0) a)) = true ->
  modest rg Ex (woods_saxon (A:=A) n R a dmin).
Proof.
  intros H1 H2 H3 H4. split.
  - change (finite_upto (f64_add R (f64_mul (f64_lit 3 0) a)) 4096). apply (upto_b _ 4096); auto. lia.
  - change (finite_upto (f64_add R (f64_mul (f64_lit 10 0) a)) 4096). apply (upto_b _ 4096); auto. lia.
Qed.
Lemma deformed_modest n (R a b2 b4 : f64) dmin :
  let rmax := f64_add (f64_mul R (f64_add (f64_add (f64_lit 1 0) (f64_mul (f64_lit 63 (-2)) (Babs b2))) (f64_mul (f64_lit 85 (-2)) (Babs b4)))) (f64_mul (f64_lit 10 0) a) in
  sizedb rmax 64 = true -> nonnegb rmax = true ->
  sizedb (f64_sub rmax (f64_mul (f64_lit 7 0) a)) 4096 = true -> nonnegb (f64_sub rmax (f64_mul (f64_lit 7 0) a)) = true ->
  modest rg Ex (deformed (A:=A) n R a b2 b4 dmin).
Proof.
  intros rmax H1 H2 H3 H4. split.
  - change (finite_upto (f64_sub rmax (f64_mul (f64_lit 7 0) a)) 4096). apply (upto_b _ 4096); auto. lia.
  - change (finite_upto rmax 64). apply (upto_b _ 64); auto. lia.
Qed.

Lemma proton_modest : modest rg Ex (proton (A:=A)).
Proof.
  split; [|reflexivity]. change (finite_upto (f64_lit 0 0) 4096). apply (upto_b _ 4096); [lia|vm_compute; reflexivity|vm_compute; reflexivity].
Qed.

Lemma deuteron_modest : (forall e, 0 < B2R (fst (canonical rg e) : f64)) -> modest rg Ex (deuteron (A:=A)).
Proof.
  intros NZ. set (a := f64_fmin (f64_lit 457 (-3)) (f64_lit 235 (-2))).
  assert (Fa : is_finite a = true) by (vm_compute; reflexivity).
  assert (Ba : / 4 <= B2R a <= 1).
  { split.
    - assert (K : f64_ltb a (f64_lit 25 (-2)) = false) by (vm_compute; reflexivity). rewrite ltb_ok in K by (auto; vm_compute; reflexivity).
      destruct (Rlt_bool_spec (B2R a) (B2R (f64_lit 25 (-2)))) as [|C]; [discriminate|].
      assert (Q : B2R (f64_lit 25 (-2)) = / 4).
      { rewrite (B2R_SF _ (SpecFloat.S754_finite false 4503599627370496 (-54))) by (vm_compute; reflexivity).
        cbn [SF2R cond_Zopp]. unfold F2R. cbn [Fnum Fexp]. change (bpow radix2 (-54)) with (/ 18014398509481984). lra. }
      lra.
    - assert (K : f64_ltb (f64_lit 1 0) a = false) by (vm_compute; reflexivity). rewrite ltb_ok in K by (auto; vm_compute; reflexivity).
      destruct (Rlt_bool_spec (B2R (f64_lit 1 0)) (B2R a)) as [|C]; [discriminate|]. rewrite B2R_one in C. exact C. }
  split; [|cbn [deuteron deuteron_of nucleus_new nu_kind nu_nucleons]; auto].
  assert (Fl : is_finite (f64_lit 1 (-2)) = true) by (vm_compute; reflexivity).
  assert (Bl : 0 < B2R (f64_lit 1 (-2)) <= 1).
  { split.
    - assert (K : f64_ltb (f64_lit 0 0) (f64_lit 1 (-2)) = true) by (vm_compute; reflexivity). rewrite ltb_ok in K by (auto; vm_compute; reflexivity).
      destruct (Rlt_bool_spec (B2R (f64_lit 0 0)) (B2R (f64_lit 1 (-2)))) as [C|]; [|discriminate]. rewrite B2R_zero in C. exact C.
    - assert (K : f64_ltb (f64_lit 1 0) (f64_lit 1 (-2)) = false) by (vm_compute; reflexivity). rewrite ltb_ok in K by (auto; vm_compute; reflexivity).
      destruct (Rlt_bool_spec (B2R (f64_lit 1 0)) (B2R (f64_lit 1 (-2)))) as [|C]; [discriminate|]. rewrite B2R_one in C. exact C. }
  destruct (tl_log _ TL _ Fl Bl) as [Fg Bg]. destruct (ofZ_ok 2 ltac:(lia)) as [F2 V2].
  destruct (mul_ok (f64_ofZ 2) a F2 Fa) as (E3 & F3 & _).
  { rewrite V2, Rabs_pos_eq by lra. apply Rle_trans with 2; [lra|okc]. }
  rewrite V2 in E3. assert (V3 : / 2 <= B2R (f64_mul (f64_ofZ 2) a)).
  { rewrite E3. rewrite <- (rnd_id (/ 2)); [apply rnd_le; lra|]. change (/ 2) with (bpow radix2 (-1)). apply rep_bpow. lia. }
  change (finite_upto (f64_div (Bopp (m_log L (f64_lit 1 (-2)))) (f64_mul (f64_ofZ 2) a)) 4096).
  assert (Sg : sized (Bopp (m_log L (f64_lit 1 (-2)))) 1024) by (apply sized_opp; split; [exact Fg|apply Rabs_le; lra]).
  assert (Bo : 0 <= B2R (Bopp (m_log L (f64_lit 1 (-2))))) by (rewrite B2R_Bopp; lra).
  set (lg := Bopp (m_log L (f64_lit 1 (-2)))) in *. set (d := f64_mul (f64_ofZ 2) a) in *.
  destruct (sized_div lg d 1024 (/ 2) 4096 Sg) as [Fd Bd]; [lra|rewrite Rabs_pos_eq; lra|lra|okc|okc|].
  split; [exact Fd|]. split; [|apply Rabs_le_inv in Bd; lra].
  destruct Sg as [Fgg Bgg].
  destruct (div_ok lg d Fgg) as (D1 & _ & _); [lra| |].
  - unfold Rdiv. rewrite Rabs_mult. apply Rle_trans with (1024 * 2); [|apply Rle_trans with 2048; [lra|okc]].
    apply Rmult_le_compat; [apply Rabs_pos|apply Rabs_pos|exact Bgg|]. rewrite Rabs_pos_eq by (left; apply Rinv_0_lt_compat; lra).
    replace 2 with (/ / 2) by lra. apply Rinv_le; lra.
  - rewrite D1. apply rnd_nonneg. apply Rmult_le_pos; [exact Bo|]. left. apply Rinv_0_lt_compat. lra.
Qed.

Lemma max_rsq_ok (data : list (num A)) npos : (forall x : f64, In x data -> sized x 1024) ->
  (3 * npos <= Z.of_nat (length data))%Z ->
  exists m : f64, max_rsq data npos = Ret m /\ Bsign m = false /\ finite_upto m 3145728.
Proof.
  intros Hd Hn. unfold max_rsq.
  assert (O : outcome (fun _ => False) (fun m : num A => Bsign (m : f64) = false /\ finite_upto m 3145728)
    (rfold (fun rmax_sq i => letr p := position_at data i in let r_sq := rsq32 p in Ret (if nltb A rmax_sq r_sq then r_sq else rmax_sq)) (zupto npos) (nlit A 0 0))).
  { apply outcome_rfold.
    - intros m i Hi (Sm & Fm & Bm). unfold zupto, zrange in Hi. apply in_map_iff in Hi. destruct Hi as (k & <- & Hk). apply in_seq in Hk.
      destruct (position_ok data (0 + Z.of_nat k) Hd) as (x & y & z & -> & Sx & Sy & Sz); [lia|lia|]. cbn [rbind outcome].
      assert (Sr : sized (rsq32 (A:=A) (x, y, z)) 3145728).
      { unfold rsq32.
        pose proof (mul32_sized x x 1024 1024 ltac:(lia) ltac:(lia) ltac:(lia) Sx Sx) as Mx.
        pose proof (mul32_sized y y 1024 1024 ltac:(lia) ltac:(lia) ltac:(lia) Sy Sy) as My.
        pose proof (mul32_sized z z 1024 1024 ltac:(lia) ltac:(lia) ltac:(lia) Sz Sz) as Mz.
        pose proof (add32_sized _ _ (1024 * 1024) (1024 * 1024) ltac:(lia) ltac:(lia) ltac:(lia) Mx My) as Ma.
        exact (add32_sized _ _ (1024 * 1024 + 1024 * 1024) (1024 * 1024) ltac:(lia) ltac:(lia) ltac:(lia) Ma Mz). }
      destruct (nltb A m (rsq32 (A:=A) (x, y, z))) eqn:Lt; [|split; [exact Sm|split; [exact Fm|exact Bm]]].
      change (f64_ltb m (rsq32 (A:=A) (x, y, z)) = true) in Lt. rewrite ltb_ok in Lt by (auto; apply Sr).
      destruct (Rlt_bool_spec (B2R m) (B2R (rsq32 (A:=A) (x, y, z) : f64))) as [C|]; [|discriminate].
      assert (Pos : 0 < B2R (rsq32 (A:=A) (x, y, z) : f64)) by lra.
      split; [apply (proj1 (pos_sign _ Pos))|]. split; [apply Sr|]. split; [lra|].
      destruct Sr as [_ Br]. apply Rabs_le_inv in Br. apply Br.
    - split; [vm_compute; reflexivity|]. apply (upto_b _ 3145728); [lia|vm_compute; reflexivity|vm_compute; reflexivity]. }
  destruct (rfold _ _ _) as [m|e|u|] eqn:E; cbn [outcome] in O.
  - exists m. split; [reflexivity|exact O].
  - destruct O.
  - destruct O.
  - exfalso. clear O. assert (K : forall l m, rfold (fun (rmax_sq : num A) i => letr p := position_at data i in let r_sq := rsq32 p in Ret (if nltb A rmax_sq r_sq then r_sq else rmax_sq)) l m <> OutOfFuel).
    { induction l as [|i l IH]; intros m; [discriminate|]. cbn [rfold]. destruct (position_at data i) as [[[x y] z]|e|u|] eqn:P; cbn [rbind]; try discriminate; [apply IH|].
      exfalso. revert P. unfold position_at, at_index. repeat (match goal with |- context [Z.ltb ?a ?b] => destruct (Z.ltb a b) | |- context [nth_error ?a ?b] => destruct (nth_error a b) end; cbn [rbind]); discriminate. }
    exact (K _ _ E).
Qed.

Lemma manual_modest (f : fs A) path : good_positions f path -> (forall m, Ex (H5Exception m)) ->
  outcome (fun _ => True) (modest rg Ex) (manual_create f path).
Proof.
  intros G HE. unfold manual_create, try_open_file. unfold good_positions in G.
  destruct (fs_lookup f path) as [[| |objs]|] eqn:E; cbn [rbind]; try exact Logic.I.
  destruct objs as [|[name o] [|? ?]]; try exact Logic.I. destruct o as [ds|]; [|exact Logic.I].
  destruct (G name ds eq_refl) as [G1 G2]. destruct (Z.ltb_spec 3 (Z.of_nat (length (ds_dims ds)))) as [C|_]; [lia|].
  destruct (ds_dims ds) as [|nconf [|nnuc [|col [|? ?]]]]; try exact Logic.I.
  destruct (Z.eqb_spec col 3) as [->|]; [|exact Logic.I]. cbn [negb].
  destruct (G2 nconf nnuc eq_refl) as (H1 & H2 & H3 & H4). destruct (Z.eqb_spec nnuc 0) as [|_]; [lia|].
  destruct (max_rsq_ok (ds_data ds) (Z.min (500 / nnuc + 1) nconf * nnuc)) as (m & -> & Sm & Fm & Bm).
  - exact H4.
  - eapply Z.le_trans; [|exact H3]. apply Z.mul_le_mono_nonneg_l; [lia|]. apply Z.mul_le_mono_nonneg_r; lia.
  - cbn [rbind outcome]. destruct (sqrt_ok m Fm Sm) as (Q1 & Q2 & Q3). split.
    + change (finite_upto (f64_sqrt m) 4096). split; [exact Q2|]. rewrite Q1. split; [apply rnd_nonneg, sqrt_pos|].
      apply rnd_upper; [okc|]. apply Rle_trans with (sqrt (4096 * 4096)); [apply sqrt_le_1_alt; lra|]. rewrite R_sqrt.sqrt_square; lra.
    + cbn [nucleus_new nu_kind nu_nucleons]. split; [lia|]. split; [intros; apply HE|]. split; [lia|].
      split; [rewrite repeat_length; lia|]. split; [exact H3|]. exact H4.
Qed.

Lemma create_modest bd (f : fs A) species dmin :
  (species = "d"%string -> forall e, 0 < B2R (fst (canonical rg e) : f64)) ->
  (filename_is_hdf5 species = true -> good_positions f species) ->
  (with_hdf5 bd = true -> filename_is_hdf5 species = true -> forall m, Ex (H5Exception m)) ->
  outcome (fun _ => True) (modest rg Ex) (nucleus_create bd f species dmin).
Proof.
  intros Hd Hf HE. unfold nucleus_create.
  destruct (String.eqb_spec species "p"); [apply proton_modest|].
  destruct (String.eqb_spec species "d"); [apply deuteron_modest; auto|].
  repeat (destruct (String.eqb species _);
    [match goal with
     | |- outcome _ _ (Ret (woods_saxon ?n ?r ?a ?d)) => apply (woods_saxon_modest n r a d); vm_cast_no_check (eq_refl true)
     | |- outcome _ _ (Ret (deformed ?n ?r ?a ?b2 ?b4 ?d)) => apply (deformed_modest n r a b2 b4 d); vm_cast_no_check (eq_refl true)
     end|]).
  destruct (filename_is_hdf5 species) eqn:E; [|exact Logic.I].
  destruct (with_hdf5 bd) eqn:B; [|exact Logic.I]. apply manual_modest; auto.
Qed.
End Nuclei.

(** ** The partonic cross section *)
Section Partonic.
Context {L : Libm} (rg : Rng (FA L)) (TR : tame_rng rg) (sv : Solver (FA L)) (CS : careful sv).
Notation A := (FA L).
Notation any := (fun _ : exn => True).
Notation T := (fun _ => True).

Definition dealt (c : cyclic (A:=A)) : Prop := cy_cache c <> [] /\ (cy_iter c <= length (cy_cache c))%nat.

Lemma safe_cyclic_draw c : dealt c -> safe T any (cyclic_draw rg c) (fun r => dealt (snd r)).
Proof.
  intros [H1 H2]. apply safe_outcome. intros e.
  destruct (draw_any rg (tr_shuffle _ TR) c e H1 H2) as (x & c' & e' & -> & _ & P & I). cbn [fst outcome snd]. split; [|exact I].
  intros E. rewrite E in P. apply Permutation_sym, Permutation_nil in P. contradiction.
Qed.
Lemma safe_mc_draw k : forall c, dealt c -> safe T any (mc_draw rg k c) (fun r => dealt (snd r)).
Proof.
  induction k as [|k IH]; intros c Hc; cbn [mc_draw]; [apply safe_ret; exact Hc|].
  eapply safe_bind; [apply safe_cyclic_draw; exact Hc|]. intros [x c1] H1.
  eapply safe_bind; [apply safe_cyclic_draw; exact H1|]. intros [y c2] H2.
  eapply safe_bind; [apply IH; exact H2|]. intros [qs c3] H3. apply safe_ret. exact H3.
Qed.
Lemma safe_mc_sample m sp c : dealt c -> safe T any (mc_sample rg m sp c) (fun r => dealt (snd r)).
Proof.
  intros Hc. unfold mc_sample. eapply safe_bind; [apply (safe_canonical rg TR)|]. intros u _.
  eapply safe_bind; [apply safe_mc_draw; exact Hc|]. intros [qA c1] H1.
  eapply safe_bind; [apply safe_mc_draw; exact H1|]. intros [qB c2] H2. apply safe_ret. exact H2.
Qed.
Lemma safe_mc_loop m sp todo : forall n c (ref pm : num A) pass, dealt c -> safe T any (mc_loop rg m sp todo n c ref pm pass) T.
Proof.
  induction todo as [|todo IH]; intros n c ref pm pass Hc; cbn [mc_loop]; [apply safe_throw; exact Logic.I|].
  eapply safe_bind; [apply safe_mc_sample; exact Hc|]. intros [miss c'] H'. cbv zeta.
  match goal with |- context [if (mc_n_pass <? ?p)%Z then _ else _] => destruct (mc_n_pass <? p)%Z end; [apply safe_ret; exact Logic.I|].
  apply IH. exact H'.
Qed.
Lemma safe_cyclic_new (mean sd : num A) size nl : (0 < size)%Z -> safe T any (cyclic_new rg mean sd size nl) dealt.
Proof.
  intros Hs. apply safe_outcome. intros e. rewrite cyclic_new_run. cbn [fst outcome]. split; cbn [cy_cache cy_iter]; [|lia].
  intros E. pose proof (shuffled_length rg (tr_shuffle _ TR) (quantiles A mean sd size) e 0) as Ln. rewrite E in Ln.
  unfold quantiles in Ln. rewrite map_length in Ln. unfold zrange in Ln. rewrite map_length, seq_length in Ln. cbn [length] in Ln. lia.
Qed.
Lemma safe_mc m sp : safe T any (mc_cross_section rg m sp) T.
Proof.
  unfold mc_cross_section. eapply safe_bind; [apply safe_cyclic_new; reflexivity|]. intros c Hc. apply safe_mc_loop. exact Hc.
Qed.

Lemma safe_rethrow {S X} msg (m : M S X) : safe T any m T -> safe T any (rethrow_domain msg m) T.
Proof.
  intros H s _. destruct (H s Logic.I) as [O _]. unfold rethrow_domain. destruct (m s) as [r s1]. cbn [fst] in O.
  destruct r as [x|e|u|]; cbn [outcome] in O; try (split; exact Logic.I); [|destruct O].
  destruct e; split; exact Logic.I.
Qed.
Lemma safe_solve {S} (f : num A -> M S (num A)) a b t n : (forall x, safe T any (f x) T) -> safe T any (toms748 sv S f a b t n) T.
Proof.
  intros H. apply safe_outcome. intros s.
  assert (N : forall u, fst (toms748 sv S f a b t n s) <> UB u).
  { apply CS. intros x s0 u E. destruct (H x s0 Logic.I) as [O _]. rewrite E in O. exact O. }
  destruct (fst (toms748 sv S f a b t n s)) as [x|e|u|]; cbn [outcome]; try exact Logic.I. exact (N u eq_refl).
Qed.
Lemma safe_compute cfg : safe T any (compute_partonic rg sv cfg) T.
Proof.
  unfold compute_partonic. destruct (1 <? constit_number cfg)%Z.
  - unfold numeric_partonic_cross_section. apply safe_rethrow. eapply safe_bind.
    + apply safe_solve. intros x. eapply safe_bind; [apply safe_mc|]. intros est _. apply safe_ret. exact Logic.I.
    + intros [lo hi] _. apply safe_ret. exact Logic.I.
  - unfold analytic_partonic_cross_section. apply safe_rethrow. eapply safe_bind.
    + apply safe_solve. intros x. apply safe_ret. exact Logic.I.
    + intros [lo hi] _. apply safe_ret. exact Logic.I.
Qed.

Lemma cache_loop_more (w v : num A) m sigma fuel : forall i cv k r,
  cache_loop fuel w v m sigma i cv = r -> r <> OutOfFuel -> cache_loop (fuel + k) w v m sigma i cv = r.
Proof.
  induction fuel as [|fuel IH]; intros i cv k r E N.
  - cbn [cache_loop] in E. destruct (is_eof i) eqn:Eo; [|congruence]. destruct (0 + k)%nat; cbn [cache_loop]; rewrite Eo; exact E.
  - cbn [plus cache_loop] in *. destruct (is_eof i); [exact E|]. destruct (read_entry i cv) as [i' cv'].
    destruct (entry_matches w v m sigma cv') as [hit|x|u|]; cbn [rbind] in *; auto. destruct hit; [exact E|]. apply IH; auto.
Qed.
Lemma cache_loop_fine fuel (w v : num A) m sigma es t cv : cache_text es t ->
  outcome any T (cache_loop fuel w v m sigma (Istream t false false) cv).
Proof.
  intros H. destruct (cache_loop fuel w v m sigma (Istream t false false) cv) as [x|x|u|] eqn:E; try exact Logic.I.
  pose proof (cache_loop_more w v m sigma fuel _ _ (S (length es)) _ E ltac:(discriminate)) as K.
  rewrite (cache_loop_text A w v m sigma es t cv) in K by (try exact H; lia). discriminate.
Qed.

Lemma safe_in_fs {X} (m : M (fs A) X) : safe T any m T -> safe T any (in_fs rg m) T.
Proof. intros H s _. destruct (H (s_fs s) Logic.I) as [O _]. unfold in_fs. destruct (m (s_fs s)). split; [exact O|exact Logic.I]. Qed.
Lemma safe_append p t : safe T any (append_file (A:=A) p t) T.
Proof.
  intros f _. unfold append_file. destruct (fs_lookup f p) as [[| |]|]; try (destruct (parent_ok f p)); split; exact Logic.I.
Qed.

Lemma partonic_fine fuel e cfg s : good_cache e (s_fs s) -> outcome any T (fst (partonic_cross_section rg sv fuel e cfg s)).
Proof.
  intros (dh & D & G). unfold partonic_cross_section. rewrite (data_home_dir e dh D).
  apply (outcome_step any T T (lift (Ret dh))); [exact Logic.I|]. intros dh' s0 E0 _. injection E0 as <- <-.
  eapply outcome_step.
  { instantiate (1 := T). unfold in_fs, create_directory. destruct (fs_lookup (s_fs s) (path_join dh "trento")) as [[| |]|]; try (destruct (parent_ok _ _)); exact Logic.I. }
  intros [] s1 E1 _.
  assert (G1 : forall n, fs_lookup (s_fs s1) (cache_file dh) = Some n -> exists es t, n = File t /\ cache_text es t).
  { unfold in_fs, create_directory in E1. destruct (fs_lookup (s_fs s) (path_join dh "trento")) as [[| |]|]; try discriminate.
    - injection E1 as <-. exact G.
    - destruct (parent_ok (s_fs s) (path_join dh "trento")); [|discriminate]. injection E1 as <-. cbn [s_fs].
      rewrite fs_set_neq; [exact G|]. pose proof (dir_file_differ dh) as N. unfold cache_dir in N. congruence. }
  apply (outcome_step any (fun x => x = s1) T get); [reflexivity|]. intros s2 s3 E2 ->. injection E2 as <-.
  change (cache_path dh) with (cache_file dh).
  eapply outcome_step.
  { instantiate (1 := T). destruct (fs_lookup (s_fs s1) (cache_file dh)) as [n|]; [|exact Logic.I].
    destruct (G1 n eq_refl) as (es & t & -> & Ht). unfold lift. cbn [fst file_text]. eapply cache_loop_fine. exact Ht. }
  intros [sp|] s2 _ _; [exact Logic.I|]. revert s2. apply safe_outcome.
  eapply safe_bind; [apply safe_in_fs; apply safe_append|]. intros _ _.
  eapply safe_bind.
  { instantiate (1 := T). intros st _. unfold in_eng. destruct (safe_compute cfg (s_eng st) Logic.I) as [O _].
    destruct (compute_partonic rg sv cfg (s_eng st)). split; [exact O|exact Logic.I]. }
  intros sp _. eapply safe_bind; [apply safe_in_fs; apply safe_append|]. intros _ _. apply safe_ret. exact Logic.I.
Qed.
End Partonic.

(** ** Output and the collider *)
Section New.
Context {L : Libm} (TL : tame_libm L) (rg : Rng (FA L)) (TR : tame_rng rg) (sv : Solver (FA L)) (CS : careful sv).
Context (bd : build) (cfg : config (FA L)) (Ed : everyday cfg).
Notation A := (FA L).
Notation any := (fun _ : exn => True).
Notation T := (fun _ => True).
Notation Ex := (event_exception bd cfg).

Lemma width_fine : outcome any T (output_width (A:=A) (number_events cfg)).
Proof.
  unfold output_width, to_int. destruct (tl_log10 _ TL _ (ed_events _ Ed)) as [F B].
  change (ntrunc A (nceil A (nlog10 A (nofZ A (number_events cfg))))) with (f64_trunc (f64_ceil (m_log10 L (f64_ofZ (number_events cfg))))).
  rewrite ceil_trunc_ok; [|exact F|].
  - assert (K : (-1024 <= Zceil (B2R (m_log10 L (f64_ofZ (number_events cfg)))) <= 1024)%Z).
    { apply Rabs_le_inv in B. split; [apply le_IZR; eapply Rle_trans; [|apply Zceil_ub]; lra|apply Zceil_glb; lra]. }
    unfold in_int, int_min, int_max. destruct (_ && _) eqn:E; [exact Logic.I|]. apply andb_false_iff in E. rewrite !Z.leb_gt in E. lia.
  - eapply Rle_trans; [exact B|]. apply IZR_le. vm_compute. discriminate.
Qed.

Lemma create_dirs_fine p : safe T any (create_directories (A:=A) p) T.
Proof.
  unfold create_directories. destruct (String.eqb p ""); [apply safe_throw; exact Logic.I|].
  apply (safe_mfold _ _ _ T); [|exact Logic.I]. intros y x _ _ f _.
  destruct (fs_lookup f x) as [[| |]|]; split; exact Logic.I.
Qed.

Lemma output_fine : safe T any (output_new rg bd cfg) (fun ws => Forall (quiet_writer Ex) ws).
Proof.
  unfold output_new. eapply safe_bind; [apply safe_lift; apply width_fine|]. intros width _.
  eapply safe_bind.
  - instantiate (1 := fun ws => Forall (quiet_writer Ex) ws). destruct (output cfg) as [path|] eqn:E; [|apply safe_ret; constructor].
    eapply (safe_bind _ _ T); [intros s _; split; exact Logic.I|]. intros s _.
    destruct (filename_is_hdf5 path) eqn:H5.
    + destruct (with_hdf5 bd) eqn:W; [|apply safe_throw; exact Logic.I].
      destruct (fs_exists (s_fs s) path && negb (fs_is_empty (s_fs s) path)); [apply safe_throw; exact Logic.I|].
      eapply safe_bind.
      * apply safe_in_fs. intros f _. unfold hdf5_open. destruct (fs_lookup f path) as [[| |]|]; try (destruct (parent_ok f path)); split; exact Logic.I.
      * intros _ _. apply safe_ret. constructor; [|constructor]. intros m. cbn [event_exception]. split; [exact W|]. exists path. auto.
    + eapply (safe_bind _ _ T).
      * destruct (fs_exists (s_fs s) path).
        -- destruct (negb _); [apply safe_throw; exact Logic.I|apply safe_ret; exact Logic.I].
        -- apply safe_in_fs. apply create_dirs_fine.
      * intros _ _. apply safe_ret. constructor; [exact Logic.I|constructor].
  - intros fw Hw. apply safe_ret. apply Forall_app. split; [|exact Hw]. destruct (quiet cfg); repeat constructor.
Qed.

(** The impact-parameter range and the asymmetry. *)
Lemma max_impact_ok sp : let mi := max_impact (nucleon_common_of cfg sp) : f64 in
  is_finite mi = true /\ 5 * B2R (nucleon_width cfg : f64) <= B2R mi <= 3072.
Proof.
  destruct (ed_nucleon _ Ed) as [Fw Bw]. intros mi. set (w := nucleon_width cfg : f64) in *.
  assert (P20 : bpow radix2 (-20) = / 1048576) by reflexivity.
  destruct (sizedb_ok (f64_lit 6 0) 6 ltac:(lia) eq_refl) as [F6 _].
  assert (V6 : B2R (f64_lit 6 0) = 6).
  { rewrite (B2R_SF _ (SpecFloat.S754_finite false 6755399441055744 (-50))) by (vm_compute; reflexivity).
    cbn [SF2R cond_Zopp]. unfold F2R. cbn [Fnum Fexp]. change (bpow radix2 (-50)) with (/ 1125899906842624). lra. }
  destruct (mul_ok (f64_lit 6 0) w F6 Fw) as (M1 & M2 & _).
  { rewrite V6, Rabs_pos_eq by lra. apply Rle_trans with 3072; [lra|okc]. }
  rewrite V6 in M1. set (x := f64_mul (f64_lit 6 0) w) in *.
  assert (Bx : 5 * B2R w <= B2R x <= 3072).
  { rewrite M1. split; [|apply rnd_upper; [okc|lra]].
    destruct (rnd_rel (6 * B2R w)) as (d & Hd & ->).
    - rewrite Rabs_pos_eq by lra. apply Rle_trans with (bpow radix2 (-20)); [apply bpow_le; lia|lra].
    - destruct eps_small as [e0 e1]. apply Rabs_le_inv in Hd. nra. }
  assert (Sm : bpow radix2 (-500) <= B2R x <= bpow radix2 500).
  { split.
    - apply Rle_trans with (bpow radix2 (-20)); [apply bpow_le; lia|lra].
    - apply Rle_trans with (bpow radix2 12); [change (bpow radix2 12) with 4096; lra|apply bpow_le; lia]. }
  destruct (mul_ok x x M2 M2) as (Q1 & Q2 & Q3).
  { rewrite Rabs_pos_eq by nra. apply Rle_trans with 9437184; [nra|okc]. }
  assert (S0 : Bsign (f64_mul x x) = false) by (rewrite Q3; destruct (Bsign x); reflexivity).
  destruct (sqrt_ok (f64_mul x x) Q2 S0) as (R1 & R2 & R3).
  change mi with (f64_sqrt (f64_mul x x)). rewrite R1, Q1. rewrite Ieee.sqrt_square by (try apply rep_B2R; exact Sm). auto.
Qed.

Lemma bmax_ok nA nB sp : modest rg Ex nA -> modest rg Ex nB ->
  let bx := determine_bmax cfg nA nB (nucleon_common_of cfg sp) : f64 in
  moderate (b_min cfg) /\ moderate bx /\ B2R (b_min cfg : f64) <= B2R bx <= 16384.
Proof.
  intros [[FA_ BA] _] [[FB BB] _] bx. destruct (ed_bmin _ Ed) as (Fn & Sn & Vn). destruct (ed_bmax _ Ed) as (Fx & Vx).
  destruct (max_impact_ok sp) as (Fi & Bi). destruct (ed_nucleon _ Ed) as [Fw Bw].
  assert (P20 : bpow radix2 (-20) = / 1048576) by reflexivity. pose proof (bpow_gt_0 radix2 (-500)) as P5.
  assert (Top : forall r, r <= 16384 -> r <= bpow radix2 500).
  { intros r Hr. apply Rle_trans with (bpow radix2 14); [change (bpow radix2 14) with 16384; lra|apply bpow_le; lia]. }
  assert (Z0 : is_finite (f64_lit 0 0) = true) by reflexivity.
  assert (Lt : f64_ltb (b_max cfg) (f64_lit 0 0) = Rlt_bool (B2R (b_max cfg : f64)) 0) by (rewrite ltb_ok by auto; rewrite B2R_zero; reflexivity).
  change bx with (if f64_ltb (b_max cfg) (f64_lit 0 0) then f64_add (f64_add (radius nA) (radius nB)) (max_impact (nucleon_common_of cfg sp)) else b_max cfg).
  rewrite Lt. destruct Vx as [[Neg Bn]|[Sx [[Bn Bm] Vx]]].
  - rewrite Rlt_bool_true by exact Neg. set (mi := max_impact (nucleon_common_of cfg sp) : f64) in *.
    destruct (add_ok (radius nA) (radius nB) FA_ FB) as (A1 & A2 & _).
    { rewrite Rabs_pos_eq by lra. apply Rle_trans with 8192; [lra|okc]. }
    set (s := f64_add (radius nA) (radius nB)) in *.
    assert (Bs : 0 <= B2R s <= 8192) by (rewrite A1; split; [apply rnd_nonneg; lra|apply rnd_upper; [okc|lra]]).
    destruct (add_ok s mi A2 Fi) as (C1 & C2 & _).
    { rewrite Rabs_pos_eq by lra. apply Rle_trans with 16384; [lra|okc]. }
    assert (Bt : B2R mi <= B2R (f64_add s mi) <= 16384).
    { rewrite C1. split; [|apply rnd_upper; [okc|lra]]. rewrite <- (rnd_id (B2R mi)) at 1 by apply rep_B2R. apply rnd_le. lra. }
    assert (Pt : 0 < B2R (f64_add s mi)) by lra.
    assert (G5 : bpow radix2 (-500) <= bpow radix2 (-20)) by (apply bpow_le; lia).
    split; [|split].
    + split; [exact Fn|]. split; [exact Sn|]. destruct Vn as [Vn|Vn]; [left; exact Vn|right]. split; [exact Vn|apply Top; lra].
    + split; [exact C2|]. split; [apply pos_sign; exact Pt|]. right. split; [lra|apply Top; lra].
    + lra.
  - rewrite Rlt_bool_false by (apply sign_nonneg; auto). split; [|split].
    + split; [exact Fn|]. split; [exact Sn|]. destruct Vn as [Vn|Vn]; [left; exact Vn|right]. split; [exact Vn|apply Top; lra].
    + split; [exact Fx|]. split; [exact Sx|]. destruct Vx as [Vx|Vx]; [left; exact Vx|right]. split; [exact Vx|apply Top; lra].
    + lra.
Qed.

Lemma asym_ok nA nB : modest rg Ex nA -> modest rg Ex nB -> finite_upto (determine_asym nA nB) 1.
Proof.
  intros [[FA_ BA] _] [[FB BB] _].
  destruct (add_ok (radius nA) (radius nB) FA_ FB) as (A1 & A2 & _).
  { rewrite Rabs_pos_eq by lra. apply Rle_trans with 8192; [lra|okc]. }
  change (determine_asym nA nB) with (if f64_ltb (f64_add (radius nA) (radius nB)) (f64_lit 1 (-1)) then f64_lit 5 (-1) else f64_div (radius nA) (f64_add (radius nA) (radius nB))).
  set (s := f64_add (radius nA) (radius nB)) in *.
  assert (Ft : is_finite (f64_lit 1 (-1)) = true) by (vm_compute; reflexivity).
  assert (Pt : 0 < B2R (f64_lit 1 (-1))).
  { assert (K : f64_ltb (f64_lit 0 0) (f64_lit 1 (-1)) = true) by (vm_compute; reflexivity). rewrite ltb_ok in K by (auto; vm_compute; reflexivity).
    destruct (Rlt_bool_spec (B2R (f64_lit 0 0)) (B2R (f64_lit 1 (-1)))) as [C|]; [|discriminate]. rewrite B2R_zero in C. exact C. }
  rewrite ltb_ok by auto. destruct (Rlt_bool_spec (B2R s) (B2R (f64_lit 1 (-1)))) as [C|C].
  - apply (upto_b _ 1); [lia|vm_compute; reflexivity|vm_compute; reflexivity].
  - assert (Le : B2R (radius nA : f64) <= B2R s).
    { rewrite A1. rewrite <- (rnd_id (B2R (radius nA : f64))) at 1 by apply rep_B2R. apply rnd_le. lra. }
    assert (Q : 0 <= B2R (radius nA : f64) / B2R s <= 1).
    { split; [apply Rmult_le_pos; [lra|left; apply Rinv_0_lt_compat; lra]|].
      apply Rmult_le_reg_r with (B2R s); [lra|]. unfold Rdiv. rewrite Rmult_assoc, Rinv_l by lra. lra. }
    destruct (div_ok (radius nA) s FA_) as (D1 & D2 & _); [lra|rewrite Rabs_pos_eq by lra; apply Rle_trans with 1; [lra|okc]|].
    split; [exact D2|]. rewrite D1. split; [apply rnd_nonneg; lra|apply rnd_upper; [okc|lra]].
Qed.

(** The constructor. *)
Lemma collider_fine fuel e s : good_cache e (s_fs s) -> good_projectiles (s_fs s) cfg -> no_zero_draw rg cfg ->
  outcome any (fun r => let '(co, nA, nB, ev, nst, gst) := r in
    steady cfg co /\ Forall (quiet_writer Ex) (co_writers co) /\ modest rg Ex nA /\ modest rg Ex nB /\ evolved cfg ev /\
    nst = ninit rg (nofZ A 0) (sw cfg))
    (fst (collider_new rg sv bd fuel e cfg s)).
Proof.
  intros GC GP NZ. unfold collider_new.
  apply (outcome_step any (fun x => x = s) _ get); [reflexivity|]. intros s0 s1 E0 ->. injection E0 as <-.
  assert (CN : forall i, outcome any (modest rg Ex) (create_nucleus bd (s_fs s) cfg i)).
  { intros i. unfold create_nucleus. destruct (nth_error (projectile cfg) i) as [sp|] eqn:N; [|exact Logic.I].
    apply nth_error_In in N. apply create_modest.
    - exact TL.
    - intros ->. apply NZ. exact N.
    - intros H. apply GP; auto.
    - intros W H m. cbn [event_exception]. split; [exact W|]. exists sp. auto. }
  apply (outcome_step any (modest rg Ex) _ (lift (create_nucleus bd (s_fs s) cfg 0))); [apply CN|]. intros nA s1 E1 HA. injection E1 as _ <-.
  apply (outcome_step any (modest rg Ex) _ (lift (create_nucleus bd (s_fs s) cfg 1))); [apply CN|]. intros nB s1 E1 HB. injection E1 as _ <-.
  apply (outcome_step any T); [apply partonic_fine; [exact TR|exact CS|exact GC]|]. intros sp s1 _ _.
  destruct (event_new_ieee L cfg (ordinary_grid L cfg (ed_ordinary _ Ed))) as (ev & Ev & _).
  apply (outcome_step any (evolved cfg) _ (lift (event_new cfg))).
  { unfold lift. cbn [fst]. rewrite Ev. cbn [outcome]. constructor. exact Ev. }
  intros ev' s2 _ He.
  apply (outcome_step any (Forall (quiet_writer Ex))); [apply (output_fine s2 Logic.I)|]. intros ws s3 _ Hw.
  apply (outcome_step any T); [destruct (0 <? random_seed cfg)%Z; exact Logic.I|]. intros _ s4 _ _.
  cbn [ret fst outcome co_writers]. split; [|auto 7].
  destruct (bmax_ok nA nB sp HA HB) as (B1 & B2 & B3). unfold steady. cbn [co_nc co_bmin co_bmax co_asym].
  split; [exists sp; reflexivity|]. split; [exact B1|]. split; [exact B2|]. split; [exact B3|]. apply asym_ok; assumption.
Qed.
End New.
