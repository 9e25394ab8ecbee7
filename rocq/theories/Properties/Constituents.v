(** C21, C23: constituent positions. *)
From Coq Require Import Reals Lra.
From Flocq Require Import Core BinarySingleNaN.
From Verif.Base Require Import Result Arith RArith FArith Rng.
From Verif.Model Require Import FastExp Config Nucleon.
From Verif.Spec Require Import Contract Constituents.
From Verif.Proof Require Import Basics RBasics ConstituentsP.
Local Open Scope R_scope.

Definition mean (l : list R) : R := Rsum (fun x => x) l / INR (length l).

Lemma sum0_Rsum (l : list R) : sum0 (A:=RA) l = Rsum (fun x => x) l.
Proof. unfold sum0, total_from. change (nadd RA) with Rplus. rewrite (fold_left_Rsum (fun x : R => x)). change (nlit RA 0 0) with (Rlit 0 0). rewrite Rlit_0. apply Rplus_0_l. Qed.

Lemma placed_R (n : nucleon RA) m (ds : list (R * R * R)) : length ds = Z.to_nat m -> (1 <= m)%Z ->
  placed (A:=RA) n m ds = map (fun d => @Constituent RA (n_x n + (d_x (A:=RA) d - mean (map (d_x (A:=RA)) ds)))
     (n_y n + (d_y (A:=RA) d - mean (map (d_y (A:=RA)) ds))) (d_f (A:=RA) d)) ds.
Proof.
  intros L Hm.
  assert (M : forall l : list R, length l = Z.to_nat m -> mean l = sum0 (A:=RA) l / IZR m).
  { intros l Hl. unfold mean. rewrite sum0_Rsum, Hl, INR_IZR_INZ, Z2Nat.id by lia. reflexivity. }
  unfold placed. apply map_ext. intros d.
  rewrite (M (map (d_x (A:=RA)) ds)), (M (map (d_y (A:=RA)) ds)) by (etransitivity; [apply map_length|exact L]).
  f_equal; toR; unfold Rdiv; ring.
Qed.

Lemma sum_recentred (l : list R) (c : R) : l <> [] -> mean (map (fun x => c + (x - mean l)) l) = c.
Proof.
  intros H. unfold mean at 1. rewrite map_length, Rsum_map.
  rewrite (Rsum_ext _ (fun x => (c - mean l) + x)) by (intros; lra). rewrite Rsum_plus, Rsum_const.
  unfold mean. assert (INR (length l) <> 0) by (apply not_0_INR; destruct l; simpl; congruence). field. exact H0.
Qed.

(** Sampling a nucleon that has no constituents yet gives exactly m of them: the
    nucleon's position plus the draw minus the mean of the draws; their mean
    position is the nucleon's position.  The nucleon itself does not move. *)
Theorem C21_centred : forall (rg : Rng RA) nc (n n' : nucleon RA) s s',
  n_cexist n = false -> (1 <= nc_number nc)%Z ->
  sample_constituent_positions rg nc n s = (Ret n', s') ->
  exists ds, constituent_draws rg (Z.to_nat (nc_number nc)) s = (Ret ds, s') /\
    length ds = Z.to_nat (nc_number nc) /\ Z.of_nat (length (n_cons n')) = nc_number nc /\
    n_cons n' = map (fun d => @Constituent RA (n_x n + (d_x (A:=RA) d - mean (map (d_x (A:=RA)) ds)))
                                 (n_y n + (d_y (A:=RA) d - mean (map (d_y (A:=RA)) ds))) (d_f (A:=RA) d)) ds /\
    mean (map q_x (n_cons n')) = n_x n /\ mean (map q_y (n_cons n')) = n_y n /\
    n_x n' = n_x n /\ n_y n' = n_y n /\ n_z n' = n_z n /\ n_part n' = n_part n.
Proof.
  intros rg nc n n' s s' He Hm H.
  assert (Hmax : (nc_number nc <= cons_max_size)%Z).
  { unfold sample_constituent_positions in H. rewrite He in H.
    destruct (Z.ltb_spec cons_max_size (nc_number nc)) as [C|C]; [discriminate H|exact C]. }
  destruct (sample_cons_draws rg nc n s He Hmax) as (ds & s1 & D & L & E). rewrite E in H.
  apply pair_Ret_inj in H. destruct H as [<- <-]. exists ds. cbn [n_cons n_x n_y n_z n_part].
  rewrite (placed_R n _ ds L Hm). rewrite map_length, L, Z2Nat.id by lia.
  split; [exact D|]. split; [reflexivity|]. split; [reflexivity|]. split; [reflexivity|].
  rewrite !map_map. cbn [q_x q_y].
  assert (N : forall f : R * R * R -> R, map f ds <> []) by (intros f Z; destruct ds; [simpl in L; lia|discriminate Z]).
  split; [|split; [|repeat split]].
  - rewrite <- (map_map (d_x (A:=RA)) (fun x => n_x n + (x - mean (map (d_x (A:=RA)) ds)))). apply sum_recentred, N.
  - rewrite <- (map_map (d_y (A:=RA)) (fun x => n_y n + (x - mean (map (d_y (A:=RA)) ds)))). apply sum_recentred, N.
Qed.

(** One constituent sits at the nucleon whatever was drawn. *)
Theorem C21_single : forall (rg : Rng RA) nc (n n' : nucleon RA) s s',
  n_cexist n = false -> nc_number nc = 1%Z -> sample_constituent_positions rg nc n s = (Ret n', s') ->
  exists f, n_cons n' = [@Constituent RA (n_x n) (n_y n) f].
Proof.
  intros rg nc n n' s s' He Hm H. destruct (C21_centred rg nc n n' s s' He ltac:(lia) H) as (ds & _ & L & _ & C & _).
  rewrite Hm in L. destruct ds as [|d [|? ?]]; try discriminate L. rewrite C. exists (d_f (A:=RA) d).
  cbn [map]. unfold mean. cbn [Rsum fold_right length INR]. f_equal. f_equal; toR; field.
Qed.

(** ** Binary64, zero sampling width *)

(** x and y are the same number (zeros may differ in sign). *)
Definition is_zero (x : f64) : bool := match x with B754_zero _ => true | _ => false end.
Definition same_number (x y : f64) : Prop := x = y \/ (is_zero x = true /\ is_zero y = true).

Lemma zero_add_zero x y : is_zero x = true -> is_zero y = true -> is_zero (f64_add x y) = true.
Proof. destruct x as [[]| | |], y as [[]| | |]; simpl; try discriminate; reflexivity. Qed.
Lemma zero_div x m : is_zero x = true -> (1 <= m)%Z -> is_zero (f64_div x (f64_ofZ m)) = true.
Proof.
  intros Hx Hm. destruct x as [sx| | |]; try discriminate Hx. unfold f64_ofZ.
  assert (N : is_nan (binary_normalize prec64 emax64 prec64_gt_0 prec64_lt_emax mode_NE m 0 false) = false /\
              is_zero (binary_normalize prec64 emax64 prec64_gt_0 prec64_lt_emax mode_NE m 0 false) = false).
  { pose proof (binary_normalize_correct prec64 emax64 prec64_gt_0 prec64_lt_emax mode_NE m 0 false) as B.
    cbv zeta in B. destruct (Rlt_bool (Rabs _) _).
    - destruct B as (B1 & B2 & _). destruct (binary_normalize prec64 emax64 prec64_gt_0 prec64_lt_emax mode_NE m 0 false);
        try discriminate B2; split; try reflexivity. exfalso.
      assert (G : 1 <= round radix2 (SpecFloat.fexp prec64 emax64) (round_mode mode_NE) (F2R (Float radix2 m 0))); [|rewrite <- B1 in G; simpl in G; lra].
      replace (F2R (Float radix2 m 0)) with (IZR m) by (unfold F2R; simpl; ring). apply round_ge_generic; auto with typeclass_instances.
      + apply fexp_correct. apply prec64_gt_0.
      + change 1 with (bpow radix2 0). apply generic_format_bpow. unfold SpecFloat.fexp, SpecFloat.emin, prec64, emax64. lia.
      + apply IZR_le. exact Hm.
    - unfold binary_overflow, overflow_to_inf in B. destruct (binary_normalize prec64 emax64 prec64_gt_0 prec64_lt_emax mode_NE m 0 false);
        try discriminate B; split; reflexivity. }
  destruct N as [N1 N2]. unfold f64_div. destruct (binary_normalize _ _ _ _ _ _ _ _); try discriminate N1; try discriminate N2; reflexivity.
Qed.
Lemma sub_zero x z : is_zero z = true -> same_number (f64_sub x z) x.
Proof. intros Hz. destruct z as [sz| | |]; try discriminate Hz. destruct x as [[]|[]| |]; destruct sz; simpl; try (left; reflexivity); right; auto. Qed.
Lemma zero_add z x y : is_zero z = true -> same_number x y -> same_number (f64_add z x) y.
Proof.
  intros Hz [<-|[Hx Hy]].
  - destruct z as [sz| | |]; try discriminate Hz. destruct x as [[]|[]| |]; destruct sz; simpl; try (left; reflexivity); right; auto.
  - right. split; [apply zero_add_zero; assumption|exact Hy].
Qed.

Section Ieee.
Variables (L : Libm) (R : Rng (FA L)) (Z0 : nstate R -> Prop).
(** From the states in [Z0] on, the normal distribution draws zeros (as
    libstdc++'s does for standard deviation 0). *)
Hypothesis Hz : forall st e, Z0 st -> is_zero (fst (fst (ndraw R st e))) = true /\ Z0 (snd (fst (ndraw R st e))).

Lemma zero_draws k : forall s ds s', Z0 (rs_norm s) -> constituent_draws R k s = (Ret ds, s') ->
  forall d, In d ds -> is_zero (d_x (A:=FA L) d) = true /\ is_zero (d_y (A:=FA L) d) = true.
Proof.
  induction k as [|k IH]; intros s ds s' HZ H d Hd.
  - cbn in H. apply pair_Ret_inj in H. destruct H as [<- _]. destruct Hd.
  - cbn [constituent_draws] in H.
    destruct (ndraw R (rs_norm s) (rs_eng s)) as [[x n1] e1] eqn:E1.
    destruct (ndraw R n1 e1) as [[y n2] e2] eqn:E2.
    destruct (gdraw R (rs_gamma s) e2) as [[f g] e3] eqn:E3.
    assert (D1 : draw_normal R s = (Ret x, MkRstate e1 n1 (rs_gamma s))) by (unfold draw_normal; rewrite E1; reflexivity).
    assert (D2 : draw_normal R (MkRstate e1 n1 (rs_gamma s)) = (Ret y, MkRstate e2 n2 (rs_gamma s)))
      by (unfold draw_normal; cbn [rs_norm rs_eng rs_gamma]; rewrite E2; reflexivity).
    assert (D3 : draw_gamma R (MkRstate e2 n2 (rs_gamma s)) = (Ret f, MkRstate e3 n2 g))
      by (unfold draw_gamma; cbn [rs_norm rs_eng rs_gamma]; rewrite E3; reflexivity).
    rewrite !(bind_run _ _ _ _ _ D1), !(bind_run _ _ _ _ _ D2), !(bind_run _ _ _ _ _ D3) in H.
    mstep H. apply pair_Ret_inj in H. destruct H as [<- <-].
    destruct (Hz _ (rs_eng s) HZ) as [X1 X2]. rewrite E1 in X1, X2. cbn [fst snd] in X1, X2.
    destruct (Hz _ e1 X2) as [Y1 Y2]. rewrite E2 in Y1, Y2. cbn [fst snd] in Y1, Y2.
    destruct Hd as [<-|Hd]; [split; assumption|]. eapply IH; [|eassumption|exact Hd]. exact Y2.
Qed.
Lemma zero_sum (l : list f64) : (forall x, In x l -> is_zero x = true) -> is_zero (sum0 (A:=FA L) l) = true.
Proof.
  intros H. unfold sum0, total_from. assert (G : forall a, is_zero a = true -> is_zero (fold_left (nadd (FA L)) l a) = true).
  { induction l as [|x l IH]; intros a Ha; [exact Ha|]. cbn [fold_left]. apply IH; [intros; apply H; right; assumption|].
    apply zero_add_zero; [exact Ha|apply H; left; reflexivity]. }
  apply G. reflexivity.
Qed.

(** With zero sampling width every constituent is exactly at the nucleon, for any
    m and any position (infinite or not a number included). *)
Theorem C21_zero_width_ieee : forall nc (n n' : nucleon (FA L)) s s', Z0 (rs_norm s) ->
  n_cexist n = false -> (1 <= nc_number nc)%Z -> sample_constituent_positions R nc n s = (Ret n', s') ->
  Z.of_nat (length (n_cons n')) = nc_number nc /\
  forall q, In q (n_cons n') -> same_number (q_x q) (n_x n) /\ same_number (q_y q) (n_y n).
Proof.
  intros nc n n' s s' HZ He Hm H.
  assert (Hmax : (nc_number nc <= cons_max_size)%Z).
  { unfold sample_constituent_positions in H. rewrite He in H.
    destruct (Z.ltb_spec cons_max_size (nc_number nc)) as [C|C]; [discriminate H|exact C]. }
  destruct (sample_cons_draws R nc n s He Hmax) as (ds & s1 & D & Len & E). rewrite E in H.
  apply pair_Ret_inj in H. destruct H as [<- <-]. cbn [n_cons].
  split; [unfold placed; rewrite map_length, Len; lia|].
  pose proof (zero_draws _ _ _ _ HZ D) as ZD.
  intros q Hq. unfold placed in Hq. apply in_map_iff in Hq. destruct Hq as (d & <- & Hd). cbn [q_x q_y].
  destruct (ZD d Hd) as [Zx Zy].
  split; (apply zero_add; [assumption|]); apply sub_zero; apply zero_div; try exact Hm; apply zero_sum;
    intros x Hx; apply in_map_iff in Hx; destruct Hx as (d' & <- & Hd'); apply (ZD d' Hd').
Qed.
End Ieee.

(** ** C23: the sampling width *)

(** Nothing to sample: one constituent, or equal widths. *)
Theorem C23_degenerate : forall (A : Arith) (w v : num A) m,
  m = 1%Z \/ nltb A (nsub A w v) (nlit A 1 (-6)) = true -> calc_sampling_width w v m = nlit A 0 0.
Proof.
  intros A w v m [->|H]; unfold calc_sampling_width; [reflexivity|]. rewrite H, orb_true_r. reflexivity.
Qed.

Theorem C23_sampling_width : forall (w v : R) m, (1 < m)%Z -> 0 <= v -> 1 / 1000000 <= w - v ->
  let r : R := calc_sampling_width (A:=RA) w v m in 0 <= r /\ v^2 + r^2 * (1 - 1 / IZR m) = w^2.
Proof.
  intros w v m Hm Hv Hw. unfold calc_sampling_width.
  destruct (Z.eqb_spec m 1) as [C|_]; [lia|]. cbn [nltb nsub nlit RA RA_with]. rlits.
  destruct (Rltb_spec (w - v) (1 / 1000000)) as [C|_]; [lra|]. cbn [orb].
  cbn [nsqrt ndiv nsub nmul nofZ nlit RA RA_with]. unfold sqr. cbn [nmul RA RA_with]. rlits.
  assert (M : 2 <= IZR m) by (apply IZR_le; lia).
  assert (D : 0 < 1 - 1 / IZR m).
  { assert (1 / IZR m <= 1 / 2) by (apply Rmult_le_compat_l; [lra|]; apply Rinv_le_contravar; lra). lra. }
  assert (P : 0 <= (w * w - v * v) / (1 - 1 / IZR m)).
  { apply Rmult_le_pos; [nra|left; apply Rinv_0_lt_compat; exact D]. }
  split; [apply sqrt_pos|]. rewrite pow2_sqrt by exact P. field. split; [lra|]. intros Z. lra.
Qed.

(** *** Average width *)
Section Average.
Variables (W : Type) (E : (W -> R) -> R).
Hypothesis HE : expectation E.

Lemma E_sum {X} (f : X -> W -> R) l : E (fun w => Rsum (fun x => f x w) l) = Rsum (fun x => E (f x)) l.
Proof.
  induction l as [|x l IH].
  - simpl. transitivity (E (fun w => 0 * 1)); [apply (E_ext _ HE); intros; ring|]. rewrite (E_scale _ HE). ring.
  - simpl. rewrite (E_plus _ HE (f x) (fun w => Rsum (fun x => f x w) l)), IH. reflexivity.
Qed.
Lemma Rsum_delta (k i : nat) (c : R) : (i < k)%nat -> Rsum (fun j => if Nat.eqb i j then c else 0) (seq 0 k) = c.
Proof.
  intros H. replace k with (i + S (k - i - 1))%nat by lia. rewrite seq_app, Rsum_app. simpl.
  rewrite Nat.eqb_refl.
  rewrite (Rsum_ext _ (fun _ => 0)) by (intros j Hj; apply in_seq in Hj; destruct (Nat.eqb_spec i j); [lia|reflexivity]).
  rewrite (Rsum_ext (fun j => if Nat.eqb i j then c else 0) (fun _ => 0) (seq (S i) _)) by (intros j Hj; apply in_seq in Hj; destruct (Nat.eqb_spec i j); [lia|reflexivity]).
  rewrite !Rsum_const. lra.
Qed.

Lemma recentred_variance k (xi : nat -> W -> R) r i : (i < k)%nat -> uncorrelated E k xi r ->
  E (fun w => (xi i w - Rsum (fun j => xi j w) (seq 0 k) / INR k) * (xi i w - Rsum (fun j => xi j w) (seq 0 k) / INR k))
  = r * r * (1 - 1 / INR k).
Proof.
  intros Hi [_ U]. assert (K : INR k <> 0) by (apply not_0_INR; lia).
  set (S := fun w => Rsum (fun j => xi j w) (seq 0 k)).
  assert (E1 : E (fun w => xi i w * S w) = r * r).
  { transitivity (E (fun w => Rsum (fun j => xi i w * xi j w) (seq 0 k))).
    - apply (E_ext _ HE). intros w. unfold S. rewrite Rsum_scale. reflexivity.
    - rewrite (E_sum (fun j w => xi i w * xi j w)).
      rewrite (Rsum_ext _ (fun j => if Nat.eqb i j then r * r else 0)) by (intros j Hj; apply in_seq in Hj; apply U; lia).
      apply Rsum_delta. exact Hi. }
  assert (E2 : E (fun w => S w * S w) = INR k * (r * r)).
  { transitivity (E (fun w => Rsum (fun l => Rsum (fun j => xi l w * xi j w) (seq 0 k)) (seq 0 k))).
    - apply (E_ext _ HE). intros w. rewrite (Rsum_ext _ (fun l => S w * xi l w)).
      + rewrite Rsum_scale. reflexivity.
      + intros l _. rewrite Rsum_scale. unfold S. ring.
    - rewrite (E_sum (fun l w => Rsum (fun j => xi l w * xi j w) (seq 0 k))).
      rewrite (Rsum_ext _ (fun _ => r * r)).
      + rewrite Rsum_const, seq_length. reflexivity.
      + intros l Hl. apply in_seq in Hl. rewrite (E_sum (fun j w => xi l w * xi j w)).
        rewrite (Rsum_ext _ (fun j => if Nat.eqb l j then r * r else 0)) by (intros j Hj; apply in_seq in Hj; apply U; lia).
        apply Rsum_delta. lia. }
  transitivity (E (fun w => xi i w * xi i w + ((-2 / INR k) * (xi i w * S w) + (1 / (INR k * INR k)) * (S w * S w)))).
  - apply (E_ext _ HE). intros w. fold (S w). field. exact K.
  - rewrite (E_plus _ HE (fun w => xi i w * xi i w)).
    rewrite (E_plus _ HE (fun w => (-2 / INR k) * (xi i w * S w))), !(E_scale _ HE), E1, E2, (U i i Hi Hi), Nat.eqb_refl.
    field. exact K.
Qed.
Lemma recentred_mean k (xi : nat -> W -> R) r i c : (i < k)%nat -> uncorrelated E k xi r ->
  E (fun w => c + (xi i w - Rsum (fun j => xi j w) (seq 0 k) / INR k)) = c.
Proof.
  intros Hi [U _]. transitivity (E (fun w => c * 1 + (xi i w + (-1 / INR k) * Rsum (fun j => xi j w) (seq 0 k)))).
  - apply (E_ext _ HE). intros w. unfold Rdiv. ring.
  - rewrite (E_plus _ HE (fun _ => c * 1)), (E_plus _ HE (xi i)), !(E_scale _ HE), (E_one _ HE), (U i Hi), E_sum.
    rewrite (Rsum_ext _ (fun _ => 0)) by (intros j Hj; apply in_seq in Hj; apply U; lia). rewrite Rsum_const. ring.
Qed.
End Average.

Lemma Rsum_nth (l : list R) : Rsum (fun j => nth j l 0) (seq 0 (length l)) = Rsum (fun x => x) l.
Proof.
  induction l as [|x l IH]; [reflexivity|]. cbn [length seq]. rewrite !Rsum_cons. f_equal.
  rewrite <- seq_shift, Rsum_map. exact IH.
Qed.

(** If the normal draws are centred, uncorrelated and have the variance r^2 that
    the constructor configures, then on average each constituent is at the
    nucleon's position and its mean square distance (per axis) plus the width of
    its own profile is the configured nucleon width squared. *)
Theorem C23_width : forall (W : Type) (E : (W -> R) -> R) (rg : Rng RA) (st : W -> rstate rg) (cfg : config RA) (sp : R) (n : nucleon RA) i,
  let w : R := nucleon_width cfg in let v : R := constit_width cfg in let m := constit_number cfg in
  let nc := nucleon_common_of (A:=RA) cfg sp in
  expectation E -> (1 < m <= 1000000)%Z -> 0 <= v -> 1 / 1000000 <= w - v ->
  n_cexist n = false -> (i < Z.to_nat m)%nat ->
  uncorrelated E (Z.to_nat m) (x_draw st (Z.to_nat m)) (nc_sampling_width nc) ->
  uncorrelated E (Z.to_nat m) (y_draw st (Z.to_nat m)) (nc_sampling_width nc) ->
  E (fun a => x_at i (sampled nc n st a)) = n_x n /\
  E (fun a => y_at i (sampled nc n st a)) = n_y n /\
  v^2 + E (fun a => (x_at i (sampled nc n st a) - n_x n)^2) = w^2 /\
  v^2 + E (fun a => (y_at i (sampled nc n st a) - n_y n)^2) = w^2.
Proof.
  intros W E rg st cfg sp n i w v m nc HE Hm Hv Hw Hc Hi Ux Uy.
  assert (N : nc_number nc = m).
  { unfold nc. cbn [nucleon_common_of nc_number]. unfold to_size. apply Z.mod_small. fold m. lia. }
  destruct (C23_sampling_width w v m ltac:(lia) Hv Hw) as [_ SW]. cbv zeta in SW.
  change (calc_sampling_width (A:=RA) w v m) with (nc_sampling_width nc) in SW.
  set (r := nc_sampling_width nc) in *. set (k := Z.to_nat m) in *.
  assert (KM : INR k = IZR m) by (unfold k; rewrite INR_IZR_INZ, Z2Nat.id by lia; reflexivity).
  assert (X : forall a, x_at i (sampled nc n st a) = n_x n + (x_draw st k i a - Rsum (fun j => x_draw st k j a) (seq 0 k) / INR k) /\
                        y_at i (sampled nc n st a) = n_y n + (y_draw st k i a - Rsum (fun j => y_draw st k j a) (seq 0 k) / INR k)).
  { intros a. unfold sampled, x_draw, y_draw, draws_in.
    destruct (sample_cons_draws rg nc n (st a) Hc) as (ds & s' & D & L & S); [rewrite N; unfold cons_max_size; lia|].
    rewrite S. rewrite N in D, L. fold k in D, L. rewrite D. cbn [n_cons].
    rewrite (placed_R n (nc_number nc) ds) by (rewrite N; solve [exact L|lia]).
    assert (G : forall f : R * R * R -> R, Rsum (fun j => nth j (map f ds) 0) (seq 0 k) / INR k = mean (map f ds)).
    { intros f. unfold mean. assert (LM : length (map f ds) = k) by (etransitivity; [apply map_length|exact L]).
      rewrite <- (Rsum_nth (map f ds)), LM. reflexivity. }
    assert (HL : forall (f : R * R * R -> R) (c : R), nth i (map (fun d => c + (f d - mean (map f ds))) ds) 0 = c + (nth i (map f ds) 0 - mean (map f ds))).
    { intros f c. rewrite <- (map_map f (fun x => c + (x - mean (map f ds)))).
      assert (LM : length (map f ds) = k) by (etransitivity; [apply map_length|exact L]).
      rewrite nth_indep with (d' := c + (0 - mean (map f ds))) by (rewrite map_length, LM; exact Hi).
      rewrite (map_nth (fun x => c + (x - mean (map f ds)))). reflexivity. }
    unfold x_at, y_at. rewrite !map_map. cbn [q_x q_y]. split.
    - etransitivity; [apply (HL (d_x (A:=RA)))|]. f_equal. apply (f_equal (Rminus _)). symmetry. apply G.
    - etransitivity; [apply (HL (d_y (A:=RA)))|]. f_equal. apply (f_equal (Rminus _)). symmetry. apply G. }
  split; [|split; [|split]].
  - rewrite (E_ext _ HE _ _ (fun a => proj1 (X a))). apply (recentred_mean W E HE k _ r); assumption.
  - rewrite (E_ext _ HE _ _ (fun a => proj2 (X a))). apply (recentred_mean W E HE k _ r); assumption.
  - rewrite <- SW. f_equal. rewrite <- KM, <- Rsqr_pow2. unfold Rsqr. rewrite <- (recentred_variance W E HE k (x_draw st k) r i Hi Ux).
    apply (E_ext _ HE). intros a. rewrite (proj1 (X a)). simpl. ring.
  - rewrite <- SW. f_equal. rewrite <- KM, <- Rsqr_pow2. unfold Rsqr. rewrite <- (recentred_variance W E HE k (y_draw st k) r i Hi Uy).
    apply (E_ext _ HE). intros a. rewrite (proj2 (X a)). simpl. ring.
Qed.

(** ** Instances *)

(** Two constituents with draws +r or -r, all four sign patterns equally likely. *)
Definition tape : Rng RA := MkRng RA (list R) (fun _ => []) (fun e => (0, e))
  unit (fun _ _ => tt) (fun st e => (hd 0 e, st, tl e))
  unit (fun _ _ => tt) (fun g e => (1, g, e))
  (fun _ lo _ _ e => (lo, e)) (fun a _ e => (a, e)) (fun l e => (l, e)) (fun l => l) (fun l => l).
Definition two_config : config RA :=
  @Config RA ["p"%string; "p"%string] 1 false None false false 0 1 1 (1/2) 2 0 6 1 0 1 8 1 (1/2).
Definition sgn (b : bool) : R := if b then 1 else -1.
Definition two_r : R := nc_sampling_width (nucleon_common_of (A:=RA) two_config 1).
Definition two_state (ab : bool * bool) : rstate tape :=
  @MkRstate RA tape [two_r * sgn (fst ab); two_r * sgn (fst ab); two_r * sgn (snd ab); two_r * sgn (snd ab)] tt tt.
Definition average4 (f : bool * bool -> R) : R :=
  (f (true, true) + f (true, false) + f (false, true) + f (false, false)) / 4.
Definition two_nucleon : nucleon RA := @Nucleon RA 3 (-2) 0 false false [].

Lemma average4_ok : expectation average4.
Proof. constructor; unfold average4; intros; [rewrite !H; reflexivity|field..]. Qed.

Example C23_instance : forall i, (i < 2)%nat ->
  average4 (fun a => x_at i (sampled (nucleon_common_of (A:=RA) two_config 1) two_nucleon two_state a)) = 3 /\
  (1/2)^2 + average4 (fun a => (x_at i (sampled (nucleon_common_of (A:=RA) two_config 1) two_nucleon two_state a) - 3)^2) = 1^2.
Proof.
  intros i Hi.
  assert (U : uncorrelated average4 2 (x_draw two_state 2) two_r /\ uncorrelated average4 2 (y_draw two_state 2) two_r).
  { assert (D : forall ab, draws_in two_state 2 ab = [(two_r * sgn (fst ab), two_r * sgn (fst ab), 1); (two_r * sgn (snd ab), two_r * sgn (snd ab), 1)])
      by (intros ab; reflexivity).
    unfold uncorrelated, x_draw, y_draw, average4. rewrite !D. cbn [map d_x d_y fst snd sgn].
    split; split.
    1, 3: intros [|[|j]] Hj; [| |lia]; cbn [nth]; field.
    all: intros [|[|j]] [|[|l]] Hj Hl; try lia; cbn [nth Nat.eqb]; field. }
  destruct (C23_width (bool * bool) average4 tape two_state two_config 1 two_nucleon i average4_ok) as (H1 & _ & H3 & _);
    [cbn; lia|cbn; lra|cbn; lra|reflexivity|exact Hi|apply U|apply U|].
  split; [exact H1|exact H3].
Qed.

Example C21_instance : exists n' s', sample_constituent_positions tape (nucleon_common_of (A:=RA) two_config 1) two_nucleon (two_state (true, false)) = (Ret n', s') /\
  mean (map q_x (n_cons n')) = 3.
Proof.
  destruct (sample_cons_draws tape (nucleon_common_of (A:=RA) two_config 1) two_nucleon (two_state (true, false)) eq_refl) as (ds & s' & D & L & E);
    [cbn; unfold cons_max_size; lia|].
  do 2 eexists. split; [exact E|].
  destruct (C21_centred tape (nucleon_common_of (A:=RA) two_config 1) two_nucleon _ _ _ eq_refl ltac:(cbn; lia) E) as (_ & _ & _ & _ & _ & H & _). exact H.
Qed.

(** The generator of [Demo.v] draws zeros. *)
From Verif.Spec Require Import Demo.
Example C21_ieee_instance : forall nc (n n' : nucleon DA) s s', n_cexist n = false -> nc_number nc = 3%Z ->
  sample_constituent_positions demo_rng nc n s = (Ret n', s') ->
  length (n_cons n') = 3%nat /\ forall q, In q (n_cons n') -> same_number (q_x q) (n_x n).
Proof.
  intros nc n n' s s' He Hm H. assert (Hm' : (1 <= nc_number nc)%Z) by lia.
  destruct (C21_zero_width_ieee demo_libm demo_rng (fun _ => True) (fun _ _ _ => conj eq_refl I) nc n n' s s' I He Hm' H) as [H1 H2].
  split; [apply Nat2Z.inj; etransitivity; [exact H1|exact Hm]|]. intros q Hq. apply (H2 q Hq).
Qed.
