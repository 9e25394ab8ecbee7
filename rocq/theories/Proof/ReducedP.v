(** Lemmas for C14-C18. *)
From Coq Require Import Reals Lra.
From Verif.Base Require Import Result Arith RArith.
From Verif.Model Require Import FastExp Config Nucleon Nucleus Event.
From Verif.Spec Require Import Grid Evolved Mean Total.
From Verif.Proof Require Import Basics GridP EventP FastExpP NucleonP DepositR RBasics.
Local Open Scope R_scope.

Section Any.
Context {A : Arith}.

Lemma zrange_nth_map {X} (f : Z -> X) n : map f (zupto (Z.of_nat n)) = map (fun k => f (Z.of_nat k)) (seq 0 n).
Proof.
  unfold zupto, zrange. rewrite map_map. replace (Z.to_nat (Z.of_nat n - 1 - 0 + 1)) with n by lia.
  apply map_ext. intros k. f_equal. 
Qed.

Lemma map_nth_seq {X} (l : list X) d : map (fun k => nth k l d) (seq 0 (length l)) = l.
Proof.
  induction l as [|x l IH]; [reflexivity|]. cbn [length seq map nth]. f_equal.
  rewrite <- seq_shift, map_map. exact IH.
Qed.

(** The cells in loop order are the row-major list. *)
Lemma cells_row_major N (g : grid A) : (0 <= N)%Z -> square N g ->
  map (fun c => cell g (fst c) (snd c)) (cells N) = row_major g.
Proof.
  intros HN [HL HR]. unfold row_major, cells.
  rewrite flat_map_concat_map, concat_map, map_map. f_equal.
  assert (E : N = Z.of_nat (length g)) by lia. set (F := fun x : Z => map _ (map (fun ix : Z => (x, ix)) (zupto N))). rewrite E. rewrite zrange_nth_map.
  rewrite <- (map_nth_seq g []) at 2. unfold F. apply map_ext_in. intros k Hk. apply in_seq in Hk.
  rewrite map_map. cbn [fst snd].
  assert (Lr : length (nth k g []) = Z.to_nat N).
  { rewrite Forall_forall in HR. apply HR. apply nth_In. lia. }
  assert (E' : N = Z.of_nat (length (nth k g []))) by lia. rewrite E'. rewrite zrange_nth_map.
  rewrite <- (map_nth_seq (nth k g []) (nofZ A 0)) at 2. apply map_ext. intros j.
  unfold cell. destruct (Z.ltb_spec (Z.of_nat k) 0); [lia|]. destruct (Z.ltb_spec (Z.of_nat j) 0); [lia|].
  simpl. rewrite !Nat2Z.id. reflexivity.
Qed.

Lemma fold_left_map {X Y Z'} (f : Z' -> Y -> Z') (h : X -> Y) l z :
  fold_left f (map h l) z = fold_left (fun a x => f a (h x)) l z.
Proof. revert z. induction l; intros; simpl; auto. Qed.

Lemma fold_left_ext_in {X Y} (f f' : Y -> X -> Y) l y :
  (forall a x, In x l -> f a x = f' a x) -> fold_left f l y = fold_left f' l y.
Proof. revert y. induction l as [|x l IH]; intros y H; simpl; auto. rewrite H by (simpl; auto). apply IH. intros; apply H; simpl; auto. Qed.

Lemma cells_neg N : (N <= 0)%Z -> cells N = [].
Proof. intros H. unfold cells, zupto, zrange. replace (Z.to_nat (N - 1 - 0 + 1)) with 0%nat by lia. reflexivity. Qed.

Lemma square_neg N (g : grid A) : (N <= 0)%Z -> square N g -> g = [].
Proof. intros H [L _]. destruct g; [reflexivity|]. simpl in L. lia. Qed.

Lemma cells_row_major' N (g : grid A) : square N g ->
  map (fun c => cell g (fst c) (snd c)) (cells N) = row_major g.
Proof.
  intros S. destruct (Z.le_gt_cases 0 N); [apply cells_row_major; auto|].
  rewrite cells_neg, (square_neg N g) by (auto; lia). reflexivity.
Qed.

(** Any fold over the cells that only looks at the grid values. *)
Lemma fold_cells_row_major {Y} N (g : grid A) (f : Y -> num A -> Y) y : square N g ->
  fold_left (fun a c => f a (cell g (fst c) (snd c))) (cells N) y = fold_left f (row_major g) y.
Proof. intros S. rewrite <- (cells_row_major' N g S), fold_left_map. reflexivity. Qed.

Lemma nuclear_thickness_count dbg nc dxy xymax N l k k2 g k' :
  @compute_nuclear_thickness A dbg nc dxy xymax N l k = Ret (g, k') ->
  compute_nuclear_thickness dbg nc dxy xymax N l k2 = Ret (g, (k' - k + k2)%Z).
Proof.
  unfold compute_nuclear_thickness. generalize (zeros (A:=A) N). revert k k2 g k'.
  induction l as [|n l IH]; intros k k2 g k' g0 H; cbn [rfold] in *.
  - inversion H; subst. f_equal. f_equal. lia.
  - destruct (n_part n).
    + destruct (deposit _ _ _ _ _ _ _); try discriminate. cbn [rbind] in *.
      apply (IH _ (k2 + 1)%Z) in H. rewrite H. f_equal. f_equal. lia.
    + cbn [rbind] in *. apply (IH _ k2) in H. exact H.
Qed.

Lemma nuclear_thickness_npart dbg nc dxy xymax N l k g k' :
  @compute_nuclear_thickness A dbg nc dxy xymax N l k = Ret (g, k') ->
  k' = (k + Z.of_nat (length (filter n_part l)))%Z.
Proof.
  unfold compute_nuclear_thickness. generalize (zeros (A:=A) N). revert k g k'.
  induction l as [|n l IH]; intros k g k' g0 H; cbn [rfold filter] in *.
  - inversion H; subst. simpl. lia.
  - destruct (n_part n).
    + destruct (deposit _ _ _ _ _ _ _); try discriminate. cbn [rbind] in *.
      apply IH in H. cbn [length]. lia.
    + cbn [rbind] in *. apply IH in H. exact H.
Qed.

Lemma gen_mean_comm (m : gmean A) a b : commutative A -> gen_mean m a b = gen_mean m b a.
Proof.
  intros [HA HM]. destruct m as [|p|p]; simpl.
  - unfold geometric_mean. rewrite HM. reflexivity.
  - unfold positive_pmean. rewrite HA. reflexivity.
  - unfold negative_pmean. rewrite orb_comm. unfold positive_pmean. rewrite (HA (npow A a p)). reflexivity.
Qed.

End Any.

Lemma gen_mean_nonneg (m : gmean RA) a b : 0 <= gen_mean m a b.
Proof.
  assert (P : forall x p, 0 <= Rpow x p).
  { intros x p. unfold Rpow. destruct (Req_EM_T x 0); [destruct (Req_EM_T p 0); lra|]. left. apply exp_pos. }
  destruct m as [|p|p]; simpl.
  - apply sqrt_pos.
  - apply P.
  - unfold negative_pmean. destruct (_ || _)%bool; [cbn; rlits; lra|]. apply P.
Qed.

Lemma RA_commutative : commutative RA.
Proof. split; intros a b; cbn; ring. Qed.

(** Thickness of a participant with non-negative weights. *)
Lemma prefactor_nonneg (cfg : config RA) sp : 0 < constit_width cfg -> (0 < constit_number cfg <= 2147483647)%Z ->
  0 <= nc_prefactor (nucleon_common_of cfg sp).
Proof.
  intros Hv Hm. unfold nucleon_common_of, sqr. cbn [nc_prefactor]. unfold to_size. rewrite Z.mod_small by lia.
  revert Hv. generalize (constit_width cfg). cbn [none_div_two_pi ndiv nmul nofZ RA RA_with num]. intros v Hv.
  pose proof PI_RGT_0. assert (0 < IZR (constit_number cfg)) by (apply IZR_lt; lia).
  left. unfold Rdiv. repeat apply Rmult_lt_0_compat; try apply Rinv_0_lt_compat; try lra.
  apply Rmult_lt_0_compat; lra.
Qed.

Lemma thick_nonneg (cfg : config RA) sp (n : nucleon RA) x y : 0 < constit_width cfg -> (0 < constit_number cfg <= 2147483647)%Z ->
  (forall q, In q (n_cons n) -> 0 <= q_fluct q) -> 0 <= thick cfg sp n x y.
Proof.
  intros Hv Hm Hf. unfold thick. apply Rmult_le_pos; [apply prefactor_nonneg; auto|].
  apply Rsum_nonneg. intros q Hq. unfold term.
  destruct (Rltb_spec (dist2 x y q) (5 * constit_width cfg * (5 * constit_width cfg))) as [L|L]; [|lra].
  apply Rmult_le_pos; [apply Hf; auto|].
  destruct (fexp_ok true _ (arg_range _ _ (conj (dist2_pos x y q) L))) as [_ [F _]].
  eapply Rle_trans; [|exact F]. apply Rmult_le_pos; [left; apply exp_pos|lra].
Qed.

Lemma total_thick (cfg : config RA) sp dbg nucl x y :
  total_thickness dbg (nucleon_common_of cfg sp) nucl x y
    (RBasics.Rsum (fun n => thick cfg sp n x y) (filter n_part nucl)).
Proof.
  exists (map (fun n => thick cfg sp n x y) (filter n_part nucl)). split.
  - induction (filter n_part nucl) as [|n l IH]; constructor; auto. apply thickness_R.
  - induction (filter n_part nucl) as [|n l IH]; [reflexivity|]. rewrite Rsum_cons, IH. reflexivity.
Qed.

(** Constructor parameters of an event object in use. *)
Lemma evolved_R (cfg : config RA) (ev : event RA) : evolved cfg ev ->
  ev_dxy ev = grid_step cfg /\ ev_xymax ev = IZR (ev_nsteps ev) * grid_step cfg / 2 /\
  ev_norm ev = normalization cfg /\ ev_mean ev = choose_mean (A:=RA) (reduced_thickness cfg).
Proof.
  intros He. destruct (evolved_params _ _ He) as (ev0 & E0 & (P1 & P2 & P3 & P4 & P5)).
  rewrite <- P1, <- P2, <- P3, <- P4, <- P5. unfold event_new in E0. mstep E0. mstep E0.
  cbn [ev_dxy ev_xymax ev_nsteps ev_norm ev_mean].
  split; [reflexivity|]. split; [cbn [nmul nlit nofZ RA RA_with]; rlits; toR; lra|]. split; reflexivity.
Qed.

Lemma cell_centre_R (dxy xymax : R) i : cell_centre (A:=RA) dxy xymax i = (IZR i + / 2) * dxy - xymax.
Proof. unfold cell_centre. cbn [nsub nmul nadd nofZ nlit RA RA_with]. rlits. toR. lra. Qed.
