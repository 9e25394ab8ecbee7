(** Grid access, and the loops of Event::compute, in any arithmetic. *)
From Verif.Base Require Import Result Arith.
From Verif.Model Require Import FastExp Config Nucleon Nucleus Event.
From Verif.Spec Require Import Grid.
From Verif.Proof Require Import Basics.

Section GridP.
Context {A : Arith}.
Implicit Types g : grid A.

Lemma square_row n g i row : square n g -> nth_error g i = Some row -> length row = Z.to_nat n.
Proof.
  intros [_ H] Hi. rewrite Forall_forall in H. apply H. eapply nth_error_In; eauto.
Qed.

Lemma nth_error_nth_eq {X} (l : list X) i d : (i < length l)%nat -> nth_error l i = Some (nth i l d).
Proof. intros H. apply nth_error_nth'. exact H. Qed.

Lemma grid_get_cell n g iy ix : square n g -> inside n iy ix -> grid_get g iy ix = Ret (cell g iy ix).
Proof.
  intros Hs [Hy Hx]. unfold grid_get, cell.
  destruct (Z.ltb_spec iy 0); [lia|]. destruct (Z.ltb_spec ix 0); [lia|]. simpl.
  pose proof Hs as [Hl _].
  rewrite (nth_error_nth_eq g (Z.to_nat iy) []) by lia.
  pose proof (square_row n g (Z.to_nat iy) _ Hs (nth_error_nth_eq g (Z.to_nat iy) [] ltac:(lia))) as Hr.
  rewrite (nth_error_nth_eq _ (Z.to_nat ix) (nofZ A 0)) by lia. reflexivity.
Qed.

Lemma grid_get_inside n g iy ix x : square n g -> grid_get g iy ix = Ret x -> inside n iy ix /\ x = cell g iy ix.
Proof.
  intros Hs H. unfold grid_get in H.
  destruct (Z.ltb_spec iy 0); [discriminate|]. destruct (Z.ltb_spec ix 0); [discriminate|]. simpl in H.
  destruct (nth_error g (Z.to_nat iy)) as [row|] eqn:E1; [|discriminate].
  destruct (nth_error row (Z.to_nat ix)) as [y|] eqn:E2; [|discriminate].
  inversion H; subst y; clear H.
  pose proof (square_row _ _ _ _ Hs E1) as Hr. pose proof Hs as [Hl _].
  assert (Z.to_nat iy < length g)%nat by (apply nth_error_Some; congruence).
  assert (Z.to_nat ix < length row)%nat by (apply nth_error_Some; congruence).
  split; [unfold inside; lia|].
  unfold cell. destruct (Z.ltb_spec iy 0); [lia|]. destruct (Z.ltb_spec ix 0); [lia|]. simpl.
  rewrite (nth_error_nth _ _ _ E1). symmetry. apply nth_error_nth. exact E2.
Qed.

Lemma list_set_length {X} (l : list X) i x : length (list_set l i x) = length l.
Proof. revert i. induction l as [|y l IH]; intros [|i]; simpl; auto. Qed.

Lemma list_set_nth {X} (l : list X) i j x d : (i < length l)%nat ->
  nth j (list_set l i x) d = if Nat.eqb i j then x else nth j l d.
Proof.
  revert i j. induction l as [|y l IH]; intros [|i] [|j] H; simpl in *; try lia; auto.
  apply IH. lia.
Qed.

Lemma list_set_Forall {X} (P : X -> Prop) l i x : Forall P l -> P x -> Forall P (list_set l i x).
Proof. intros H Hx. revert i. induction H; intros [|i]; simpl; constructor; auto. Qed.

Lemma grid_set_ok n g iy ix x : square n g -> inside n iy ix ->
  exists g', grid_set g iy ix x = Ret g' /\ square n g' /\
    forall jy jx, inside n jy jx ->
      cell g' jy jx = if ((iy =? jy) && (ix =? jx))%Z%bool then x else cell g jy jx.
Proof.
  intros Hs Hi. unfold grid_set. rewrite (grid_get_cell n) by assumption. cbn [rbind].
  pose proof Hs as [Hl Hf]. destruct Hi as [Hy Hx].
  rewrite (nth_error_nth_eq g (Z.to_nat iy) []) by lia.
  pose proof (square_row n g (Z.to_nat iy) _ Hs (nth_error_nth_eq g (Z.to_nat iy) [] ltac:(lia))) as Hr.
  eexists. split; [reflexivity|]. split.
  - split; [rewrite list_set_length; auto|]. apply list_set_Forall; auto. rewrite list_set_length. auto.
  - intros jy jx [Hjy Hjx]. unfold cell.
    destruct (Z.ltb_spec jy 0); [lia|]. destruct (Z.ltb_spec jx 0); [lia|]. cbn [orb].
    rewrite list_set_nth by lia.
    destruct (Z.eqb_spec iy jy) as [->|Hne]; cbn [andb].
    + rewrite Nat.eqb_refl. rewrite list_set_nth by lia.
      destruct (Z.eqb_spec ix jx) as [->|Hne]; [rewrite Nat.eqb_refl; auto|].
      destruct (Nat.eqb_spec (Z.to_nat ix) (Z.to_nat jx)); [lia|reflexivity].
    + destruct (Nat.eqb_spec (Z.to_nat iy) (Z.to_nat jy)); [lia|reflexivity].
Qed.

Lemma zeros_square n : square n (@zeros A n).
Proof.
  unfold zeros, square. rewrite repeat_length. split; auto.
  apply Forall_forall. intros r Hr. apply repeat_spec in Hr. subst. apply repeat_length.
Qed.

Lemma zeros_cell n iy ix : inside n iy ix -> cell (@zeros A n) iy ix = nlit A 0 0.
Proof.
  intros [Hy Hx]. unfold cell, zeros.
  destruct (Z.ltb_spec iy 0); [lia|]. destruct (Z.ltb_spec ix 0); [lia|]. cbn [orb].
  assert (E : nth (Z.to_nat iy) (repeat (repeat (nlit A 0 0) (Z.to_nat n)) (Z.to_nat n)) []
              = repeat (nlit A 0 0) (Z.to_nat n)).
  { assert (Hin := nth_In (repeat (repeat (nlit A 0 0) (Z.to_nat n)) (Z.to_nat n)) [] (n:=Z.to_nat iy)).
    rewrite repeat_length in Hin. specialize (Hin ltac:(lia)). apply repeat_spec in Hin. exact Hin. }
  rewrite E.
  assert (Hin := nth_In (repeat (nlit A 0 0) (Z.to_nat n)) (nofZ A 0) (n:=Z.to_nat ix)).
  rewrite repeat_length in Hin. specialize (Hin ltac:(lia)). apply repeat_spec in Hin. exact Hin.
Qed.

(** Two n x n grids with equal cells are equal. *)
Lemma square_ext n g g' : square n g -> square n g' ->
  (forall iy ix, inside n iy ix -> cell g iy ix = cell g' iy ix) -> g = g'.
Proof.
  intros [L1 F1] [L2 F2] H.
  apply (nth_ext _ _ [] []); [congruence|]. intros i Hi.
  rewrite Forall_forall in F1, F2.
  assert (R1 := F1 _ (nth_In g [] Hi)). assert (R2 := F2 _ (nth_In g' [] (n:=i) ltac:(lia))).
  apply (nth_ext _ _ (nofZ A 0) (nofZ A 0)); [congruence|]. intros j Hj.
  specialize (H (Z.of_nat i) (Z.of_nat j)). unfold inside, cell in H.
  destruct (Z.ltb_spec (Z.of_nat i) 0); [lia|]. destruct (Z.ltb_spec (Z.of_nat j) 0); [lia|].
  cbn [orb] in H. rewrite !Nat2Z.id in H. apply H. lia.
Qed.

(** ** The list of cells *)

Lemma in_cells n iy ix : In (iy, ix) (cells n) <-> inside n iy ix.
Proof.
  unfold cells, inside. rewrite in_flat_map. split.
  - intros (y & Hy & H). apply in_map_iff in H. destruct H as (x & E & Hx). inversion E; subst.
    apply in_zupto in Hy. apply in_zupto in Hx. lia.
  - intros [Hy Hx]. exists iy. split; [apply in_zupto; lia|]. apply in_map_iff.
    exists ix. split; auto. apply in_zupto. lia.
Qed.

Lemma cells_nodup n : NoDup (cells n).
Proof.
  unfold cells. generalize (zupto_nodup n). generalize (zupto n) at 1 3. intros l Hl.
  induction Hl as [|y l Hy Hl IH]; cbn [flat_map]; [constructor|].
  assert (D : forall (l1 l2 : list (Z * Z)), NoDup l1 -> NoDup l2 -> (forall x, In x l1 -> ~ In x l2) -> NoDup (l1 ++ l2)).
  { intros l1 l2 H1 H2 H3. induction H1; cbn; auto. constructor.
    - rewrite in_app_iff. intros [?|?]; auto. eapply H3; simpl; eauto.
    - apply IHNoDup. intros z Hz. apply H3. simpl; auto. }
  apply D; auto.
  - apply FinFun.Injective_map_NoDup; [|apply zupto_nodup]. intros a b E. congruence.
  - intros [a b] H1 H2. apply in_map_iff in H1. destruct H1 as (x & E & _). inversion E; subst.
    apply in_flat_map in H2. destruct H2 as (z & Hz & H2). apply in_map_iff in H2.
    destruct H2 as (x' & E' & _). inversion E'; subst. auto.
Qed.

(** ** Reduced thickness *)

Definition rt (m : gmean A) (norm : num A) (TA TB : grid A) (c : Z * Z) : num A :=
  nmul A norm (gen_mean m (cell TA (fst c) (snd c)) (cell TB (fst c) (snd c))).

Definition eqc (c c' : Z * Z) : bool := ((fst c =? fst c') && (snd c =? snd c'))%Z%bool.

Lemma reduced_fold n m norm TA TB cs acc :
  square n TA -> square n TB -> square n (r_TR acc) ->
  (forall c, In c cs -> inside n (fst c) (snd c)) ->
  let t := rt m norm TA TB in
  exists TR', rfold (reduced_step m norm TA TB) cs acc
    = Ret (Rsum TR' (fold_left (fun a c => nadd A a (t c)) cs (r_sum acc))
                    (fold_left (fun a c => nadd A a (nmul A (t c) (nofZ A (snd c)))) cs (r_ix acc))
                    (fold_left (fun a c => nadd A a (nmul A (t c) (nofZ A (fst c)))) cs (r_iy acc))) /\
    square n TR' /\
    forall jy jx, inside n jy jx ->
      cell TR' jy jx = if existsb (eqc (jy, jx)) cs then t (jy, jx) else cell (r_TR acc) jy jx.
Proof.
  intros SA SB. revert acc. induction cs as [|[iy ix] cs IH]; intros acc ST Hin t.
  - exists (r_TR acc). cbn. destruct acc; auto.
  - assert (Hi : inside n iy ix) by (apply (Hin (iy, ix)); simpl; auto).
    cbn [rfold]. unfold reduced_step at 1.
    rewrite (grid_get_cell n TA) by assumption. rewrite (grid_get_cell n TB) by assumption. cbn [rbind].
    destruct (grid_set_ok n (r_TR acc) iy ix (t (iy, ix)) ST Hi) as (g' & Eg & Sg & Cg).
    unfold t, rt in Eg. cbn [fst snd] in Eg. rewrite Eg. cbn [rbind].
    destruct (IH (Rsum g' (nadd A (r_sum acc) (t (iy,ix))) (nadd A (r_ix acc) (nmul A (t (iy,ix)) (nofZ A ix)))
                (nadd A (r_iy acc) (nmul A (t (iy,ix)) (nofZ A iy))))) as (TR' & E & S' & C'); auto.
    { intros c Hc. apply Hin. simpl; auto. }
    exists TR'. split; [exact E|]. split; [exact S'|].
    intros jy jx Hj. rewrite (C' _ _ Hj). cbn [existsb r_TR].
    unfold eqc at 2. cbn [fst snd].
    destruct (existsb (eqc (jy, jx)) cs); [rewrite orb_true_r; reflexivity|].
    rewrite orb_false_r, (Cg _ _ Hj).
    rewrite (Z.eqb_sym jy iy), (Z.eqb_sym jx ix).
    destruct (Z.eqb_spec iy jy) as [->|]; [|reflexivity].
    destruct (Z.eqb_spec ix jx) as [->|]; reflexivity.
Qed.

Lemma existsb_cells n jy jx : inside n jy jx -> existsb (eqc (jy, jx)) (cells n) = true.
Proof.
  intros H. apply existsb_exists. exists (jy, jx). split; [apply in_cells; auto|].
  unfold eqc; cbn. rewrite !Z.eqb_refl. reflexivity.
Qed.

(** compute_reduced_thickness in closed form: it overwrites every cell. *)
Lemma reduced_thickness_spec (ev : event A) TA TB :
  square (ev_nsteps ev) TA -> square (ev_nsteps ev) TB -> square (ev_nsteps ev) (ev_TR ev) ->
  let t := rt (ev_mean ev) (ev_norm ev) TA TB in
  let cs := cells (ev_nsteps ev) in
  let sum := fold_left (fun a c => nadd A a (t c)) cs (nlit A 0 0) in
  exists TR, compute_reduced_thickness ev TA TB
    = Ret (TR, nmul A (nmul A (ev_dxy ev) (ev_dxy ev)) sum,
           ndiv A (fold_left (fun a c => nadd A a (nmul A (t c) (nofZ A (snd c)))) cs (nlit A 0 0)) sum,
           ndiv A (fold_left (fun a c => nadd A a (nmul A (t c) (nofZ A (fst c)))) cs (nlit A 0 0)) sum) /\
    square (ev_nsteps ev) TR /\
    forall iy ix, inside (ev_nsteps ev) iy ix -> cell TR iy ix = t (iy, ix).
Proof.
  intros SA SB ST t cs sum. unfold compute_reduced_thickness.
  destruct (reduced_fold (ev_nsteps ev) (ev_mean ev) (ev_norm ev) TA TB cs
             (Rsum (ev_TR ev) (nlit A 0 0) (nlit A 0 0) (nlit A 0 0))) as (TR & E & S & C); auto.
  { intros [y x] Hc. apply in_cells in Hc. exact Hc. }
  unfold cs in E. rewrite E. cbn [rbind r_TR r_sum r_ix r_iy].
  exists TR. split; [reflexivity|]. split; [exact S|].
  intros iy ix Hi. rewrite (C _ _ Hi). unfold cs. rewrite existsb_cells by assumption. reflexivity.
Qed.

(** ** Observables *)

Lemma observables_spec n TR ixcm iycm : square n TR ->
  exists e, compute_observables n TR ixcm iycm = Ret e /\
  let acc := fold_left (fun acc (c : Z * Z) =>
      if nltb A (cell TR (fst c) (snd c)) tiny then acc
      else obs_cell ixcm iycm (cell TR (fst c) (snd c)) (fst c) (snd c) acc)
      (cells n) (ecc_zero, ecc_zero, ecc_zero, ecc_zero) in
  e = let '(e2, e3, e4, e5) := acc in (ecc_finish e2, ecc_finish e3, ecc_finish e4, ecc_finish e5).
Proof.
  intros S. unfold compute_observables.
  rewrite (rfold_pure _ (fun acc (c : Z * Z) =>
      if nltb A (cell TR (fst c) (snd c)) tiny then acc
      else obs_cell ixcm iycm (cell TR (fst c) (snd c)) (fst c) (snd c) acc)).
  - destruct (fold_left _ _ _) as [[[e2 e3] e4] e5]. cbn [rbind]. eexists. split; reflexivity.
  - intros acc [iy ix] Hc. apply in_cells in Hc. rewrite (grid_get_cell n) by assumption. cbn [rbind fst snd].
    destruct (nltb A (cell TR iy ix) tiny); reflexivity.
Qed.

(** ** Deposition *)

(** The loop over one row and over all rows of the subgrid, when it returns. *)
Lemma row_fold n (f : Z -> result (num A)) iy xs g g' :
  square n g ->
  rfold (fun g' ix => letr old := grid_get g' iy ix in letr t := f ix in grid_set g' iy ix (nadd A old t)) xs g
    = Ret g' -> NoDup xs ->
  square n g' /\ (forall ix, In ix xs -> inside n iy ix /\ exists t, f ix = Ret t) /\
  forall jy jx, inside n jy jx ->
    (jy = iy /\ In jx xs -> exists t, f jx = Ret t /\ cell g' jy jx = nadd A (cell g jy jx) t) /\
    (~ (jy = iy /\ In jx xs) -> cell g' jy jx = cell g jy jx).
Proof.
  revert g. induction xs as [|ix xs IH]; intros g S H ND.
  - cbn in H. inversion H; subst. split; auto. split; [intros ? []|]. intros. split; [intros [_ []]|auto].
  - cbn [rfold] in H. mstep H. mstep E. mstep E. rename x1 into t, E1 into Et, x0 into old, E0 into Eo.
    destruct (grid_get_inside _ _ _ _ _ S Eo) as [Hi ->].
    destruct (grid_set_ok n g iy ix (nadd A (cell g iy ix) t) S Hi) as (g1 & Eg & S1 & C1).
    rewrite Eg in E. mstep E. inversion ND as [|? ? Hn ND']; subst.
    destruct (IH _ S1 H ND') as (S2 & F & C2). split; [exact S2|]. split.
    { intros z [<-|Hz]; eauto. }
    intros jy jx Hj. destruct (C2 _ _ Hj) as [C2a C2b]. specialize (C1 _ _ Hj). split.
    + intros [-> [->|Hx]].
      * exists t. split; auto. rewrite C2b by tauto. rewrite C1, !Z.eqb_refl. reflexivity.
      * destruct C2a as (t' & Et' & ->); auto. exists t'. split; auto.
        rewrite C1. destruct (Z.eqb_spec ix jx); [subst; contradiction|]. rewrite andb_false_r. reflexivity.
    + intros Hno. rewrite C2b by (intros [? ?]; apply Hno; simpl; auto). rewrite C1.
      destruct (Z.eqb_spec iy jy) as [->|]; auto. destruct (Z.eqb_spec ix jx) as [->|]; auto.
      exfalso. apply Hno. simpl; auto.
Qed.

Lemma box_fold n (f : Z -> Z -> result (num A)) xs ys g g' :
  square n g ->
  rfold (fun g iy =>
    rfold (fun g' ix => letr old := grid_get g' iy ix in letr t := f iy ix in grid_set g' iy ix (nadd A old t)) xs g)
    ys g = Ret g' -> NoDup xs -> NoDup ys ->
  square n g' /\
  forall jy jx, inside n jy jx ->
    (In jy ys /\ In jx xs -> exists t, f jy jx = Ret t /\ cell g' jy jx = nadd A (cell g jy jx) t) /\
    (~ (In jy ys /\ In jx xs) -> cell g' jy jx = cell g jy jx).
Proof.
  intros S H NX NY. revert g S H. induction NY as [|iy ys Hn NY IH]; intros g S H.
  - cbn in H. inversion H; subst. split; auto. intros; split; [intros [[] _]|auto].
  - cbn [rfold] in H. mstep H.
    destruct (row_fold _ _ _ _ _ _ S E NX) as (S1 & F & C1).
    destruct (IH _ S1 H) as (S2 & C2). split; [exact S2|].
    intros jy jx Hj. destruct (C2 _ _ Hj) as [C2a C2b]. destruct (C1 _ _ Hj) as [C1a C1b]. split.
    + intros [[->|Hy] Hx].
      * destruct C1a as (t & Et & Ec); auto. exists t. split; auto. rewrite C2b by tauto. exact Ec.
      * destruct C2a as (t & Et & Ec); auto. exists t. split; auto. rewrite Ec, C1b; auto.
        intros [-> _]. contradiction.
    + intros Hno. rewrite C2b, C1b; auto; simpl in Hno; intuition.
Qed.

(** The index box of a nucleon (columns and rows that are visited). *)
Definition box_of (nc : nucleon_common A) (dxy xymax : num A) (nsteps : Z) (n : nucleon A) (x0 x1 y0 y1 : Z) : Prop :=
  exists b0 b1 b2 b3, boundary nc n = Ret (b0, b1, b2, b3) /\
    cell_index dxy xymax nsteps b0 = Ret x0 /\ cell_index dxy xymax nsteps b1 = Ret x1 /\
    cell_index dxy xymax nsteps b2 = Ret y0 /\ cell_index dxy xymax nsteps b3 = Ret y1.

Lemma deposit_inv dbg nc dxy xymax N n g g' :
  square N g -> deposit dbg nc dxy xymax N n g = Ret g' ->
  square N g' /\ exists x0 x1 y0 y1, box_of nc dxy xymax N n x0 x1 y0 y1 /\
  forall jy jx, inside N jy jx ->
    ((y0 <= jy <= y1 /\ x0 <= jx <= x1)%Z ->
       exists t, thickness dbg nc n (cell_centre dxy xymax jx) (cell_centre dxy xymax jy) = Ret t /\
                 cell g' jy jx = nadd A (cell g jy jx) t) /\
    (~ (y0 <= jy <= y1 /\ x0 <= jx <= x1)%Z -> cell g' jy jx = cell g jy jx).
Proof.
  intros S H. unfold deposit in H.
  mstep H. destruct x as [[[b0 b1] b2] b3]. rename E into Eb.
  mstep H. rename x into x0, E into E0. mstep H. rename x into x1, E into E1.
  mstep H. rename x into y0, E into E2. mstep H. rename x into y1, E into E3.
  destruct (box_fold N (fun iy ix => thickness dbg nc n (cell_centre dxy xymax ix) (cell_centre dxy xymax iy))
              _ _ _ _ S H (zrange_nodup _ _) (zrange_nodup _ _)) as (S' & C).
  split; [exact S'|]. exists x0, x1, y0, y1. split; [exists b0, b1, b2, b3; auto|].
  intros jy jx Hj. destruct (C _ _ Hj) as [Ca Cb]. rewrite !in_zrange in *. auto.
Qed.

End GridP.
