(** C75: where on the grid an event sits does not matter. *)
From Coq Require Import Reals Lra ZArith Lia List Permutation.
From Flocq Require Import Core.
From Verif.Base Require Import Result Arith RArith.
From Verif.Model Require Import FastExp Config Nucleon Nucleus Event.
From Verif.Spec Require Import Grid Evolved Mean Total Ecc Enlarge Frame.
From Verif.Proof Require Import Basics RBasics GridP EventP NucleonP DepositR EccP SymP ReducedP EccScale EnlargeP FrameP.
From Verif.Properties Require Import GridProps Reduced Enlarge.
Import ListNotations.
Local Open Scope R_scope.

(** The centre of the grid, as sums. *)
Lemma compute_centre (cfg : config RA) (ev : event RA) dbg nA nB nc e :
  evolved cfg ev -> event_compute dbg ev nA nB nc = Ret e ->
  let t := fun c : Z * Z => cell (ev_TR e) (fst c) (snd c) : R in
  ev_ixcm e = Rsum (fun c => t c * IZR (snd c)) (cells (ev_nsteps ev)) / Rsum t (cells (ev_nsteps ev)) /\
  ev_iycm e = Rsum (fun c => t c * IZR (fst c)) (cells (ev_nsteps ev)) / Rsum t (cells (ev_nsteps ev)).
Proof.
  intros He H t. pose proof (evolved_ready _ _ He) as Hr.
  pose proof (event_compute_inv _ _ _ _ _ _ Hr H) as (_ & _ & _ & _ & _ & CT & _ & EX & EY & _). set (N := ev_nsteps ev) in *.
  set (t0 := rt (ev_mean ev) (ev_norm ev) (ev_TA e) (ev_TB e)) in *.
  assert (T : forall c, In c (cells N) -> t0 c = t c).
  { intros [y x] Hc. symmetry. apply CT. apply in_cells. exact Hc. }
  cbn [nadd nmul ndiv nlit nofZ RA RA_with] in EX, EY. rlits in EX. rlits in EY.
  rewrite (fold_left_Rsum t0) in EX, EY.
  rewrite (fold_left_Rsum (fun c => t0 c * IZR (snd c))) in EX.
  rewrite (fold_left_Rsum (fun c => t0 c * IZR (fst c))) in EY.
  rewrite !Rplus_0_l in EX, EY.
  rewrite (Rsum_ext t0 t) in EX, EY by exact T.
  rewrite (Rsum_ext (fun c => t0 c * IZR (snd c)) (fun c => t c * IZR (snd c))) in EX by (intros c Hc; rewrite T; auto).
  rewrite (Rsum_ext (fun c => t0 c * IZR (fst c)) (fun c => t c * IZR (fst c))) in EY by (intros c Hc; rewrite T; auto).
  split; assumption.
Qed.

Section Frame.
Variables (cfg : config RA) (sp : R) (ky kx : Z) (nA nB mA mB : list (nucleon RA)).
Hypothesis Hs : 0 < grid_step cfg.
Hypothesis Hw : 0 <= constit_width cfg.
Hypothesis Hn : 0 <= normalization cfg.
Let a := IZR kx * grid_step cfg.
Let b := IZR ky * grid_step cfg.
Hypothesis DA : displaced_participants a b nA mA.
Hypothesis DB : displaced_participants a b nB mB.
Let N := row_cells cfg.

Definition place (i : Z) : R := (IZR i + / 2) * grid_step cfg - IZR N * grid_step cfg / 2.
(** Thickness of a nucleus, also beyond the edge of the grid. *)
Definition density (l : list (nucleon RA)) (c : Z * Z) : R :=
  Rsum (fun n => thick cfg sp n (place (snd c)) (place (fst c))) (filter n_part l).

Lemma place_moved i k : place (i + k) = place i + IZR k * grid_step cfg.
Proof. unfold place. rewrite plus_IZR. ring. Qed.

Lemma density_moved l m c : displaced_participants a b l m -> density m (slide ky kx c) = density l c.
Proof.
  intros D. unfold density. rewrite (Rsum_perm _ _ _ D), Rsum_map. apply Rsum_ext. intros n _.
  unfold slide. cbn [fst snd]. rewrite !place_moved. apply thick_displaced.
Qed.

Lemma beyond_edge i : ~ valid_index N i -> grid_max cfg <= Rabs (place i).
Proof.
  intros Hi. assert (Q : 2 * grid_max cfg <= IZR N * grid_step cfg).
  { unfold N, row_cells. pose proof (Zceil_ub (2 * grid_max cfg / grid_step cfg)) as U. set (c := IZR (Zceil _)) in *.
    apply (Rmult_le_compat_r (grid_step cfg)) in U; [|left; exact Hs].
    replace (2 * grid_max cfg / grid_step cfg * grid_step cfg) with (2 * grid_max cfg) in U by (field; apply Rgt_not_eq; exact Hs). exact U. }
  unfold place. replace (IZR N * grid_step cfg / 2) with ((IZR N + 2 * 0) * grid_step cfg / 2) by field.
  apply beyond; [exact Hs|exact Q|]. unfold valid_index in Hi.
  destruct (Z.lt_ge_cases i 0) as [L|L]; [left|right].
  - rewrite <- (plus_IZR i 1). apply IZR_le. lia.
  - rewrite Rplus_0_r. apply IZR_le. lia.
Qed.

Lemma density_outside l c : within_grid cfg l -> in_grid N c = false -> density l c = 0.
Proof.
  intros W O. destruct c as [y x]. unfold density. cbn [fst snd]. apply Rsum_zeros. intros n Hin. apply filter_In in Hin. destruct Hin as [Hin Hp].
  apply thick_far with (grid_max cfg); [exact Hw|intros q Hq; apply (W n q Hin Hp Hq)|].
  destruct (in_dec Z.eq_dec x (zupto N)) as [Hx|Hx]; [|left; apply beyond_edge].
  - right. apply beyond_edge. intros Hy. assert (in_grid N (y, x) = true); [|congruence].
    apply in_grid_iff. apply in_cells. split; [exact Hy|]. apply in_zupto. exact Hx.
  - intros H. apply Hx. apply in_zupto. exact H.
Qed.

Section Two.
Variables (ev ev2 e1 e2 : event RA) (dbg dbg2 : bool).
Hypothesis V1 : evolved cfg ev.
Hypothesis V2 : evolved cfg ev2.
Hypothesis Run1 : event_compute dbg ev nA nB (nucleon_common_of cfg sp) = Ret e1.
Hypothesis Run2 : event_compute dbg2 ev2 mA mB (nucleon_common_of cfg sp) = Ret e2.

Lemma cells_of ev0 : evolved cfg ev0 -> ev_nsteps ev0 = N.
Proof.
  intros V. destruct (evolved_params _ _ V) as (ev1 & E & (_ & _ & _ & P & _)). rewrite <- P. apply new_cells. exact E.
Qed.

Lemma sums_density (l : list (nucleon RA)) d0 x y ts : Forall2 (fun n t => thickness (A:=RA) d0 (nucleon_common_of cfg sp) n x y = Ret t) l ts ->
  fold_right Rplus 0 ts = Rsum (fun n => thick cfg sp n x y) l.
Proof.
  induction 1 as [|n t l ts H _ IH]; [reflexivity|]. rewrite Rsum_cons. cbn [fold_right]. rewrite IH. rewrite thickness_R in H. injection H as <-. reflexivity.
Qed.

Lemma cell_density ev0 d0 lA lB e0 l g c : evolved cfg ev0 -> event_compute d0 ev0 lA lB (nucleon_common_of cfg sp) = Ret e0 ->
  In c (cells N) -> (l, g) = (lA, ev_TA e0) \/ (l, g) = (lB, ev_TB e0) -> cell g (fst c) (snd c) = density l c.
Proof.
  intros V E Hc Hg. destruct c as [y x]. apply in_cells in Hc. cbn [fst snd]. unfold density. cbn [fst snd].
  destruct (C11_full_sum cfg sp ev0 d0 lA lB e0 y x Hs V E ltac:(rewrite (cells_of ev0) by exact V; apply Hc) ltac:(rewrite (cells_of ev0) by exact V; apply Hc) l g Hg) as (ts & F & S).
  rewrite S. rewrite (cells_of ev0) in F by exact V. apply (sums_density _ _ _ _ _ F).
Qed.

Definition entropy (lA lB : list (nucleon RA)) (c : Z * Z) : R :=
  normalization cfg * gen_mean (choose_mean (A:=RA) (reduced_thickness cfg)) (density lA c) (density lB c).

Lemma cell_entropy ev0 d0 lA lB e0 c : evolved cfg ev0 -> event_compute d0 ev0 lA lB (nucleon_common_of cfg sp) = Ret e0 ->
  In c (cells N) -> cell (ev_TR e0) (fst c) (snd c) = entropy lA lB c.
Proof.
  intros V E Hc. pose proof (event_compute_inv _ _ _ _ _ _ (evolved_ready _ _ V) E) as (_ & _ & _ & _ & _ & CT & _).
  rewrite (cells_of ev0) in CT by exact V. destruct (evolved_R _ _ V) as (_ & _ & Pn & Pm).
  unfold entropy. rewrite <- (cell_density ev0 d0 lA lB e0 lA (ev_TA e0) c V E Hc (or_introl eq_refl)).
  rewrite <- (cell_density ev0 d0 lA lB e0 lB (ev_TB e0) c V E Hc (or_intror eq_refl)).
  destruct c as [y x]. apply in_cells in Hc. cbn [fst snd]. rewrite CT by exact Hc. unfold rt. rewrite Pn, Pm. reflexivity.
Qed.

Lemma entropy_moved c : entropy mA mB (slide ky kx c) = entropy nA nB c.
Proof. unfold entropy. rewrite !(density_moved _ _ _ DA), !(density_moved _ _ _ DB). reflexivity. Qed.

Lemma entropy_outside lA lB c : within_grid cfg lA -> within_grid cfg lB -> in_grid N c = false -> entropy lA lB c = 0.
Proof. intros WA WB O. unfold entropy. rewrite !density_outside by assumption. rewrite gen_mean_zero. apply Rmult_0_r. Qed.

Lemma entropy_pos lA lB c : 0 <= entropy lA lB c.
Proof. apply Rmult_le_pos; [exact Hn|apply gen_mean_nonneg]. Qed.

(** Cells that are on the grid in both events. *)
Lemma grids_moved : forall iy ix, valid_index N iy -> valid_index N ix -> valid_index N (iy + ky) -> valid_index N (ix + kx) ->
  cell (ev_TA e2) (iy + ky) (ix + kx) = cell (ev_TA e1) iy ix /\
  cell (ev_TB e2) (iy + ky) (ix + kx) = cell (ev_TB e1) iy ix /\
  cell (ev_TR e2) (iy + ky) (ix + kx) = cell (ev_TR e1) iy ix.
Proof.
  intros iy ix Hy Hx Hy2 Hx2.
  assert (I1 : In (iy, ix) (cells N)) by (apply in_cells; split; assumption).
  assert (I2 : In (slide ky kx (iy, ix)) (cells N)) by (apply in_cells; split; assumption).
  repeat split.
  - pose proof (cell_density _ _ _ _ _ _ _ _ V1 Run1 I1 (or_introl eq_refl)) as E1. pose proof (cell_density _ _ _ _ _ _ _ _ V2 Run2 I2 (or_introl eq_refl)) as E2.
    rewrite (density_moved _ _ _ DA) in E2. cbn [slide fst snd] in E1, E2. congruence.
  - pose proof (cell_density _ _ _ _ _ _ _ _ V1 Run1 I1 (or_intror eq_refl)) as E1. pose proof (cell_density _ _ _ _ _ _ _ _ V2 Run2 I2 (or_intror eq_refl)) as E2.
    rewrite (density_moved _ _ _ DB) in E2. cbn [slide fst snd] in E1, E2. congruence.
  - pose proof (cell_entropy _ _ _ _ _ _ V1 Run1 I1) as E1. pose proof (cell_entropy _ _ _ _ _ _ V2 Run2 I2) as E2.
    rewrite entropy_moved in E2. cbn [slide fst snd] in E1, E2. congruence.
Qed.

Lemma participants_moved l m : displaced_participants a b l m -> length (filter n_part m) = length (filter n_part l).
Proof. intros D. rewrite (Permutation_length D), map_length. reflexivity. Qed.

Lemma npart_moved : ev_npart e2 = ev_npart e1.
Proof.
  pose proof (event_compute_inv _ _ _ _ _ _ (evolved_ready _ _ V1) Run1) as (_ & (k & k' & EA & EB & EK) & _).
  pose proof (event_compute_inv _ _ _ _ _ _ (evolved_ready _ _ V2) Run2) as (_ & (j & j' & FA & FB & FK) & _).
  rewrite EK, FK, (nuclear_thickness_npart _ _ _ _ _ _ _ _ _ EB), (nuclear_thickness_npart _ _ _ _ _ _ _ _ _ FB),
    (nuclear_thickness_npart _ _ _ _ _ _ _ _ _ EA), (nuclear_thickness_npart _ _ _ _ _ _ _ _ _ FA).
  rewrite (participants_moved _ _ DA), (participants_moved _ _ DB). reflexivity.
Qed.

Hypothesis WA : within_grid cfg nA.
Hypothesis WB : within_grid cfg nB.
Hypothesis XA : within_grid cfg mA.
Hypothesis XB : within_grid cfg mB.

Let t1 (c : Z * Z) : R := cell (ev_TR e1) (fst c) (snd c).
Let t2 (c : Z * Z) : R := cell (ev_TR e2) (fst c) (snd c).

Lemma kept c : In c (stay N ky kx) -> t2 (slide ky kx c) = t1 c.
Proof.
  intros H. apply filter_In in H. destruct H as [H1 H2]. apply in_grid_iff in H2. unfold t1, t2.
  rewrite (cell_entropy _ _ _ _ _ _ V1 Run1 H1), (cell_entropy _ _ _ _ _ _ V2 Run2 H2). apply entropy_moved.
Qed.
Lemma lost c : In c (leave N ky kx) -> t1 c = 0.
Proof.
  intros H. apply filter_In in H. destruct H as [H1 H2]. apply Bool.negb_true_iff in H2. unfold t1.
  rewrite (cell_entropy _ _ _ _ _ _ V1 Run1 H1), <- entropy_moved. apply entropy_outside; assumption.
Qed.
Lemma arrived c : In c (arrive N ky kx) -> t2 c = 0.
Proof.
  intros H. apply filter_In in H. destruct H as [H1 H2]. apply Bool.negb_true_iff in H2. unfold t2.
  rewrite (cell_entropy _ _ _ _ _ _ V2 Run2 H1). rewrite <- (slide_back ky kx c), entropy_moved. apply entropy_outside; assumption.
Qed.
Lemma weight_pos c : In c (cells N) -> 0 <= t1 c.
Proof. intros H. unfold t1. rewrite (cell_entropy _ _ _ _ _ _ V1 Run1 H). apply entropy_pos. Qed.

Lemma total_moved : Rsum t2 (cells N) = Rsum t1 (cells N).
Proof. exact (sum_slide N ky kx t1 t2 kept lost arrived (fun _ v => v) (fun _ => eq_refl)). Qed.

Lemma mult_moved : ev_mult e2 = ev_mult e1.
Proof.
  destruct (compute_R _ _ _ _ _ _ _ V1 Run1) as [M1 _]. destruct (compute_R _ _ _ _ _ _ _ V2 Run2) as [M2 _].
  rewrite (cells_of ev V1) in M1. rewrite (cells_of ev2 V2) in M2. rewrite M1, M2. fold t1 t2. rewrite total_moved. reflexivity.
Qed.

Lemma ecc_moved : ev_ecc e2 = ev_ecc e1.
Proof.
  destruct (compute_R _ _ _ _ _ _ _ V1 Run1) as [_ E1]. destruct (compute_R _ _ _ _ _ _ _ V2 Run2) as [_ E2].
  rewrite (cells_of ev V1) in E1. rewrite (cells_of ev2 V2) in E2. rewrite E1, E2. fold t1 t2.
  assert (E : forall n, ecc_n n (cells N) t2 = ecc_n n (cells N) t1) by (intros n; exact (ecc_slide N ky kx t1 t2 kept lost arrived weight_pos n)).
  rewrite !E. reflexivity.
Qed.

Lemma centre_moved : ev_mult e1 <> 0 -> ev_ixcm e2 = ev_ixcm e1 + IZR kx /\ ev_iycm e2 = ev_iycm e1 + IZR ky.
Proof.
  intros NZ. destruct (compute_R _ _ _ _ _ _ _ V1 Run1) as [M1 _]. rewrite (cells_of ev V1) in M1. fold t1 in M1.
  assert (S : Rsum t1 (cells N) <> 0) by (intros E; apply NZ; rewrite M1, E; apply Rmult_0_r).
  destruct (compute_centre _ _ _ _ _ _ _ V1 Run1) as [X1 Y1]. destruct (compute_centre _ _ _ _ _ _ _ V2 Run2) as [X2 Y2].
  rewrite (cells_of ev V1) in X1, Y1. rewrite (cells_of ev2 V2) in X2, Y2.
  change (ev_ixcm e1 = Rsum (fun c => t1 c * IZR (snd c)) (cells N) / Rsum t1 (cells N)) in X1.
  change (ev_iycm e1 = Rsum (fun c => t1 c * IZR (fst c)) (cells N) / Rsum t1 (cells N)) in Y1.
  change (ev_ixcm e2 = Rsum (fun c => t2 c * IZR (snd c)) (cells N) / Rsum t2 (cells N)) in X2.
  change (ev_iycm e2 = Rsum (fun c => t2 c * IZR (fst c)) (cells N) / Rsum t2 (cells N)) in Y2.
  rewrite X1, X2, Y1, Y2, total_moved.
  pose proof (sum_slide N ky kx t1 t2 kept lost arrived (fun c v => v * IZR (snd c)) (fun _ => Rmult_0_l _)) as SX.
  pose proof (sum_slide N ky kx t1 t2 kept lost arrived (fun c v => v * IZR (fst c)) (fun _ => Rmult_0_l _)) as SY.
  cbv beta in SX, SY. rewrite SX, SY. unfold slide. cbn [fst snd]. split.
  - rewrite (Rsum_ext _ (fun c => t1 c * IZR (snd c) + IZR kx * t1 c)) by (intros c _; rewrite plus_IZR; ring). rewrite Rsum_plus, Rsum_scale. toR. field. exact S.
  - rewrite (Rsum_ext _ (fun c => t1 c * IZR (fst c) + IZR ky * t1 c)) by (intros c _; rewrite plus_IZR; ring). rewrite Rsum_plus, Rsum_scale. toR. field. exact S.
Qed.
End Two.
End Frame.

(** Two calls of Event::compute with the same participants, the second time
    displaced by whole grid steps, in any order and among other spectators. *)
Theorem C75_moved : forall (cfg : config RA) (sp : R) ky kx ev ev2 dbg dbg2 nA nB mA mB e1 e2,
  0 < grid_step cfg -> 0 <= constit_width cfg -> 0 <= normalization cfg ->
  displaced_participants (IZR kx * grid_step cfg) (IZR ky * grid_step cfg) nA mA ->
  displaced_participants (IZR kx * grid_step cfg) (IZR ky * grid_step cfg) nB mB ->
  evolved cfg ev -> event_compute dbg ev nA nB (nucleon_common_of cfg sp) = Ret e1 ->
  evolved cfg ev2 -> event_compute dbg2 ev2 mA mB (nucleon_common_of cfg sp) = Ret e2 ->
  let N := ev_nsteps ev in
  ev_npart e2 = ev_npart e1 /\
  (forall iy ix, valid_index N iy -> valid_index N ix -> valid_index N (iy + ky) -> valid_index N (ix + kx) ->
    cell (ev_TA e2) (iy + ky) (ix + kx) = cell (ev_TA e1) iy ix /\
    cell (ev_TB e2) (iy + ky) (ix + kx) = cell (ev_TB e1) iy ix /\
    cell (ev_TR e2) (iy + ky) (ix + kx) = cell (ev_TR e1) iy ix) /\
  (within_grid cfg nA -> within_grid cfg nB -> within_grid cfg mA -> within_grid cfg mB ->
    ev_mult e2 = ev_mult e1 /\ ev_ecc e2 = ev_ecc e1 /\
    (ev_mult e1 <> 0 -> ev_ixcm e2 = ev_ixcm e1 + IZR kx /\ ev_iycm e2 = ev_iycm e1 + IZR ky)).
Proof.
  intros cfg sp ky kx ev ev2 dbg dbg2 nA nB mA mB e1 e2 Hs Hw Hn DA DB V1 R1 V2 R2 N. unfold N. rewrite (cells_of cfg ev V1).
  split; [exact (npart_moved cfg sp ky kx nA nB mA mB DA DB ev ev2 e1 e2 dbg dbg2 V1 V2 R1 R2)|].
  split; [exact (grids_moved cfg sp ky kx nA nB mA mB Hs DA DB ev ev2 e1 e2 dbg dbg2 V1 V2 R1 R2)|]. intros WA WB XA XB.
  split; [exact (mult_moved cfg sp ky kx nA nB mA mB Hs Hw DA DB ev ev2 e1 e2 dbg dbg2 V1 V2 R1 R2 WA WB XA XB)|].
  split; [exact (ecc_moved cfg sp ky kx nA nB mA mB Hs Hw Hn DA DB ev ev2 e1 e2 dbg dbg2 V1 V2 R1 R2 WA WB XA XB)|].
  exact (centre_moved cfg sp ky kx nA nB mA mB Hs Hw DA DB ev ev2 e1 e2 dbg dbg2 V1 V2 R1 R2 WA WB XA XB).
Qed.

(** Without displacement nothing at all changes, also at the edges: only who
    participates, and where, matters - not the order of the nucleons, nor the
    spectators, nor which event was computed before. *)
Theorem C75_same : forall (cfg : config RA) (sp : R) ev ev2 dbg dbg2 nA nB mA mB e1 e2,
  0 < grid_step cfg ->
  Permutation (filter n_part nA) (filter n_part mA) -> Permutation (filter n_part nB) (filter n_part mB) ->
  evolved cfg ev -> event_compute dbg ev nA nB (nucleon_common_of cfg sp) = Ret e1 ->
  evolved cfg ev2 -> event_compute dbg2 ev2 mA mB (nucleon_common_of cfg sp) = Ret e2 ->
  let N := ev_nsteps ev in
  (forall iy ix, valid_index N iy -> valid_index N ix ->
    cell (ev_TA e2) iy ix = cell (ev_TA e1) iy ix /\ cell (ev_TB e2) iy ix = cell (ev_TB e1) iy ix /\ cell (ev_TR e2) iy ix = cell (ev_TR e1) iy ix) /\
  ev_npart e2 = ev_npart e1 /\ ev_mult e2 = ev_mult e1 /\ ev_ecc e2 = ev_ecc e1 /\ ev_ixcm e2 = ev_ixcm e1 /\ ev_iycm e2 = ev_iycm e1.
Proof.
  intros cfg sp ev ev2 dbg dbg2 nA nB mA mB e1 e2 Hs PA PB V1 R1 V2 R2 N.
  assert (D0 : forall l m, Permutation (filter n_part l) (filter n_part m) -> displaced_participants (IZR 0 * grid_step cfg) (IZR 0 * grid_step cfg) l m).
  { intros l m P. unfold displaced_participants. rewrite Rmult_0_l.
    replace (map (displaced 0 0) (filter n_part l)) with (filter n_part l); [symmetry; exact P|].
    symmetry. rewrite <- (map_id (filter n_part l)) at 2. apply map_ext. intros [x y z p c qs]. unfold displaced. cbn [n_x n_y n_z n_part n_cexist n_cons].
    f_equal; [apply Rplus_0_r|apply Rplus_0_r|]. rewrite <- (map_id qs) at 2. apply map_ext. intros [qx qy w]. cbn [q_x q_y q_fluct].
    f_equal; apply Rplus_0_r. }
  assert (EN : N = row_cells cfg) by (apply cells_of; exact V1).
  assert (G : forall iy ix, valid_index N iy -> valid_index N ix ->
    cell (ev_TA e2) iy ix = cell (ev_TA e1) iy ix /\ cell (ev_TB e2) iy ix = cell (ev_TB e1) iy ix /\ cell (ev_TR e2) iy ix = cell (ev_TR e1) iy ix).
  { intros iy ix Hy Hx. rewrite EN in Hy, Hx.
    pose proof (grids_moved cfg sp 0 0 nA nB mA mB Hs (D0 _ _ PA) (D0 _ _ PB) ev ev2 e1 e2 dbg dbg2 V1 V2 R1 R2 iy ix) as H.
    rewrite !Z.add_0_r in H. apply H; assumption. }
  split; [exact G|]. split; [exact (npart_moved cfg sp 0 0 nA nB mA mB (D0 _ _ PA) (D0 _ _ PB) ev ev2 e1 e2 dbg dbg2 V1 V2 R1 R2)|].
  destruct (compute_R _ _ _ _ _ _ _ V1 R1) as [M1 E1]. destruct (compute_R _ _ _ _ _ _ _ V2 R2) as [M2 E2].
  destruct (compute_centre _ _ _ _ _ _ _ V1 R1) as [X1 Y1]. destruct (compute_centre _ _ _ _ _ _ _ V2 R2) as [X2 Y2].
  rewrite (cells_of cfg ev V1) in *. rewrite (cells_of cfg ev2 V2) in *.
  set (t1 := fun c : Z * Z => cell (ev_TR e1) (fst c) (snd c) : R) in *. set (t2 := fun c : Z * Z => cell (ev_TR e2) (fst c) (snd c) : R) in *.
  assert (T : forall c, In c (cells (row_cells cfg)) -> t2 c = t1 c).
  { intros [y x] Hc. apply in_cells in Hc. unfold t1, t2. cbn [fst snd]. rewrite EN in G. apply G; apply Hc. }
  assert (S : Rsum t2 (cells (row_cells cfg)) = Rsum t1 (cells (row_cells cfg))) by (apply Rsum_ext; exact T).
  split; [rewrite M1, M2, S; reflexivity|].
  assert (E : forall n, ecc_n n (cells (row_cells cfg)) t2 = ecc_n n (cells (row_cells cfg)) t1).
  { intros n. rewrite <- (ecc_n_ext n (cells (row_cells cfg)) t1 t2) by (intros c Hc; symmetry; apply T; exact Hc). reflexivity. }
  split; [rewrite E1, E2, !E; reflexivity|].
  change (ev_ixcm e1 = Rsum (fun c => t1 c * IZR (snd c)) (cells (row_cells cfg)) / Rsum t1 (cells (row_cells cfg))) in X1.
  change (ev_ixcm e2 = Rsum (fun c => t2 c * IZR (snd c)) (cells (row_cells cfg)) / Rsum t2 (cells (row_cells cfg))) in X2.
  change (ev_iycm e1 = Rsum (fun c => t1 c * IZR (fst c)) (cells (row_cells cfg)) / Rsum t1 (cells (row_cells cfg))) in Y1.
  change (ev_iycm e2 = Rsum (fun c => t2 c * IZR (fst c)) (cells (row_cells cfg)) / Rsum t2 (cells (row_cells cfg))) in Y2.
  rewrite X1, X2, Y1, Y2, S.
  split; f_equal; apply Rsum_ext; intros c Hc; rewrite T by exact Hc; reflexivity.
Qed.
