(** C72: enlarging the grid beyond the event changes nothing. *)
From Coq Require Import Reals Lra ZArith Lia List String Permutation.
From Flocq Require Import Core.
From Verif.Base Require Import Result Arith RArith Rng.
From Verif.Model Require Import FastExp Config Nucleon Nucleus Event Files CrossSection Output Collider.
From Verif.Spec Require Import History Collision Contract Replay Grid Evolved Mean Total Ecc Entropy Enlarge.
From Verif.Proof Require Import Basics RBasics Ctor GridP EventP NucleonP DepositR EccP SymP ReducedP Writers EnlargeP.
From Verif.Properties Require Import Events GridProps Reduced Replay Entropy.
Import ListNotations.
Local Open Scope R_scope.

Lemma Zceil_plus (x : R) (n : Z) : Zceil (x + IZR n) = (Zceil x + n)%Z.
Proof.
  apply Zceil_imp. pose proof (Zceil_ub x). pose proof (Zceil_lb x). rewrite minus_IZR, plus_IZR. lra.
Qed.

Lemma new_cells (cfg : config RA) ev : event_new cfg = Ret ev -> ev_nsteps ev = row_cells cfg.
Proof.
  unfold event_new. unfold to_int. cbn [nceil ntrunc nmul ndiv nlit RA RA_with]. rlits. rewrite Ztrunc_IZR. intros H.
  destruct (in_int _) in H; [|discriminate]. cbn [rbind] in H. injection H as <-. reflexivity.
Qed.

Lemma larger_cells (cfg : config RA) k : 0 < grid_step cfg -> row_cells (enlarged cfg k) = (row_cells cfg + 2 * k)%Z.
Proof.
  intros Hs. unfold row_cells, enlarged. cbn [grid_max grid_step with_profile].
  replace (2 * (grid_max cfg + IZR k * grid_step cfg) / grid_step cfg) with (2 * grid_max cfg / grid_step cfg + IZR (2 * k)).
  - apply Zceil_plus.
  - rewrite mult_IZR. field. apply Rgt_not_eq. exact Hs.
Qed.

Lemma beyond (s G N k i : R) : 0 < s -> 2 * G <= N * s -> i + 1 <= k \/ N + k <= i -> G <= Rabs ((i + / 2) * s - (N + 2 * k) * s / 2).
Proof.
  intros Hs Q [H|H].
  - apply Rle_trans with (- ((i + / 2) * s - (N + 2 * k) * s / 2)); [nra|]. rewrite <- Rabs_Ropp. apply RRle_abs.
  - apply Rle_trans with ((i + / 2) * s - (N + 2 * k) * s / 2); [nra|apply RRle_abs].
Qed.

Section Pair.
Variables (cfg : config RA) (k : Z) (sp : R) (ev ev2 e1 e2 : event RA) (dbg : bool) (nA nB : list (nucleon RA)).
Hypothesis Hk : (0 <= k)%Z.
Hypothesis Hs : 0 < grid_step cfg.
Hypothesis New1 : event_new cfg = Ret ev.
Hypothesis New2 : event_new (enlarged cfg k) = Ret ev2.
Hypothesis Run1 : event_compute dbg ev nA nB (nucleon_common_of cfg sp) = Ret e1.
Hypothesis Run2 : event_compute dbg ev2 nA nB (nucleon_common_of cfg sp) = Ret e2.
Let N := row_cells cfg.
Let V1 : evolved cfg ev := evolved_new _ _ New1.
Let V2 : evolved (enlarged cfg k) ev2 := evolved_new _ _ New2.

Lemma N1 : ev_nsteps ev = N. Proof. apply new_cells. exact New1. Qed.
Lemma N2 : ev_nsteps ev2 = (N + 2 * k)%Z. Proof. rewrite (new_cells _ _ New2). apply larger_cells. exact Hs. Qed.

Definition where_is (M i : Z) : R := (IZR i + / 2) * grid_step cfg - IZR M * grid_step cfg / 2.

Lemma sums (l : list (nucleon RA)) x y ts : Forall2 (fun n t => thickness (A:=RA) dbg (nucleon_common_of cfg sp) n x y = Ret t) l ts ->
  fold_right Rplus 0 ts = Rsum (fun n => thick cfg sp n x y) l.
Proof.
  induction 1 as [|n t l ts H _ IH]; [reflexivity|]. rewrite Rsum_cons. cbn [fold_right]. rewrite IH. rewrite thickness_R in H. injection H as <-. reflexivity.
Qed.

Lemma small_cell nucl grd iy ix : (0 <= iy < N)%Z -> (0 <= ix < N)%Z -> (nucl, grd) = (nA, ev_TA e1) \/ (nucl, grd) = (nB, ev_TB e1) ->
  cell grd iy ix = Rsum (fun n => thick cfg sp n (where_is N ix) (where_is N iy)) (filter n_part nucl).
Proof.
  intros Hy Hx Hg. destruct (C11_full_sum cfg sp ev dbg nA nB e1 iy ix Hs V1 Run1 ltac:(rewrite N1; exact Hy) ltac:(rewrite N1; exact Hx) nucl grd Hg) as (ts & F & E).
  rewrite E. rewrite N1 in F. rewrite (sums _ _ _ _ F). reflexivity.
Qed.

Lemma large_cell nucl grd iy ix : (0 <= iy < N + 2 * k)%Z -> (0 <= ix < N + 2 * k)%Z -> (nucl, grd) = (nA, ev_TA e2) \/ (nucl, grd) = (nB, ev_TB e2) ->
  cell grd iy ix = Rsum (fun n => thick cfg sp n (where_is (N + 2 * k) ix) (where_is (N + 2 * k) iy)) (filter n_part nucl).
Proof.
  intros Hy Hx Hg. destruct (C11_full_sum (enlarged cfg k) sp ev2 dbg nA nB e2 iy ix Hs V2 Run2 ltac:(rewrite N2; exact Hy) ltac:(rewrite N2; exact Hx) nucl grd Hg) as (ts & F & E).
  rewrite E. rewrite N2 in F. apply sums. exact F.
Qed.

Lemma where_shift i : where_is (N + 2 * k) (i + k) = where_is N i.
Proof. unfold where_is. rewrite !plus_IZR, mult_IZR. field. Qed.

Lemma middle_A : middle_of N k (ev_TA e1) (ev_TA e2).
Proof.
  intros iy ix Hy Hx. rewrite (large_cell nA) by (first [lia|left; reflexivity]). rewrite (small_cell nA) by (first [lia|left; reflexivity]). rewrite !where_shift. reflexivity.
Qed.
Lemma middle_B : middle_of N k (ev_TB e1) (ev_TB e2).
Proof.
  intros iy ix Hy Hx. rewrite (large_cell nB) by (first [lia|right; reflexivity]). rewrite (small_cell nB) by (first [lia|right; reflexivity]). rewrite !where_shift. reflexivity.
Qed.

Lemma reduced1 iy ix : inside N iy ix -> cell (ev_TR e1) iy ix = normalization cfg * gen_mean (choose_mean (A:=RA) (reduced_thickness cfg)) (cell (ev_TA e1) iy ix) (cell (ev_TB e1) iy ix).
Proof.
  intros Hi. pose proof (event_compute_inv _ _ _ _ _ _ (evolved_ready _ _ V1) Run1) as (_ & _ & _ & _ & _ & CT & _). rewrite N1 in CT.
  destruct (evolved_R _ _ V1) as (_ & _ & Pn & Pm). rewrite CT by exact Hi. unfold rt. rewrite Pn, Pm. reflexivity.
Qed.
Lemma reduced2 iy ix : inside (N + 2 * k) iy ix -> cell (ev_TR e2) iy ix = normalization cfg * gen_mean (choose_mean (A:=RA) (reduced_thickness cfg)) (cell (ev_TA e2) iy ix) (cell (ev_TB e2) iy ix).
Proof.
  intros Hi. pose proof (event_compute_inv _ _ _ _ _ _ (evolved_ready _ _ V2) Run2) as (_ & _ & _ & _ & _ & CT & _). rewrite N2 in CT.
  destruct (evolved_R _ _ V2) as (_ & _ & Pn & Pm). rewrite CT by exact Hi. unfold rt. rewrite Pn, Pm. reflexivity.
Qed.

Lemma middle_R : middle_of N k (ev_TR e1) (ev_TR e2).
Proof.
  intros iy ix Hy Hx. rewrite reduced1 by (split; assumption). rewrite reduced2 by (unfold inside; lia).
  rewrite middle_A, middle_B by assumption. reflexivity.
Qed.

Let t1 (c : Z * Z) : R := cell (ev_TR e1) (fst c) (snd c).
Let t2 (c : Z * Z) : R := cell (ev_TR e2) (fst c) (snd c).

Lemma weights_agree c : In c (cells N) -> t2 (shift k c) = t1 c.
Proof. destruct c as [y x]. intros H. apply in_cells in H. unfold t1, t2, shift. cbn [fst snd]. apply middle_R; apply H. Qed.

Lemma total_split : Rsum t2 (cells (N + 2 * k)) = Rsum t1 (cells N) + Rsum t2 (margin N k).
Proof.
  rewrite (Rsum_perm _ _ _ (padded N k Hk)), Rsum_app, Rsum_map. f_equal. apply Rsum_ext. exact weights_agree.
Qed.

Lemma mult_more : 0 <= normalization cfg -> ev_mult e1 <= ev_mult e2.
Proof.
  intros Hn. destruct (compute_R _ _ _ _ _ _ _ V1 Run1) as [M1 _]. destruct (compute_R _ _ _ _ _ _ _ V2 Run2) as [M2 _].
  rewrite N1 in M1. rewrite N2 in M2. rewrite M1, M2. change (grid_step (enlarged cfg k)) with (grid_step cfg). fold t1 t2. rewrite total_split.
  assert (0 <= Rsum t2 (margin N k)).
  { apply Rsum_nonneg. intros [y x] Hc. apply filter_In in Hc. destruct Hc as [Hc _]. apply in_cells in Hc. unfold t2. cbn [fst snd].
    rewrite reduced2 by exact Hc. apply Rmult_le_pos; [exact Hn|apply gen_mean_nonneg]. }
  assert (0 < grid_step cfg * grid_step cfg) by (apply Rmult_lt_0_compat; exact Hs).
  apply Rmult_le_compat_l; [left; assumption|]. lra.
Qed.

(** The event is inside the smaller grid. *)
Hypothesis Hw : 0 <= constit_width cfg.
Hypothesis Fit : forall (n : nucleon RA) (q : constituent RA), In n nA \/ In n nB -> n_part n = true -> In q (n_cons n) ->
  Rabs (q_x q) + 5 * constit_width cfg <= grid_max cfg /\ Rabs (q_y q) + 5 * constit_width cfg <= grid_max cfg.

Lemma outside i : (i < k \/ N + k <= i)%Z -> grid_max cfg <= Rabs (where_is (N + 2 * k) i).
Proof.
  intros Hi. assert (Q : 2 * grid_max cfg <= IZR N * grid_step cfg).
  { unfold N, row_cells. pose proof (Zceil_ub (2 * grid_max cfg / grid_step cfg)) as U. set (c := IZR (Zceil _)) in *.
    apply (Rmult_le_compat_r (grid_step cfg)) in U; [|left; exact Hs].
    replace (2 * grid_max cfg / grid_step cfg * grid_step cfg) with (2 * grid_max cfg) in U by (field; apply Rgt_not_eq; exact Hs). exact U. }
  unfold where_is. rewrite plus_IZR, mult_IZR. apply beyond; [exact Hs|exact Q|].
  destruct Hi as [Hi|Hi]; [left|right].
  - rewrite <- (plus_IZR i 1). apply IZR_le. lia.
  - rewrite <- plus_IZR. apply IZR_le. lia.
Qed.

Lemma margin_zero c : In c (margin N k) -> t2 c = 0.
Proof.
  destruct c as [y x]. intros H. apply filter_In in H. destruct H as [H M]. apply in_cells in H. apply negb_true_iff in M.
  assert (Far : grid_max cfg <= Rabs (where_is (N + 2 * k) x) \/ grid_max cfg <= Rabs (where_is (N + 2 * k) y)).
  { destruct (Z.lt_ge_cases x k); [left; apply outside; lia|]. destruct (Z.lt_ge_cases x (N + k)); [|left; apply outside; lia].
    destruct (Z.lt_ge_cases y k); [right; apply outside; lia|]. destruct (Z.lt_ge_cases y (N + k)); [|right; apply outside; lia].
    exfalso. assert (in_middle N k (y, x) = true) by (apply in_middle_iff; cbn [fst snd]; lia). congruence. }
  unfold t2. cbn [fst snd]. rewrite reduced2 by exact H.
  assert (Z0 : forall l, (forall n, In n l -> In n nA \/ In n nB) -> Rsum (fun n => thick cfg sp n (where_is (N + 2 * k) x) (where_is (N + 2 * k) y)) (filter n_part l) = 0).
  { intros l Hl. apply Rsum_zeros. intros n Hn. apply filter_In in Hn. destruct Hn as [Hn Pn]. apply thick_far with (grid_max cfg); [exact Hw| |exact Far].
    intros q Hq. apply (Fit n q); auto. }
  rewrite (large_cell nA (ev_TA e2)) by (first [apply H|left; reflexivity]). rewrite (large_cell nB (ev_TB e2)) by (first [apply H|right; reflexivity]).
  rewrite !Z0 by auto. rewrite gen_mean_zero. apply Rmult_0_r.
Qed.

Lemma same_mult : ev_mult e2 = ev_mult e1.
Proof.
  destruct (compute_R _ _ _ _ _ _ _ V1 Run1) as [M1 _]. destruct (compute_R _ _ _ _ _ _ _ V2 Run2) as [M2 _].
  rewrite N1 in M1. rewrite N2 in M2. rewrite M1, M2. change (grid_step (enlarged cfg k)) with (grid_step cfg). fold t1 t2. rewrite total_split.
  rewrite (Rsum_zeros t2) by exact margin_zero. rewrite Rplus_0_r. reflexivity.
Qed.

Lemma same_ecc : 0 <= normalization cfg -> ev_ecc e2 = ev_ecc e1.
Proof.
  intros Hn. destruct (compute_R _ _ _ _ _ _ _ V1 Run1) as [_ E1]. destruct (compute_R _ _ _ _ _ _ _ V2 Run2) as [_ E2].
  rewrite N1 in E1. rewrite N2 in E2. rewrite E1, E2. fold t1 t2.
  assert (E : forall n, ecc_n n (cells (N + 2 * k)) t2 = ecc_n n (cells N) t1).
  { intros n. rewrite (ecc_n_pad n _ _ _ t2 (padded N k Hk) margin_zero). apply ecc_n_shift; [exact weights_agree|].
    right. intros [y x] Hc. apply in_cells in Hc. unfold t1. cbn [fst snd]. rewrite reduced1 by exact Hc. apply Rmult_le_pos; [exact Hn|apply gen_mean_nonneg]. }
  rewrite !E. reflexivity.
Qed.
End Pair.

(** Two finished runs, the second with --grid-max enlarged by k grid steps. *)
Theorem C72_larger_grid : forall (rg : Rng RA) (sv : Solver RA) (bd : build) cfuel fuel sfuel e (cfg : config RA) (s s' s2' : sys rg) k,
  (0 <= k)%Z -> 0 < grid_step cfg -> 0 <= constit_width cfg -> 0 <= normalization cfg ->
  collide rg sv bd cfuel fuel sfuel e cfg s = (Ret tt, s') ->
  collide rg sv bd cfuel fuel sfuel e (enlarged cfg k) s = (Ret tt, s2') ->
  row_cells (enlarged cfg k) = (row_cells cfg + 2 * k)%Z /\
  exists ds ds2,
    run_delivered rg sv bd cfuel fuel sfuel e cfg s s' ds /\
    run_delivered rg sv bd cfuel fuel sfuel e (enlarged cfg k) s s2' ds2 /\
    Forall2 (fun d d2 => same_collision d d2 /\
      middle_of (row_cells cfg) k (ev_TA (d_event d)) (ev_TA (d_event d2)) /\
      middle_of (row_cells cfg) k (ev_TB (d_event d)) (ev_TB (d_event d2)) /\
      middle_of (row_cells cfg) k (ev_TR (d_event d)) (ev_TR (d_event d2)) /\
      ev_mult (d_event d) <= ev_mult (d_event d2) /\
      (fits cfg d -> ev_mult (d_event d2) = ev_mult (d_event d) /\ ev_ecc (d_event d2) = ev_ecc (d_event d))) ds ds2.
Proof.
  intros rg sv bd cfuel fuel sfuel e cfg s s' s2' k Hk Hs Hw Hn H H2. split; [apply larger_cells; exact Hs|].
  destruct (profile_pairs rg sv bd cfuel fuel sfuel e cfg _ _ _ _ s s' s2' H H2)
    as (ds & ds2 & nA & nB & ev & ev2 & co & rs & rs1 & D & D2 & _ & _ & _ & Hv & Hv2 & (sp & Hnc) & _ & P).
  exists ds, ds2. split; [exact D|]. split; [exact D2|]. eapply Forall2_impl_in; [exact P|].
  intros d d2 _ (Q & E1 & E2). split; [exact Q|]. rewrite Hnc in E1, E2. fold (enlarged cfg k) in Hv2.
  split; [apply (middle_A cfg k sp ev ev2 (d_event d) (d_event d2) (debug bd) (d_A d) (d_B d)); assumption|]. split; [apply (middle_B cfg k sp ev ev2 (d_event d) (d_event d2) (debug bd) (d_A d) (d_B d)); assumption|]. split; [apply (middle_R cfg k sp ev ev2 (d_event d) (d_event d2) (debug bd) (d_A d) (d_B d)); assumption|].
  split; [apply (mult_more cfg k sp ev ev2 (d_event d) (d_event d2) (debug bd) (d_A d) (d_B d)); assumption|]. intros F. split; [apply (same_mult cfg k sp ev ev2 (d_event d) (d_event d2) (debug bd) (d_A d) (d_B d)); assumption|apply (same_ecc cfg k sp ev ev2 (d_event d) (d_event d2) (debug bd) (d_A d) (d_B d)); assumption].
Qed.

(** If every event fits, the two runs print the same text. *)
Theorem C72_stdout : forall (rg : Rng RA) (sv : Solver RA) (bd : build) cfuel fuel sfuel e (cfg : config RA) (s s' s2' : sys rg) k,
  (0 <= k)%Z -> 0 < grid_step cfg -> 0 <= constit_width cfg -> 0 <= normalization cfg ->
  collide rg sv bd cfuel fuel sfuel e cfg s = (Ret tt, s') ->
  collide rg sv bd cfuel fuel sfuel e (enlarged cfg k) s = (Ret tt, s2') ->
  exists ds, run_delivered rg sv bd cfuel fuel sfuel e cfg s s' ds /\
    (Forall (fits cfg) ds -> s_out s2' = s_out s').
Proof.
  intros rg sv bd cfuel fuel sfuel e cfg s s' s2' k Hk Hs Hw Hn H H2.
  destruct (C72_larger_grid rg sv bd cfuel fuel sfuel e cfg s s' s2' k Hk Hs Hw Hn H H2) as (_ & ds & ds2 & D & D2 & P).
  exists ds. split; [exact D|]. intros F.
  destruct D as (co & nA & nB & ev & nst & gst & s1 & rs & C & W & _).
  destruct D2 as (co2 & nA2 & nB2 & ev2 & nst2 & gst2 & s12 & rs2 & C2 & W2 & _).
  apply collider_new_inv in C. apply collider_new_inv in C2.
  destruct (ct_writers _ _ _ _ _ _ _ _ _ _ _ C) as (w & Ew & EW). destruct (ct_writers _ _ _ _ _ _ _ _ _ _ _ C2) as (w2 & Ew2 & EW2).
  change (number_events (enlarged cfg k)) with (number_events cfg) in Ew2.
  assert (w2 = w) by congruence. subst w2. rewrite EW in W. rewrite EW2 in W2.
  apply delivered_effects in W. apply delivered_effects in W2. destruct W as [-> _]. destruct W2 as [-> _].
  rewrite (ct_out _ _ _ _ _ _ _ _ _ _ _ C), (ct_out _ _ _ _ _ _ _ _ _ _ _ C2).
  change (quiet (enlarged cfg k)) with (quiet cfg). destruct (quiet cfg); [reflexivity|].
  do 2 f_equal. clear -P F. induction P as [|d d2 ds ds2 Q P IH]; [reflexivity|].
  inversion F as [|? ? F1 F2]; subst. cbn [map]. rewrite (IH F2). f_equal.
  destruct Q as ((Q1 & Q2 & Q3 & _ & _ & Q6) & _ & _ & _ & _ & G). destruct (G F1) as [G1 G2].
  unfold line_of, stream_line. rewrite Q1, Q2, Q3, Q6, G1, G2. reflexivity.
Qed.
