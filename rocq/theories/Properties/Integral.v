(** C65: the integral of each nuclear thickness grid is the weight of the
    participants, and the multiplicity follows. *)
From Coq Require Import Reals Lra Lia ZArith List String.
From Flocq Require Import Core.
From Verif.Base Require Import Result Arith RArith.
From Verif.Model Require Import Config Nucleon Event.
From Verif.Spec Require Import Grid Evolved Profile Mean Total Accuracy MeanRounded Integral.
From Verif.Proof Require Import Basics RBasics GridP EventP DepositR ReducedP MeanP SymP DiscSum.
From Verif.Properties Require Import GridProps Thickness Reduced.
Import ListNotations.
Local Open Scope R_scope.

Lemma integral_cells st N (f : Z -> Z -> R) : integral st N f = RBasics.Rsum (fun c : Z * Z => st * st * f (fst c) (snd c)) (cells N).
Proof.
  unfold integral. rewrite Rsum_scale. replace (st ^ 2) with (st * st) by ring. f_equal. unfold cells.
  induction (zupto N) as [|iy l IH] at 2 4; [reflexivity|]. cbn [flat_map]. rewrite Rsum_cons, Rsum_app, Rsum_map, IH. reflexivity.
Qed.

Lemma Rsum_swap {X Y} (f : X -> Y -> R) l m :
  RBasics.Rsum (fun x => RBasics.Rsum (fun y => f x y) m) l = RBasics.Rsum (fun y => RBasics.Rsum (fun x => f x y) l) m.
Proof.
  induction l as [|x l IH]; [cbn; rewrite Rsum_const; ring|]. rewrite Rsum_cons, IH. rewrite <- Rsum_plus. apply Rsum_ext. intros y _. reflexivity.
Qed.

Lemma integral_sum {X} st N (f : X -> Z -> Z -> R) l :
  integral st N (fun iy ix => RBasics.Rsum (fun a => f a iy ix) l) = RBasics.Rsum (fun a => integral st N (f a)) l.
Proof.
  rewrite integral_cells. rewrite (Rsum_ext (fun a => integral st N (f a)) (fun a => RBasics.Rsum (fun c : Z * Z => st * st * f a (fst c) (snd c)) (cells N))) by (intros; apply integral_cells).
  rewrite <- (Rsum_swap (fun c a => st * st * f a (fst c) (snd c))). apply Rsum_ext. intros c _. rewrite Rsum_scale. reflexivity.
Qed.

Lemma integral_ext st N f g : (forall iy ix, (0 <= iy < N)%Z -> (0 <= ix < N)%Z -> f iy ix = g iy ix) -> integral st N f = integral st N g.
Proof. intros H. rewrite !integral_cells. apply Rsum_ext. intros [iy ix] Hc. apply in_cells in Hc. destruct Hc. cbn [fst snd]. rewrite H; auto. Qed.

Lemma integral_le st N f g : (forall iy ix, (0 <= iy < N)%Z -> (0 <= ix < N)%Z -> f iy ix <= g iy ix) -> integral st N f <= integral st N g.
Proof.
  intros H. rewrite !integral_cells. apply Rsum_le. intros [iy ix] Hc. apply in_cells in Hc. destruct Hc. cbn [fst snd].
  apply Rmult_le_compat_l; [apply Rle_0_sqr|]. apply H; auto.
Qed.

Lemma integral_scale st N c f : integral st N (fun iy ix => c * f iy ix) = c * integral st N f.
Proof. rewrite !integral_cells, <- Rsum_scale. apply Rsum_ext. intros x _. ring. Qed.

Lemma integral_plus st N f g : integral st N (fun iy ix => f iy ix + g iy ix) = integral st N f + integral st N g.
Proof. rewrite !integral_cells, <- Rsum_plus. apply Rsum_ext. intros x _. ring. Qed.

(** One constituent, cut at any radius within 2% of five widths. *)
Lemma constituent_integral (v m st cut : R) (q : constituent RA) (N : Z) :
  0 < st <= v -> 0 < m -> 49 / 10 * v <= cut <= 51 / 10 * v -> 0 <= q_fluct q -> fits (IZR N * st / 2) (5 * v) q ->
  let F := integral st N (fun iy ix => let x := (IZR ix + / 2) * st - IZR N * st / 2 in let y := (IZR iy + / 2) * st - IZR N * st / 2 in
    if Rlt_dec (dist x y q) cut then q_fluct q / m * gauss2 (v ^ 2) (x - q_x q) (y - q_y q) else 0) in
  Rabs (F - q_fluct q / m) <= disc_error (st / v) * (q_fluct q / m).
Proof.
  intros Hs Hm Hc Hf [Fx Fy] F. pose proof (disc_sum v st (q_x q) (q_y q) cut N Hs Hc Fx Fy) as D.
  assert (E : F = q_fluct q / m * RBasics.Rsum (fun c : Z * Z =>
      let dx := (IZR (snd c) + / 2) * st - IZR N * st / 2 - q_x q in
      let dy := (IZR (fst c) + / 2) * st - IZR N * st / 2 - q_y q in
      if Rlt_dec (sqrt (dx ^ 2 + dy ^ 2)) cut then st * st * gauss2 (v ^ 2) dx dy else 0) (cells N)).
  { unfold F. rewrite integral_cells, <- Rsum_scale. apply Rsum_ext. intros c _. cbv zeta. unfold dist.
    match goal with |- context [Rlt_dec ?a ?b] => destruct (Rlt_dec a b) end; toR; ring. }
  assert (W : 0 <= q_fluct q / m) by (apply Rmult_le_pos; [exact Hf|apply Rlt_le, Rinv_0_lt_compat; exact Hm]).
  rewrite E. set (D0 := RBasics.Rsum _ _) in *. clearbody D0.
  replace (q_fluct q / m * D0 - q_fluct q / m) with (q_fluct q / m * (D0 - 1)) by (toR; ring).
  rewrite Rabs_mult, (Rabs_pos_eq (q_fluct q / m)) by exact W. rewrite (Rmult_comm (disc_error _)). apply Rmult_le_compat_l; assumption.
Qed.

Lemma Rsum_close {X} (f w : X -> R) e l : (forall x, In x l -> Rabs (f x - w x) <= e * w x) -> Rabs (RBasics.Rsum f l - RBasics.Rsum w l) <= e * RBasics.Rsum w l.
Proof.
  induction l as [|x l IH]; intros H; [cbn; rewrite Rminus_0_r, Rabs_R0; lra|]. rewrite !Rsum_cons.
  replace (f x + RBasics.Rsum f l - (w x + RBasics.Rsum w l)) with ((f x - w x) + (RBasics.Rsum f l - RBasics.Rsum w l)) by ring.
  pose proof (Rabs_triang (f x - w x) (RBasics.Rsum f l - RBasics.Rsum w l)). pose proof (H x (or_introl eq_refl)).
  specialize (IH (fun y Hy => H y (or_intror Hy))). lra.
Qed.

Lemma nucleus_integral (v m st cut : R) (ns : list (nucleon RA)) (N : Z) :
  0 < st <= v -> 0 < m -> 49 / 10 * v <= cut <= 51 / 10 * v -> contained (IZR N * st / 2) v ns ->
  Rabs (integral st N (fun iy ix => RBasics.Rsum (fun n => cut_profile cut v m (n_cons n)
      ((IZR ix + / 2) * st - IZR N * st / 2) ((IZR iy + / 2) * st - IZR N * st / 2)) (filter n_part ns)) - nucleus_weight m ns)
  <= disc_error (st / v) * nucleus_weight m ns.
Proof.
  intros Hs Hm Hc HC. rewrite (integral_sum st N (fun n iy ix => cut_profile cut v m (n_cons n) _ _)). unfold nucleus_weight.
  apply Rsum_close. intros n Hn. apply filter_In in Hn. destruct Hn as [Hn Hp]. unfold cut_profile, nucleon_weight.
  rewrite (integral_sum st N (fun (q : constituent RA) iy ix => if Rlt_dec (dist _ _ q) cut then q_fluct q / m * gauss2 (v ^ 2) (_ - q_x q) (_ - q_y q) else 0)).
  apply Rsum_close. intros q Hq. destruct (HC n q Hn Hp Hq) as [Hf Hft].
  apply (constituent_integral v m st cut q N Hs Hm Hc Hf Hft).
Qed.

Lemma disc_grid s : 0 < s <= 1 -> 0 < disc_error s /\ disc_error s + 35 / 100000 * (1 + disc_error s) <= grid_error s /\ 0 < grid_error s <= 75 / 1000.
Proof.
  intros Hs. assert (S2 : 0 < s ^ 2 <= 1) by (simpl; nra). assert (S4 : 0 < s ^ 4 <= 1) by (replace (s ^ 4) with (s ^ 2 * s ^ 2) by ring; nra).
  unfold disc_error, grid_error. lra.
Qed.

Lemma ratio_range (st v : R) : 0 < st <= v -> 0 < st / v <= 1.
Proof.
  intros H. split; [apply Rdiv_lt_0_compat; lra|]. apply Rmult_le_reg_r with v; [lra|]. unfold Rdiv. rewrite Rmult_assoc, Rinv_l by lra. lra.
Qed.

Lemma nucleus_weight_nonneg m half v ns : 0 < m -> contained half v ns -> 0 <= nucleus_weight m ns.
Proof.
  intros Hm HC. apply Rsum_nonneg. intros n Hn. apply filter_In in Hn. destruct Hn. apply Rsum_nonneg. intros q Hq.
  apply Rmult_le_pos; [apply (HC n q); assumption|apply Rlt_le, Rinv_0_lt_compat, Hm].
Qed.

(** ** The thickness grids

    If every participant's Gaussians lie on the grid and the step is at most the
    constituent width, the integral of the thickness grid of each nucleus is the
    weight of its participants, up to [grid_error (step / width)] (0.15% for a step of a quarter
    of the width, 7.5% for a step equal to the width). *)
Theorem C65_thickness :
  forall (cfg : config RA) (sp : R) (ev : event RA) dbg nA nB ev',
  0 < grid_step cfg <= constit_width cfg -> (0 < constit_number cfg <= 2147483647)%Z ->
  evolved cfg ev -> event_compute dbg ev nA nB (nucleon_common_of cfg sp) = Ret ev' ->
  let N := ev_nsteps ev in let st := grid_step cfg in let v := constit_width cfg in let m := IZR (constit_number cfg) in
  contained (IZR N * st / 2) v nA -> contained (IZR N * st / 2) v nB ->
  Rabs (integral st N (cell (ev_TA ev')) - nucleus_weight m nA) <= grid_error (st / v) * nucleus_weight m nA /\
  Rabs (integral st N (cell (ev_TB ev')) - nucleus_weight m nB) <= grid_error (st / v) * nucleus_weight m nB.
Proof.
  intros cfg sp ev dbg nA nB ev' Hs Hn He H N st v m CA CB.
  assert (Hm : 0 < m) by (apply IZR_lt; lia).
  assert (G : forall nucl (grd : grid RA), (nucl, grd) = (nA, ev_TA ev') \/ (nucl, grd) = (nB, ev_TB ev') -> contained (IZR N * st / 2) v nucl ->
    Rabs (integral st N (cell grd) - nucleus_weight m nucl) <= grid_error (st / v) * nucleus_weight m nucl).
  2:{ split; apply G; auto. }
  intros nucl grd Hg HC. set (W := nucleus_weight m nucl).
  set (P := fun iy ix : Z => RBasics.Rsum (fun n => cut_profile (5 * v) v m (n_cons n) ((IZR ix + / 2) * st - IZR N * st / 2) ((IZR iy + / 2) * st - IZR N * st / 2)) (filter n_part nucl)).
  pose proof (nucleus_integral v m st (5 * v) nucl N Hs Hm ltac:(unfold v; lra) HC) as NI. fold P in NI. fold W in NI.
  assert (B : forall iy ix, (0 <= iy < N)%Z -> (0 <= ix < N)%Z -> (1 - 2 / 100000) * P iy ix <= cell grd iy ix <= P iy ix).
  { intros iy ix Hy Hx. destruct (C11_full_sum cfg sp ev dbg nA nB ev' iy ix ltac:(lra) He H Hy Hx nucl grd Hg) as (ts & FT & ->).
    unfold P. clear - FT HC Hs Hn. set (x := (IZR ix + / 2) * st - _) in *. set (y := (IZR iy + / 2) * st - _) in *.
    fold N st x y in FT.
    assert (HC' : forall n q, In n (filter n_part nucl) -> In q (n_cons n) -> 0 <= q_fluct q).
    { intros n q Hi Hq. apply filter_In in Hi. destruct Hi. apply (HC n q); assumption. }
    clear HC. induction FT as [|n t ns ts Hnt FT IH]; [cbn; lra|]. rewrite Rsum_cons. cbn [fold_right].
    specialize (IH (fun n' q' Hi Hq => HC' n' q' (or_intror Hi) Hq)).
    destruct (C19_thickness cfg sp n dbg x y ltac:(lra) Hn (fun q => HC' n q (or_introl eq_refl))) as (t' & E & _ & AB & [UB _] & _).
    rewrite Hnt in E. apply Ret_inj in E || injection E as E. subst t'. change (cut_profile (5 * v) v m (n_cons n) x y) with (profile v m (n_cons n) x y).
    apply Rabs_def2x in AB. fold v m in AB, UB. lra. }
  assert (U : integral st N (cell grd) <= integral st N P) by (apply integral_le; intros; apply B; auto).
  assert (L : (1 - 2 / 100000) * integral st N P <= integral st N (cell grd)).
  { rewrite <- integral_scale. apply integral_le; intros; apply B; auto. }
  pose proof (nucleus_weight_nonneg m _ v nucl Hm HC) as W0. fold W in W0.
  destruct (disc_grid (st / v) (ratio_range st v Hs)) as (D0 & D1 & _).
  apply Rabs_def2x in NI. apply Rabs_le.
  assert (X : (disc_error (st / v) + 35 / 100000 * (1 + disc_error (st / v))) * W <= grid_error (st / v) * W) by (apply Rmult_le_compat_r; assumption).
  assert (Z : 0 <= disc_error (st / v) * W) by (apply Rmult_le_pos; lra). lra.
Qed.

(** ** The generalized mean is at most the arithmetic mean for p <= 1 *)
Lemma exp_convex p y : 0 <= p <= 1 -> exp (p * y) <= 1 + p * (exp y - 1).
Proof.
  intros Hp. pose proof (exp_pos (p * y)) as E.
  assert (T : forall z, exp (p * y) * (1 + z) <= exp (p * y + z)).
  { intros z. rewrite exp_plus. apply Rmult_le_compat_l; [lra|]. apply exp_ineq1_le. }
  pose proof (T ((1 - p) * y)) as T1. replace (p * y + (1 - p) * y) with y in T1 by ring.
  pose proof (T (- (p * y))) as T2. replace (p * y + - (p * y)) with 0 in T2 by ring. rewrite exp_0 in T2.
  assert (p * (exp (p * y) * (1 + (1 - p) * y)) <= p * exp y) by (apply Rmult_le_compat_l; lra).
  assert ((1 - p) * (exp (p * y) * (1 + - (p * y))) <= (1 - p) * 1) by (apply Rmult_le_compat_l; lra).
  replace (exp (p * y)) with (p * (exp (p * y) * (1 + (1 - p) * y)) + (1 - p) * (exp (p * y) * (1 + - (p * y)))) by ring. lra.
Qed.

Lemma exp_tangent p y : p <= 0 -> 1 + p * (exp y - 1) <= exp (p * y).
Proof. intros Hp. pose proof (exp_ineq1_le (p * y)). pose proof (exp_ineq1_le y). assert (p * (exp y - 1) <= p * y) by (apply Rmult_le_compat_neg_l; lra). lra. Qed.

Lemma mean_at_one eps a b : eps <= 1 -> 0 <= a -> 0 <= b -> mean_at eps 1 a b = (a + b) / 2.
Proof.
  intros He Ha Hb. unfold mean_at. rewrite Rabs_R1. destruct (Rlt_dec 1 eps) as [X|_]; [lra|]. destruct (Rlt_dec 0 1); [|lra].
  assert (P : forall x, 0 <= x -> pow0 x 1 = x).
  { intros x Hx. unfold pow0. destruct (Req_EM_T x 0) as [->|Q]; [reflexivity|]. apply Rpower_1. lra. }
  rewrite (P a), (P b) by assumption. replace (1 / 1) with 1 by field. apply P. lra.
Qed.

Lemma mean_below eps p a b : 0 < eps -> p <= 1 -> 0 <= a -> 0 <= b -> 0 <= mean_at eps p a b <= (a + b) / 2.
Proof.
  intros E0 Hp Ha Hb. split.
  { unfold mean_at, pow0. repeat (destruct (Rlt_dec _ _) || destruct (Req_EM_T _ _)); try apply sqrt_pos; try lra; apply Rlt_le, exp_pos. }
  unfold mean_at. destruct (Rlt_dec (Rabs p) eps) as [Hz|Hz].
  { apply Rnot_lt_le. intros C. pose proof (sqrt_sqrt (a * b) (Rmult_le_pos _ _ Ha Hb)) as S2.
    assert ((a + b) / 2 * ((a + b) / 2) < sqrt (a * b) * sqrt (a * b)) by (apply Rmult_le_0_lt_compat; lra).
    pose proof (Rle_0_sqr (a - b)). unfold Rsqr in *. nra. }
  assert (PM : forall x M, 0 < x -> 0 < M -> Rpower x p = Rpower M p * exp (p * ln (x / M))).
  { intros x M Hx HM. unfold Rpower. rewrite <- exp_plus. f_equal. unfold Rdiv. rewrite ln_mult, ln_Rinv by (try apply Rinv_0_lt_compat; assumption). ring. }
  assert (EX : forall x M, 0 < x -> 0 < M -> exp (ln (x / M)) = x / M) by (intros; apply exp_ln, Rdiv_lt_0_compat; assumption).
  destruct (Rlt_dec 0 p) as [P0|P0].
  - set (M := (a + b) / 2). destruct (Req_dec M 0) as [HM|HM].
    { assert (a = 0) by (unfold M in HM; lra). assert (b = 0) by (unfold M in HM; lra). subst. unfold pow0 at 2 3. destruct (Req_EM_T 0 0); [|lra].
      unfold pow0. destruct (Req_EM_T _ 0) as [_|Q]; [unfold M; lra|destruct Q; lra]. }
    assert (M0 : 0 < M) by (unfold M in *; lra).
    assert (RM : 0 < Rpower M p) by apply exp_pos.
    assert (B : forall x, 0 <= x -> 0 <= pow0 x p <= Rpower M p * (1 + p * (x / M - 1))).
    { intros x Hx. unfold pow0. destruct (Req_EM_T x 0) as [->|Q].
      - split; [lra|]. apply Rmult_le_pos; [lra|]. unfold Rdiv. rewrite Rmult_0_l. lra.
      - split; [apply Rlt_le, exp_pos|]. rewrite (PM x M) by lra. apply Rmult_le_compat_l; [lra|]. pose proof (exp_convex p (ln (x / M)) ltac:(lra)) as C. rewrite EX in C by lra. exact C. }
    pose proof (B a Ha) as BA. pose proof (B b Hb) as BB.
    assert (S : 0 <= (pow0 a p + pow0 b p) / 2 <= Rpower M p).
    { split; [lra|]. replace (Rpower M p) with ((Rpower M p * (1 + p * (a / M - 1)) + Rpower M p * (1 + p * (b / M - 1))) / 2); [lra|].
      replace b with (2 * M - a) by (unfold M; field). field. lra. }
    unfold pow0 at 1. destruct (Req_EM_T _ 0) as [_|Q]; [lra|].
    apply Rle_trans with (Rpower (Rpower M p) (1 / p)).
    + apply Rle_Rpower_l; [apply Rlt_le, Rdiv_lt_0_compat; lra|lra].
    + rewrite Rpower_mult. replace (p * (1 / p)) with 1 by (field; lra). rewrite Rpower_1 by exact M0. lra.
  - destruct (Rlt_dec a eps) as [_|A1]; [lra|]. destruct (Rlt_dec b eps) as [_|B1]; [lra|].
    set (M := (a + b) / 2). assert (M0 : 0 < M) by (unfold M; lra). assert (RM : 0 < Rpower M p) by apply exp_pos.
    assert (pn : p < 0).
    { destruct (Req_dec p 0) as [->|Q]; [rewrite Rabs_R0 in Hz; lra|lra]. }
    assert (B : forall x, 0 < x -> Rpower M p * (1 + p * (x / M - 1)) <= Rpower x p).
    { intros x Hx. rewrite (PM x M) by lra. apply Rmult_le_compat_l; [lra|]. pose proof (exp_tangent p (ln (x / M)) ltac:(lra)) as C. rewrite EX in C by lra. exact C. }
    pose proof (B a ltac:(lra)) as BA. pose proof (B b ltac:(lra)) as BB.
    assert (S : Rpower M p <= (Rpower a p + Rpower b p) / 2).
    { replace (Rpower M p) with ((Rpower M p * (1 + p * (a / M - 1)) + Rpower M p * (1 + p * (b / M - 1))) / 2); [lra|].
      replace b with (2 * M - a) by (unfold M; field). field. lra. }
    set (S0 := (Rpower a p + Rpower b p) / 2) in *.
    replace (1 / p) with (- (1 / - p)) by (field; lra). rewrite Rpower_Ropp.
    replace M with (/ Rpower (Rpower M p) (1 / - p)).
    2:{ rewrite Rpower_mult. replace (p * (1 / - p)) with (Ropp 1) by (field; lra). rewrite Rpower_Ropp, Rpower_1, Rinv_inv by exact M0. reflexivity. }
    apply Rinv_le_contravar; [apply exp_pos|]. apply Rle_Rpower_l; [apply Rlt_le, Rdiv_lt_0_compat; lra|lra].
Qed.

(** ** The multiplicity

    For p = 1 it is norm times half the total weight of both nuclei, and for every
    p <= 1 at most that, up to the same relative error. *)
Theorem C65_multiplicity :
  forall (cfg : config RA) (sp : R) (ev : event RA) dbg nA nB ev',
  0 < grid_step cfg <= constit_width cfg -> (0 < constit_number cfg <= 2147483647)%Z ->
  0 <= normalization cfg -> reduced_thickness cfg <= 1 ->
  evolved cfg ev -> event_compute dbg ev nA nB (nucleon_common_of cfg sp) = Ret ev' ->
  let N := ev_nsteps ev in let st := grid_step cfg in let v := constit_width cfg in let m := IZR (constit_number cfg) in
  contained (IZR N * st / 2) v nA -> contained (IZR N * st / 2) v nB ->
  let W := normalization cfg * (nucleus_weight m nA + nucleus_weight m nB) / 2 in
  0 <= ev_mult ev' <= (1 + grid_error (st / v)) * W /\
  (reduced_thickness cfg = 1 -> Rabs (ev_mult ev' - W) <= grid_error (st / v) * W).
Proof.
  intros cfg sp ev dbg nA nB ev' Hs Hn Hno Hp He H N st v m CA CB W.
  destruct (C65_thickness cfg sp ev dbg nA nB ev' Hs Hn He H CA CB) as [TA TB]. fold N st v m in TA, TB.
  assert (Hm : 0 < m) by (apply IZR_lt; lia).
  destruct (C15_real _ _ _ _ _ _ _ He H) as [_ M0]. specialize (M0 Hno). destruct M0 as [_ M0].
  destruct (compute_R _ _ _ _ _ _ _ He H) as [EM _]. 
  pose proof (evolved_ready _ _ He) as Hr. destruct (evolved_R _ _ He) as (PD & PX & PN & PM).
  pose proof (event_compute_inv _ _ _ _ _ _ Hr H) as (_ & (k & k' & EA & EB & _) & _ & _ & _ & CT & _).
  fold N in CT, EM, EA, EB. 
  assert (NN : forall iy ix, (0 <= iy < N)%Z -> (0 <= ix < N)%Z -> 0 <= cell (ev_TA ev') iy ix /\ 0 <= cell (ev_TB ev') iy ix).
  { intros iy ix Hy Hx. rewrite PD, PX in EA, EB.
    assert (S0 : 0 < grid_step cfg) by apply Hs.
    pose proof (nuclear_thickness_R _ _ _ _ _ _ _ _ _ _ S0 EA iy ix (conj Hy Hx)) as CCA.
    pose proof (nuclear_thickness_R _ _ _ _ _ _ _ _ _ _ S0 EB iy ix (conj Hy Hx)) as CCB.
    rewrite CCA, CCB. split; apply Rsum_nonneg; intros n Hi; apply filter_In in Hi; destruct Hi as [Hi Hpt]; apply thick_nonneg; auto;
    try (apply Rlt_le_trans with (grid_step cfg); apply Hs); intros q Hq; [apply (CA n q)|apply (CB n q)]; assumption. }
  assert (ER : forall iy ix, (0 <= iy < N)%Z -> (0 <= ix < N)%Z ->
    cell (ev_TR ev') iy ix = normalization cfg * M_p (reduced_thickness cfg) (cell (ev_TA ev') iy ix) (cell (ev_TB ev') iy ix)).
  { intros iy ix Hy Hx. destruct (NN iy ix Hy Hx). rewrite (CT iy ix) by (split; auto). unfold rt. cbn [fst snd]. rewrite PN, PM.
    rewrite gen_mean_spec by assumption. reflexivity. }
  assert (EI : ev_mult ev' = integral st N (cell (ev_TR ev'))).
  { rewrite EM, integral_cells. rewrite Rsum_scale. fold st. toR. f_equal. }
  set (H2 := fun iy ix => normalization cfg / 2 * (cell (ev_TA ev') iy ix + cell (ev_TB ev') iy ix)).
  assert (IH2 : integral st N H2 = normalization cfg / 2 * (integral st N (cell (ev_TA ev')) + integral st N (cell (ev_TB ev')))).
  { unfold H2. rewrite (integral_scale st N (normalization cfg / 2)), integral_plus. reflexivity. }
  apply Rabs_def2x in TA, TB.
  assert (B : Rabs (integral st N H2 - W) <= grid_error (st / v) * W).
  { rewrite IH2. unfold W. set (IA := integral st N (cell (ev_TA ev'))) in *. set (IB := integral st N (cell (ev_TB ev'))) in *.
    set (WA := nucleus_weight m nA) in *. set (WB := nucleus_weight m nB) in *. set (g := grid_error (st / v)) in *.
    replace (normalization cfg / 2 * (IA + IB) - normalization cfg * (WA + WB) / 2) with (normalization cfg / 2 * ((IA - WA) + (IB - WB))) by (toR; field).
    rewrite Rabs_mult, (Rabs_pos_eq (normalization cfg / 2)) by (toR; lra).
    replace (g * (normalization cfg * (WA + WB) / 2)) with (normalization cfg / 2 * (g * WA + g * WB)) by (toR; field).
    apply Rmult_le_compat_l; [toR; lra|]. apply Rabs_le. lra. }
  split.
  - split; [exact M0|]. rewrite EI. apply Rle_trans with (integral st N H2); [|apply Rabs_def2x in B; lra].
    apply integral_le. intros iy ix Hy Hx. rewrite ER by assumption. unfold H2. destruct (NN iy ix Hy Hx) as [NA NB].
    pose proof (mean_below eps12 (reduced_thickness cfg) _ _ eps12_pos Hp NA NB) as [_ MB].
    apply Rle_trans with (normalization cfg * ((cell (ev_TA ev') iy ix + cell (ev_TB ev') iy ix) / 2)); [apply Rmult_le_compat_l; assumption|].
    toR. lra.
  - intros E1. rewrite EI. replace (integral st N (cell (ev_TR ev'))) with (integral st N H2); [exact B|].
    apply integral_ext. intros iy ix Hy Hx. rewrite ER by assumption. rewrite E1. unfold H2. destruct (NN iy ix Hy Hx) as [NA NB].
    change (M_p 1) with (mean_at eps12 1). rewrite mean_at_one by (assumption || (unfold eps12; lra)). toR. field.
Qed.

(** A case: the nuclei of GridProps (weights 3/2 and 2, one spectator) on a 32 x 32 grid of
    half-width 4 and step 1/4, constituent width 1/2, p = 1, norm 3: the multiplicity is 21/4 within 1%. *)
Definition wide_config : config RA :=
  @Config RA ["p"; "p"]%string 1 false None false false 1 1 (1/2) (1/2) 2 0 (64/10) 3 0 1 1 4 (1/4).

Example C65_instance : forall dbg sp, exists ev ev',
  event_new wide_config = Ret ev /\ event_compute dbg ev scene_A scene_B (nucleon_common_of wide_config sp) = Ret ev' /\
  contained (IZR (ev_nsteps ev) * grid_step wide_config / 2) (constit_width wide_config) scene_A /\
  contained (IZR (ev_nsteps ev) * grid_step wide_config / 2) (constit_width wide_config) scene_B /\
  Rabs (integral (1 / 4) 32 (cell (ev_TA ev')) - 3 / 2) <= 1 / 100 /\
  Rabs (integral (1 / 4) 32 (cell (ev_TB ev')) - 2) <= 13 / 1000 /\
  Rabs (ev_mult ev' - 21 / 4) <= 4 / 100.
Proof.
  intros dbg sp. destruct (C12_geometry wide_config) as (ev & E & N & _); [cbn; lra..|].
  assert (N32 : ev_nsteps ev = 32%Z) by (rewrite N; cbn; replace (2 * 4 / (1 / 4)) with (IZR 32) by (simpl; field); apply Zceil_IZR).
  assert (He : evolved wide_config ev) by (constructor; exact E).
  assert (CA : contained (IZR (ev_nsteps ev) * grid_step wide_config / 2) (constit_width wide_config) scene_A).
  { rewrite N32. intros n q [<-|[<-|[]]] Hp; [|discriminate Hp]. intros [<-|[<-|[]]]; unfold fits; cbn [q_x q_y q_fluct grid_step constit_width wide_config];
    rewrite ?(Rabs_pos_eq (1 / 10)), ?(Rabs_left (-1 / 10)), ?Rabs_R0 by lra; lra. }
  assert (CB : contained (IZR (ev_nsteps ev) * grid_step wide_config / 2) (constit_width wide_config) scene_B).
  { rewrite N32. intros n q [<-|[]] Hp. intros [<-|[<-|[]]]; unfold fits; cbn [q_x q_y q_fluct grid_step constit_width wide_config];
    rewrite ?(Rabs_pos_eq (11 / 10)), ?(Rabs_pos_eq (9 / 10)), ?(Rabs_pos_eq (1 / 2)) by lra; lra. }
  destruct (C13_compute_returns_R wide_config sp ev dbg scene_A scene_B) as (ev' & E'); auto.
  - cbn; lra.
  - cbn; lra.
  - intros n Hn Hp. destruct (scene_near n Hn Hp) as [Hc _]. split; [exact Hc|].
    intros b0 b1 b2 b3 b Hb Hi.
    assert (B : -10 <= b <= 10) by (eapply (near_box n sp b0 b1 b2 b3); eauto using scene_near).
    assert (X : ev_xymax ev = 4).
    { destruct (evolved_R _ _ He) as (_ & X & _). rewrite X, N32. cbn [grid_step wide_config]. lra. }
    rewrite X. cbn [grid_step wide_config]. lra.
  - exists ev, ev'. split; [exact E|]. split; [exact E'|]. split; [exact CA|]. split; [exact CB|].
    destruct (C65_thickness wide_config sp ev dbg scene_A scene_B ev' ltac:(cbn; lra) ltac:(cbn; lia) He E' CA CB) as [TA TB].
    destruct (C65_multiplicity wide_config sp ev dbg scene_A scene_B ev' ltac:(cbn; lra) ltac:(cbn; lia) ltac:(cbn; lra) ltac:(cbn; lra) He E' CA CB) as [_ M].
    specialize (M eq_refl). rewrite N32 in TA, TB.
    assert (WA : nucleus_weight (IZR (constit_number wide_config)) scene_A = 3 / 2) by (unfold nucleus_weight, nucleon_weight; cbn; lra).
    assert (WB : nucleus_weight (IZR (constit_number wide_config)) scene_B = 2) by (unfold nucleus_weight, nucleon_weight; cbn; lra).
    rewrite WA in TA, M. rewrite WB in TB, M. change (grid_step wide_config) with (1 / 4) in *. change (constit_width wide_config) with (1 / 2) in *.
    change (normalization wide_config) with 3 in M.
    assert (G : grid_error (1 / 4 / (1 / 2)) <= 6 / 1000) by (unfold grid_error; replace (1 / 4 / (1 / 2)) with (/ 2) by field; lra).
    split; [|split]; [eapply Rle_trans; [exact TA|lra]|eapply Rle_trans; [exact TB|lra]|].
    replace (21 / 4) with (3 * (3 / 2 + 2) / 2) by field. eapply Rle_trans; [exact M|]. lra.
Qed.
