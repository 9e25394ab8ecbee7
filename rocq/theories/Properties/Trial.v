(** C40: what one Monte-Carlo trial is, what the estimate averages, and what the
    fit returns. *)
From Coq Require Import Reals Lra Permutation.
From Verif.Base Require Import Result Arith RArith Rng.
From Verif.Model Require Import Random Config Nucleon CrossSection.
From Verif.Spec Require Import Contract Cyclic Profile MonteCarlo.
From Verif.Proof Require Import Basics RBasics CyclicP MonteCarloP.
From Verif.Properties Require Import Events CyclicNormal MonteCarlo Constituents.
Local Open Scope R_scope.

(** Consecutive values x, y, x', y', ... as points of the plane, moved by (dx, dy). *)
Fixpoint points (dx dy : R) (zs : list R) : list (R * R) :=
  match zs with
  | x :: y :: r => (dx + x, dy + y) :: points dx dy r
  | _ => []
  end.

(** The overlap of two sums of m normalised Gaussians of width v with weights
    1/m, centred at the points [ps] and [qs]. *)
Definition T_points (m v : R) (ps qs : list (R * R)) : R :=
  Rsum (fun p : R * R => Rsum (fun q : R * R => / m * / m * gauss2 (2 * v ^ 2) (fst p - fst q) (snd p - snd q)) qs) ps.

(** The same as in C24, where the points are constituents. *)
Lemma T_points_AB m v (qa qb : list (constituent RA)) :
  T_points m v (map (fun q => (q_x q, q_y q)) qa) (map (fun q => (q_x q, q_y q)) qb) = T_AB m v qa qb.
Proof.
  unfold T_points, T_AB. rewrite Rsum_map. apply Rsum_ext. intros p _. rewrite Rsum_map. reflexivity.
Qed.

(** Real arithmetic with any function as inverse error function and any as
    exponential integral. *)
Section Real.
Variables (Ei erfinv : R -> R).
Let RX := RA_with Ei erfinv.

(** One trial for the parameter [sp]: from the engine state [e] and the state
    [c] of the generator of normal values to [e'] and [c'].  The impact parameter
    is 6 w sqrt u, so that its square is uniform below (6 w)^2; the constituents
    of nucleon A (about the origin, then moved by b) and B are the next 4 m values
    of the generator; the result is the probability exp(-sp T_AB) that the two
    nucleons do not collide. *)
Definition trial (rg : Rng RX) (cfg : config RX) (sp : R)
    (c : cyclic) (e : engine rg) (miss : R) (c' : cyclic) (e' : engine rg) : Prop :=
  exists (u : R) e1 (zA zB : list R) c1 e2,
    let m := constit_number cfg in
    let b := 6 * nucleon_width cfg * sqrt u in
    canonical rg e = (u, e1) /\
    draws rg (2 * Z.to_nat m) c e1 = (Ret (zA, c1), e2) /\
    draws rg (2 * Z.to_nat m) c1 e2 = (Ret (zB, c'), e') /\
    length zA = (2 * Z.to_nat m)%nat /\ length zB = (2 * Z.to_nat m)%nat /\
    miss = exp (- (sp * T_points (IZR m) (constit_width cfg) (points b 0 zA) (points 0 0 zB))).

(** Successive trials. *)
Inductive trials (rg : Rng RX) (cfg : config RX) (sp : R)
  : cyclic -> engine rg -> list R -> cyclic -> engine rg -> Prop :=
| trials_none : forall c e, trials rg cfg sp c e [] c e
| trials_more : forall c e x c1 e1 xs c2 e2,
    trial rg cfg sp c e x c1 e1 -> trials rg cfg sp c1 e1 xs c2 e2 ->
    trials rg cfg sp c e (x :: xs) c2 e2.

(** ** Draws *)
Lemma mc_draw_points (rg : Rng RX) k : forall c e qs c' e',
  mc_draw rg k c e = (Ret (qs, c'), e') ->
  exists zs, draws rg (2 * k) c e = (Ret (zs, c'), e') /\ length zs = (2 * k)%nat /\
    forall dx dy, points dx dy zs = map (fun q => (dx + fst q, dy + snd q)) qs.
Proof.
  induction k as [|k IH]; intros c e qs c' e' H.
  - cbn [mc_draw] in H. apply pair_Ret_inj in H. destruct H as [H <-]. injection H as <- <-.
    exists []. repeat split; reflexivity.
  - cbn [mc_draw] in H. mstep H. destruct x as [x c1]. mstep H. destruct x0 as [y c2]. mstep H. destruct x0 as [qs' c3].
    apply pair_Ret_inj in H. destruct H as [H ->]. injection H as <- ->.
    match goal with K : mc_draw _ _ _ _ = _ |- _ => destruct (IH _ _ _ _ _ K) as (zs & D & L & P) end.
    exists (x :: y :: zs). replace (2 * S k)%nat with (S (S (2 * k))) by lia. split; [|split].
    + cbn [draws]. erewrite bind_run by eassumption. cbv beta iota.
      erewrite bind_run by (erewrite bind_run by eassumption; cbv beta iota; erewrite bind_run by exact D; reflexivity). reflexivity.
    + cbn [length]. change (S (S (length zs)) = S (S (2 * k))). rewrite L. reflexivity.
    + intros dx dy. cbn [points map fst snd]. rewrite P. reflexivity.
Qed.

(** ** One trial *)
Lemma mc_overlap_R (cfg : config RX) b (qa qb : list (R * R)) :
  mc_overlap (A:=RX) (mc_new cfg) b qa qb =
  Rsum (fun p : R * R => Rsum (fun q : R * R =>
     exp (- Rlit 25 (-2) * ((fst p - fst q + b) * (fst p - fst q + b) + (snd p - snd q) * (snd p - snd q)) / (constit_width cfg * constit_width cfg)))%R qb) qa.
Proof.
  unfold mc_overlap. change (nlit RX 0 0) with (Rlit 0 0).
  etransitivity; [apply (fold_left_Rsum2 (fun p q => mc_pair (A:=RX) (mc_new cfg) b p q))|]. rewrite Rlit_0, Rplus_0_l.
  reflexivity.
Qed.

Lemma T_points_eq m v b (qa qb : list (R * R)) : 0 < m -> 0 < v ->
  T_points m v (map (fun q => (b + fst q, 0 + snd q)) qa) (map (fun q => (0 + fst q, 0 + snd q)) qb)
  = / (m * m) * / (4 * PI * (v * v)) * Rsum (fun p : R * R => Rsum (fun q : R * R =>
     exp (- Rlit 25 (-2) * ((fst p - fst q + b) * (fst p - fst q + b) + (snd p - snd q) * (snd p - snd q)) / (v * v)))%R qb) qa.
Proof.
  intros Hm Hv. unfold T_points. rewrite Rsum_map, <- Rsum_scale. apply Rsum_ext. intros p _.
  rewrite Rsum_map, <- Rsum_scale. apply Rsum_ext. intros q _. cbn [fst snd].
  unfold gauss2. rlits. pose proof PI_RGT_0.
  replace (- ((b + fst p - (0 + fst q)) ^ 2 + (0 + snd p - (0 + snd q)) ^ 2) / (2 * (2 * v ^ 2)))
    with (- (25 / 100) * ((fst p - fst q + b) * (fst p - fst q + b) + (snd p - snd q) * (snd p - snd q)) / (v * v)) by (field; lra).
  field. repeat split; lra.
Qed.

Theorem C40_trial : forall (rg : Rng RX) (cfg : config RX) (sp : R) c e miss c' e',
  0 < constit_width cfg -> (1 <= constit_number cfg <= int_max)%Z ->
  mc_sample rg (mc_new cfg) sp c e = (Ret (miss, c'), e') -> trial rg cfg sp c e miss c' e'.
Proof.
  intros rg cfg sp c e miss c' e' Hv Hm H. unfold mc_sample in H.
  assert (S : to_size (constit_number cfg) = constit_number cfg) by (unfold to_size; apply Z.mod_small; unfold int_max in Hm; lia).
  mstep H. rename x into u. mstep H. destruct x as [qa c1]. mstep H. destruct x as [qb c2].
  apply pair_Ret_inj in H. destruct H as [H ->]. injection H as <- ->.
  cbn [mc_new mc_number] in *. rewrite S in *.
  match goal with K : mc_draw _ _ c _ = _ |- _ => destruct (mc_draw_points _ _ _ _ _ _ _ K) as (zA & DA & LA & PA) end.
  match goal with K : mc_draw _ _ c1 _ = _ |- _ => destruct (mc_draw_points _ _ _ _ _ _ _ K) as (zB & DB & LB & PB) end.
  exists u. do 5 eexists. cbv zeta. split; [|split; [exact DA|split; [exact DB|split; [exact LA|split; [exact LB|]]]]].
  - unfold draw_canonical, act in E. destruct (canonical rg e) as [u' e0]. apply pair_Ret_inj in E. destruct E as [-> ->]. reflexivity.
  - rewrite PA, PB. assert (M : 0 < IZR (constit_number cfg)) by (apply IZR_lt; lia).
    rewrite T_points_eq by assumption.
    rewrite mc_overlap_R. cbn [nmul nneg ndiv nlit nofZ nexp nsqrt RX RA_with num none_div_two_pi mc_new mc_prefactor mc_number mc_max_impact].
    unfold sqr, max_impact_widths. cbn [nmul nlit RX RA_with num]. rewrite ?S. rewrite (Rlit_0 6), (Rlit_0 2). f_equal.
    pose proof PI_RGT_0. field. repeat split; lra.
Qed.

Lemma samples_trials (rg : Rng RX) (cfg : config RX) sp : 0 < constit_width cfg -> (1 <= constit_number cfg <= int_max)%Z ->
  forall k c e xs c' e', samples rg (mc_new cfg) sp k c e = (Ret (xs, c'), e') -> trials rg cfg sp c e xs c' e'.
Proof.
  intros Hv Hm. induction k as [|k IH]; intros c e xs c' e' H.
  - cbn [samples] in H. apply pair_Ret_inj in H. destruct H as [H <-]. injection H as <- <-. constructor.
  - cbn [samples] in H. mstep H. destruct x as [x c1]. mstep H. destruct x0 as [ys c2].
    apply pair_Ret_inj in H. destruct H as [H ->]. injection H as <- ->.
    econstructor; [eapply C40_trial; eassumption|eapply IH; eassumption].
Qed.

(** ** The estimate *)
(** A returned estimate is the area of the disc of radius 6 w times one minus
    (the sum of n + 1 trials over n), the constituents being drawn with the same
    width r as in the events. *)
Theorem C40_estimate : forall (rg : Rng RX) (cfg : config RX) (sp : R) e est e',
  let w : R := nucleon_width cfg in let v : R := constit_width cfg in let m := constit_number cfg in
  shuffles rg -> 0 < v -> (1 <= m <= int_max)%Z ->
  mc_cross_section rg (mc_new cfg) sp e = (Ret est, e') ->
  exists (r : R) c e0 xs c' n,
    (m = 1%Z \/ w - v < 1 / 1000000 -> r = 0) /\
    ((1 < m)%Z -> 1 / 1000000 <= w - v -> 0 <= r /\ v^2 + r^2 * (1 - 1 / IZR m) = w^2) /\
    cyclic_new rg 0 r 1000000 10 e = (Ret c, e0) /\
    trials rg cfg sp c e0 xs c' e' /\ length xs = S n /\ (10000 <= Z.of_nat n < 10000000)%Z /\
    est = PI * (6 * w) ^ 2 * (1 - Rsum (fun x => x) xs / INR n).
Proof.
  intros rg cfg sp e est e' w v m Hs Hv Hm H.
  destruct (C40_returns RX rg (mc_new cfg) sp e Hs est e' H) as (c & e0 & xs & c' & n & N & S & L & Hn & E & (ref & Hr & _)).
  exists (calc_sampling_width (A:=RX) w v m), c, e0, xs, c', n. split; [|split; [|split; [|split; [|split; [exact L|split]]]]].
  - intros Hd. rewrite C23_degenerate; [cbn [nlit RX RA_with]; apply Rlit_0|]. destruct Hd as [Hd|Hd]; [left; exact Hd|right].
    cbn [nltb nsub nlit RX RA_with]. rlits. destruct (Rltb_spec (w - v) (1 / 1000000)); [reflexivity|contradiction].
  - intros H1 H3. apply (C23_sampling_width w v m H1 (Rlt_le _ _ Hv) H3).
  - change (nlit RX 0 0) with (Rlit 0 0) in N. rewrite Rlit_0 in N. exact N.
  - eapply samples_trials; eassumption.
  - destruct Hr as [[Hr _]|[Hr _]]; lia.
  - rewrite E. etransitivity; [apply (estimate_R Ei erfinv)|].
    assert (X : @firstn (num (RA_with Ei erfinv)) (Datatypes.S n) xs = xs) by (apply firstn_all2; exact (Nat.eq_le_incl _ _ L)).
    rewrite X. cbn [mc_new mc_max_impact]. unfold max_impact_widths. cbn [RX RA_with nmul nlit num].
    rewrite (Rlit_0 6). fold w. change (@eq (num RX)) with (@eq R). unfold Rdiv. ring.
Qed.

(** ** The distance of the nucleons in a trial *)
(** The constituents that sampling places about a nucleon at (X, Y) when it draws
    the offsets [ps] (compare C52). *)
Definition around (X Y : R) (ps : list (R * R)) : list (R * R) :=
  map (fun p => (X + (fst p - mean (map fst ps)), Y + (snd p - mean (map snd ps)))) ps.

(** A trial does not recentre its constituents.  It therefore evaluates the
    collision of two nucleons of the events that are not b apart: the
    difference of the two centres of constituents is added to (b, 0). *)
Theorem C40_centres : forall m v b zA zB,
  let pA := points 0 0 zA in let pB := points 0 0 zB in
  T_points m v (points b 0 zA) pB =
  T_points m v (around (b + (mean (map fst pA) - mean (map fst pB))) (mean (map snd pA) - mean (map snd pB)) pA) (around 0 0 pB).
Proof.
  intros m v b zA zB pA pB.
  assert (E : points b 0 zA = map (fun p => (b + fst p, snd p)) pA).
  { unfold pA. clear. revert zA. fix IH 1. intros [|x [|y r]]; [reflexivity|reflexivity|].
    cbn [points map fst snd]. rewrite IH. repeat f_equal; ring. }
  rewrite E. unfold T_points, around. rewrite !Rsum_map. apply Rsum_ext. intros p _.
  rewrite Rsum_map. apply Rsum_ext. intros q _. cbn [fst snd]. f_equal. f_equal; ring.
Qed.

(** ** The fit *)
Lemma exp_le_le x y : x <= y -> exp x <= exp y.
Proof. intros [H| ->]; [left; apply exp_increasing, H|right; reflexivity]. Qed.

(** What is expected of the root finder: on success it returns a part of the
    bracket it was given whose ends it has evaluated, with values of opposite sign
    (or zero). *)
Definition straddles (sv : Solver RX) : Prop :=
  forall S f (lo hi : R) bits it (s s' : S) (lo' hi' : R),
  toms748 sv S f lo hi bits it s = (Ret (lo', hi'), s') ->
  lo <= lo' <= hi' /\ hi' <= hi /\
  exists s1 s2 s3 s4 (fl fh : R), f lo' s1 = (Ret fl, s2) /\ f hi' s3 = (Ret fh, s4) /\
    (fl <= 0 <= fh \/ fh <= 0 <= fl).

(** With more than one constituent, the parameter is by a factor exp(d) above the
    one and below the other of two parameters of which one has a Monte-Carlo
    estimate below, the other above sigma_NN; and it lies in the range searched. *)
Theorem C40_fit : forall (rg : Rng RX) (sv : Solver RX) (cfg : config RX) (e e' : engine rg) (sp : R),
  straddles sv -> (1 < constit_number cfg)%Z -> 0 < constit_width cfg ->
  compute_partonic rg sv cfg e = (Ret sp, e') ->
  let unit := 4 * PI * constit_width cfg ^ 2 in
  unit * exp (-10) <= sp <= unit * exp 20 /\ exists (d est1 est2 : R) s1 s2 s3 s4,
    0 <= d /\
    mc_cross_section rg (mc_new cfg) (sp / exp d) s1 = (Ret est1, s2) /\
    mc_cross_section rg (mc_new cfg) (sp * exp d) s3 = (Ret est2, s4) /\
    (est1 <= cross_section cfg <= est2 \/ est2 <= cross_section cfg <= est1).
Proof.
  intros rg sv cfg e e' sp Hsv Hm Hv H unit. unfold compute_partonic in H.
  destruct (Z.ltb_spec 1 (constit_number cfg)) as [_|C]; [|lia].
  unfold numeric_partonic_cross_section, rethrow_domain in H.
  pose (f := fun p : num RX => let* est := mc_cross_section rg (mc_new cfg) (nmul RX (nexp RX p) (nmul RX (nmul RX (nofZ RX 4) (npi RX)) (sqr (constit_width cfg)))) in
               ret (nsub RX est (cross_section cfg))).
  change (toms748 sv (engine rg) _ (nneg RX (nlit RX 10 0)) (nlit RX 20 0) 8 20)
    with (toms748 sv (engine rg) f (nneg RX (nlit RX 10 0)) (nlit RX 20 0) 8%Z 20%Z) in H.
  unfold bind in H. destruct (toms748 sv (engine rg) f (nneg RX (nlit RX 10 0)) (nlit RX 20 0) 8 20 e) as [r e1] eqn:T.
  destruct r as [[lo hi]|ex| |]; [|destruct ex; discriminate H|discriminate H|discriminate H].
  unfold ret in H. apply pair_Ret_inj in H. destruct H as [H ->].
  destruct (Hsv _ _ _ _ _ _ _ _ _ _ T) as (L & L2 & s1 & s2 & s3 & s4 & fl & fh & F1 & F2 & F3).
  unfold f in F1, F2. mstep F1. apply pair_Ret_inj in F1. destruct F1 as [F1 ->]. mstep F2. apply pair_Ret_inj in F2. destruct F2 as [F2 ->].
  unfold sqr in *. cbn [num RX RA_with nadd nsub nmul nexp nlit nofZ npi] in *. rewrite (Rlit_m1 5) in H.
  pose proof PI_RGT_0 as PP. set (k := 4 * PI * (constit_width cfg * constit_width cfg)) in *.
  assert (K : 0 < k) by (unfold k; apply Rmult_lt_0_compat; [lra|apply Rmult_lt_0_compat; exact Hv]).
  assert (H' : sp = exp ((lo + hi) / 2) * k) by (rewrite <- H; f_equal; f_equal; field). clear H.
  change (- Rlit 10 0 <= lo <= hi) in L. change (hi <= Rlit 20 0) in L2. rewrite Rlit_0 in L, L2. split.
  { replace unit with k by (unfold unit, k; ring). rewrite H', (Rmult_comm _ k).
    split; (apply Rmult_le_compat_l; [lra|apply exp_le_le; lra]). }
  exists ((hi - lo) / 2), x, x0, s1, s2, s3, s4. split; [lra|].
  assert (X1 : sp / exp ((hi - lo) / 2) = exp lo * k).
  { rewrite H'. replace ((lo + hi) / 2) with (lo + (hi - lo) / 2) by field. rewrite exp_plus. field.
    pose proof (exp_pos ((hi - lo) / 2)). lra. }
  assert (X2 : sp * exp ((hi - lo) / 2) = exp hi * k).
  { rewrite H'. replace hi with ((lo + hi) / 2 + (hi - lo) / 2) at 3 by field. rewrite exp_plus. ring. }
  rewrite X1, X2. split; [exact E|]. split; [exact E0|]. destruct F3; [left|right]; lra.
Qed.
End Real.
