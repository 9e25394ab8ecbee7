(** A concrete case of C75: two protons moved by two columns and a row. *)
From Coq Require Import Reals Lra ZArith Lia List Permutation.
From Flocq Require Import Core.
From Verif.Base Require Import Result Arith RArith.
From Verif.Model Require Import FastExp Config Nucleon Nucleus Event.
From Verif.Spec Require Import Grid Evolved Mean Total Ecc Enlarge Frame.
From Verif.Proof Require Import Basics RBasics GridP EventP NucleonP DepositR EccP SymP ReducedP EnlargeP FrameP.
From Verif.Properties Require Import GridProps Reduced Enlarge EnlargeInst Frame.
Import ListNotations.
Local Open Scope R_scope.

(** p + p, constituent width 1/2, grid of half-width 4 and step 1/2. *)
Definition board : config RA := EnlargeInst.on_grid 4.
Definition one_at (x y w : R) (p : bool) : nucleon RA := @Nucleon RA x y 0 p true [@Constituent RA x y w].
Definition first_A : list (nucleon RA) := [one_at 0 0 1 true; one_at 3 (-3) 1 false].
Definition first_B : list (nucleon RA) := [one_at (1 / 4) (- (1 / 2)) 2 true].
Definition second_A : list (nucleon RA) := [one_at (-2) 1 5 false; one_at 1 (- (1 / 2)) 1 true].
Definition second_B : list (nucleon RA) := [one_at (5 / 4) (-1) 2 true; one_at 0 7 1 false].

Definition small (n : nucleon RA) : Prop :=
  n_part n = true -> n_cons n <> [] /\ forall q, In q (n_cons n) -> Rabs (q_x q) <= 3 / 2 /\ Rabs (q_y q) <= 3 / 2.

Lemma board_computes sp ev lA lB : evolved board ev -> 0 <= ev_xymax ev <= 1000 -> (forall n, In n lA \/ In n lB -> small n) ->
  exists e, event_compute true ev lA lB (nucleon_common_of board sp) = Ret e.
Proof.
  intros V X S. apply C13_compute_returns_R; [cbn; lra|cbn; lra|exact V|].
  intros n Hn Hp. destruct (S n Hn Hp) as [Q1 Q]. split; [exact Q1|].
  intros b0 b1 b2 b3 x Hb Hi. change (grid_step board) with (1 / 2).
  assert (B : -4 <= x <= 4).
  { apply boundary_R in Hb. rewrite radius_sq_R in Hb. change (constit_width board) with (1 / 2) in Hb.
    rewrite (Rabs_right (1 / 2)) in Hb by lra.
    destruct Hb as (_ & _ & (q0 & I0 & E0) & (q1 & I1 & E1) & (q2 & I2 & E2) & (q3 & I3 & E3)).
    pose proof (Q _ I0) as [Q0 _]. pose proof (Q _ I1) as [Qa _]. pose proof (Q _ I2) as [_ Q2]. pose proof (Q _ I3) as [_ Q3].
    apply Rabs_le_inv in Q0, Qa, Q2, Q3.
    destruct Hi as [<-|[<-|[<-|[<-|[]]]]]; lra. }
  lra.
Qed.

Lemma small_within l : (forall n, In n l -> small n) -> within_grid board l.
Proof.
  intros S n q Hn Hp Hq. destruct (S n Hn Hp) as [_ Q]. destruct (Q q Hq) as [A B].
  change (constit_width board) with (1 / 2). change (grid_max board) with 4. lra.
Qed.

Lemma small_at x y w : Rabs x <= 3 / 2 -> Rabs y <= 3 / 2 -> small (one_at x y w true).
Proof. intros X Y _. split; [discriminate|]. intros q [<-|[]]. split; assumption. Qed.
Lemma small_spectator x y w : small (one_at x y w false).
Proof. intros H. discriminate H. Qed.

Lemma thick_at sp x y w u v : 0 < w -> (u - x) * (u - x) + (v - y) * (v - y) < 25 / 4 -> 0 < thick board sp (one_at x y w true) u v.
Proof.
  intros W D. unfold thick. apply Rmult_lt_0_compat.
  - assert (P : 0 <= nc_prefactor (nucleon_common_of board sp)) by (apply prefactor_nonneg; [cbn; lra|cbn; lia]).
    destruct P as [P|P]; [exact P|exfalso]. revert P. unfold nucleon_common_of, sqr. cbn [nc_prefactor].
    change (constit_width board) with (1 / 2). change (to_size (constit_number board)) with 1%Z.
    cbn [none_div_two_pi ndiv nmul nofZ RA RA_with num]. intros P. pose proof PI_RGT_0.
    assert (0 < 1 / (2 * PI)) by (apply Rdiv_lt_0_compat; lra).
    match type of P with 0 = ?a / (1 / 2 * (1 / 2)) / 1 => assert (0 < a) by (repeat first [assumption|apply Rdiv_lt_0_compat|lra]); assert (0 < a / (1 / 2 * (1 / 2)) / 1) by (apply Rdiv_lt_0_compat; [apply Rdiv_lt_0_compat|]; lra) end.
    lra.
  - unfold one_at. cbn [n_cons]. change (constit_width board) with (1 / 2). rewrite Rsum_cons. cbn [Rsum RBasics.Rsum fold_right].
    unfold term, dist2. cbn [q_x q_y q_fluct]. set (d := (u - x) * (u - x) + (v - y) * (v - y)) in *.
    assert (D0 : 0 <= d) by (unfold d; pose proof (Rle_0_sqr (u - x)); pose proof (Rle_0_sqr (v - y)); unfold Rsqr in *; lra).
    replace (Rltb d (5 * (1 / 2) * (5 * (1 / 2)))) with true by (symmetry; apply Rltb_true; lra).
    assert (A : - (25 / 2) <= - (5 / 10) * d / (1 / 2 * (1 / 2)) <= 0) by (split; lra).
    destruct (fexp_ok true _ A) as [_ [F _]]. pose proof (exp_pos (- (5 / 10) * d / (1 / 2 * (1 / 2)))) as E.
    rewrite Rplus_0_r. apply Rmult_lt_0_compat; [exact W|]. eapply Rlt_le_trans; [|exact F]. apply Rmult_lt_0_compat; [exact E|lra].
Qed.

Theorem C75_instance : forall sp, exists ev e1 e2,
  evolved board ev /\ ev_nsteps ev = 16%Z /\
  event_compute true ev first_A first_B (nucleon_common_of board sp) = Ret e1 /\
  event_compute true ev second_A second_B (nucleon_common_of board sp) = Ret e2 /\
  displaced_participants (IZR 2 * grid_step board) (IZR (-1) * grid_step board) first_A second_A /\
  displaced_participants (IZR 2 * grid_step board) (IZR (-1) * grid_step board) first_B second_B /\
  within_grid board first_A /\ within_grid board first_B /\ within_grid board second_A /\ within_grid board second_B /\
  0 < cell (ev_TR e1) 8 8 /\ cell (ev_TR e2) 7 10 = cell (ev_TR e1) 8 8 /\
  ev_mult e1 <> 0 /\ ev_mult e2 = ev_mult e1 /\ ev_ecc e2 = ev_ecc e1 /\
  ev_ixcm e2 = ev_ixcm e1 + 2 /\ ev_iycm e2 = ev_iycm e1 - 1.
Proof.
  intros sp. destruct (grid_new 4 16) as (ev & E & V & X); [lra|lia|]. fold board in V.
  assert (N : ev_nsteps ev = 16%Z).
  { rewrite (new_cells _ _ E). unfold row_cells. cbn [EnlargeInst.on_grid grid_max grid_step Entropy.with_profile].
    replace (2 * _ / _) with (IZR 16) by (cbn; field). apply Zceil_IZR. }
  assert (SA : forall n, In n first_A -> small n).
  { intros n [<-|[<-|[]]]; [apply small_at; rewrite Rabs_R0; lra|apply small_spectator]. }
  assert (SB : forall n, In n first_B -> small n) by (intros n [<-|[]]; apply small_at; apply Rabs_le; lra).
  assert (MA : forall n, In n second_A -> small n).
  { intros n [<-|[<-|[]]]; [apply small_spectator|apply small_at; apply Rabs_le; lra]. }
  assert (MB : forall n, In n second_B -> small n).
  { intros n [<-|[<-|[]]]; [apply small_at; apply Rabs_le; lra|apply small_spectator]. }
  destruct (board_computes sp ev first_A first_B V X) as (e1 & R1); [intros n [H|H]; auto|].
  destruct (board_computes sp ev second_A second_B V X) as (e2 & R2); [intros n [H|H]; auto|].
  assert (P : forall x y w x2 y2, x2 = x + 1 -> y2 = y + - (1 / 2) -> one_at x2 y2 w true = displaced (IZR 2 * grid_step board) (IZR (-1) * grid_step board) (one_at x y w true)).
  { intros x y w x2 y2 -> ->. unfold displaced, one_at. cbn [n_x n_y n_z n_part n_cexist n_cons map q_x q_y q_fluct]. change (grid_step board) with (1 / 2).
    replace (2 * (1 / 2)) with 1 by field. replace (-1 * (1 / 2)) with (- (1 / 2)) by field. reflexivity. }
  assert (DA : displaced_participants (IZR 2 * grid_step board) (IZR (-1) * grid_step board) first_A second_A).
  { unfold displaced_participants. cbn [first_A second_A filter one_at n_part map]. rewrite <- (P 0 0 1 1 (- (1 / 2))) by lra. constructor. constructor. }
  assert (DB : displaced_participants (IZR 2 * grid_step board) (IZR (-1) * grid_step board) first_B second_B).
  { unfold displaced_participants. cbn [first_B second_B filter one_at n_part map]. rewrite <- (P (1 / 4) (- (1 / 2)) 2 (5 / 4) (-1)) by lra. constructor. constructor. }
  destruct (C75_moved board sp (-1) 2 ev ev true true first_A first_B second_A second_B e1 e2) as (_ & G & M);
    [cbn; lra|cbn; lra|cbn; lra|exact DA|exact DB|exact V|exact R1|exact V|exact R2|].
  pose proof (small_within _ SA) as WA. pose proof (small_within _ SB) as WB. pose proof (small_within _ MA) as XA. pose proof (small_within _ MB) as XB.
  destruct (M WA WB XA XB) as (M1 & M2 & M3).
  assert (C : 0 < cell (ev_TR e1) 8 8).
  { change (0 < cell (ev_TR e1) (fst (8, 8)%Z) (snd (8, 8)%Z)).
    assert (I : In (8, 8)%Z (cells (row_cells board))) by (rewrite <- (cells_of board ev V), N; apply in_cells; split; lia).
    assert (H0 : 0 < grid_step board) by (cbn; lra).
    rewrite (cell_entropy board sp H0 _ _ _ _ _ _ V R1 I). unfold entropy. change (normalization board) with 1.
    assert (GM : choose_mean (A:=RA) (reduced_thickness board) = GGeometric).
    { unfold choose_mean. replace (nltb RA _ _) with true; [reflexivity|]. symmetry. unfold tiny. cbn [nltb nabs nlit RA RA_with board EnlargeInst.on_grid]. rlits.
      apply Rltb_true. change (reduced_thickness board) with 0. rewrite Rabs_R0. lra. }
    rewrite GM. cbn [gen_mean]. unfold geometric_mean. cbn [nsqrt nmul RA RA_with]. rewrite Rmult_1_l. apply sqrt_lt_R0.
    assert (PL : place board 8 = 1 / 4).
    { unfold place. rewrite <- (cells_of board ev V), N. change (grid_step board) with (1 / 2). lra. }
    apply Rmult_lt_0_compat; unfold density; cbn [fst snd first_A first_B filter one_at n_part]; rewrite Rsum_cons; cbn [RBasics.Rsum fold_right];
      rewrite Rplus_0_r, PL; apply thick_at; lra. }
  assert (NZ : ev_mult e1 <> 0).
  { destruct (compute_R _ _ _ _ _ _ _ V R1) as [Q _]. rewrite Q, N. apply Rgt_not_eq. apply Rmult_lt_0_compat; [cbn; lra|].
    apply Rlt_le_trans with (1 := C).
    assert (I : In (8, 8)%Z (cells 16)) by (apply in_cells; split; lia).
    apply in_split in I. destruct I as (l1 & l2 & I).
    assert (NN : forall c, In c (cells 16) -> 0 <= cell (ev_TR e1) (fst c) (snd c)).
    { intros c Hc. rewrite <- N, (cells_of board ev V) in Hc. assert (H0 : 0 < grid_step board) by (cbn; lra).
      rewrite (cell_entropy board sp H0 _ _ _ _ _ _ V R1 Hc). apply entropy_pos. cbn. lra. }
    rewrite I in NN |- *. rewrite Rsum_app, Rsum_cons.
    assert (A1 : 0 <= Rsum (fun c : Z * Z => cell (ev_TR e1) (fst c) (snd c)) l1) by (apply Rsum_nonneg; intros c Hc; apply NN, in_or_app; left; exact Hc).
    assert (A2 : 0 <= Rsum (fun c : Z * Z => cell (ev_TR e1) (fst c) (snd c)) l2) by (apply Rsum_nonneg; intros c Hc; apply NN, in_or_app; right; right; exact Hc).
    cbn [fst snd]. revert A1 A2. generalize (Rsum (fun c : Z * Z => cell (ev_TR e1) (fst c) (snd c)) l1) (Rsum (fun c : Z * Z => cell (ev_TR e1) (fst c) (snd c)) l2) (cell (ev_TR e1) 8 8).
    cbn [num RA RA_with]. intros p q r A1 A2. lra. }
  destruct (M3 NZ) as [M4 M5].
  exists ev, e1, e2. do 10 (split; [assumption|]). split; [exact C|]. split.
  { apply (G 8 8)%Z; rewrite N; unfold valid_index; lia. }
  split; [exact NZ|]. split; [exact M1|]. split; [exact M2|]. split; [exact M4|exact M5].
Qed.
