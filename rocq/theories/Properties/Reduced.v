(** C14-C18: reduced thickness, multiplicity, eccentricities, symmetries. *)
From Coq Require Import Reals Lra.
From Flocq Require Import Core BinarySingleNaN.
From Verif.Base Require Import Result Arith RArith FArith.
From Verif.Model Require Import FastExp Config Nucleon Nucleus Event.
From Verif.Spec Require Import Grid Evolved Mean Total Ecc Symmetry.
From Verif.Proof Require Import Basics FComm GridP EventP FastExpP NucleonP DepositR MeanP EccP SymP ReducedP RBasics.
From Verif.Properties Require Import GridProps.
Local Open Scope R_scope.

(** ** C14 *)

(** After compute, cell (iy, ix) of the published grid is
    norm * M_p(T_A, T_B) with T_A, T_B the total thicknesses of the two nuclei at
    the cell centre. *)
Theorem C14_cell :
  forall (cfg : config RA) (sp : R) (ev : event RA) dbg nA nB ev' iy ix,
  0 < grid_step cfg -> 0 < constit_width cfg -> (0 < constit_number cfg <= 2147483647)%Z ->
  (forall (n : nucleon RA) (q : constituent RA), In n nA \/ In n nB -> n_part n = true -> In q (n_cons n) -> 0 <= q_fluct q) ->
  evolved cfg ev ->
  event_compute dbg ev nA nB (nucleon_common_of cfg sp) = Ret ev' ->
  let N := ev_nsteps ev in
  let xymax := IZR N * grid_step cfg / 2 in
  let x := (IZR ix + / 2) * grid_step cfg - xymax in
  let y := (IZR iy + / 2) * grid_step cfg - xymax in
  (0 <= iy < N)%Z -> (0 <= ix < N)%Z ->
  exists a b : R,
    total_thickness dbg (nucleon_common_of cfg sp) nA x y a /\
    total_thickness dbg (nucleon_common_of cfg sp) nB x y b /\
    0 <= a /\ 0 <= b /\
    cell (ev_TR ev') iy ix = normalization cfg * M_p (reduced_thickness cfg) a b.
Proof.
  intros cfg sp ev dbg nA nB ev' iy ix Hd Hv Hm Hf He H N xymax x y Hy Hx.
  pose proof (evolved_ready _ _ He) as Hr. destruct (evolved_R _ _ He) as (PD & PX & PN & PM).
  pose proof (event_compute_inv _ _ _ _ _ _ Hr H) as (_ & (k & k' & EA & EB & _) & _ & _ & _ & CT & _).
  rewrite PD, PX in EA, EB. fold N in EA, EB. fold xymax in EA, EB.
  pose proof (nuclear_thickness_R _ _ _ _ _ _ _ _ _ _ Hd EA iy ix (conj Hy Hx)) as CA.
  pose proof (nuclear_thickness_R _ _ _ _ _ _ _ _ _ _ Hd EB iy ix (conj Hy Hx)) as CB.
  rewrite !cell_centre_R in CA, CB. fold x in CA, CB. fold y in CA, CB.
  eexists. eexists. split; [apply total_thick|]. split; [apply total_thick|].
  assert (NN : forall l, (l = nA \/ l = nB) -> 0 <= RBasics.Rsum (fun n => thick cfg sp n x y) (filter n_part l)).
  { intros l Hl. apply Rsum_nonneg. intros n Hn. apply filter_In in Hn. destruct Hn as [Hn Hpt].
    apply thick_nonneg; auto. intros q Hq. apply (Hf n q); auto. destruct Hl; subst; auto. }
  split; [apply NN; auto|]. split; [apply NN; auto|].
  rewrite (CT iy ix) by (split; auto). unfold rt. cbn [fst snd]. rewrite CA, CB, PN, PM.
  rewrite gen_mean_spec by (apply NN; auto). reflexivity.
Qed.

(** The mean: symmetric, never above the larger argument, monotone, zero for
    p <= 0 when one argument is zero.  Where the 10^-12 cut does not act (p > -10^-12,
    or both arguments at least 10^-12) it also is at least the smaller argument,
    reproduces a common value and is homogeneous. *)
Theorem C14_mean :
  forall p a b : R, 0 <= a -> 0 <= b ->
  M_p p a b = M_p p b a /\
  0 <= M_p p a b <= Rmax a b /\
  (forall a', a <= a' -> M_p p a b <= M_p p a' b) /\
  (forall b', b <= b' -> M_p p a b <= M_p p a b') /\
  (p <= 0 -> a = 0 -> M_p p a b = 0) /\
  (p <= - eps12 -> a < eps12 -> M_p p a b = 0) /\
  (regular p a b -> Rmin a b <= M_p p a b) /\
  (regular p a a -> M_p p a a = a) /\
  (forall c, 0 <= c -> regular p a b -> regular p (c * a) (c * b) -> M_p p (c * a) (c * b) = c * M_p p a b).
Proof.
  intros p a b Ha Hb. split; [apply M_p_sym|]. split; [split; [apply M_p_nonneg|apply M_p_upper; auto]|].
  split; [intros; apply M_p_mono; auto|].
  split; [intros; rewrite (M_p_sym p a b), (M_p_sym p a b'); apply M_p_mono; auto|].
  split; [intros Hp ->; apply M_p_zero; auto|].
  split.
  { intros Hp Hl. unfold M_p. pose proof eps12_pos. destruct (Rlt_dec (Rabs p) eps12) as [X|X].
    - rewrite Rabs_left1 in X by lra. lra.
    - destruct (Rlt_dec 0 p); [lra|]. destruct (Rlt_dec a eps12); [reflexivity|contradiction]. }
  split; [intros; apply M_p_bounds; auto|]. split; [intros; apply M_p_idem; auto|].
  intros; apply M_p_homogeneous; auto.
Qed.

(** The usual values: arithmetic mean for p = 1, geometric for p = 0, harmonic for p = -1. *)
Theorem C14_named_means :
  forall a b : R, 1 / 10 <= a -> 1 / 10 <= b ->
  M_p 1 a b = (a + b) / 2 /\ M_p 0 a b = sqrt (a * b) /\ M_p (-1) a b = 2 * a * b / (a + b).
Proof.
  intros a b Ha Hb. pose proof eps12_pos. unfold M_p, eps12 in *.
  split; [|split].
  - rewrite Rabs_right by lra. destruct (Rlt_dec 1 (1 / 1000000000000)); [lra|]. destruct (Rlt_dec 0 1); [|lra].
    unfold pow0. destruct (Req_EM_T a 0); [lra|]. destruct (Req_EM_T b 0); [lra|].
    rewrite !Rpower_1 by lra. destruct (Req_EM_T _ 0); [lra|]. replace (1 / 1) with 1 by field. apply Rpower_1. lra.
  - rewrite Rabs_R0. destruct (Rlt_dec 0 (1 / 1000000000000)); [reflexivity|lra].
  - rewrite Rabs_left by lra. destruct (Rlt_dec (- -1) (1 / 1000000000000)); [lra|]. destruct (Rlt_dec 0 (-1)); [lra|].
    destruct (Rlt_dec a (1 / 1000000000000)); [lra|]. destruct (Rlt_dec b (1 / 1000000000000)); [lra|].
    assert (I : forall z, 0 < z -> Rpower z (-1) = / z).
    { intros z Hz. replace (-1) with (- (1)) by lra. rewrite Rpower_Ropp, Rpower_1; auto. }
    assert (0 < / a) by (apply Rinv_0_lt_compat; lra). assert (0 < / b) by (apply Rinv_0_lt_compat; lra).
    rewrite (I a), (I b) by lra. replace (1 / -1) with (-1) by field. rewrite I by lra. field. repeat split; lra.
Qed.

(** ** C15 *)

(** In every arithmetic (binary64 included) the multiplicity is step * step times
    the left-to-right sum, starting from 0, of all cells of the published grid in
    row-major order. *)
Theorem C15_integral :
  forall (A : Arith) (cfg : config A) (ev : event A) dbg nA nB nc ev',
  evolved cfg ev -> event_compute dbg ev nA nB nc = Ret ev' ->
  ev_mult ev' = nmul A (nmul A (grid_step cfg) (grid_step cfg))
                       (fold_left (nadd A) (row_major (ev_TR ev')) (nlit A 0 0)).
Proof.
  intros A cfg ev dbg nA nB nc ev' He H. pose proof (evolved_ready _ _ He) as Hr.
  pose proof (event_compute_inv _ _ _ _ _ _ Hr H) as (_ & _ & _ & _ & S & CT & EM & _).
  assert (D : ev_dxy ev = grid_step cfg).
  { destruct (evolved_params _ _ He) as (ev0 & E0 & (_ & _ & <- & _)). unfold event_new in E0. mstep E0. mstep E0. reflexivity. }
  rewrite EM, D. f_equal. rewrite <- (fold_cells_row_major _ _ _ _ S).
  apply fold_left_ext_in. intros a [iy ix] Hc. apply in_cells in Hc. rewrite <- CT by exact Hc. reflexivity.
Qed.

(** In real arithmetic it is the integral, and not negative if norm is not. *)
Theorem C15_real :
  forall (cfg : config RA) (ev : event RA) dbg nA nB nc ev',
  evolved cfg ev -> event_compute dbg ev nA nB nc = Ret ev' ->
  ev_mult ev' = grid_step cfg ^ 2 * fold_right Rplus 0 (row_major (ev_TR ev')) /\
  (0 <= normalization cfg -> (forall t, In t (row_major (ev_TR ev')) -> 0 <= t) /\ 0 <= ev_mult ev').
Proof.
  intros cfg ev dbg nA nB nc ev' He H.
  assert (E : ev_mult ev' = grid_step cfg ^ 2 * fold_right Rplus 0 (row_major (ev_TR ev'))).
  { rewrite (C15_integral _ _ _ _ _ _ _ _ He H). cbn [nmul nadd nlit RA RA_with]. rlits.
    assert (F : forall (l : list R) a, fold_left Rplus l a = a + fold_right Rplus 0 l).
    { induction l as [|u l IH]; intros a; simpl; [lra|]. rewrite IH. lra. }
    rewrite F. toR. ring. }
  split; [exact E|]. intros Hn.
  assert (P : forall t : R, In t (row_major (ev_TR ev')) -> 0 <= t).
  { pose proof (evolved_ready _ _ He) as Hr. destruct (evolved_R _ _ He) as (_ & _ & PN & _).
    pose proof (event_compute_inv _ _ _ _ _ _ Hr H) as (_ & _ & _ & _ & S & CT & _).
    intros t Ht. rewrite <- (cells_row_major' _ _ S) in Ht. apply in_map_iff in Ht. destruct Ht as ([iy ix] & <- & Hc).
    apply in_cells in Hc. cbn [fst snd]. rewrite CT by exact Hc. unfold rt. rewrite PN.
    apply Rmult_le_pos; [exact Hn|apply gen_mean_nonneg]. }
  split; [exact P|]. rewrite E. apply Rmult_le_pos; [apply pow2_ge_0|]. clear E.
  revert P. generalize (row_major (ev_TR ev')). intros l. induction l as [|t l IH]; intros P; [simpl; lra|]. cbn [fold_right].
  pose proof (P t (or_introl eq_refl)). specialize (IH (fun u Hu => P u (or_intror Hu))). lra.
Qed.

(** Multiplying norm by c multiplies every cell and the multiplicity by c, for the
    same nuclei. *)
Theorem C15_linear :
  forall (cfg : config RA) (c sp : R) ev1 ev2 dbg nA nB ev1',
  let cfg2 := with_norm cfg (c * normalization cfg) in
  evolved cfg ev1 -> evolved cfg2 ev2 ->
  event_compute dbg ev1 nA nB (nucleon_common_of cfg sp) = Ret ev1' ->
  exists ev2', event_compute dbg ev2 nA nB (nucleon_common_of cfg2 sp) = Ret ev2' /\
    (forall iy ix, (0 <= iy < ev_nsteps ev1)%Z -> (0 <= ix < ev_nsteps ev1)%Z ->
       cell (ev_TR ev2') iy ix = c * cell (ev_TR ev1') iy ix) /\
    ev_mult ev2' = c * ev_mult ev1'.
Proof.
  intros cfg c sp ev1 ev2 dbg nA nB ev1' cfg2 H1 H2 E1.
  assert (NC : nucleon_common_of cfg2 sp = nucleon_common_of cfg sp) by reflexivity. rewrite NC.
  pose proof (evolved_ready _ _ H1) as R1. pose proof (evolved_ready _ _ H2) as R2.
  destruct (evolved_R _ _ H1) as (D1 & X1 & N1 & M1). destruct (evolved_R _ _ H2) as (D2 & X2 & N2 & M2).
  assert (NS : ev_nsteps ev2 = ev_nsteps ev1).
  { destruct (evolved_params _ _ H1) as (ev0 & E0 & (_ & _ & _ & P & _)).
    destruct (evolved_params _ _ H2) as (ev0' & E0' & (_ & _ & _ & P' & _)). rewrite <- P, <- P'.
    unfold event_new in E0, E0'. change (grid_max cfg2) with (grid_max cfg) in E0'. change (grid_step cfg2) with (grid_step cfg) in E0'.
    mstep E0. mstep E0. rewrite E in E0'. cbn [rbind] in E0'. mstep E0'. reflexivity. }
  assert (DX : ev_dxy ev2 = ev_dxy ev1 /\ ev_xymax ev2 = ev_xymax ev1).
  { split; [rewrite D1, D2; reflexivity|]. rewrite X1, X2, NS. reflexivity. }
  destruct DX as [DD XX].
  pose proof (event_compute_inv _ _ _ _ _ _ R1 E1) as (_ & (k & k' & EA & EB & _) & SA & SB & S1 & CT1 & _).
  assert (E2 : exists ev2', event_compute dbg ev2 nA nB (nucleon_common_of cfg sp) = Ret ev2').
  { unfold event_compute. rewrite NS, DD, XX, EA. cbn [rbind]. rewrite EB. cbn [rbind].
    rewrite <- NS in SA, SB.
    destruct (reduced_thickness_spec ev2 (ev_TA ev1') (ev_TB ev1') SA SB (proj1 R2)) as (TR & ER & SR & _).
    rewrite ER. cbn [rbind]. rewrite <- NS.
    match goal with |- context [compute_observables ?n ?t ?a ?b] => destruct (observables_spec n t a b SR) as (e & EO & _) end.
    rewrite EO. destruct e as [[[e2 e3] e4] e5]. cbn [rbind]. eauto. }
  destruct E2 as (ev2' & E2). exists ev2'. split; [exact E2|].
  pose proof (event_compute_inv _ _ _ _ _ _ R2 E2) as (_ & (j & j' & FA1 & FB1 & _) & _ & _ & S2 & CT2 & _).
  rewrite NS, DD, XX in FA1, FB1. rewrite NS in S2, CT2.
  assert (TA : ev_TA ev2' = ev_TA ev1') by congruence. assert (jk : j = k) by congruence. subst j.
  assert (TB : ev_TB ev2' = ev_TB ev1') by congruence.
  assert (CC : forall iy ix, inside (ev_nsteps ev1) iy ix -> cell (ev_TR ev2') iy ix = c * cell (ev_TR ev1') iy ix).
  { intros iy ix Hi. rewrite CT1, CT2 by auto. unfold rt. rewrite TA, TB, M1, M2, N1, N2. cbn [fst snd].
    change (reduced_thickness cfg2) with (reduced_thickness cfg). change (normalization cfg2) with (c * normalization cfg).
    cbn [nmul RA RA_with]. apply Rmult_assoc. }
  split; [intros; apply CC; split; auto|].
  destruct (compute_R _ _ _ _ _ _ _ H1 E1) as [EM1 _]. destruct (compute_R _ _ _ _ _ _ _ H2 E2) as [EM2 _].
  rewrite EM1, EM2, NS. change (grid_step cfg2) with (grid_step cfg).
  rewrite (Rsum_ext _ (fun q : Z * Z => c * cell (ev_TR ev1') (fst q) (snd q))).
  - rewrite (Rsum_scale (fun q : Z * Z => cell (ev_TR ev1') (fst q) (snd q))). toR. ring.
  - intros [iy ix] Hc. apply CC. apply in_cells. exact Hc.
Qed.

(** ** C16, C17 *)

(** Exactly the harmonics 2, 3, 4, 5, in any arithmetic. *)
Theorem C16_keys :
  forall (A : Arith) (cfg : config A) (ev : event A) dbg nA nB nc ev',
  evolved cfg ev -> event_compute dbg ev nA nB nc = Ret ev' -> map fst (ev_ecc ev') = [2; 3; 4; 5]%Z.
Proof.
  intros A cfg ev dbg nA nB nc ev' He H. pose proof (evolved_ready _ _ He) as Hr.
  pose proof (event_compute_inv _ _ _ _ _ _ Hr H) as (_ & _ & _ & _ & _ & _ & _ & _ & _ & E).
  destruct (fold_left _ _ _) as [[[a2 a3] a4] a5] in E. rewrite E. reflexivity.
Qed.

(** Each value is the documented harmonic average over the published grid and
    lies in [0, 1] (real arithmetic). *)
Theorem C17_harmonics :
  forall (cfg : config RA) (ev : event RA) dbg nA nB nc ev',
  evolved cfg ev -> event_compute dbg ev nA nB nc = Ret ev' ->
  let t (c : Z * Z) : R := cell (ev_TR ev') (fst c) (snd c) in
  let cs := cells (ev_nsteps ev) in
  ev_ecc ev' = [(2, ecc_n 2 cs t); (3, ecc_n 3 cs t); (4, ecc_n 4 cs t); (5, ecc_n 5 cs t)]%Z.
Proof. intros cfg ev dbg nA nB nc ev' He H t cs. apply (compute_R _ _ _ _ _ _ _ He H). Qed.

Theorem C16_range :
  forall (cfg : config RA) (ev : event RA) dbg nA nB nc ev' n (e : R),
  evolved cfg ev -> event_compute dbg ev nA nB nc = Ret ev' ->
  In (n, e) (ev_ecc ev') -> 0 <= e <= 1.
Proof.
  intros cfg ev dbg nA nB nc ev' n e He H Hi. rewrite (C17_harmonics _ _ _ _ _ _ _ He H) in Hi.
  repeat (destruct Hi as [Hi|Hi]; [apply (f_equal snd) in Hi; cbn [snd] in Hi; rewrite <- Hi; apply ecc_n_range|]).
  destruct Hi.
Qed.

(** An empty grid (every cell below 10^-12, e.g. all participants off the grid)
    gives eccentricities 0, in binary64 too, although the centre is then 0/0. *)
Lemma empty_fold {A} (g : grid A) ixcm iycm cs acc :
  (forall c, In c cs -> nltb A (cell g (fst c) (snd c)) tiny = true) ->
  fold_left (fun acc (c : Z * Z) =>
       if nltb A (cell g (fst c) (snd c)) tiny then acc
       else obs_cell ixcm iycm (cell g (fst c) (snd c)) (fst c) (snd c) acc) cs acc = acc.
Proof.
  revert acc. induction cs as [|c cs IH]; intros acc H; [reflexivity|]. cbn [fold_left].
  rewrite H by (simpl; auto). apply IH. intros; apply H; simpl; auto.
Qed.

Theorem C16_empty_ieee :
  forall (L : Libm) (cfg : config (FA L)) (ev : event (FA L)) dbg nA nB nc ev',
  evolved cfg ev -> event_compute dbg ev nA nB nc = Ret ev' ->
  (forall t, In t (row_major (ev_TR ev')) -> f64_ltb t (f64_lit 1 (-12)) = true) ->
  ev_ecc ev' = [(2, f64_zero); (3, f64_zero); (4, f64_zero); (5, f64_zero)]%Z.
Proof.
  intros L cfg ev dbg nA nB nc ev' He H Hs. pose proof (evolved_ready _ _ He) as Hr.
  pose proof (event_compute_inv _ _ _ _ _ _ Hr H) as (_ & _ & _ & _ & S & _ & _ & _ & _ & E).
  rewrite empty_fold in E.
  - rewrite E. assert (Z : ecc_finish (A:=FA L) ecc_zero = f64_zero) by (vm_compute; reflexivity). rewrite Z. reflexivity.
  - intros c Hc. apply Hs. rewrite <- (cells_row_major' _ _ S). apply in_map_iff. exists c. auto.
Qed.

Theorem C16_empty_real :
  forall (cfg : config RA) (ev : event RA) dbg nA nB nc ev',
  evolved cfg ev -> event_compute dbg ev nA nB nc = Ret ev' ->
  (forall t, In t (row_major (ev_TR ev')) -> t < / 10 ^ 12) ->
  ev_ecc ev' = [(2%Z, 0); (3%Z, 0); (4%Z, 0); (5%Z, 0)].
Proof.
  intros cfg ev dbg nA nB nc ev' He H Hs. pose proof (evolved_ready _ _ He) as Hr.
  pose proof (event_compute_inv _ _ _ _ _ _ Hr H) as (_ & _ & _ & _ & S & _).
  rewrite (C17_harmonics _ _ _ _ _ _ _ He H). rewrite !ecc_n_zero; [reflexivity|..];
  intros c Hc; (replace (1 / 1000000000000) with (/ 10 ^ 12) by (simpl; field));
  apply Hs; rewrite <- (cells_row_major' _ _ S); apply in_map_iff; exists c; auto.
Qed.

(** ** C18 *)

(** Exchanging the projectiles changes nothing, whenever addition and
    multiplication commute: in real arithmetic and, bit for bit, in binary64. *)
Theorem C18_swap :
  forall (A : Arith) (cfg : config A) (ev : event A) dbg nA nB nc ev',
  commutative A -> evolved cfg ev ->
  event_compute dbg ev nA nB nc = Ret ev' ->
  exists ev'', event_compute dbg ev nB nA nc = Ret ev'' /\
    ev_TR ev'' = ev_TR ev' /\ ev_npart ev'' = ev_npart ev' /\
    ev_mult ev'' = ev_mult ev' /\ ev_ecc ev'' = ev_ecc ev'.
Proof.
  intros A cfg ev dbg nA nB nc ev' HC He H. pose proof (evolved_ready _ _ He) as Hr.
  pose proof (event_compute_inv _ _ _ _ _ _ Hr H) as (_ & (k & k' & EA & EB & EK) & SA & SB & S1 & CT1 & EM1 & EX1 & EY1 & EE1).
  apply nuclear_thickness_count with (k2 := 0%Z) in EB. apply nuclear_thickness_count with (k2 := (k' - k + 0)%Z) in EA.
  assert (E2 : exists ev'', event_compute dbg ev nB nA nc = Ret ev'').
  { unfold event_compute. rewrite EB. cbn [rbind]. rewrite EA. cbn [rbind].
    destruct (reduced_thickness_spec ev (ev_TB ev') (ev_TA ev') SB SA (proj1 Hr)) as (TR & ER & SR & _).
    rewrite ER. cbn [rbind].
    match goal with |- context [compute_observables ?n ?t ?a ?b] => destruct (observables_spec n t a b SR) as (e & EO & _) end.
    rewrite EO. destruct e as [[[e2 e3] e4] e5]. cbn [rbind]. eauto. }
  destruct E2 as (ev'' & E2). exists ev''. split; [exact E2|].
  pose proof (event_compute_inv _ _ _ _ _ _ Hr E2) as (_ & (j & j' & FB1 & FA1 & FK) & _ & _ & S2 & CT2 & EM2 & EX2 & EY2 & EE2).
  assert (TB : ev_TA ev'' = ev_TB ev') by congruence. assert (J : j = (k' - k + 0)%Z) by congruence. subst j.
  assert (TA : ev_TB ev'' = ev_TA ev') by congruence. assert (J' : j' = (k - 0 + (k' - k + 0))%Z) by congruence.
  rewrite TA, TB in *.
  assert (RT : forall c, rt (ev_mean ev) (ev_norm ev) (ev_TB ev') (ev_TA ev') c = rt (ev_mean ev) (ev_norm ev) (ev_TA ev') (ev_TB ev') c).
  { intros c. unfold rt. rewrite gen_mean_comm by exact HC. reflexivity. }
  assert (TR : ev_TR ev'' = ev_TR ev').
  { apply (square_ext (ev_nsteps ev)); auto. intros iy ix Hi. rewrite CT1, CT2; auto. }
  assert (FE : forall f : num A -> Z * Z -> num A, forall z,
     fold_left (fun a c => nadd A a (f (rt (ev_mean ev) (ev_norm ev) (ev_TB ev') (ev_TA ev') c) c)) (cells (ev_nsteps ev)) z
     = fold_left (fun a c => nadd A a (f (rt (ev_mean ev) (ev_norm ev) (ev_TA ev') (ev_TB ev') c) c)) (cells (ev_nsteps ev)) z).
  { intros f z. apply fold_left_ext_in. intros a c _. rewrite RT. reflexivity. }
  pose proof (FE (fun t _ => t) (nlit A 0 0)) as F1. cbv beta in F1.
  pose proof (FE (fun t c => nmul A t (nofZ A (snd c))) (nlit A 0 0)) as F2. cbv beta in F2.
  pose proof (FE (fun t c => nmul A t (nofZ A (fst c))) (nlit A 0 0)) as F3. cbv beta in F3.
  split; [exact TR|]. split; [lia|]. split; [rewrite EM2, F1; symmetry; exact EM1|].
  rewrite F1, F2 in EX2. rewrite F1, F3 in EY2.
  assert (X : ev_ixcm ev'' = ev_ixcm ev') by (rewrite EX1, EX2; reflexivity).
  assert (Y : ev_iycm ev'' = ev_iycm ev') by (rewrite EY1, EY2; reflexivity).
  rewrite TR, X, Y in EE2. destruct (fold_left _ (cells (ev_nsteps ev)) (ecc_zero, ecc_zero, ecc_zero, ecc_zero)) as [[[a2 a3] a4] a5].
  congruence.
Qed.

(** The hypothesis holds of both instances. *)
Theorem C18_commutative : commutative RA /\ forall L, commutative (FA L).
Proof. split; [apply RA_commutative|]. intros L. split; [apply f64_add_comm|apply f64_mul_comm]. Qed.

(** Moving every nucleon of both nuclei by one of the eight symmetries of the
    square (rotations by 90 degrees, mirrors, transpositions) moves the published
    grid by the same symmetry and leaves npart, multiplicity and eccentricities
    unchanged (real arithmetic, norm >= 0). *)
Theorem C18_square_symmetries :
  forall (cfg : config RA) (sp : R) (g : d4) ev dbg nA nB ev' ev'',
  0 < grid_step cfg -> 0 <= normalization cfg -> evolved cfg ev ->
  event_compute dbg ev nA nB (nucleon_common_of cfg sp) = Ret ev' ->
  event_compute dbg ev (map (act_nucleon g) nA) (map (act_nucleon g) nB) (nucleon_common_of cfg sp) = Ret ev'' ->
  let N := ev_nsteps ev in
  (forall iy ix, (0 <= iy < N)%Z -> (0 <= ix < N)%Z ->
     let c := act_cell g N (iy, ix) in cell (ev_TR ev'') (fst c) (snd c) = cell (ev_TR ev') iy ix) /\
  ev_npart ev'' = ev_npart ev' /\ ev_mult ev'' = ev_mult ev' /\ ev_ecc ev'' = ev_ecc ev'.
Proof.
  intros cfg sp g ev dbg nA nB ev' ev'' Hd Hn He H1 H2 N.
  pose proof (evolved_ready _ _ He) as Hr. destruct (evolved_R _ _ He) as (PD & PX & PN & PM).
  pose proof (event_compute_inv _ _ _ _ _ _ Hr H1) as (_ & (k & k' & EA & EB & EK) & _ & _ & _ & CT1 & _).
  pose proof (event_compute_inv _ _ _ _ _ _ Hr H2) as (_ & (j & j' & FA1 & FB1 & FK) & _ & _ & _ & CT2 & _).
  rewrite PD in EA, EB, FA1, FB1. fold N in EA, EB, FA1, FB1, CT1, CT2, PX.
  assert (CC : forall c, In c (cells N) -> cell (ev_TR ev'') (fst (act_cell g N c)) (snd (act_cell g N c)) = cell (ev_TR ev') (fst c) (snd c)).
  { intros [iy ix] Hc. cbn [fst snd]. pose proof Hc as Hi. apply in_cells in Hi.
    rewrite CT1 by exact Hi. rewrite CT2 by (apply act_cell_inside; exact Hi). unfold rt. cbn [fst snd].
    rewrite (nuclear_thickness_act _ _ _ _ _ _ _ g _ _ _ _ _ _ _ Hd PX EA FA1 _ Hc).
    rewrite (nuclear_thickness_act _ _ _ _ _ _ _ g _ _ _ _ _ _ _ Hd PX EB FB1 _ Hc). reflexivity. }
  split; [intros iy ix Hy Hx c; apply (CC (iy, ix)); apply in_cells; split; auto|].
  split.
  { rewrite EK, FK. rewrite (nuclear_thickness_npart _ _ _ _ _ _ _ _ _ EB), (nuclear_thickness_npart _ _ _ _ _ _ _ _ _ FB1).
    rewrite (nuclear_thickness_npart _ _ _ _ _ _ _ _ _ EA), (nuclear_thickness_npart _ _ _ _ _ _ _ _ _ FA1).
    rewrite !filter_act, !map_length. reflexivity. }
  destruct (compute_R _ _ _ _ _ _ _ He H1) as [M1 E1]. destruct (compute_R _ _ _ _ _ _ _ He H2) as [M2 E2].
  fold N in M1, M2, E1, E2.
  split.
  - rewrite M1, M2. f_equal. rewrite <- (Rsum_perm _ _ _ (act_cells_perm g N)), Rsum_map. apply Rsum_ext. exact CC.
  - rewrite E1, E2.
    assert (EQ : forall n, ecc_n n (cells N) (fun c => cell (ev_TR ev'') (fst c) (snd c)) = ecc_n n (cells N) (fun c => cell (ev_TR ev') (fst c) (snd c))).
    { intros n. apply (ecc_n_moved n g N); [|exact CC]. right. intros [iy ix] Hc. apply in_cells in Hc. cbn [fst snd].
      rewrite CT1 by exact Hc. unfold rt. rewrite PN. apply Rmult_le_pos; [exact Hn|apply gen_mean_nonneg]. }
    rewrite !EQ. reflexivity.
Qed.

(** ** The scene of GridProps.v meets the hypotheses *)

Example C14_instance : forall sp, exists (ev ev' : event RA) (a b : R),
  event_compute true ev scene_A scene_B (nucleon_common_of scene_config sp) = Ret ev' /\
  total_thickness true (nucleon_common_of scene_config sp) scene_A (- (1/4)) (3/4) a /\
  total_thickness true (nucleon_common_of scene_config sp) scene_B (- (1/4)) (3/4) b /\
  cell (ev_TR ev') 3 1 = 3 * sqrt (a * b).
Proof.
  intros sp. destruct (scene_computes true sp) as (ev & ev' & E & He & N & E').
  destruct (C14_cell scene_config sp ev true scene_A scene_B ev' 3 1) as (a & b & Ha & Hb & _ & _ & HC); auto; try lia.
  - cbn; lra.
  - cbn; lra.
  - cbn; lia.
  - intros n q [[<-|[<-|[]]]|[<-|[]]]; intros _; cbn [n_cons In]; intros Hq; try contradiction; destruct Hq as [<-|[<-|[]]]; cbn; lra.
  - exists ev, ev', a, b. split; [exact E'|]. rewrite N in Ha, Hb.
    replace ((IZR 1 + / 2) * grid_step scene_config - IZR 4 * grid_step scene_config / 2) with (- (1/4)) in Ha, Hb by (cbn; lra).
    replace ((IZR 3 + / 2) * grid_step scene_config - IZR 4 * grid_step scene_config / 2) with (3/4) in Ha, Hb by (cbn; lra).
    split; [exact Ha|]. split; [exact Hb|]. rewrite HC. change (normalization scene_config) with 3.
    change (reduced_thickness scene_config) with 0. f_equal. unfold M_p. rewrite Rabs_R0.
    destruct (Rlt_dec 0 eps12); [reflexivity|]. pose proof eps12_pos. contradiction.
Qed.

Lemma act_near g n : near n -> near (act_nucleon g n).
Proof.
  intros Hn Hp. change (n_part (act_nucleon g n)) with (n_part n) in Hp. destruct (Hn Hp) as [H1 H2]. split.
  - cbn [act_nucleon n_cons]. destruct (n_cons n); [contradiction|discriminate].
  - cbn [act_nucleon n_cons]. intros q Hq. apply in_map_iff in Hq. destruct Hq as (q0 & <- & H0). specialize (H2 q0 H0).
    destruct g as [[] [] []]; cbn; simpl in H2; lra.
Qed.

(** The scene and every moved copy of it compute, so C18 applies to them. *)
Example C18_instance : forall sp g, exists ev ev' ev'',
  evolved scene_config ev /\
  event_compute true ev scene_A scene_B (nucleon_common_of scene_config sp) = Ret ev' /\
  event_compute true ev (map (act_nucleon g) scene_A) (map (act_nucleon g) scene_B) (nucleon_common_of scene_config sp) = Ret ev'' /\
  ev_ecc ev'' = ev_ecc ev'.
Proof.
  intros sp g. destruct (scene_computes true sp) as (ev & ev' & E & He & N & E').
  destruct (near_computes true sp (map (act_nucleon g) scene_A) (map (act_nucleon g) scene_B)) as (ev2 & ev'' & E2 & _ & _ & E'').
  { intros n [Hn|Hn]; apply in_map_iff in Hn; destruct Hn as (n0 & <- & H0); apply act_near, scene_near; auto. }
  assert (X : ev2 = ev) by congruence. subst ev2.
  exists ev, ev', ev''. split; [exact He|]. split; [exact E'|]. split; [exact E''|].
  apply (C18_square_symmetries scene_config sp g ev true scene_A scene_B ev' ev''); auto; cbn; lra.
Qed.

(** Binary64: an event without thickness on a 4 x 4 grid; its centre is NaN. *)
Definition empty_config (L : Libm) : config (FA L) :=
  let l := f64_lit in
  @Config (FA L) ["p"; "p"]%string 1 false None false false (l 0 0)%Z (l 1 0)%Z (l 5 (-1))%Z (l 5 (-1))%Z 1 (l 0 0)%Z
    (l 64 (-1))%Z (l 1 0)%Z (l 0 0)%Z (l 1 0)%Z 1 (l 1 0)%Z (l 5 (-1))%Z.
Lemma empty_event L : exists ev, event_new (empty_config L) = Ret ev /\ ev_nsteps ev = 4%Z /\
  ev_mean ev = GGeometric /\ ev_norm ev = f64_lit 1 0.
Proof.
  unfold event_new.
  assert (E : to_int (A:=FA L) (f64_ceil (f64_div (f64_mul (f64_lit 2 0) (f64_lit 1 0)) (f64_lit 5 (-1)))) = Ret 4%Z) by (vm_compute; reflexivity).
  assert (P : f64_ltb (Babs (f64_lit 0 0)) (f64_lit 1 (-12)) = true) by (vm_compute; reflexivity).
  change (to_int _) with (to_int (A:=FA L) (f64_ceil (f64_div (f64_mul (f64_lit 2 0) (f64_lit 1 0)) (f64_lit 5 (-1))))).
  rewrite E. cbn [rbind]. eexists. split; [reflexivity|]. cbn [ev_nsteps ev_mean ev_norm]. split; [reflexivity|]. split; [|reflexivity].
  unfold choose_mean. change (nltb (FA L) _ _) with (f64_ltb (Babs (f64_lit 0 0)) (f64_lit 1 (-12))) at 1. rewrite P. reflexivity.
Qed.

Example C16_empty_instance : forall L nc, exists ev ev',
  event_new (empty_config L) = Ret ev /\
  event_compute true ev [] [] nc = Ret ev' /\
  is_nan (ev_ixcm ev' : f64) = true /\
  (forall t, In t (row_major (ev_TR ev')) -> f64_ltb t (f64_lit 1 (-12)) = true).
Proof.
  intros L nc. destruct (empty_event L) as (ev & E & N & EM & EN).
  assert (Hr : ready ev) by (eapply event_new_ready; eauto).
  destruct (event_compute_returns true ev [] [] nc Hr) as (ev' & E'); [lia|intros n [[]|[]]|].
  exists ev, ev'. split; [exact E|]. split; [exact E'|].
  pose proof (event_compute_inv _ _ _ _ _ _ Hr E') as (_ & (k & k' & EA & EB & _) & _ & _ & S & CT & _ & EX & _).
  cbn [compute_nuclear_thickness rfold] in EA, EB.
  apply (f_equal (fun r => match r with Ret x => fst x | _ => [] end)) in EA, EB. cbn [fst] in EA, EB.
  rewrite <- EA, <- EB, N, EM, EN in *. split.
  - rewrite EX. vm_compute. reflexivity.
  - intros t Ht. rewrite <- (cells_row_major' _ _ S) in Ht. apply in_map_iff in Ht. destruct Ht as ([iy ix] & <- & Hc).
    apply in_cells in Hc. cbn [fst snd]. rewrite CT by exact Hc.
    assert (Z : cell (zeros (A:=FA L) 4) iy ix = f64_lit 0 0).
    { unfold cell. destruct ((iy <? 0) || (ix <? 0))%Z%bool; [reflexivity|].
      unfold zeros. change (Z.to_nat 4) with 4%nat. destruct Hc as [Hy Hx].
      assert (Y4 : (Z.to_nat iy < 4)%nat) by lia. assert (X4 : (Z.to_nat ix < 4)%nat) by lia.
      rewrite nth_indep with (d' := repeat (nlit (FA L) 0 0) 4) by (rewrite repeat_length; exact Y4).
      rewrite nth_repeat. rewrite nth_indep with (d' := nlit (FA L) 0 0) by (rewrite repeat_length; exact X4).
      apply nth_repeat. }
    unfold rt. cbn [fst snd]. rewrite Z. vm_compute. reflexivity.
Qed.
