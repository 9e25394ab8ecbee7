(** C10-C13: independence of earlier events, deposition, grid geometry, absence
    of undefined behaviour. *)
From Coq Require Import Reals Lra.
From Flocq Require Import Core BinarySingleNaN.
From Verif.Base Require Import Result Arith RArith FArith.
From Verif.Model Require Import FastExp Config Nucleon Nucleus Event.
From Verif.Spec Require Import Grid Evolved Profile.
From Verif.Proof Require Import Basics RBasics FastExpP NucleonP GridP EventP DepositR.

(** ** C10 *)

(** compute on given nuclei has the same outcome (value, exception or undefined
    behaviour) for an object with any history as for a freshly constructed one;
    in particular every observable of the event is the same.  Any arithmetic. *)
Theorem C10_no_memory :
  forall (A : Arith) (cfg : config A) (ev fresh_ev : event A) dbg nA nB nc,
  evolved cfg ev -> event_new cfg = Ret fresh_ev ->
  event_compute dbg ev nA nB nc = event_compute dbg fresh_ev nA nB nc.
Proof.
  intros A cfg ev ev0 dbg nA nB nc He H0.
  destruct (evolved_params _ _ He) as (ev1 & E1 & P). assert (ev1 = ev0) by congruence. subst ev1.
  symmetry. apply event_compute_same; auto.
  - eapply event_new_ready; eauto.
  - eapply evolved_ready; eauto.
Qed.

Local Open Scope R_scope.

(** ** C11 *)

(** After compute, cell (iy, ix) of each nuclear thickness grid is the sum over
    all participants of that nucleus of thickness() at the cell centre
    ((ix+1/2) step - xymax, (iy+1/2) step - xymax), xymax = N step / 2. *)
Theorem C11_full_sum :
  forall (cfg : config RA) (sp : R) ev dbg nA nB ev' iy ix,
  0 < grid_step cfg ->
  evolved cfg ev ->
  event_compute dbg ev nA nB (nucleon_common_of cfg sp) = Ret ev' ->
  let N := ev_nsteps ev in
  let xymax := IZR N * grid_step cfg / 2 in
  let x := (IZR ix + / 2) * grid_step cfg - xymax in
  let y := (IZR iy + / 2) * grid_step cfg - xymax in
  (0 <= iy < N)%Z -> (0 <= ix < N)%Z ->
  forall (nucl : list (nucleon RA)) (grd : grid RA),
  (nucl, grd) = (nA, ev_TA ev') \/ (nucl, grd) = (nB, ev_TB ev') ->
  exists ts : list R,
    Forall2 (fun n t => thickness (A:=RA) dbg (nucleon_common_of cfg sp) n x y = Ret t) (filter n_part nucl) ts /\
    cell grd iy ix = fold_right Rplus 0 ts.
Proof.
  intros cfg sp ev dbg nA nB ev' iy ix Hd He H N xymax x y Hy Hx nucl grd Hg.
  destruct (evolved_params _ _ He) as (ev0 & E0 & P). pose proof (evolved_ready _ _ He) as Hr.
  pose proof (event_compute_inv _ _ _ _ _ _ Hr H) as (_ & (k & k' & EA & EB & _) & _).
  assert (PD : ev_dxy ev = grid_step cfg /\ ev_xymax ev = xymax).
  { destruct P as (_ & _ & Pd & Ps & Px). unfold N, xymax, N. rewrite <- Pd, <- Px, <- Ps.
    unfold event_new in E0. mstep E0. mstep E0. cbn [ev_dxy ev_xymax ev_nsteps]. split; auto.
    cbn [nmul nlit nofZ RA RA_with]. rlits. toR. lra. }
  destruct PD as [PD PX]. rewrite PD, PX in EA, EB.
  exists (map (fun n => thick cfg sp n x y) (filter n_part nucl)). split.
  - induction (filter n_part nucl) as [|n l IH]; constructor; auto. apply thickness_R.
  - assert (C : forall i, cell_centre (A:=RA) (grid_step cfg) xymax i = (IZR i + / 2) * grid_step cfg - xymax).
    { intros i. unfold cell_centre. cbn [nsub nmul nadd nofZ nlit RA RA_with]. rlits.
      generalize (grid_step cfg). simpl. intros z. lra. }
    assert (G : exists j j', compute_nuclear_thickness (A:=RA) dbg (nucleon_common_of cfg sp) (grid_step cfg) xymax N nucl j = Ret (grd, j')).
    { destruct Hg as [Hg|Hg]; inversion Hg; subst; eauto. }
    destruct G as (j & j' & G). rewrite (nuclear_thickness_R _ _ _ _ _ _ _ _ _ _ Hd G iy ix) by (split; auto).
    rewrite !C. fold x. fold y. clear. induction (filter n_part nucl) as [|n l IH]; [reflexivity|].
    rewrite Rsum_cons, IH. reflexivity.
Qed.

(** ** C12 *)

(** For positive max and step with ceil(2 max/step) representable, the
    constructor returns an event with an N x N grid, N = ceil(2 max/step) >= 1,
    whose half-width is at least max and less than max + step/2; the cell centres
    (used by compute, see C11) start half a step above -xymax, are one step
    apart and symmetric about 0. *)
Theorem C12_geometry :
  forall (cfg : config RA), 0 < grid_max cfg -> 0 < grid_step cfg ->
  2 * grid_max cfg / grid_step cfg <= 2147483647 ->
  exists ev, event_new cfg = Ret ev /\
    let N := ev_nsteps ev in
    let centre i := cell_centre (ev_dxy ev) (ev_xymax ev) i in
    N = Zceil (2 * grid_max cfg / grid_step cfg) /\ (1 <= N)%Z /\
    square N (ev_TA ev) /\ square N (ev_TB ev) /\ square N (ev_TR ev) /\
    ev_dxy ev = grid_step cfg /\
    ev_xymax ev = IZR N * grid_step cfg / 2 /\
    grid_max cfg <= ev_xymax ev < grid_max cfg + grid_step cfg / 2 /\
    (forall i, centre (i + 1)%Z - centre i = grid_step cfg) /\
    (forall i, centre (N - 1 - i)%Z = - centre i) /\
    centre 0%Z = - ev_xymax ev + grid_step cfg / 2.
Proof.
  intros cfg Hm Hs Hq. unfold event_new. unfold to_int. cbn [nceil ntrunc nmul ndiv nlit RA RA_with]. rlits.
  rewrite Ztrunc_IZR. revert Hm Hs Hq. set (p := choose_mean _). set (nrm := normalization cfg). clearbody p nrm.
  generalize (grid_max cfg) (grid_step cfg). simpl num. intros mx st Hm Hs Hq.
  set (q := 2 * mx / st) in *. set (N := Zceil q).
  assert (Eq : q * st = 2 * mx) by (unfold q; field; lra).
  assert (Hq0 : 0 < q) by (unfold q; apply Rdiv_lt_0_compat; lra).
  assert (N0 : (1 <= N)%Z).
  { assert (0 < N)%Z; [|lia]. apply lt_IZR. simpl. pose proof (Zceil_ub q). fold N in H. lra. }
  assert (N1 : (N <= 2147483647)%Z) by (apply Zceil_glb; exact Hq).
  assert (IN : in_int N = true).
  { unfold in_int, int_min, int_max. destruct (Z.leb_spec (-2147483648) N); [|lia]. destruct (Z.leb_spec N 2147483647); [reflexivity|lia]. }
  rewrite IN. cbn [rbind]. eexists. split; [reflexivity|]. cbn [ev_nsteps ev_dxy ev_xymax ev_TA ev_TB ev_TR].
  pose proof (Zceil_ub q) as U. pose proof (Zceil_lb q) as L. fold N in U, L.
  unfold cell_centre. cbn [nsub nmul nadd nofZ nlit RA RA_with]. rlits.
  split; [reflexivity|]. split; [exact N0|]. split; [apply zeros_square|]. split; [apply zeros_square|]. split; [apply zeros_square|].
  split; [reflexivity|]. split; [toR; field|]. split.
  - assert (q * st <= IZR N * st) by (apply Rmult_le_compat_r; lra).
    assert (IZR N * st < (q + 1) * st) by (apply Rmult_lt_compat_r; lra). simpl in *. lra.
  - split; [intros i; rewrite plus_IZR; simpl; lra|].
    split; [intros i; rewrite !minus_IZR; simpl; lra|]. simpl. lra.
Qed.

(** The binary64 surprise: 2 * 2.1 / 0.3 rounds to a value above 14, so N = 15. *)
Theorem C12_ieee_example :
  forall (L : Libm) (cfg : config (FA L)) ev,
  grid_max cfg = f64_lit 21 (-1) -> grid_step cfg = f64_lit 3 (-1) ->
  event_new cfg = Ret ev -> ev_nsteps ev = 15%Z.
Proof.
  intros L cfg ev Hm Hs H. unfold event_new in H. rewrite Hm, Hs in H.
  change (to_int (A:=FA L) _) with (to_int (A:=FA L) (f64_ceil (f64_div (f64_mul (f64_lit 2 0) (f64_lit 21 (-1))) (f64_lit 3 (-1))))) in H.
  assert (E : to_int (A:=FA L) (f64_ceil (f64_div (f64_mul (f64_lit 2 0) (f64_lit 21 (-1))) (f64_lit 3 (-1)))) = Ret 15%Z) by (vm_compute; reflexivity).
  rewrite E in H. cbn [rbind] in H.
  apply (f_equal (fun r => match r with Ret e => ev_nsteps e | _ => 0%Z end)) in H. cbn [ev_nsteps] in H. symmetry. exact H.
Qed.

(** ** C13 *)

(** Any arithmetic (binary64 with NaN and infinities included): if N > 0, and for
    every participant the constituent list is not empty (boundary() returns), its
    four box edges convert to int, and thickness() returns at the cell centres,
    then compute returns: no grid access is out of bounds. *)
Theorem C13_compute_returns :
  forall (A : Arith) (cfg : config A) (ev : event A) dbg nA nB nc,
  evolved cfg ev -> (0 < ev_nsteps ev)%Z ->
  (forall n, In n nA \/ In n nB -> n_part n = true ->
     n_cons n <> [] /\
     (forall b0 b1 b2 b3 b, boundary nc n = Ret (b0, b1, b2, b3) -> In b [b0; b1; b2; b3] ->
        exists i, to_int (ndiv A (nadd A b (ev_xymax ev)) (ev_dxy ev)) = Ret i) /\
     (forall ix iy, (0 <= iy < ev_nsteps ev)%Z -> (0 <= ix < ev_nsteps ev)%Z ->
        exists t, thickness dbg nc n (cell_centre (ev_dxy ev) (ev_xymax ev) ix)
                                     (cell_centre (ev_dxy ev) (ev_xymax ev) iy) = Ret t)) ->
  exists ev', event_compute dbg ev nA nB nc = Ret ev'.
Proof.
  intros A cfg ev dbg nA nB nc He HN H. apply event_compute_returns; auto.
  - eapply evolved_ready; eauto.
  - intros n Hn Hp. destruct (H n Hn Hp) as (Hc & Hb & Ht). split.
    + destruct (boundary_returns nc n Hc) as (b0 & b1 & b2 & b3 & E). exists b0, b1, b2, b3. split; auto.
      intros b Hin. apply (Hb b0 b1 b2 b3 b E). simpl. intuition.
    + intros ix iy [Hy Hx]. auto.
Qed.

(** Real arithmetic: the hypotheses reduce to those on the configuration and the
    boxes. *)
Theorem C13_compute_returns_R :
  forall (cfg : config RA) (sp : R) ev dbg nA nB,
  0 < grid_max cfg -> 0 < grid_step cfg -> evolved cfg ev ->
  (forall n, In n nA \/ In n nB -> n_part n = true ->
     n_cons n <> [] /\
     forall b0 b1 b2 b3 b : R, boundary (nucleon_common_of cfg sp) n = Ret (b0, b1, b2, b3) -> In b [b0; b1; b2; b3] ->
       -2147483648 <= (b + ev_xymax ev) / grid_step cfg <= 2147483647) ->
  exists ev', event_compute dbg ev nA nB (nucleon_common_of cfg sp) = Ret ev'.
Proof.
  intros cfg sp ev dbg nA nB Hm Hs He H.
  destruct (evolved_params _ _ He) as (ev0 & E0 & (_ & _ & Pd & Pn & _)).
  apply (C13_compute_returns RA cfg); auto.
  - rewrite <- Pn. unfold event_new in E0. mstep E0. apply to_int_R in E. subst x. mstep E0. cbn [ev_nsteps].
    cbn [nceil nmul ndiv nlit RA RA_with]. rlits. rewrite Ztrunc_IZR. apply lt_IZR. simpl.
    revert Hm Hs. generalize (grid_max cfg) (grid_step cfg). simpl. intros mx st Hm Hs.
    pose proof (Zceil_ub (2 * mx / st)). assert (0 < 2 * mx / st) by (apply Rdiv_lt_0_compat; lra). lra.
  - intros n Hn Hp. destruct (H n Hn Hp) as (Hc & Hb). split; [exact Hc|]. split.
    + intros b0 b1 b2 b3 b E Hin. specialize (Hb b0 b1 b2 b3 b E Hin).
      assert (D : ev_dxy ev = grid_step cfg).
      { rewrite <- Pd. unfold event_new in E0. mstep E0. mstep E0. reflexivity. }
      rewrite D. unfold to_int. cbn [ntrunc nadd ndiv RA RA_with].
      set (q := (b + ev_xymax ev) / grid_step cfg) in *.
      assert (in_int (Ztrunc q) = true); [|rewrite H0; eauto].
      unfold in_int, int_min, int_max. apply andb_true_iff. rewrite !Z.leb_le. split.
      * destruct (Rle_dec 0 q).
        { rewrite Ztrunc_floor by auto. apply Z.le_trans with 0%Z; [lia|]. apply Zfloor_lub. simpl. lra. }
        { rewrite Ztrunc_ceil by lra. apply le_IZR. pose proof (Zceil_ub q). lra. }
      * destruct (Rle_dec 0 q).
        { rewrite Ztrunc_floor by auto. apply le_IZR. pose proof (Zfloor_lb q). lra. }
        { rewrite Ztrunc_ceil by lra. apply Z.le_trans with 0%Z; [|lia]. apply Zceil_glb. simpl. lra. }
    + intros. eexists. apply thickness_R.
Qed.

(** The other side: the constructor has undefined behaviour if the quotient does
    not fit in int (real arithmetic), or the step is zero (binary64). *)
Theorem C13_constructor_UB_range :
  forall (cfg : config RA), 2147483647 < 2 * grid_max cfg / grid_step cfg ->
  event_new cfg = UB UbFloatToInt.
Proof.
  intros cfg H. unfold event_new, to_int. cbn [nceil ntrunc nmul ndiv nlit RA RA_with]. rlits.
  rewrite Ztrunc_IZR.
  assert (E : in_int (Zceil (2 * grid_max cfg / grid_step cfg)) = false); [|rewrite E; reflexivity].
  unfold in_int, int_min, int_max. apply andb_false_iff. right. apply Z.leb_gt. apply lt_IZR.
  pose proof (Zceil_ub (2 * grid_max cfg / grid_step cfg)). lra.
Qed.

Theorem C13_constructor_UB_zero_step :
  forall (L : Libm) (cfg : config (FA L)) s, grid_step cfg = B754_zero s -> event_new cfg = UB UbFloatToInt.
Proof.
  intros L cfg s H. unfold event_new. rewrite H.
  assert (E : forall x : f64, to_int (A:=FA L) (f64_ceil (f64_div x (B754_zero s))) = UB UbFloatToInt).
  { intros [|[]| |]; reflexivity. }
  change (to_int (A:=FA L) _) with (to_int (A:=FA L) (f64_ceil (f64_div (f64_mul (f64_lit 2 0) (grid_max cfg)) (B754_zero s)))).
  rewrite E. reflexivity.
Qed.

(** ** A case that meets the hypotheses of C10-C18 *)

(** 4 x 4 grid of half-width 1 and step 1/2; two constituents of width 1/2 per
    nucleon; one nucleon near the centre, one partly off the grid, one spectator. *)
Definition scene_config : config RA :=
  @Config RA ["p"; "p"]%string 1 false None false false 0 1 (1/2) (1/2) 2 0 (64/10) 3 0 1 1 1 (1/2).
Definition scene_A : list (nucleon RA) :=
  [@Nucleon RA 0 0 0 true true [@Constituent RA (1/10) 0 1; @Constituent RA (-1/10) 0 2];
   @Nucleon RA 9 9 9 false false []].
Definition scene_B : list (nucleon RA) :=
  [@Nucleon RA 1 (1/2) 0 true true [@Constituent RA (11/10) (1/2) 1; @Constituent RA (9/10) (1/2) 3]].

Lemma scene_event : exists ev, event_new scene_config = Ret ev /\ ev_nsteps ev = 4%Z.
Proof.
  destruct (C12_geometry scene_config) as (ev & E & N & _); [cbn; lra..|].
  exists ev. split; [exact E|]. rewrite N. cbn. replace (2 * 1 / (1 / 2)) with (IZR 4) by (simpl; field). apply Zceil_IZR.
Qed.

(** Nucleons whose constituents are near the origin. *)
Definition near (n : nucleon RA) : Prop :=
  n_part n = true -> n_cons n <> [] /\ forall q, In q (n_cons n) -> -2 <= q_x q <= 2 /\ -2 <= q_y q <= 2.

Lemma near_box (n : nucleon RA) sp (b0 b1 b2 b3 b : R) :
  near n -> n_part n = true ->
  boundary (nucleon_common_of scene_config sp) n = Ret (b0, b1, b2, b3) -> In b [b0; b1; b2; b3] -> -10 <= b <= 10.
Proof.
  intros Hn Hp Hb Hi. destruct (Hn Hp) as [_ Q].
  apply boundary_R in Hb. rewrite radius_sq_R in Hb. cbn [constit_width scene_config] in Hb.
  rewrite (Rabs_right (1 / 2)) in Hb by lra.
  destruct Hb as (_ & _ & (q0 & I0 & E0) & (q1 & I1 & E1) & (q2 & I2 & E2) & (q3 & I3 & E3)).
  pose proof (Q _ I0) as [Q0 _]. pose proof (Q _ I1) as [Q1 _]. pose proof (Q _ I2) as [_ Q2]. pose proof (Q _ I3) as [_ Q3].
  destruct Hi as [<-|[<-|[<-|[<-|[]]]]]; lra.
Qed.

Lemma near_computes : forall dbg sp nA nB, (forall n, In n nA \/ In n nB -> near n) ->
  exists ev ev',
  event_new scene_config = Ret ev /\ evolved scene_config ev /\ ev_nsteps ev = 4%Z /\
  event_compute dbg ev nA nB (nucleon_common_of scene_config sp) = Ret ev'.
Proof.
  intros dbg sp nA nB Hnear. destruct scene_event as (ev & E & N).
  assert (He : evolved scene_config ev) by (constructor; exact E).
  destruct (C13_compute_returns_R scene_config sp ev dbg nA nB) as (ev' & E'); auto.
  - cbn; lra.
  - cbn; lra.
  - intros n Hn Hp. split; [apply (Hnear n Hn Hp)|].
    intros b0 b1 b2 b3 b Hb Hi.
    assert (B : -10 <= b <= 10) by (eapply near_box; eauto).
    assert (X : ev_xymax ev = 1).
    { destruct (evolved_params _ _ He) as (ev0 & E0 & (_ & _ & _ & _ & P)). rewrite E in E0. inversion E0; subst ev0.
      revert N. unfold event_new in E. mstep E. mstep E. cbn [ev_nsteps ev_xymax]. intros ->.
      cbn [grid_step scene_config nmul nlit nofZ RA RA_with]. rlits. toR. lra. }
    rewrite X. cbn [grid_step scene_config]. lra.
  - exists ev, ev'. auto.
Qed.

Lemma scene_near : forall n, In n scene_A \/ In n scene_B -> near n.
Proof.
  intros n [[<-|[<-|[]]]|[<-|[]]] Hp; try discriminate Hp; (split; [discriminate|]);
  intros q [<-|[<-|[]]]; cbn [q_x q_y]; lra.
Qed.

(** compute returns on this scene, so C10, C11, C13 and the theorems of Reduced.v
    apply to it. *)
Lemma scene_computes : forall dbg sp, exists ev ev',
  event_new scene_config = Ret ev /\ evolved scene_config ev /\ ev_nsteps ev = 4%Z /\
  event_compute dbg ev scene_A scene_B (nucleon_common_of scene_config sp) = Ret ev'.
Proof. intros. apply near_computes. apply scene_near. Qed.

Example C10_instance : forall dbg sp nA nB nc ev2 , exists ev ev',
  event_new scene_config = Ret ev /\ event_compute dbg ev scene_A scene_B (nucleon_common_of scene_config sp) = Ret ev' /\
  (event_compute dbg ev' nA nB nc = Ret ev2 -> event_compute dbg ev nA nB nc = Ret ev2).
Proof.
  intros dbg sp nA nB nc ev2. destruct (scene_computes dbg sp) as (ev & ev' & E & He & _ & E').
  exists ev, ev'. split; auto. split; auto. intros <-. symmetry. apply (C10_no_memory RA scene_config); auto.
  eapply evolved_compute; eauto.
Qed.

Example C11_instance : forall sp, exists ev' a b,
  thickness (A:=RA) true (nucleon_common_of scene_config sp) (nth 0 scene_A nucleon_zero) (- (1/4)) (3/4) = Ret a /\
  thickness (A:=RA) true (nucleon_common_of scene_config sp) (nth 0 scene_B nucleon_zero) (- (1/4)) (3/4) = Ret b /\
  cell (ev_TA ev') 3 1 = a /\ cell (ev_TB ev') 3 1 = b.
Proof.
  intros sp. destruct (scene_computes true sp) as (ev & ev' & E & He & N & E').
  assert (S : 0 < grid_step scene_config) by (cbn; lra).
  assert (X : (IZR 1 + / 2) * grid_step scene_config - IZR 4 * grid_step scene_config / 2 = - (1/4)) by (cbn; lra).
  assert (Y : (IZR 3 + / 2) * grid_step scene_config - IZR 4 * grid_step scene_config / 2 = 3/4) by (cbn; lra).
  destruct (C11_full_sum _ _ _ _ _ _ _ 3 1 S He E' ltac:(lia) ltac:(lia) _ _ (or_introl eq_refl)) as (ta & FA1 & CA).
  destruct (C11_full_sum _ _ _ _ _ _ _ 3 1 S He E' ltac:(lia) ltac:(lia) _ _ (or_intror eq_refl)) as (tb & FB1 & CB).
  rewrite N in FA1, FB1. rewrite X, Y in FA1, FB1.
  cbn [filter scene_A scene_B n_part] in FA1, FB1.
  inversion FA1 as [|? a ? ? Ha Hr]; subst. inversion Hr; subst. inversion FB1 as [|? b ? ? Hb Hr']; subst. inversion Hr'; subst.
  exists ev', a, b. cbn [nth scene_A scene_B]. cbn [fold_right] in CA, CB. rewrite CA, CB. rewrite !Rplus_0_r. auto.
Qed.
