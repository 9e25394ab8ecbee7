(** Subgrid deposition in real arithmetic; absence of undefined behaviour in any
    arithmetic. *)
From Coq Require Import Reals Lra.
From Flocq Require Import Core.
From Verif.Base Require Import Result Arith RArith.
From Verif.Model Require Import FastExp Config Nucleon Nucleus Event.
From Verif.Spec Require Import Grid Evolved.
From Verif.Proof Require Import Basics RBasics FastExpP NucleonP GridP EventP.

Section Any.
Context {A : Arith}.

Lemma evolved_ready (cfg : config A) ev : evolved cfg ev -> ready ev.
Proof. induction 1; [eapply event_new_ready; eauto|eapply event_compute_ready; eauto]. Qed.

Lemma evolved_params (cfg : config A) ev : evolved cfg ev -> exists ev0, event_new cfg = Ret ev0 /\ same_params ev0 ev.
Proof.
  induction 1 as [ev H|dbg ev nA nB nc ev' H (ev0 & E & P) C].
  - exists ev. split; auto. apply same_params_refl.
  - exists ev0. split; auto. eapply same_params_trans; [exact P|].
    eapply event_compute_ready; eauto. eapply evolved_ready; eauto.
Qed.

Lemma clip_range i N : (0 < N)%Z -> (0 <= clip i 0 (N - 1) < N)%Z.
Proof. intros H. unfold clip. destruct (Z.ltb_spec i 0); [lia|]. destruct (Z.ltb_spec (N - 1) i); lia. Qed.

(** One participant is deposited without undefined behaviour. *)
Lemma deposit_returns dbg nc dxy xymax N n (g : grid A) :
  (0 < N)%Z -> square N g ->
  (exists b0 b1 b2 b3, boundary nc n = Ret (b0, b1, b2, b3) /\
     forall b, b = b0 \/ b = b1 \/ b = b2 \/ b = b3 -> exists i, to_int (ndiv A (nadd A b xymax) dxy) = Ret i) ->
  (forall ix iy, inside N iy ix -> exists t, thickness dbg nc n (cell_centre dxy xymax ix) (cell_centre dxy xymax iy) = Ret t) ->
  exists g', deposit dbg nc dxy xymax N n g = Ret g' /\ square N g'.
Proof.
  intros HN Sg (b0 & b1 & b2 & b3 & Eb & Hi) Ht.
  assert (HI : forall b, b = b0 \/ b = b1 \/ b = b2 \/ b = b3 ->
               exists i, cell_index dxy xymax N b = Ret i /\ (0 <= i < N)%Z).
  { intros b Hb. destruct (Hi b Hb) as (i & E). exists (clip i 0 (N - 1)). unfold cell_index. rewrite E. split; [reflexivity|]. apply clip_range; auto. }
  destruct (HI b0) as (x0 & E0 & R0); auto. destruct (HI b1) as (x1 & E1 & R1); auto.
  destruct (HI b2) as (y0 & E2 & R2); auto. destruct (HI b3) as (y1 & E3 & R3); auto.
  unfold deposit. rewrite Eb. cbn [rbind]. rewrite E0, E1, E2, E3. cbn [rbind].
  assert (RF : forall iy, (0 <= iy < N)%Z -> forall xs, (forall x, In x xs -> (0 <= x < N)%Z) -> forall g0, square N g0 ->
    exists g1, rfold (fun g' ix => letr old := grid_get g' iy ix in
        letr t := thickness dbg nc n (cell_centre dxy xymax ix) (cell_centre dxy xymax iy) in
        grid_set g' iy ix (nadd A old t)) xs g0 = Ret g1 /\ square N g1).
  { intros iy Hy xs. induction xs as [|x xs IH]; intros Hx g0 S0; [exists g0; auto|].
    cbn [rfold]. assert (I : inside N iy x) by (split; auto; apply Hx; simpl; auto).
    rewrite (grid_get_cell N) by auto. cbn [rbind]. destruct (Ht x iy I) as (t & ->). cbn [rbind].
    destruct (grid_set_ok N g0 iy x (nadd A (cell g0 iy x) t) S0 I) as (g1 & -> & S1 & _). cbn [rbind].
    apply IH; auto. intros; apply Hx; simpl; auto. }
  assert (YF : forall ys, (forall y, In y ys -> (0 <= y < N)%Z) -> forall g0, square N g0 ->
    exists g1, rfold (fun g iy => rfold (fun g' ix => letr old := grid_get g' iy ix in
        letr t := thickness dbg nc n (cell_centre dxy xymax ix) (cell_centre dxy xymax iy) in
        grid_set g' iy ix (nadd A old t)) (zrange x0 x1) g) ys g0 = Ret g1 /\ square N g1).
  { induction ys as [|y ys IH]; intros Hy g0 S0; [exists g0; auto|].
    cbn [rfold]. destruct (RF y) with (xs := zrange x0 x1) (g0 := g0) as (g1 & -> & S1); auto.
    { apply Hy; simpl; auto. } { intros x Hx. apply in_zrange in Hx. lia. }
    cbn [rbind]. apply IH; auto. intros; apply Hy; simpl; auto. }
  apply YF; auto. intros y Hy. apply in_zrange in Hy. lia.
Qed.

Definition depositable dbg nc (ev : event A) (n : nucleon A) : Prop :=
  (exists b0 b1 b2 b3, boundary nc n = Ret (b0, b1, b2, b3) /\
     forall b, b = b0 \/ b = b1 \/ b = b2 \/ b = b3 -> exists i, to_int (ndiv A (nadd A b (ev_xymax ev)) (ev_dxy ev)) = Ret i) /\
  (forall ix iy, inside (ev_nsteps ev) iy ix ->
     exists t, thickness dbg nc n (cell_centre (ev_dxy ev) (ev_xymax ev) ix) (cell_centre (ev_dxy ev) (ev_xymax ev) iy) = Ret t).

Lemma nuclear_thickness_returns dbg nc (ev : event A) l k :
  (0 < ev_nsteps ev)%Z ->
  (forall n, In n l -> n_part n = true -> depositable dbg nc ev n) ->
  exists g k', compute_nuclear_thickness dbg nc (ev_dxy ev) (ev_xymax ev) (ev_nsteps ev) l k = Ret (g, k').
Proof.
  intros HN H. unfold compute_nuclear_thickness.
  assert (G : forall g0 k0, square (ev_nsteps ev) g0 -> exists g k', rfold (fun acc n =>
      let '(g, k) := acc in
      if n_part n then letr g' := deposit dbg nc (ev_dxy ev) (ev_xymax ev) (ev_nsteps ev) n g in Ret (g', (k + 1)%Z)
      else Ret (g, k)) l (g0, k0) = Ret (g, k')).
  { induction l as [|n l IH]; intros g0 k0 S0; [exists g0, k0; auto|]. cbn [rfold].
    destruct (n_part n) eqn:Hp.
    - destruct (H n (or_introl eq_refl) Hp) as [H1 H2].
      destruct (deposit_returns dbg nc _ _ _ n g0 HN S0 H1 H2) as (g1 & -> & S1). cbn [rbind].
      apply IH; auto. intros m Hm. apply H. simpl; auto.
    - cbn [rbind]. apply IH; auto. intros m Hm. apply H. simpl; auto. }
  apply G. apply zeros_square.
Qed.

Lemma event_compute_returns dbg (ev : event A) As Bs nc :
  ready ev -> (0 < ev_nsteps ev)%Z ->
  (forall n, In n As \/ In n Bs -> n_part n = true -> depositable dbg nc ev n) ->
  exists ev', event_compute dbg ev As Bs nc = Ret ev'.
Proof.
  intros [ST HE] HN H. unfold event_compute.
  destruct (nuclear_thickness_returns dbg nc ev As 0 HN) as (TA & k & EA); [auto|].
  destruct (nuclear_thickness_returns dbg nc ev Bs k HN) as (TB & k' & EB); [auto|].
  rewrite EA. cbn [rbind]. rewrite EB. cbn [rbind].
  pose proof (nuclear_thickness_square _ _ _ _ _ _ _ _ _ EA) as SA.
  pose proof (nuclear_thickness_square _ _ _ _ _ _ _ _ _ EB) as SB.
  destruct (reduced_thickness_spec ev TA TB SA SB ST) as (TR & -> & SR & _). cbn [rbind].
  destruct (observables_spec (ev_nsteps ev) TR
     (ndiv A (fold_left (fun a c => nadd A a (nmul A (rt (ev_mean ev) (ev_norm ev) TA TB c) (nofZ A (snd c)))) (cells (ev_nsteps ev)) (nlit A 0 0))
             (fold_left (fun a c => nadd A a (rt (ev_mean ev) (ev_norm ev) TA TB c)) (cells (ev_nsteps ev)) (nlit A 0 0)))
     (ndiv A (fold_left (fun a c => nadd A a (nmul A (rt (ev_mean ev) (ev_norm ev) TA TB c) (nofZ A (fst c)))) (cells (ev_nsteps ev)) (nlit A 0 0))
             (fold_left (fun a c => nadd A a (rt (ev_mean ev) (ev_norm ev) TA TB c)) (cells (ev_nsteps ev)) (nlit A 0 0)))
     SR) as ([[[e2 e3] e4] e5] & Ee & _).
  rewrite Ee. cbn [rbind]. eauto.
Qed.

End Any.

Local Open Scope R_scope.

(** ** Real arithmetic *)

Lemma to_int_R (x : R) (i : Z) : to_int (A:=RA) x = Ret i -> i = Ztrunc x.
Proof. unfold to_int. cbn [ntrunc RA RA_with]. destruct (in_int (Ztrunc x)); congruence. Qed.

(** Cells below / above the index range have centres outside the box. *)
Lemma index_low (dxy xymax b : R) N i jx : 0 < dxy -> cell_index (A:=RA) dxy xymax N b = Ret i ->
  (0 <= jx < i)%Z -> cell_centre (A:=RA) dxy xymax jx <= b.
Proof.
  intros Hd E Hj. unfold cell_index in E. mstep E. mstep E. apply to_int_R in E0. subst x.
  set (q := (b + xymax) / dxy) in *.
  assert (Hq : q * dxy = b + xymax) by (unfold q; field; lra).
  unfold clip in Hj. cbn [ndiv nadd RA RA_with] in Hj. fold q in Hj.
  destruct (Z.ltb_spec (Ztrunc q) 0); [lia|].
  assert (Hq0 : 0 <= q).
  { destruct (Rle_dec 0 q); auto. exfalso. destruct (Z.ltb_spec (N - 1) (Ztrunc q)).
    - assert (Ztrunc q <= 0)%Z; [|lia]. rewrite Ztrunc_ceil by lra. apply Zceil_glb. simpl. lra.
    - assert (Ztrunc q <= 0)%Z; [|lia]. rewrite Ztrunc_ceil by lra. apply Zceil_glb. simpl. lra. }
  assert (Hle : (jx + 1 <= Ztrunc q)%Z) by (destruct (Z.ltb_spec (N - 1) (Ztrunc q)); lia).
  rewrite Ztrunc_floor in Hle by auto. pose proof (Zfloor_lb q) as L.
  apply IZR_le in Hle. rewrite plus_IZR in Hle.
  unfold cell_centre. cbn [nsub nmul nadd nofZ nlit RA RA_with]. rlits.
  assert ((IZR jx + 5 / 10) * dxy <= q * dxy) by (apply Rmult_le_compat_r; lra). lra.
Qed.

Lemma index_high (dxy xymax b : R) N i jx : 0 < dxy -> cell_index (A:=RA) dxy xymax N b = Ret i ->
  (i < jx < N)%Z -> (0 <= jx)%Z -> b <= cell_centre (A:=RA) dxy xymax jx.
Proof.
  intros Hd E Hj Hj0. unfold cell_index in E. mstep E. mstep E. apply to_int_R in E0. subst x.
  set (q := (b + xymax) / dxy) in *.
  assert (Hq : q * dxy = b + xymax) by (unfold q; field; lra).
  unfold clip in Hj. cbn [ndiv nadd RA RA_with] in Hj. fold q in Hj.
  assert (q <= IZR jx).
  { destruct (Z.ltb_spec (Ztrunc q) 0).
    - apply Rle_trans with 0; [|apply IZR_le; lia].
      destruct (Rle_dec q 0); auto. exfalso. rewrite Ztrunc_floor in * by lra.
      assert (0 <= Zfloor q)%Z; [|lia]. apply Zfloor_lub. simpl. lra.
    - destruct (Z.ltb_spec (N - 1) (Ztrunc q)); [lia|].
      destruct (Rle_dec q 0); [apply Rle_trans with 0; auto; apply IZR_le; lia|].
      rewrite Ztrunc_floor in Hj by lra. pose proof (Zfloor_ub q).
      assert (HZ : (Zfloor q + 1 <= jx)%Z) by lia. apply IZR_le in HZ. rewrite plus_IZR in HZ. lra. }
  unfold cell_centre. cbn [nsub nmul nadd nofZ nlit RA RA_with]. rlits.
  assert (q * dxy <= (IZR jx + 5 / 10) * dxy) by (apply Rmult_le_compat_r; lra). lra.
Qed.

(** Value of the thickness function (it always returns in real arithmetic). *)
Definition thick (cfg : config RA) (sp : R) (n : nucleon RA) (x y : R) : R :=
  nc_prefactor (nucleon_common_of cfg sp) * RBasics.Rsum (term (constit_width cfg) x y) (n_cons n).

Lemma deposit_R (cfg : config RA) sp dbg (dxy xymax : R) N n (g g' : grid RA) : 0 < dxy ->
  square N g -> deposit (A:=RA) dbg (nucleon_common_of cfg sp) dxy xymax N n g = Ret g' ->
  square N g' /\
  forall jy jx, inside N jy jx ->
    cell g' jy jx = cell g jy jx + thick cfg sp n (cell_centre (A:=RA) dxy xymax jx) (cell_centre (A:=RA) dxy xymax jy).
Proof.
  intros Hd Sg H. destruct (deposit_inv _ _ _ _ _ _ _ _ Sg H) as (S' & x0 & x1 & y0 & y1 & (b0 & b1 & b2 & b3 & Eb & E0 & E1 & E2 & E3) & C).
  split; [exact S'|]. intros jy jx Hj. destruct (C jy jx Hj) as [Cin Cout].
  assert (T : thickness (A:=RA) dbg (nucleon_common_of cfg sp) n (cell_centre (A:=RA) dxy xymax jx) (cell_centre (A:=RA) dxy xymax jy)
              = Ret (thick cfg sp n (cell_centre (A:=RA) dxy xymax jx) (cell_centre (A:=RA) dxy xymax jy))) by (apply thickness_R).
  destruct (Z_le_dec y0 jy); [destruct (Z_le_dec jy y1); [destruct (Z_le_dec x0 jx); [destruct (Z_le_dec jx x1)|]|]|].
  { destruct Cin as (t & Et & ->); [lia|]. rewrite T in Et. inversion Et. reflexivity. }
  all: rewrite Cout by lia.
  all: assert (Z : thickness (A:=RA) dbg (nucleon_common_of cfg sp) n (cell_centre (A:=RA) dxy xymax jx) (cell_centre (A:=RA) dxy xymax jy) = Ret 0).
  all: try (destruct Hj as [Hjy Hjx]; eapply thickness_outside; [exact Eb|]).
  - right; left. eapply index_high; eauto; lia.
  - assert (Z' : thick cfg sp n (cell_centre (A:=RA) dxy xymax jx) (cell_centre (A:=RA) dxy xymax jy) = 0) by congruence.
    rewrite Z'. rring.
  - left. eapply index_low; eauto; lia.
  - assert (Z' : thick cfg sp n (cell_centre (A:=RA) dxy xymax jx) (cell_centre (A:=RA) dxy xymax jy) = 0) by congruence.
    rewrite Z'. rring.
  - right; right; right. eapply index_high; eauto; lia.
  - assert (Z' : thick cfg sp n (cell_centre (A:=RA) dxy xymax jx) (cell_centre (A:=RA) dxy xymax jy) = 0) by congruence.
    rewrite Z'. rring.
  - right; right; left. eapply index_low; eauto; lia.
  - assert (Z' : thick cfg sp n (cell_centre (A:=RA) dxy xymax jx) (cell_centre (A:=RA) dxy xymax jy) = 0) by congruence.
    rewrite Z'. rring.
Qed.

Lemma nuclear_thickness_R (cfg : config RA) sp dbg (dxy xymax : R) N l k g k' : 0 < dxy ->
  compute_nuclear_thickness (A:=RA) dbg (nucleon_common_of cfg sp) dxy xymax N l k = Ret (g, k') ->
  forall jy jx, inside N jy jx ->
    cell g jy jx = RBasics.Rsum (fun n => thick cfg sp n (cell_centre (A:=RA) dxy xymax jx) (cell_centre (A:=RA) dxy xymax jy)) (filter n_part l).
Proof.
  intros Hd H jy jx Hj. unfold compute_nuclear_thickness in H.
  assert (G : forall g0 k0, square N g0 -> rfold (fun acc n =>
      let '(g, k) := acc in
      if n_part n then letr g' := deposit dbg (nucleon_common_of cfg sp) dxy xymax N n g in Ret (g', (k + 1)%Z)
      else Ret (g, k)) l (g0, k0) = Ret (g, k') ->
      cell g jy jx = cell g0 jy jx + RBasics.Rsum (fun n => thick cfg sp n (cell_centre (A:=RA) dxy xymax jx) (cell_centre (A:=RA) dxy xymax jy)) (filter n_part l)).
  { clear H. induction l as [|n l IH]; intros g0 k0 S0 H.
    - cbn in H. inversion H; subst. cbn [filter Rsum fold_right]. rring.
    - cbn [rfold] in H. cbn [filter]. destruct (n_part n).
      + mstep H. mstep E. mstep E. destruct (deposit_R _ _ _ _ _ _ _ _ _ Hd S0 E0) as (S1 & C1).
        specialize (IH _ _ S1 H). rewrite IH, (C1 _ _ Hj), Rsum_cons. rring.
      + cbn [rbind] in H. eapply IH; eauto. }
  rewrite (G _ _ (zeros_square N) H), zeros_cell by assumption. cbn [nlit RA RA_with]. rlits. rring.
Qed.
