(** C19, C20, C25: the nucleon's thickness profile, its bounding box, FastExp. *)
From Coq Require Import Reals Lra.
From Verif.Base Require Import Result Arith RArith.
From Verif.Model Require Import FastExp Config Nucleon.
From Verif.Spec Require Import Profile.
From Verif.Proof Require Import Basics RBasics ExpP FastExpP NucleonP.
Local Open Scope R_scope.

(** ** C25 (exact arithmetic) *)

(** Every table of n >= 2 points over [xmin, xmax] and every argument in that
    interval: the evaluation returns (so it does not index out of bounds and does
    not throw), does not exceed exp x, has relative error at most
    dx^2/8 exp(dx/2), and is exact at the table points. *)
Theorem C25_fast_exp :
  forall (dbg : bool) (xmin xmax : R) (n : Z) (x : R),
  xmin < xmax -> (2 <= n <= 4294967296)%Z -> xmin <= x <= xmax ->
  let dx := (xmax - xmin) / IZR (n - 1) in
  exists y : R,
    fast_exp_eval (A:=RA) dbg (fast_exp_new (A:=RA) xmin xmax n) x = Ret y /\
    Rabs (y - exp x) <= exp x * (dx ^ 2 / 8 * exp (dx / 2)) /\
    y <= exp x /\
    ((exists j, (0 <= j < n)%Z /\ x = xmin + IZR j * dx) -> y = exp x).
Proof.
  intros dbg xmin xmax n x H1 H2 H3 dx.
  destruct (fast_exp_error dbg xmin xmax n x H1 H2 H3) as (y & E & [B1 B2] & T). fold dx in B1, T.
  exists y. split; [exact E|]. split; [|auto].
  rewrite Rabs_left1 by lra. replace (dx ^ 2) with (dx * dx) by ring. lra.
Qed.

(** Instance: the 1000-point table over [-12.5, 0] at -12.5, 0 and -1. *)
Example C25_instance : forall dbg, exists y : R,
  fast_exp_eval (A:=RA) dbg (fast_exp_new (A:=RA) (-25/2) 0 1000) (-1) = Ret y /\
  Rabs (y - exp (-1)) <= exp (-1) * (2 / 100000).
Proof.
  intros dbg.
  destruct (C25_fast_exp dbg (-25/2) 0 1000 (-1) ltac:(lra) ltac:(lia) ltac:(lra)) as (y & E & B & _).
  exists y. split; [exact E|]. eapply Rle_trans; [exact B|]. apply Rmult_le_compat_l; [left; apply exp_pos|].
  replace (IZR (1000 - 1)) with 999 by reflexivity.
  pose proof (exp_small ((0 - -25/2) / 999 / 2) ltac:(lra)) as S.
  assert (((0 - -25/2) / 999) ^ 2 / 8 * exp ((0 - -25/2) / 999 / 2)
            <= ((0 - -25/2) / 999) ^ 2 / 8 * / (1 - (0 - -25/2) / 999 / 2)) by (apply Rmult_le_compat_l; lra).
  lra.
Qed.

(** ** C20 *)

Lemma dist_dist2 x y (q : constituent RA) : dist x y q = sqrt (dist2 x y q).
Proof. unfold dist, dist2. f_equal. simpl. ring. Qed.

Lemma dist_x r x (q : constituent RA) : dist x (q_y q) q <= r <-> Rabs (x - q_x q) <= r.
Proof.
  rewrite dist_dist2. unfold dist2.
  replace ((x - q_x q) * (x - q_x q) + (q_y q - q_y q) * (q_y q - q_y q)) with ((x - q_x q)²) by (unfold Rsqr; simpl; ring).
  rewrite sqrt_Rsqr_abs. tauto.
Qed.
Lemma dist_y r y (q : constituent RA) : dist (q_x q) y q <= r <-> Rabs (y - q_y q) <= r.
Proof.
  rewrite dist_dist2. unfold dist2.
  replace ((q_x q - q_x q) * (q_x q - q_x q) + (y - q_y q) * (y - q_y q)) with ((y - q_y q)²) by (unfold Rsqr; simpl; ring).
  rewrite sqrt_Rsqr_abs. tauto.
Qed.
Lemma dist_coords r x y (q : constituent RA) : dist x y q <= r -> Rabs (x - q_x q) <= r /\ Rabs (y - q_y q) <= r.
Proof.
  rewrite dist_dist2. unfold dist2. intros H.
  pose proof (Rle_0_sqr (x - q_x q)) as P1. pose proof (Rle_0_sqr (y - q_y q)) as P2. unfold Rsqr in P1, P2.
  split; (eapply Rle_trans; [|exact H]); rewrite <- sqrt_Rsqr_abs; apply sqrt_le_1_alt; unfold Rsqr; simpl in *; lra.
Qed.

(** boundary() of a nucleon with constituents is the smallest box containing the
    disc of radius 5 widths around each of them, and the profile is 0 on and
    outside its border. *)
Theorem C20_boundary :
  forall (cfg : config RA) (sp : R) (n : nucleon RA), 0 <= constit_width cfg -> n_cons n <> [] ->
  let nc := nucleon_common_of cfg sp in
  let r := 5 * constit_width cfg in
  exists b0 b1 b2 b3 : R,
    boundary nc n = Ret (b0, b1, b2, b3) /\
    (forall q, In q (n_cons n) -> disc_in_box r q b0 b1 b2 b3) /\
    (forall c0 c1 c2 c3, (forall q, In q (n_cons n) -> disc_in_box r q c0 c1 c2 c3) ->
       c0 <= b0 /\ b1 <= c1 /\ c2 <= b2 /\ b3 <= c3) /\
    (forall dbg (x y : R), x <= b0 \/ b1 <= x \/ y <= b2 \/ b3 <= y -> thickness (A:=RA) dbg nc n x y = Ret 0).
Proof.
  intros cfg sp n Hv Hc nc r.
  destruct (boundary_returns nc n Hc) as (b0 & b1 & b2 & b3 & E). exists b0, b1, b2, b3.
  split; [exact E|]. pose proof (boundary_R _ _ _ _ _ _ E) as (_ & B & (q0 & I0 & E0) & (q1 & I1 & E1) & (q2 & I2 & E2) & (q3 & I3 & E3)).
  unfold nc in *. rewrite radius_sq_R in *. rewrite (Rabs_right (constit_width cfg)) in * by lra.
  fold r in B, E0, E1, E2, E3. assert (Hr : 0 <= r) by (unfold r; lra).
  split; [|split].
  - intros q Hq x y Hd. apply dist_coords in Hd. destruct Hd as [Dx Dy].
    specialize (B q Hq). apply Rabs_def2x in Dx. apply Rabs_def2x in Dy. lra.
  - intros c0 c1 c2 c3 H.
    assert (Ab : forall u, Rabs (u - r - u) <= r /\ Rabs (u + r - u) <= r).
    { intros u. split; apply Rabs_le; lra. }
    repeat split.
    + destruct (H q0 I0 (q_x q0 - r) (q_y q0)) as [D _]; [|lra]. apply dist_x. apply (Ab (q_x q0)).
    + destruct (H q1 I1 (q_x q1 + r) (q_y q1)) as [D _]; [|lra]. apply dist_x. apply (Ab (q_x q1)).
    + destruct (H q2 I2 (q_x q2) (q_y q2 - r)) as [_ D]; [|lra]. apply dist_y. apply (Ab (q_y q2)).
    + destruct (H q3 I3 (q_x q3) (q_y q3 + r)) as [_ D]; [|lra]. apply dist_y. apply (Ab (q_y q3)).
  - intros dbg x y Ho. eapply thickness_outside; eauto.
Qed.

(** ** C19 *)

Theorem C19_thickness :
  forall (cfg : config RA) (sp : R) (n : nucleon RA) (dbg : bool) (x y : R),
  0 < constit_width cfg -> (0 < constit_number cfg <= 2147483647)%Z ->
  (forall q, In q (n_cons n) -> 0 <= q_fluct q) ->
  let v := constit_width cfg in
  let m := IZR (constit_number cfg) in
  exists t : R,
    thickness (A:=RA) dbg (nucleon_common_of cfg sp) n x y = Ret t /\
    0 <= t /\
    Rabs (t - profile v m (n_cons n) x y) <= 2 / 100000 * profile v m (n_cons n) x y /\
    t <= profile v m (n_cons n) x y <= RBasics.Rsum (fun q : constituent RA => q_fluct q / m * (/ (2 * PI * v ^ 2))) (n_cons n) /\
    ((forall q, In q (n_cons n) -> 5 * v <= dist x y q) -> t = 0).
Proof.
  intros cfg sp n dbg x y Hv Hm Hf v m. rewrite thickness_R.
  assert (Hm' : 0 < m) by (apply IZR_lt; lia).
  set (nc := nucleon_common_of cfg sp).
  assert (P : nc_prefactor nc = / (2 * PI) / (v * v) / m).
  { unfold nc, nucleon_common_of, sqr. cbn [nc_prefactor]. unfold to_size. rewrite Z.mod_small by lia. reflexivity. }
  assert (Hp : 0 < nc_prefactor nc).
  { rewrite P. pose proof PI_RGT_0. unfold Rdiv. repeat apply Rmult_lt_0_compat; try apply Rinv_0_lt_compat; try lra.
    apply Rmult_lt_0_compat; unfold v; lra. }
  eexists. split; [reflexivity|]. change (constit_width cfg) with v. simpl num.
  assert (Hv' : 0 < v) by (exact Hv). clearbody v. clear Hv. clearbody m.
  (* exact terms *)
  set (et := fun q : constituent RA => if Rltb (dist2 x y q) (5 * v * (5 * v)) then q_fluct q * exp (- (5/10) * dist2 x y q / (v * v)) else 0).
  assert (Et : forall q, In q (n_cons n) -> et q * (1 - 2/100000) <= term v x y q <= et q /\ 0 <= et q <= q_fluct q).
  { intros q Hq. specialize (Hf q Hq). unfold et, term. destruct (Rltb_spec (dist2 x y q) (5 * v * (5 * v))) as [L|L]; [|lra].
    pose proof (arg_range _ _ (conj (dist2_pos x y q) L)) as Ha.
    destruct (fexp_ok dbg _ Ha) as [_ [F1 F2]]. set (a := - (5/10) * dist2 x y q / (v * v)) in *.
    assert (Ex : exp a <= 1) by (rewrite <- exp_0; destruct (proj2 Ha) as [Hlt|Heq]; [left; apply exp_increasing; exact Hlt|rewrite Heq; lra]).
    pose proof (exp_pos a). split; split.
    - rewrite Rmult_assoc. apply Rmult_le_compat_l; auto.
    - apply Rmult_le_compat_l; auto.
    - apply Rmult_le_pos; lra.
    - rewrite <- (Rmult_1_r (q_fluct q)) at 2. apply Rmult_le_compat_l; auto. }
  assert (Pr : profile v m (n_cons n) x y = nc_prefactor nc * RBasics.Rsum et (n_cons n)).
  { unfold profile. rewrite <- Rsum_scale. apply Rsum_ext. intros q _. unfold et. rewrite P.
    rewrite dist_dist2.
    assert (Iff : sqrt (dist2 x y q) < 5 * v <-> dist2 x y q < 5 * v * (5 * v)).
    { pose proof (dist2_pos x y q) as D. split; intros H.
      - rewrite <- (sqrt_sqrt (dist2 x y q)) by exact D. apply Rmult_le_0_lt_compat; auto using sqrt_pos.
      - rewrite <- (sqrt_square (5 * v)) by lra. apply sqrt_lt_1_alt. lra. }
    destruct (Rlt_dec (sqrt (dist2 x y q)) (5 * v)) as [L|L], (Rltb_spec (dist2 x y q) (5 * v * (5 * v))) as [L'|L']; try tauto.
    - unfold gauss2.
      replace (- ((x - q_x q) ^ 2 + (y - q_y q) ^ 2) / (2 * v ^ 2)) with (- (5/10) * dist2 x y q / (v * v))
        by (unfold dist2; simpl; field; lra).
      pose proof PI_RGT_0. simpl. field. repeat split; lra.
    - lra. }
  assert (S1 : RBasics.Rsum et (n_cons n) * (1 - 2/100000) <= RBasics.Rsum (term v x y) (n_cons n)).
  { rewrite Rmult_comm, <- Rsum_scale. apply Rsum_le. intros q Hq. destruct (Et q Hq). lra. }
  assert (S2 : RBasics.Rsum (term v x y) (n_cons n) <= RBasics.Rsum et (n_cons n)).
  { apply Rsum_le. intros q Hq. destruct (Et q Hq). lra. }
  assert (S0 : 0 <= RBasics.Rsum et (n_cons n)).
  { apply Rsum_nonneg. intros q Hq. destruct (Et q Hq). lra. }
  assert (S3 : RBasics.Rsum et (n_cons n) <= RBasics.Rsum (fun q : constituent RA => q_fluct q) (n_cons n)).
  { apply Rsum_le. intros q Hq. destruct (Et q Hq). lra. }
  rewrite Pr. set (T := RBasics.Rsum (term v x y) (n_cons n)) in *. set (E := RBasics.Rsum et (n_cons n)) in *.
  assert (Hp2 : nc_prefactor nc * (E * (1 - 2/100000)) <= nc_prefactor nc * T) by (apply Rmult_le_compat_l; lra).
  assert (Hp3 : nc_prefactor nc * T <= nc_prefactor nc * E) by (apply Rmult_le_compat_l; lra).
  assert (Hp0 : 0 <= nc_prefactor nc * E) by (apply Rmult_le_pos; lra).
  set (PT := nc_prefactor nc * T) in *. set (PE := nc_prefactor nc * E) in *.
  replace (nc_prefactor nc * (E * (1 - 2/100000))) with (PE * (1 - 2/100000)) in Hp2 by (unfold PE; ring).
  split; [lra|]. split; [apply Rabs_le; lra|]. split; [split; [lra|]|].
  - apply Rle_trans with (nc_prefactor nc * RBasics.Rsum (fun q : constituent RA => q_fluct q) (n_cons n)).
    + apply Rmult_le_compat_l; lra.
    + right. rewrite <- Rsum_scale. apply Rsum_ext. intros q _. rewrite P. simpl. field. pose proof PI_RGT_0. repeat split; lra.
  - intros Hfar. unfold PT, T. rewrite Rsum_zero; [ring|]. intros q Hq. apply term_zero. rewrite Rabs_right by lra.
    rewrite <- dist_dist2. apply Hfar. exact Hq.
Qed.

(** Instance: a proton-like nucleon with two constituents; the point (0.1, 0) lies
    inside both discs. *)
Definition two_cons : nucleon RA :=
  @Nucleon RA 0 0 0 true true [@Constituent RA (1/10) 0 1; @Constituent RA (-1/10) 0 2].
Definition two_config : config RA :=
  @Config RA ["p"; "p"]%string 1 false None false false 0 1 (1/2) (2/5) 2 0 (64/10) 1 0 1 1 1 (1/2).
Example C19_instance : forall sp, exists t : R,
  thickness (A:=RA) true (nucleon_common_of two_config sp) two_cons (1/10) 0 = Ret t /\ 0 < t.
Proof.
  intros sp. destruct (C19_thickness two_config sp two_cons true (1/10) 0) as (t & E & _ & B & _).
  - cbn; lra.
  - cbn; lia.
  - intros q [<-|[<-|[]]]; simpl; lra.
  - exists t. split; [exact E|]. change (constit_width two_config) with (2/5) in B. change (constit_number two_config) with 2%Z in B.
    assert (P : 0 < profile (2/5) (IZR 2) (n_cons two_cons) (1/10) 0).
    { unfold profile, two_cons. cbn [n_cons]. rewrite !Rsum_cons. cbn [RBasics.Rsum fold_right].
      assert (G : forall dx dy, 0 < gauss2 ((2/5)^2) dx dy).
      { intros. unfold gauss2. apply Rdiv_lt_0_compat; [apply exp_pos|]. pose proof PI_RGT_0.
        apply Rmult_lt_0_compat; [lra|]. simpl. lra. }
      unfold dist. cbn [q_x q_y q_fluct].
      destruct (Rlt_dec (sqrt ((1 / 10 - 1 / 10) ^ 2 + (0 - 0) ^ 2)) (5 * (2 / 5))) as [L1|L1].
      - pose proof (G (1/10 - 1/10) (0 - 0)).
        assert (0 < 1 / 2 * gauss2 ((2/5)^2) (1/10 - 1/10) (0 - 0)) by (apply Rmult_lt_0_compat; lra).
        destruct (Rlt_dec _ _); [|lra].
        pose proof (G (1/10 - -1/10) (0 - 0)).
        assert (0 < 2 / 2 * gauss2 ((2/5)^2) (1/10 - -1/10) (0 - 0)) by (apply Rmult_lt_0_compat; lra). lra.
      - exfalso. apply L1. replace ((1 / 10 - 1 / 10) ^ 2 + (0 - 0) ^ 2) with 0 by (simpl; ring). rewrite sqrt_0. lra. }
    apply Rabs_def2x in B. simpl in *. lra.
Qed.
