(** C66: minimum-bias averages are averages over the transverse plane, and p+p
    collisions happen with the nucleon-nucleon cross section asked for. *)
From Coq Require Import Reals Lra Lia FunctionalExtensionality.
From Coquelicot Require Import Coquelicot.
From Verif.Base Require Import Result Arith RArith Rng.
From Verif.Model Require Import Config Random Nucleon Nucleus Event Files CrossSection Output Collider.
From Verif.Spec Require Import History Geometry Law Attempts CrossSection MinBias Cache.
From Verif.Proof Require Import Basics RBasics Sampling Ctor LawP GlauberP AttemptsP CacheRun MinBiasP.
From Verif.Properties Require Import Attempts CrossSection Ncoll.
Local Open Scope R_scope.

Section C66.
Variables Ei erfinv : R -> R.
Notation RX := (RA_with Ei erfinv).
Notation RMean U := (mean (A:=RX) (U : (R -> R) -> R)).

Lemma unit_averages (U : (R -> R) -> R) : unit_average U -> averages (A:=RX) U.
Proof. intros [C E _]. split; [exact C|exact E]. Qed.

Section Rest.
Variables (U : (R -> R) -> R) (HU : unit_average U).
Variables (D : shapes RX) (seed : Z -> tape RX) (ns gs : R * R).
Hypothesis HD : forall u : R, sh_canonical D u = u.
Variables (sfuel : nat) (co : collider RX) (nA nB : nucleus RX).
Let HA : averages (A:=RX) U := unit_averages U HU.

(** An attempt after its impact parameter is known. *)
Definition after (b : R) : plan RX (result (R * Z * nucleus RX * nucleus RX * bool)) :=
  pbind (p_nucleons D seed sfuel nA (nmul RX (co_asym co) b)) (fun nA1 =>
  pbind (p_nucleons D seed sfuel nB (nmul RX (nsub RX (co_asym co) (nlit RX 1 0)) b)) (fun nB1 =>
  pbind (p_pairs D ns gs co (nu_nucleons nA1) (nu_nucleons nB1) 0 false) (fun r =>
    let '(As, Bs, nc', c) := r in
    Done (Ret (b, nc', with_nucleons nA1 As, with_nucleons nB1 Bs, c))))).

Lemma row_at b bs : forall a k c, p_row D ns gs (at_impact co b) a bs k c = p_row D ns gs co a bs k c.
Proof.
  induction bs as [|x bs IH]; intros a k c; [reflexivity|]. cbn [p_row]. cbn [at_impact co_nc co_calc_ncoll]. f_equal.
  apply functional_extensionality. intros [[h a'] b']. fold (at_impact co b). rewrite IH. reflexivity.
Qed.
Lemma pairs_at b As : forall Bs k c, p_pairs D ns gs (at_impact co b) As Bs k c = p_pairs D ns gs co As Bs k c.
Proof.
  induction As as [|x As IH]; intros Bs k c; [reflexivity|]. cbn [p_pairs]. rewrite row_at. f_equal.
  apply functional_extensionality. intros [[[a' bs'] k'] c']. rewrite IH. reflexivity.
Qed.

Lemma const_avg (g : R -> R) v : (forall x, g x = v) -> U g = v.
Proof. intros H. rewrite <- (ua_const _ HU v). apply (ua_ext _ HU). exact H. Qed.

Lemma sample_b_bof lo hi u : sample_b (A:=RX) lo hi u = bof lo hi u.
Proof. unfold sample_b, bof, dd. cbn [nsqrt nadd nmul nsub RA_with num]. f_equal. ring. Qed.
Lemma sample_b_fixed b u : 0 <= b -> sample_b (A:=RX) b b u = b.
Proof. intros Hb. rewrite sample_b_bof. unfold bof, dd. replace (b ^ 2 + (b ^ 2 - b ^ 2) * u) with (b ^ 2) by ring. apply sqrt_pow2. exact Hb. Qed.

Lemma attempt_after (F : result (R * Z * nucleus RX * nucleus RX * bool) -> R) :
  RMean U F (p_attempt D seed ns gs sfuel co nA nB 0) = U (fun u => RMean U F (after (bof (co_bmin co) (co_bmax co) u))).
Proof. cbn [p_attempt mean]. apply (ua_ext _ HU). intros u. rewrite HD, sample_b_bof. reflexivity. Qed.
Lemma at_after (F : result (R * Z * nucleus RX * nucleus RX * bool) -> R) b : 0 <= b ->
  RMean U F (p_attempt D seed ns gs sfuel (at_impact co b) nA nB 0) = RMean U F (after b).
Proof.
  intros Hb. cbn [p_attempt mean]. apply const_avg. intros u. cbn [at_impact co_bmin co_bmax]. rewrite sample_b_fixed by exact Hb.
  unfold after.
  f_equal. f_equal. apply functional_extensionality. intros nA1. f_equal. apply functional_extensionality. intros nB1. rewrite pairs_at. reflexivity.
Qed.
End Rest.

(** The mean over attempts is the average over the ring of the means at fixed impact
    parameter: any nuclei, any observable of an attempt. *)
Theorem C66_area : forall (U : (R -> R) -> R), unit_average U ->
  forall (D : shapes RX) seed ns gs sfuel (co : collider RX) nA nB, (forall u : R, sh_canonical D u = u) ->
  forall (F : result (num RX * Z * nucleus RX * nucleus RX * bool) -> R) (m : R -> R),
  0 <= co_bmin co -> co_bmin co < co_bmax co ->
  (forall b : R, co_bmin co <= b <= co_bmax co ->
     mean_of (A:=RX) U (on_tape ns gs (attempt (ideal D seed) sfuel (at_impact co b) nA nB)) F (m b) /\ continuous m b) ->
  mean_of (A:=RX) U (on_tape ns gs (attempt (ideal D seed) sfuel co nA nB)) F (ring_average (co_bmin co) (co_bmax co) m).
Proof.
  intros U HU D seed ns gs sfuel co nA nB HD F m H0 H1 Hm. pose proof (unit_averages U HU) as HA.
  apply (mean_of_plan RX D seed U HA _ _ _ _ _ _ (p_attempt_ok D seed ns gs sfuel co nA nB)).
  rewrite (attempt_after U HU D seed ns gs HD).
  apply (ua_integral _ HU). eapply is_RInt_ext; [|apply (ring_whole (co_bmin co) (co_bmax co) H0 H1 m)].
  - intros u Hu. rewrite Rmin_left, Rmax_right in Hu by lra.
    pose proof (bof_range (co_bmin co) (co_bmax co) H0 H1 u ltac:(lra)) as B. destruct (Hm _ B) as [E _].
    apply (mean_of_plan RX D seed U HA _ _ _ _ _ _ (p_attempt_ok D seed ns gs sfuel (at_impact co _) nA nB)) in E.
    rewrite (at_after U HU) in E by (change (num RX) with R in *; lra). symmetry. exact E.
  - intros b Hb. apply Hm. exact Hb.
Qed.

(** ** Two structureless protons *)
Record protons (D : shapes RX) (cfg : config RX) (sp : R) (co : collider RX) (nA nB : nucleus RX) : Prop := Protons {
  pr_canonical : forall u : R, sh_canonical D u = u;
  pr_w : 0 < nucleon_width cfg;
  pr_v : constit_width cfg = nucleon_width cfg;
  pr_one : constit_number cfg = 1%Z;
  pr_sigma : 0 <= sp;
  pr_nc : co_nc co = nucleon_common_of cfg sp;
  pr_A : nu_kind nA = KProton /\ length (nu_nucleons nA) = 1%nat;
  pr_B : nu_kind nB = KProton /\ length (nu_nucleons nB) = 1%nat;
  pr_min : 0 <= co_bmin co;
  pr_max : co_bmin co < co_bmax co
}.

Lemma proton_sampled (G : Rng RX) sfuel (nu : nucleus RX) (off : R) e : nu_kind nu = KProton /\ length (nu_nucleons nu) = 1%nat ->
  exists n : nucleon RX, sample_nucleons G sfuel nu off e = (Ret (@Nucleus RX KProton [n] off), e) /\
  n_x n = off /\ n_y n = 0 /\ n_part n = false /\ n_cexist n = false.
Proof.
  intros [K L]. destruct nu as [k l o]. cbn in K, L. subst k. destruct l as [|n [|]]; try discriminate L.
  eexists. unfold sample_nucleons. cbn [nu_kind nu_nucleons sample_proton].
  erewrite bind_run by reflexivity. split; [reflexivity|].
  unfold set_nucleon_position, set_position. cbn. unfold Rlit. cbn. repeat split; lra.
Qed.

Section PP.
Variables (U : (R -> R) -> R) (HU : unit_average U).
Variables (D : shapes RX) (seed : Z -> tape RX) (ns gs : R * R).
Variables (cfg : config RX) (sp : R) (co : collider RX) (sfuel : nat).
Let w : R := nucleon_width cfg.
Let HA : averages (A:=RX) U := unit_averages U HU.

Lemma pp_after nA nB (b : R) (F : result (R * Z * nucleus RX * nucleus RX * bool) -> R) (v1 v0 : R) :
  protons D cfg sp co nA nB -> 0 <= b ->
  (forall k a c, nu_kind a = KProton /\ length (nu_nucleons a) = 1%nat -> nu_kind c = KProton /\ length (nu_nucleons c) = 1%nat -> F (Ret (b, k, a, c, true)) = v1) ->
  (forall a c, nu_kind a = KProton /\ length (nu_nucleons a) = 1%nat -> nu_kind c = KProton /\ length (nu_nucleons c) = 1%nat -> F (Ret (b, 0%Z, a, c, false)) = v0) ->
  RMean U F (after D seed ns gs sfuel co nA nB b) = strike sp w b * v1 + (1 - strike sp w b) * v0.
Proof.
  intros [HD Hw Hv H1 Hs Hnc PA PB _ _] Hb F1 F0. unfold after.
  rewrite (mean_pbind (A:=RX) U HA). apply (mean_const (A:=RX) U HA). intros t1.
  rewrite <- (p_nucleons_ok D seed sfuel nA _ t1). destruct (proton_sampled (ideal D seed) sfuel nA (nmul RX (co_asym co) b) t1 PA) as (a & -> & Xa & Ya & Pa & Ca). cbn [fst].
  rewrite (mean_pbind (A:=RX) U HA). apply (mean_const (A:=RX) U HA). intros t2.
  rewrite <- (p_nucleons_ok D seed sfuel nB _ t2).
  destruct (proton_sampled (ideal D seed) sfuel nB (nmul RX (nsub RX (co_asym co) (nlit RX 1 0)) b) t2 PB) as (c & -> & Xc & Yc & Pc & Cc). cbn [fst nu_nucleons].
  assert (DX : n_x a - n_x c = b).
  { rewrite Xa, Xc. cbn [nmul nsub nlit RA_with]. unfold Rlit. cbn. ring. }
  assert (DY : n_y a - n_y c = 0) by (rewrite Ya, Yc; ring).
  cbn [p_pairs p_row]. unfold p_participate. rewrite Pa, Pc. cbn [andb].
  assert (R : nltb RX (nc_max_impact_sq (co_nc co)) (nadd RX (sqr (nsub RX (n_x a) (n_x c))) (sqr (nsub RX (n_y a) (n_y c)))) = if Rle_dec b (6 * w) then false else true).
  { change (nsub RX (n_x a) (n_x c)) with (n_x a - n_x c). change (nsub RX (n_y a) (n_y c)) with (n_y a - n_y c).
    rewrite DX, DY, Hnc. cbn [nltb RA_with nc_max_impact_sq nucleon_common_of]. unfold sqr, max_impact_widths. cbn [nmul nadd nlit RA_with].
    fold w. unfold Rltb, Rlit. cbn. change (nucleon_width cfg) with w in Hw.
    destruct (Rle_dec b (6 * w)), (Rlt_dec _ _); try reflexivity; exfalso; change (num RX) with R in *; nra. }
  rewrite R. clear R. unfold strike.
  destruct (Rle_dec b (6 * w)) as [L|L].
  2: { cbn [pbind mean andb orb]. unfold with_nucleons. cbn [nu_kind nu_offset]. rewrite F0 by (split; reflexivity). ring. }
  assert (N1 : nc_number (co_nc co) = 1%Z) by (rewrite Hnc; cbn [nc_number nucleon_common_of]; rewrite H1; reflexivity).
  unfold p_constituents. rewrite Ca, Cc, N1. change (cons_max_size <? 1)%Z with false. cbv iota.
  change (Z.to_nat 1) with 1%nat. cbn [p_local pbind mean].
  do 6 (apply (const_avg U HU); intros ?).
  cbn [n_cons map q_x q_y q_fluct].
  match goal with |- context [one_minus_prob ?nc [?l] [?l']] => assert (P : one_minus_prob nc [l] [l'] = 1 - collision_probability sp w b) end.
  { rewrite Hnc, miss_probability; [|rewrite Hv; exact Hw|exact H1]. rewrite Hv. fold w. f_equal. f_equal.
    rewrite <- (sqrt_pow2 b) by exact Hb. f_equal. cbn [nadd nsub ndiv nlit nofZ RA_with]. unfold Rlit. cbn.
    assert (S : b ^ 2 = (n_x a - n_x c) ^ 2 + (n_y a - n_y c) ^ 2) by (rewrite DX, DY; ring). etransitivity; [|symmetry; exact S].
    change (num RX) with R in *. clear. simpl. field. }
  match goal with |- U ?g = _ => transitivity (U (fun u => if Rlt_dec (1 - collision_probability sp w b) u then v1 else v0)) end.
  - apply (ua_ext _ HU). intros u. rewrite HD, P. cbn [nltb RA_with]. unfold Rltb.
    destruct (Rlt_dec (1 - collision_probability sp w b) u).
    + cbn [pbind mean orb]. unfold with_nucleons. cbn [nu_kind nu_offset]. apply F1; split; reflexivity.
    + cbn [pbind mean orb andb]. unfold with_nucleons. cbn [nu_kind nu_offset]. apply F0; split; reflexivity.
  - assert (CR : 0 <= 1 - collision_probability sp w b <= 1) by (pose proof (collision_range sp w b Hw Hs); lra).
    etransitivity; [exact (ua_integral _ HU _ _ (step_integral _ v1 v0 CR))|ring].
Qed.

Lemma pp_ring nA nB (f1 f0 : R -> R) : protons D cfg sp co nA nB -> (forall b, continuous f1 b) -> (forall b, continuous f0 b) ->
  let m b := strike sp w b * f1 b + (1 - strike sp w b) * f0 b in
  is_RInt (fun u => m (bof (co_bmin co) (co_bmax co) u)) 0 1 (ring_average (co_bmin co) (co_bmax co) m) /\
  ex_RInt (fun b => 2 * PI * b * m b) (co_bmin co) (co_bmax co).
Proof.
  intros [HD Hw Hv H1 Hs Hnc PA PB B0 B1] C1 C0 m. fold w in Hw.
  apply (ring_broken _ _ B0 B1 m (fun b => collision_probability sp w b * f1 b + (1 - collision_probability sp w b) * f0 b) f0 (6 * w)).
  - lra.
  - intros b _. apply (continuous_plus (V:=R_NormedModule) (fun b => collision_probability sp w b * f1 b)).
    + apply (continuous_mult (K:=R_AbsRing) (collision_probability sp w) f1); [apply collision_continuous, Hw|apply C1].
    + apply (continuous_mult (K:=R_AbsRing) (fun b => 1 - collision_probability sp w b) f0); [|apply C0].
      apply (continuous_minus (V:=R_NormedModule) (fun _ => 1)); [apply continuous_const|apply collision_continuous, Hw].
  - intros b _. apply C0.
  - intros b _ L. unfold m, strike. destruct (Rle_dec _ _); [reflexivity|lra].
  - intros b _ L. unfold m, strike. destruct (Rle_dec _ _); [lra|ring].
Qed.

Lemma pp_mean nA nB (F : result (R * Z * nucleus RX * nucleus RX * bool) -> R) (f1 f0 : R -> R) : protons D cfg sp co nA nB ->
  (forall b, continuous f1 b) -> (forall b, continuous f0 b) ->
  (forall b k a c, nu_kind a = KProton /\ length (nu_nucleons a) = 1%nat -> nu_kind c = KProton /\ length (nu_nucleons c) = 1%nat -> F (Ret (b, k, a, c, true)) = f1 b) ->
  (forall b a c, nu_kind a = KProton /\ length (nu_nucleons a) = 1%nat -> nu_kind c = KProton /\ length (nu_nucleons c) = 1%nat -> F (Ret (b, 0%Z, a, c, false)) = f0 b) ->
  RMean U F (p_attempt D seed ns gs sfuel co nA nB 0) =
  ring_average (co_bmin co) (co_bmax co) (fun b => strike sp w b * f1 b + (1 - strike sp w b) * f0 b).
Proof.
  intros P C1 C0 F1 F0. rewrite (attempt_after U HU D seed ns gs (pr_canonical _ _ _ _ _ _ P)).
  apply (ua_integral _ HU). eapply is_RInt_ext; [|apply (pp_ring nA nB f1 f0 P C1 C0)].
  intros u Hu. rewrite Rmin_left, Rmax_right in Hu by lra. cbv beta. symmetry.
  apply (pp_after nA nB _ F _ _ P); [|apply F1|apply F0].
  pose proof (bof_range (co_bmin co) (co_bmax co) (pr_min _ _ _ _ _ _ P) (pr_max _ _ _ _ _ _ P) u ltac:(lra)). pose proof (pr_min _ _ _ _ _ _ P).
  change (num RX) with R in *. lra.
Qed.
End PP.

(** One attempt, seen through its impact parameter and whether the protons collided. *)
Theorem C66_pp : forall (U : (R -> R) -> R), unit_average U ->
  forall D cfg sp co nA nB, protons D cfg sp co nA nB ->
  forall seed ns gs sfuel (f : R -> bool -> R), (forall c b, continuous (fun b => f b c) b) ->
  mean_of (A:=RX) U (on_tape ns gs (attempt (ideal D seed) sfuel co nA nB)) (by_impact (A:=RX) f)
    (ring_average (co_bmin co) (co_bmax co) (fun b =>
       strike sp (nucleon_width cfg) b * f b true + (1 - strike sp (nucleon_width cfg) b) * f b false)).
Proof.
  intros U HU D cfg sp co nA nB P seed ns gs sfuel f C. pose proof (unit_averages U HU) as HA.
  apply (mean_of_plan RX D seed U HA _ _ _ _ _ _ (p_attempt_ok D seed ns gs sfuel co nA nB)).
  apply (pp_mean U HU D seed ns gs cfg sp co sfuel nA nB _ (fun b => f b true) (fun b => f b false) P); [apply C|apply C|reflexivity|reflexivity].
Qed.

(** The chance of a collision times the area is the cross section. *)
Lemma strike_integral sp (w lo hi : R) (f : R -> R) : 0 < w -> 0 <= lo < hi -> 6 * w <= hi -> lo <= 6 * w -> (forall b, continuous f b) ->
  ring_integral lo hi (fun b => strike sp w b * f b) = RInt (fun b => 2 * PI * b * (collision_probability sp w b * f b)) lo (6 * w).
Proof.
  intros Hw Hl Hh Hm C. unfold ring_integral.
  assert (I1 : is_RInt (fun b => 2 * PI * b * (strike sp w b * f b)) lo (6 * w) (RInt (fun b => 2 * PI * b * (collision_probability sp w b * f b)) lo (6 * w))).
  { eapply is_RInt_ext; [|apply (RInt_correct (V:=R_CompleteNormedModule)), (ex_RInt_continuous (V:=R_CompleteNormedModule))].
    - intros b Hb. rewrite Rmin_left, Rmax_right in Hb by lra. cbv beta. unfold strike. destruct (Rle_dec _ _); [reflexivity|lra].
    - intros b _. apply (continuous_mult (K:=R_AbsRing) (fun b => 2 * PI * b)).
      + apply (ex_derive_continuous (K:=R_AbsRing) (V:=R_NormedModule)). auto_derive. exact I.
      + apply (continuous_mult (K:=R_AbsRing) (collision_probability sp w) f); [apply collision_continuous, Hw|apply C]. }
  assert (I2 : is_RInt (fun b => 2 * PI * b * (strike sp w b * f b)) (6 * w) hi 0).
  { apply (is_RInt_ext (fun _ => 0)).
    - intros b Hb. rewrite Rmin_left, Rmax_right in Hb by lra. unfold strike. destruct (Rle_dec _ _); [lra|]. change (@eq R 0 (2 * PI * b * (0 * f b))). ring.
    - assert (K : is_RInt (fun _ : R => 0) (6 * w) hi ((hi - 6 * w) * 0)) by apply (is_RInt_const (V:=R_NormedModule)). rewrite Rmult_0_r in K. exact K. }
  rewrite (is_RInt_unique _ _ _ _ (is_RInt_Chasles (V:=R_NormedModule) _ _ _ _ _ _ I1 I2)). unfold plus. cbn. apply Rplus_0_r.
Qed.
Lemma ring_integral_ext lo hi (f g : R -> R) : (forall b, f b = g b) -> ring_integral lo hi f = ring_integral lo hi g.
Proof. intros H. apply RInt_ext. intros b _. rewrite H. reflexivity. Qed.
Lemma ring_average_ext lo hi (f g : R -> R) : (forall b, f b = g b) -> ring_average lo hi f = ring_average lo hi g.
Proof. intros H. unfold ring_average. rewrite (ring_integral_ext lo hi f g H). reflexivity. Qed.

Definition hit (b : R) (c : bool) : R := if c then 1 else 0.
Theorem C66_cross_section : forall (U : (R -> R) -> R), unit_average U ->
  forall D cfg sp co nA nB, protons D cfg sp co nA nB ->
  co_bmin co = 0 -> 6 * nucleon_width cfg <= co_bmax co ->
  forall seed ns gs sfuel, exists p : R,
  mean_of (A:=RX) U (on_tape ns gs (attempt (ideal D seed) sfuel co nA nB)) (by_impact (A:=RX) hit) p /\
  PI * co_bmax co ^ 2 * p = disc_cross_section (6 * nucleon_width cfg) sp (nucleon_width cfg).
Proof.
  intros U HU D cfg sp co nA nB P H0 H6 seed ns gs sfuel. eexists. split.
  - apply (C66_pp U HU D cfg sp co nA nB P seed ns gs sfuel hit). intros c b. unfold hit. apply continuous_const.
  - destruct P as [HD Hw Hv H1 Hs Hnc PA PB B0 B1]. rewrite H0 in *. pose proof PI_RGT_0. cbn [hit]. change (num RX) with R in *.
    unfold ring_average.
    rewrite (ring_integral_ext 0 (co_bmax co) _ (fun b => strike sp (nucleon_width cfg) b * 1)) by (intros b; ring).
    rewrite (strike_integral sp (nucleon_width cfg) 0 (co_bmax co) (fun _ => 1)); [|assumption|lra|assumption|lra|intros; apply continuous_const].
    unfold disc_cross_section. rewrite (RInt_ext (fun b => 2 * PI * b * (collision_probability sp (nucleon_width cfg) b * 1)) (fun b => 2 * PI * b * collision_probability sp (nucleon_width cfg) b)) by (intros; cbn; ring).
    generalize (RInt (fun b => 2 * PI * b * collision_probability sp (nucleon_width cfg) b) 0 (6 * nucleon_width cfg) : R). intros r.
    change (@eq R (PI * co_bmax co ^ 2 * (r / (PI * (co_bmax co ^ 2 - 0 ^ 2)))) r). field. lra.
Qed.

(** ** The impact parameters of the events *)
Lemma protons_again D cfg sp co nA nB a c : protons D cfg sp co nA nB ->
  nu_kind a = KProton /\ length (nu_nucleons a) = 1%nat -> nu_kind c = KProton /\ length (nu_nucleons c) = 1%nat -> protons D cfg sp co a c.
Proof. intros [] KA KB. constructor; assumption. Qed.

Theorem C66_search : forall (U : (R -> R) -> R), unit_average U ->
  forall D cfg sp co nA nB, protons D cfg sp co nA nB ->
  forall seed ns gs sfuel (f : R -> R), (forall b, continuous f b) ->
  forall n, mean_of (A:=RX) U (on_tape ns gs (sample_collision (ideal D seed) n sfuel co nA nB)) (by_event (A:=RX) f)
    (ring_average (co_bmin co) (co_bmax co) (fun b => strike sp (nucleon_width cfg) b * f b)
     * geometric (ring_average (co_bmin co) (co_bmax co) (fun b => 1 - strike sp (nucleon_width cfg) b)) n).
Proof.
  intros U HU D cfg sp co nA nB P seed ns gs sfuel f C n. pose proof (unit_averages U HU) as HA.
  apply (mean_of_plan RX D seed U HA _ _ _ _ _ _ (p_search_ok D seed ns gs n sfuel co nA nB 0)).
  revert nA nB P. induction n as [|n IH]; intros nA nB P; [unfold geometric; cbn; ring|].
  rewrite geometric_S. cbn [p_search]. rewrite (mean_pbind (A:=RX) U HA).
  set (V := ring_average (co_bmin co) (co_bmax co) (fun b => strike sp (nucleon_width cfg) b * f b)) in *.
  set (q := ring_average (co_bmin co) (co_bmax co) (fun b => 1 - strike sp (nucleon_width cfg) b)) in *.
  rewrite (pp_mean U HU D seed ns gs cfg sp co sfuel nA nB _ f (fun _ => V * geometric q n) P C (fun b => continuous_const _ b)).
  - destruct (pp_ring D cfg sp co nA nB f (fun _ => 0) P C (fun b => continuous_const _ b)) as [_ X1].
    destruct (pp_ring D cfg sp co nA nB (fun _ => 0) (fun _ => 1) P (fun b => continuous_const _ b) (fun b => continuous_const _ b)) as [_ X2].
    assert (E : ring_integral (co_bmin co) (co_bmax co) (fun b => strike sp (nucleon_width cfg) b * f b + (1 - strike sp (nucleon_width cfg) b) * (V * geometric q n))
      = ring_integral (co_bmin co) (co_bmax co) (fun b => strike sp (nucleon_width cfg) b * f b)
        + V * geometric q n * ring_integral (co_bmin co) (co_bmax co) (fun b => 1 - strike sp (nucleon_width cfg) b)).
    { rewrite <- ring_linear.
      - apply ring_integral_ext. intros b. ring.
      - eapply ring_ex_ext; [|exact X1]. intros b. cbv beta. ring.
      - eapply ring_ex_ext; [|exact X2]. intros b. cbv beta. ring. }
    unfold ring_average at 1. rewrite E.
    pose proof (dd_pos _ _ (pr_min _ _ _ _ _ _ P) (pr_max _ _ _ _ _ _ P)) as Dp. unfold dd in Dp. pose proof PI_RGT_0.
    set (I1 := ring_integral (co_bmin co) (co_bmax co) (fun b => strike sp (nucleon_width cfg) b * f b)).
    set (I2 := ring_integral (co_bmin co) (co_bmax co) (fun b => 1 - strike sp (nucleon_width cfg) b)).
    set (ar := PI * (co_bmax co ^ 2 - co_bmin co ^ 2)).
    assert (Ar : 0 < ar) by (unfold ar; apply Rmult_lt_0_compat; assumption).
    assert (EV : I1 = V * ar) by (unfold V, ring_average; fold I1 ar; field; lra).
    assert (Eq : I2 = q * ar) by (unfold q, ring_average; fold I2 ar; field; lra).
    rewrite Eq, EV. field. lra.
  - intros b k a c KA KB. reflexivity.
  - intros b a c KA KB. cbv beta iota. apply IH. exact (protons_again D cfg sp co nA nB a c P KA KB).
Qed.

(** As the search goes on: an event's impact parameter is distributed over the ring
    with the chance of a collision as weight. *)
Lemma strike_positive sp (w lo hi : R) : 0 < w -> 0 < sp -> 0 <= lo < hi -> lo < 6 * w ->
  ex_RInt (fun b => 2 * PI * b * (strike sp w b * 1)) lo hi -> 0 < ring_integral lo hi (fun b => strike sp w b * 1).
Proof.
  intros Hw Hs Hl Hm Ex. unfold ring_integral. set (k := Rmin hi (6 * w)).
  assert (K : lo < k <= hi /\ k <= 6 * w) by (unfold k, Rmin; destruct (Rle_dec hi (6 * w)); lra).
  assert (E1 : ex_RInt (fun b => 2 * PI * b * (strike sp w b * 1)) lo k) by (apply (ex_RInt_Chasles_1 (V:=R_CompleteNormedModule)) with hi; [lra|exact Ex]).
  assert (E2 : ex_RInt (fun b => 2 * PI * b * (strike sp w b * 1)) k hi) by (apply (ex_RInt_Chasles_2 (V:=R_CompleteNormedModule)) with lo; [lra|exact Ex]).
  rewrite <- (RInt_Chasles (V:=R_CompleteNormedModule) _ lo k hi E1 E2). match goal with |- 0 < plus ?x ?y => change (0 < x + y) end. apply Rplus_lt_le_0_compat.
  - rewrite (RInt_ext (V:=R_CompleteNormedModule) (fun b => 2 * PI * b * (strike sp w b * 1)) (fun b => 2 * PI * b * collision_probability sp w b)).
    2: { intros b Hb. rewrite Rmin_left, Rmax_right in Hb by lra. unfold strike. destruct (Rle_dec _ _); [|lra]. change (@eq R (2 * PI * b * (collision_probability sp w b * 1)) (2 * PI * b * collision_probability sp w b)). ring. }
    apply RInt_gt_0; [lra| |].
    + intros b Hb. apply Rmult_lt_0_compat; [pose proof PI_RGT_0; nra|]. unfold collision_probability.
      assert (T : 0 < sp * overlap_at w b). { apply Rmult_lt_0_compat; [exact Hs|]. unfold overlap_at. apply Rdiv_lt_0_compat; [apply exp_pos|]. pose proof PI_RGT_0. pose proof (pow_lt w 2 Hw). nra. }
      assert (exp (- (sp * overlap_at w b)) < 1) by (rewrite <- exp_0; apply exp_increasing; lra). lra.
    + intros b _. apply (ex_derive_continuous (K:=R_AbsRing) (V:=R_NormedModule)). unfold collision_probability, overlap_at. auto_derive. exact I.
  - apply RInt_ge_0; [lra|exact E2|].
    intros b Hb. pose proof (strike_range sp w b Hw ltac:(lra)). pose proof PI_RGT_0. apply Rmult_le_pos; [nra|lra].
Qed.

Theorem C66_events : forall (U : (R -> R) -> R), unit_average U ->
  forall D cfg sp co nA nB, protons D cfg sp co nA nB -> 0 < sp -> co_bmin co < 6 * nucleon_width cfg ->
  forall seed ns gs sfuel (f : R -> R), (forall b, continuous f b) ->
  forall eps, 0 < eps -> exists N, forall n x, (N <= n)%nat ->
  mean_of (A:=RX) U (on_tape ns gs (sample_collision (ideal D seed) n sfuel co nA nB)) (by_event (A:=RX) f) x ->
  Rabs (x - ring_integral (co_bmin co) (co_bmax co) (fun b => strike sp (nucleon_width cfg) b * f b)
            / ring_integral (co_bmin co) (co_bmax co) (fun b => strike sp (nucleon_width cfg) b)) < eps.
Proof.
  intros U HU D cfg sp co nA nB P Hsp H6 seed ns gs sfuel f C eps He. pose proof (unit_averages U HU) as HA.
  pose proof (dd_pos _ _ (pr_min _ _ _ _ _ _ P) (pr_max _ _ _ _ _ _ P)) as Dp. unfold dd in Dp. pose proof PI_RGT_0 as Pi.
  set (w := nucleon_width cfg : R) in *. set (lo := co_bmin co : R) in *. set (hi := co_bmax co : R) in *.
  assert (Hw : 0 < w) by apply P. assert (Hlo : 0 <= lo) by apply P. assert (Hhi : lo < hi) by apply P.
  set (v := ring_average lo hi (fun b => strike sp w b * f b)). set (q := ring_average lo hi (fun b => 1 - strike sp w b)).
  set (W := ring_average lo hi (fun b => strike sp w b)).
  destruct (pp_ring D cfg sp co nA nB (fun _ => 1) (fun _ => 0) P (fun b => continuous_const _ b) (fun b => continuous_const _ b)) as [_ X1].
  fold w lo hi in X1.
  assert (X1' : ex_RInt (fun b => 2 * PI * b * (strike sp w b * 1)) lo hi).
  { eapply ring_ex_ext; [|exact X1]. intros b. cbv beta. ring. }
  assert (W0 : 0 < W).
  { unfold W, ring_average. apply Rdiv_lt_0_compat; [|nra]. rewrite (ring_integral_ext lo hi _ (fun b => strike sp w b * 1)) by (intros; ring).
    apply strike_positive; try assumption; lra. }
  assert (WQ : W + q = 1).
  { unfold W, q, ring_average. destruct (ring_one lo hi) as [O1 O2].
    assert (E : ring_integral lo hi (fun b => 1 - strike sp w b) = PI * (hi ^ 2 - lo ^ 2) + -1 * ring_integral lo hi (fun b => strike sp w b)).
    { rewrite <- O1, <- ring_linear.
      - apply ring_integral_ext. intros b. ring.
      - exact O2.
      - eapply ring_ex_ext; [|exact X1']. intros b. cbv beta. ring. }
    rewrite E. field. nra. }
  assert (Q0 : 0 <= q).
  { unfold q, ring_average. apply Rmult_le_pos; [|apply Rlt_le, Rinv_0_lt_compat; nra]. unfold ring_integral.
    destruct (pp_ring D cfg sp co nA nB (fun _ => 0) (fun _ => 1) P (fun b => continuous_const _ b) (fun b => continuous_const _ b)) as [_ X2].
    apply RInt_ge_0; [lra| |].
    - eapply ring_ex_ext; [|exact X2]. intros b. cbv beta. fold w. ring.
    - intros b Hb. pose proof (strike_range sp w b Hw ltac:(lra)). apply Rmult_le_pos; [nra|lra]. }
  replace (ring_integral lo hi (fun b => strike sp w b * f b) / ring_integral lo hi (fun b => strike sp w b)) with (v / W).
  2: { unfold v, W, ring_average. unfold W, ring_average in W0.
       assert (ring_integral lo hi (fun b => strike sp w b) <> 0). { intros Z. rewrite Z in W0. unfold Rdiv in W0. lra. }
       field. split; [assumption|]. nra. }
  assert (Q1 : Rabs q < 1) by (rewrite Rabs_right; lra).
  assert (K : 0 < Rabs v / W + 1) by (apply Rplus_le_lt_0_compat; [apply Rmult_le_pos; [apply Rabs_pos|apply Rlt_le, Rinv_0_lt_compat, W0]|lra]).
  destruct (pow_lt_1_zero q Q1 (eps / (Rabs v / W + 1))) as (N & HN); [apply Rdiv_lt_0_compat; assumption|].
  exists N. intros n x Hn Hx.
  rewrite (C56_mean_unique RX _ U HA _ _ _ _ Hx (C66_search U HU D cfg sp co nA nB P seed ns gs sfuel f C n)). fold w lo hi. fold v q.
  assert (E : v * geometric q n - v / W = - (v / W) * q ^ n).
  { pose proof (geometric_closed q n) as E. replace (1 - q) with W in E by lra.
    replace (geometric q n) with ((1 - q ^ n) / W) by (rewrite <- E; field; lra). field. lra. }
  rewrite E, Rabs_mult, Rabs_Ropp. unfold Rdiv at 1. rewrite Rabs_mult, (Rabs_right (/ W)) by (apply Rle_ge, Rlt_le, Rinv_0_lt_compat, W0).
  specialize (HN n Hn). apply Rle_lt_trans with ((Rabs v / W + 1) * Rabs (q ^ n)).
  - apply Rmult_le_compat_r; [apply Rabs_pos|]. unfold Rdiv. lra.
  - apply Rmult_lt_reg_l with (/ (Rabs v / W + 1)); [apply Rinv_0_lt_compat, K|].
    rewrite <- Rmult_assoc, Rinv_l, Rmult_1_l by lra. rewrite Rmult_comm. exact HN.
Qed.

(** ** A configured p+p run *)
Record pp_config (cfg : config RX) : Prop := PpConfig {
  pc_species : projectile cfg = ["p"; "p"]%string;
  pc_w : 0 < nucleon_width cfg;
  pc_v : constit_width cfg = nucleon_width cfg;
  pc_one : constit_number cfg = 1%Z;
  pc_min : b_min cfg = 0;
  pc_max : b_max cfg < 0 \/ 6 * nucleon_width cfg <= b_max cfg
}.
Lemma max_impact_six (cfg : config RX) sp : 0 < nucleon_width cfg -> max_impact (nucleon_common_of cfg sp) = 6 * nucleon_width cfg.
Proof.
  intros Hw. unfold max_impact. cbn [nc_max_impact_sq nucleon_common_of nsqrt RA_with]. unfold sqr, max_impact_widths. cbn [nmul nlit RA_with].
  rewrite sqrt_square; unfold Rlit; cbn; [reflexivity|]. change (num RX) with R in *. lra.
Qed.
Lemma pp_bmax bd (G : Rng RX) cfg co nA nB ev nst gst s s1 : pp_config cfg -> constructed G bd cfg co nA nB ev nst gst s s1 ->
  (nA = proton (A:=RX) /\ nB = proton (A:=RX)) /\
  co_bmax co = if Rlt_dec (b_max cfg) 0 then 6 * nucleon_width cfg else b_max cfg.
Proof.
  intros [HP Hw Hv H1 H0 Hm] Hc. pose proof (ct_A _ _ _ _ _ _ _ _ _ _ _ Hc) as KA. pose proof (ct_B _ _ _ _ _ _ _ _ _ _ _ Hc) as KB.
  unfold create_nucleus in KA, KB. rewrite HP in KA, KB. cbn in KA, KB. inversion KA. inversion KB. split; [split; reflexivity|].
  rewrite (ct_bmax _ _ _ _ _ _ _ _ _ _ _ Hc). destruct (ct_nc _ _ _ _ _ _ _ _ _ _ _ Hc) as (sp & Hn). rewrite Hn.
  unfold determine_bmax. rewrite max_impact_six by exact Hw. subst nA nB. unfold proton, nucleus_new, radius. cbn [nu_kind].
  cbn [nltb nlit nadd RA_with]. unfold Rltb, Rlit. cbn. change (num RX) with R in *.
  destruct (Rlt_dec (b_max cfg) 0); [|reflexivity]. change (@eq R (0 + 0 + 6 * nucleon_width cfg) (6 * nucleon_width cfg)). ring.
Qed.

Theorem C66_run : forall (U : (R -> R) -> R), unit_average U ->
  forall (D : shapes RX) seed (sv : Solver RX) bd cfuel e cfg s co nA nB ev ns gs s1,
  (forall u : R, sh_canonical D u = u) -> pp_config cfg ->
  collider_new (ideal D seed) sv bd cfuel e cfg s = (Ret (co, nA, nB, ev, ns, gs), s1) ->
  let sp := nc_sigma_partonic (co_nc co) in
  0 <= sp ->
  forall sfuel, exists p : R,
  mean_of (A:=RX) U (on_tape ns gs (attempt (ideal D seed) sfuel co nA nB)) (by_impact (A:=RX) hit) p /\
  PI * co_bmax co ^ 2 * p = disc_cross_section (6 * nucleon_width cfg) sp (nucleon_width cfg) /\
  co_bmax co = if Rlt_dec (b_max cfg) 0 then 6 * nucleon_width cfg else b_max cfg.
Proof.
  intros U HU D seed sv bd cfuel e cfg s co nA nB ev ns gs s1 HD Hp Hn sp Hs sfuel.
  pose proof (collider_new_inv _ _ _ _ _ _ _ _ _ _ _ _ _ _ Hn) as Hc. destruct (pp_bmax bd (ideal D seed) cfg co nA nB ev ns gs s s1 Hp Hc) as [[EA EB] EM].
  pose proof Hp as [HP Hw Hv H1 H0 Hm].
  assert (M6 : 6 * nucleon_width cfg <= co_bmax co). { rewrite EM. change (num RX) with R in *. destruct (Rlt_dec _ _); [lra|]. destruct Hm; lra. }
  assert (P : protons D cfg sp co nA nB).
  { constructor; try assumption.
    - destruct (ct_nc _ _ _ _ _ _ _ _ _ _ _ Hc) as (sp' & E). unfold sp. rewrite E. reflexivity.
    - rewrite EA. split; reflexivity.
    - rewrite EB. split; reflexivity.
    - rewrite (ct_bmin _ _ _ _ _ _ _ _ _ _ _ Hc), H0. lra.
    - rewrite (ct_bmin _ _ _ _ _ _ _ _ _ _ _ Hc), H0. change (num RX) with R in *. lra. }
  destruct (C66_cross_section U HU D cfg sp co nA nB P) with (seed := seed) (ns := ns) (gs := gs) (sfuel := sfuel) as (p & K1 & K2).
  - rewrite (ct_bmin _ _ _ _ _ _ _ _ _ _ _ Hc). exact H0.
  - exact M6.
  - exists p. split; [exact K1|]. split; [exact K2|exact EM].
Qed.

(** With no cached parameter, and a root finder that brackets the sign change
    between [lo] and [hi], the cross section is the one asked for. *)
Theorem C66_calibrated : is_Ei Ei -> forall (U : (R -> R) -> R), unit_average U ->
  forall (D : shapes RX) seed (sv : Solver RX) bd cfuel e cfg (s : sys (ideal D seed)) co nA nB ev ns gs s1 t (lo hi : R),
  (forall u : R, sh_canonical D u = u) -> pp_config cfg ->
  world_no_cache e (s_fs s) ->
  let f := analytic_fn (A:=RX) (analytic_rhs (A:=RX) (cross_section cfg) (nucleon_width cfg)) (analytic_c (A:=RX)) in
  toms748 sv (engine (ideal D seed)) (fun x => ret (f x)) (-10) 20 39 1000 (s_eng s) = (Ret (lo, hi), t) ->
  lo <= hi -> f lo <= 0 <= f hi ->
  collider_new (ideal D seed) sv bd cfuel e cfg s = (Ret (co, nA, nB, ev, ns, gs), s1) ->
  forall sfuel, exists p : R,
  mean_of (A:=RX) U (on_tape ns gs (attempt (ideal D seed) sfuel co nA nB)) (by_impact (A:=RX) hit) p /\
  Rabs (PI * co_bmax co ^ 2 * p - cross_section cfg) <= 4 * PI * nucleon_width cfg ^ 2 * (hi - lo) / 2.
Proof.
  intros HEi U HU D seed sv bd cfuel e cfg s co nA nB ev ns gs s1 t lo hi HD Hp Hcold f Hs Hl Hf Hn sfuel.
  pose proof Hp as [HP Hw Hv H1 H0 Hm].
  destruct (C36_fit Ei erfinv HEi (ideal D seed) sv cfg (s_eng s) t lo hi Hw H1 Hs Hl Hf) as (sp & Ec & Sp & B).
  assert (E : nc_sigma_partonic (co_nc co) = sp).
  { destruct Hcold as (dh & D1 & D2 & D3).
    pose proof (partonic_no_file (ideal D seed) sv cfuel e cfg s dh D1 D2 D3) as K. unfold computed in K. rewrite Ec in K.
    unfold collider_new in Hn. mstep Hn. unfold get in E. apply pair_Ret_inj in E. destruct E as [<- <-].
    mstep Hn. mstep E. mstep Hn. mstep E0. unfold bind at 1 in Hn. rewrite K in Hn. mstep Hn. mstep E1. mstep Hn. mstep Hn. mstep Hn. reflexivity. }
  destruct (C66_run U HU D seed sv bd cfuel e cfg s co nA nB ev ns gs s1 HD Hp Hn) with (sfuel := sfuel) as (p & K1 & K2 & _); [rewrite E; lra|].
  exists p. split; [exact K1|]. rewrite K2, E. exact B.
Qed.
End C66.
