(** Sums and eccentricities over a grid that is padded with zeros. *)
From Coq Require Import Reals Lra ZArith Lia List Permutation.
From Coquelicot Require Import Complex.
From Flocq Require Import Core.
From Verif.Base Require Import Result Arith RArith.
From Verif.Model Require Import Config Nucleon Event.
From Verif.Spec Require Import Profile Grid Evolved Ecc Enlarge.
From Verif.Proof Require Import Basics RBasics GridP EventP NucleonP DepositR EccP SymP ReducedP.
Import ListNotations.
Local Open Scope R_scope.

Definition shift (k : Z) (c : Z * Z) : Z * Z := (fst c + k, snd c + k)%Z.
Definition in_middle (N k : Z) (c : Z * Z) : bool :=
  ((k <=? fst c) && (fst c <? N + k) && (k <=? snd c) && (snd c <? N + k))%Z%bool.
Definition margin (N k : Z) : list (Z * Z) := filter (fun c => negb (in_middle N k c)) (cells (N + 2 * k)).

Lemma in_middle_iff N k c : in_middle N k c = true <-> (k <= fst c < N + k /\ k <= snd c < N + k)%Z.
Proof. unfold in_middle. rewrite !andb_true_iff, !Z.leb_le, !Z.ltb_lt. tauto. Qed.

Lemma padded N k : (0 <= k)%Z -> Permutation (cells (N + 2 * k)) (map (shift k) (cells N) ++ margin N k).
Proof.
  intros Hk. apply NoDup_Permutation.
  - apply cells_nodup.
  -
    assert (N1 : NoDup (map (shift k) (cells N))).
    { apply FinFun.Injective_map_NoDup; [|apply cells_nodup]. intros [a b] [a' b'] E. unfold shift in E. cbn [fst snd] in E. injection E as E1 E2. f_equal; lia. }
    assert (N2 : NoDup (margin N k)) by (apply NoDup_filter, cells_nodup).
    assert (Dj : forall c, In c (map (shift k) (cells N)) -> ~ In c (margin N k)).
    { intros c Hc Hm. apply in_map_iff in Hc. destruct Hc as ([a b] & <- & Hc). apply in_cells in Hc. unfold inside in Hc.
      apply filter_In in Hm. destruct Hm as [_ Hm]. apply negb_true_iff in Hm.
      assert (in_middle N k (shift k (a, b)) = true) by (apply in_middle_iff; unfold shift; cbn [fst snd]; lia). congruence. }
    revert N1 Dj. generalize (map (shift k) (cells N)). intros l N1 Dj. induction N1 as [|x l Hx N1 IH]; [exact N2|].
    cbn [app]. constructor; [rewrite in_app_iff; intros [H|H]; [exact (Hx H)|exact (Dj x (or_introl eq_refl) H)]|].
    apply IH. intros c Hc. apply Dj. right. exact Hc.
  - intros [y x]. rewrite in_app_iff. split.
    + intros H. destruct (in_middle N k (y, x)) eqn:E.
      * left. apply in_middle_iff in E. cbn [fst snd] in E. apply in_map_iff. exists (y - k, x - k)%Z. split; [unfold shift; cbn [fst snd]; f_equal; lia|].
        apply in_cells. unfold inside. lia.
      * right. apply filter_In. split; [exact H|]. rewrite E. reflexivity.
    + intros [H|H].
      * apply in_map_iff in H. destruct H as ([a b] & E & H). apply in_cells in H. unfold shift in E. cbn [fst snd] in E. injection E as <- <-.
        apply in_cells. unfold inside in *. lia.
      * apply filter_In in H. tauto.
Qed.

Lemma Rsum_zeros {X} (f : X -> R) l : (forall x, In x l -> f x = 0) -> Rsum f l = 0.
Proof. intros H. rewrite (Rsum_ext f (fun _ => 0)) by exact H. rewrite Rsum_const. ring. Qed.

Lemma big_perm t l l' : Permutation l l' -> Permutation (big t l) (big t l').
Proof.
  unfold big. induction 1; cbn [filter]; auto.
  - destruct (negb _); auto.
  - destruct (negb (Rltb (t x) _)), (negb (Rltb (t y) _)); auto. constructor.
  - etransitivity; eauto.
Qed.

Lemma big_zeros t l : (forall c, In c l -> t c = 0) -> big t l = [].
Proof.
  unfold big. induction l as [|c l IH]; intros H; [reflexivity|]. cbn [filter]. rewrite (H c) by (left; reflexivity).
  replace (Rltb 0 (1 / 1000000000000)) with true by (symmetry; apply Rltb_true; lra). cbn [negb]. apply IH. intros; apply H; right; assumption.
Qed.

(** Cells without weight do not matter. *)
Lemma ecc_n_pad n l l1 l2 t : Permutation l (l1 ++ l2) -> (forall c, In c l2 -> t c = 0) -> ecc_n n l t = ecc_n n l1 t.
Proof.
  intros P Z.
  assert (C : centre l t = centre l1 t).
  { unfold centre. rewrite !(Rsum_perm _ _ _ P), !Rsum_app, !(Rsum_zeros _ l2) by (intros c Hc; cbv beta; rewrite (Z c Hc); ring). rewrite !Rplus_0_r. reflexivity. }
  unfold ecc_n. rewrite C. fold (big t l) (big t l1).
  assert (B : Permutation (big t l) (big t l1)).
  { etransitivity; [apply big_perm; exact P|]. unfold big at 1. rewrite filter_app. fold (big t l1) (big t l2). rewrite (big_zeros _ _ Z), app_nil_r. reflexivity. }
  rewrite (Csum_perm _ _ _ B), (Rsum_perm _ _ _ B). reflexivity.
Qed.

Lemma Csum_ext_in {X} (f g : X -> C) l : (forall x, In x l -> f x = g x) -> Csum f l = Csum g l.
Proof. apply Csum_ext. Qed.

(** Neither does the position of the origin. *)
Lemma ecc_n_shift n k l t t' : (forall c, In c l -> t' (shift k c) = t c) -> (Rsum t l <> 0 \/ forall c, In c l -> 0 <= t c) ->
  ecc_n n (map (shift k) l) t' = ecc_n n l t.
Proof.
  intros Ht Hs. destruct (Req_EM_T (Rsum t l) 0) as [Z|NZ].
  - assert (P : forall c, In c l -> 0 <= t c) by (destruct Hs as [Hs|Hs]; [contradiction|auto]).
    pose proof (Rsum_zero_all _ _ P Z) as A0. rewrite !ecc_n_zero; [reflexivity| |].
    + intros c Hc. rewrite A0 by exact Hc. lra.
    + intros c Hc. apply in_map_iff in Hc. destruct Hc as (c0 & <- & Hc). rewrite Ht, A0 by exact Hc. lra.
  - assert (S0 : Rsum t' (map (shift k) l) = Rsum t l) by (rewrite Rsum_map; apply Rsum_ext; exact Ht).
    assert (S : forall h : Z * Z -> Z, (forall c, h (shift k c) = (h c + k)%Z) ->
      Rsum (fun c => t' c * IZR (h c)) (map (shift k) l) / Rsum t l = Rsum (fun c => t c * IZR (h c)) l / Rsum t l + IZR k).
    { intros h Hh. rewrite Rsum_map. rewrite (Rsum_ext _ (fun c => t c * IZR (h c) + IZR k * t c)).
      - rewrite Rsum_plus, Rsum_scale. field. exact NZ.
      - intros c Hc. rewrite Ht, Hh, plus_IZR by exact Hc. ring. }
    assert (R : forall c, rel (centre (map (shift k) l) t') (shift k c) = rel (centre l t) c).
    { intros c. unfold rel, centre. cbn [fst snd]. rewrite S0, !S by (intros; reflexivity). unfold shift. cbn [fst snd]. rewrite !plus_IZR. f_equal; ring. }
    unfold ecc_n. fold (big t' (map (shift k) l)) (big t l).
    assert (B : big t' (map (shift k) l) = map (shift k) (big t l)).
    { unfold big. clear - Ht. induction l as [|c l IH]; [reflexivity|]. cbn [map filter]. rewrite (Ht c) by (left; reflexivity).
      destruct (negb _); cbn [map]; rewrite IH by (intros; apply Ht; right; assumption); reflexivity. }
    rewrite B, Csum_map, Rsum_map.
    assert (I : forall c, In c (big t l) -> t' (shift k c) = t c) by (intros c Hc; apply filter_In in Hc; apply Ht; tauto).
    rewrite (Csum_ext _ (fun c => Cmult (RtoC (t c)) (zpow (rel (centre l t) c) n))) by (intros c Hc; rewrite R, I by exact Hc; reflexivity).
    rewrite (Rsum_ext _ (fun c => t c * Cmod (rel (centre l t) c) ^ n)) by (intros c Hc; rewrite R, I by exact Hc; reflexivity).
    reflexivity.
Qed.

(** The weighted mean of nothing and nothing is nothing. *)
Lemma gen_mean_zero p : gen_mean (choose_mean (A:=RA) p) 0 0 = 0.
Proof.
  unfold choose_mean. set (a := nltb RA _ _). destruct a.
  - cbn [gen_mean]. unfold geometric_mean. cbn [nsqrt nmul RA RA_with]. rewrite Rmult_0_l. apply sqrt_0.
  - destruct (nltb RA _ p) eqn:Hp.
    + assert (P : 0 < p) by (cbn [nltb nlit RA RA_with] in Hp; apply Rltb_true in Hp; revert Hp; rlits; intros; lra).
      cbn [gen_mean]. unfold positive_pmean. cbn [npow nmul nadd ndiv nlit RA RA_with]. rlits.
      unfold Rpow. destruct (Req_EM_T 0 0) as [_|N]; [|lra]. destruct (Req_EM_T p 0) as [E|_]; [lra|].
      match goal with |- (if Req_EM_T ?y 0 then _ else _) = 0 => replace y with 0 by lra end.
      destruct (Req_EM_T 0 0) as [_|N]; [|lra].
      match goal with |- (if Req_EM_T ?y 0 then _ else _) = 0 => assert (y <> 0) by (apply Rgt_not_eq, Rdiv_lt_0_compat; lra); destruct (Req_EM_T y 0); [contradiction|reflexivity] end.
    + cbn [gen_mean]. unfold negative_pmean, tiny.
      replace (nltb RA 0 _) with true; [cbn [orb nlit RA RA_with]; rlits; lra|].
      symmetry. cbn [nltb nlit RA RA_with]. rlits. apply Rltb_true. lra.
Qed.

(** Thickness far from every constituent. *)
Lemma thick_far (cfg : config RA) (sp : R) (n : nucleon RA) (x y G : R) : 0 <= constit_width cfg ->
  (forall q : constituent RA, In q (n_cons n) -> Rabs (q_x q) + 5 * constit_width cfg <= G /\ Rabs (q_y q) + 5 * constit_width cfg <= G) ->
  G <= Rabs x \/ G <= Rabs y -> thick cfg sp n x y = 0.
Proof.
  intros Hw Hq Far. unfold thick. rewrite Rsum_zeros; [ring|]. intros q Hi. destruct (Hq q Hi) as [Qx Qy]. unfold term.
  set (r := 5 * constit_width cfg) in *. assert (0 <= r) by (unfold r; lra).
  assert (D : r * r <= dist2 x y q).
  { unfold dist2. assert (K : forall u v : R, Rabs v + r <= G -> G <= Rabs u -> r * r <= (u - v) * (u - v)).
    { intros u v A B. change (Rsqr r <= Rsqr (u - v)). apply Rsqr_le_abs_1. rewrite (Rabs_pos_eq r) by assumption.
      pose proof (Rabs_triang_inv u v). lra. }
    assert (Sq : forall u : R, 0 <= u * u) by (intros u; apply Rle_0_sqr).
    pose proof (Sq (x - q_x q)). pose proof (Sq (y - q_y q)).
    destruct Far as [F|F]; [pose proof (K x (q_x q) Qx F)|pose proof (K y (q_y q) Qy F)]; lra. }
  replace (Rltb (dist2 x y q) (r * r)) with false by (symmetry; apply Rltb_false; lra). reflexivity.
Qed.
