(** Sums and eccentricities of a pattern of cells moved over the grid. *)
From Coq Require Import Reals Lra ZArith Lia List Permutation.
From Coquelicot Require Import Complex.
From Flocq Require Import Core.
From Verif.Base Require Import Result Arith RArith.
From Verif.Model Require Import Config Nucleon Event.
From Verif.Spec Require Import Profile Grid Evolved Ecc Frame.
From Verif.Proof Require Import Basics RBasics GridP EventP NucleonP DepositR EccP SymP ReducedP EnlargeP.
Import ListNotations.
Local Open Scope R_scope.

(** Cell (row, column) moved by ky rows and kx columns. *)
Definition slide (ky kx : Z) (c : Z * Z) : Z * Z := (fst c + ky, snd c + kx)%Z.
Definition in_grid (N : Z) (c : Z * Z) : bool :=
  ((0 <=? fst c) && (fst c <? N) && (0 <=? snd c) && (snd c <? N))%Z%bool.
(** The cells that stay on the grid. *)
Definition stay (N ky kx : Z) : list (Z * Z) := filter (fun c => in_grid N (slide ky kx c)) (cells N).
Definition leave (N ky kx : Z) : list (Z * Z) := filter (fun c => negb (in_grid N (slide ky kx c))) (cells N).
Definition arrive (N ky kx : Z) : list (Z * Z) := filter (fun c => negb (in_grid N (slide (- ky) (- kx) c))) (cells N).

Lemma in_grid_iff N c : in_grid N c = true <-> In c (cells N).
Proof. destruct c as [y x]. rewrite in_cells. unfold in_grid, inside. cbn [fst snd]. rewrite !andb_true_iff, !Z.leb_le, !Z.ltb_lt. tauto. Qed.

Lemma slide_back ky kx c : slide ky kx (slide (- ky) (- kx) c) = c.
Proof. destruct c. unfold slide. cbn [fst snd]. f_equal; lia. Qed.
Lemma slide_forth ky kx c : slide (- ky) (- kx) (slide ky kx c) = c.
Proof. destruct c. unfold slide. cbn [fst snd]. f_equal; lia. Qed.

Lemma split_filter {X} (f : X -> bool) l : Permutation l (filter f l ++ filter (fun x => negb (f x)) l).
Proof.
  induction l as [|x l IH]; [constructor|]. cbn [filter]. destruct (f x); cbn [negb app].
  - constructor. exact IH.
  - apply Permutation_cons_app. exact IH.
Qed.

Lemma cells_leave N ky kx : Permutation (cells N) (stay N ky kx ++ leave N ky kx).
Proof. apply (split_filter (fun c => in_grid N (slide ky kx c))). Qed.

Lemma cells_arrive N ky kx : Permutation (cells N) (map (slide ky kx) (stay N ky kx) ++ arrive N ky kx).
Proof.
  etransitivity; [apply (split_filter (fun c => in_grid N (slide (- ky) (- kx) c)))|]. apply Permutation_app_tail.
  apply NoDup_Permutation.
  - apply NoDup_filter, cells_nodup.
  - apply FinFun.Injective_map_NoDup; [|apply NoDup_filter, cells_nodup].
    intros a b E. rewrite <- (slide_forth ky kx a), <- (slide_forth ky kx b), E. reflexivity.
  - intros c. rewrite filter_In, in_map_iff. split.
    + intros [H1 H2]. exists (slide (- ky) (- kx) c). split; [apply slide_back|]. apply filter_In. rewrite slide_back, <- in_grid_iff.
      split; [exact H2|]. apply in_grid_iff. exact H1.
    + intros (c0 & <- & H). apply filter_In in H. destruct H as [H1 H2]. rewrite slide_forth, <- in_grid_iff. split; [exact H2|].
      apply in_grid_iff. exact H1.
Qed.

(** The eccentricities do not depend on the origin. *)
Lemma ecc_n_slide n ky kx l (t t' : Z * Z -> R) : (forall c, In c l -> t' (slide ky kx c) = t c) -> (forall c, In c l -> 0 <= t c) ->
  ecc_n n (map (slide ky kx) l) t' = ecc_n n l t.
Proof.
  intros Ht P. destruct (Req_EM_T (Rsum t l) 0) as [Z|NZ].
  - pose proof (Rsum_zero_all _ _ P Z) as A0. rewrite !ecc_n_zero; [reflexivity| |].
    + intros c Hc. rewrite A0 by exact Hc. lra.
    + intros c Hc. apply in_map_iff in Hc. destruct Hc as (c0 & <- & Hc). rewrite Ht, A0 by exact Hc. lra.
  - assert (S0 : Rsum t' (map (slide ky kx) l) = Rsum t l) by (rewrite Rsum_map; apply Rsum_ext; exact Ht).
    assert (S : forall (h : Z * Z -> Z) k, (forall c, h (slide ky kx c) = (h c + k)%Z) ->
      Rsum (fun c => t' c * IZR (h c)) (map (slide ky kx) l) / Rsum t l = Rsum (fun c => t c * IZR (h c)) l / Rsum t l + IZR k).
    { intros h k Hh. rewrite Rsum_map. rewrite (Rsum_ext _ (fun c => t c * IZR (h c) + IZR k * t c)).
      - rewrite Rsum_plus, Rsum_scale. field. exact NZ.
      - intros c Hc. rewrite Ht, Hh, plus_IZR by exact Hc. ring. }
    assert (R : forall c, rel (centre (map (slide ky kx) l) t') (slide ky kx c) = rel (centre l t) c).
    { intros c. unfold rel, centre. cbn [fst snd]. rewrite S0, (S snd kx), (S fst ky) by (intros; reflexivity). unfold slide. cbn [fst snd].
      rewrite !plus_IZR. f_equal; ring. }
    unfold ecc_n. fold (big t' (map (slide ky kx) l)) (big t l).
    assert (B : big t' (map (slide ky kx) l) = map (slide ky kx) (big t l)).
    { unfold big. clear - Ht. induction l as [|c l IH]; [reflexivity|]. cbn [map filter]. rewrite (Ht c) by (left; reflexivity).
      destruct (negb _); cbn [map]; rewrite IH by (intros; apply Ht; right; assumption); reflexivity. }
    rewrite B, Csum_map, Rsum_map.
    assert (I : forall c, In c (big t l) -> t' (slide ky kx c) = t c) by (intros c Hc; apply filter_In in Hc; apply Ht; tauto).
    rewrite (Csum_ext _ (fun c => Cmult (RtoC (t c)) (zpow (rel (centre l t) c) n))) by (intros c Hc; rewrite R, I by exact Hc; reflexivity).
    rewrite (Rsum_ext _ (fun c => t c * Cmod (rel (centre l t) c) ^ n)) by (intros c Hc; rewrite R, I by exact Hc; reflexivity).
    reflexivity.
Qed.

Section Pattern.
Variables (N ky kx : Z) (t t' : Z * Z -> R).
Hypothesis Moved : forall c, In c (stay N ky kx) -> t' (slide ky kx c) = t c.
Hypothesis Lost : forall c, In c (leave N ky kx) -> t c = 0.
Hypothesis New : forall c, In c (arrive N ky kx) -> t' c = 0.
Hypothesis Pos : forall c, In c (cells N) -> 0 <= t c.

Lemma sum_slide (f : Z * Z -> R -> R) : (forall c, f c 0 = 0) ->
  Rsum (fun c => f c (t' c)) (cells N) = Rsum (fun c => f (slide ky kx c) (t c)) (cells N).
Proof.
  intros F0. rewrite (Rsum_perm _ _ _ (cells_arrive N ky kx)), (Rsum_perm (fun c => f (slide ky kx c) (t c)) _ _ (cells_leave N ky kx)), !Rsum_app, Rsum_map.
  rewrite (Rsum_zeros _ (arrive N ky kx)) by (intros c Hc; cbv beta; rewrite New by exact Hc; apply F0).
  rewrite (Rsum_zeros _ (leave N ky kx)) by (intros c Hc; cbv beta; rewrite Lost by exact Hc; apply F0).
  f_equal. apply Rsum_ext. intros c Hc. rewrite Moved by exact Hc. reflexivity.
Qed.

Lemma ecc_slide n : ecc_n n (cells N) t' = ecc_n n (cells N) t.
Proof.
  rewrite (ecc_n_pad n _ _ _ t' (cells_arrive N ky kx) New), (ecc_n_pad n _ _ _ t (cells_leave N ky kx) Lost).
  apply ecc_n_slide; [exact Moved|]. intros c Hc. apply filter_In in Hc. apply Pos. tauto.
Qed.
End Pattern.

(** A displaced nucleon has the displaced profile. *)
Lemma thick_displaced cfg sp a b n x y : thick cfg sp (displaced a b n) (x + a) (y + b) = thick cfg sp n x y.
Proof.
  unfold thick. f_equal. unfold displaced. cbn [n_cons]. rewrite Rsum_map. apply Rsum_ext. intros q _. unfold term.
  assert (D : dist2 (x + a) (y + b) (@Constituent RA (q_x q + a) (q_y q + b) (q_fluct q)) = dist2 x y q) by (unfold dist2; cbn [q_x q_y]; ring).
  rewrite D. reflexivity.
Qed.
