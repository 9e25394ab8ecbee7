(** Symmetries of an event. *)
From Coq Require Import Reals Lra Permutation.
From Coquelicot Require Import Complex.
From Verif.Base Require Import Result Arith RArith.
From Verif.Model Require Import FastExp Config Nucleon Nucleus Event.
From Verif.Spec Require Import Grid Ecc Evolved Symmetry.
From Verif.Proof Require Import Basics RBasics FastExpP NucleonP GridP EventP EccP DepositR.
Local Open Scope R_scope.

(** ** Cells *)

Lemma act_cell_inside g N iy ix : inside N iy ix -> inside N (fst (act_cell g N (iy, ix))) (snd (act_cell g N (iy, ix))).
Proof. destruct g as [[] [] []]; unfold inside, act_cell; simpl; lia. Qed.

Lemma act_cell_inj g N c c' : act_cell g N c = act_cell g N c' -> c = c'.
Proof.
  destruct g as [[] [] []], c as [a b], c' as [a' b']; unfold act_cell; simpl; intros H; inversion H; f_equal; lia.
Qed.

Definition inv_cell (g : d4) (N : Z) (c : Z * Z) : Z * Z :=
  let ix := (if d_sx g then N - 1 - snd c else snd c)%Z in
  let iy := (if d_sy g then N - 1 - fst c else fst c)%Z in
  if d_tr g then (ix, iy) else (iy, ix).
Lemma act_inv_cell g N c : act_cell g N (inv_cell g N c) = c.
Proof. destruct g as [[] [] []], c as [a b]; unfold act_cell, inv_cell; simpl; f_equal; lia. Qed.
Lemma inv_cell_inside g N iy ix : inside N iy ix -> inside N (fst (inv_cell g N (iy, ix))) (snd (inv_cell g N (iy, ix))).
Proof. destruct g as [[] [] []]; unfold inside, inv_cell; simpl; lia. Qed.

Lemma act_cells_perm g N : Permutation (map (act_cell g N) (cells N)) (cells N).
Proof.
  apply NoDup_Permutation.
  - apply FinFun.Injective_map_NoDup; [intros a b; apply act_cell_inj|apply cells_nodup].
  - apply cells_nodup.
  - intros [iy ix]. rewrite in_map_iff, in_cells. split.
    + intros ([jy jx] & E & H). apply in_cells in H. apply (act_cell_inside g) in H. rewrite E in H. exact H.
    + intros H. exists (inv_cell g N (iy, ix)). split; [apply act_inv_cell|].
      apply inv_cell_inside with (g := g) in H. destruct (inv_cell g N (iy, ix)). apply in_cells. exact H.
Qed.

(** ** Eccentricities of a moved grid *)

(** The linear part of the symmetry as a complex number and a conjugation flag. *)
Definition unit_of (g : d4) : C :=
  match g with
  | D4 false false false => (1, 0) | D4 false true false => (-1, 0)
  | D4 false false true => (1, 0)  | D4 false true true => (-1, 0)
  | D4 true false false => (0, 1)  | D4 true true false => (0, 1)
  | D4 true false true => (0, -1)  | D4 true true true => (0, -1)
  end.
Definition conj_of (g : d4) : bool :=
  match g with
  | D4 false false false => false | D4 false true false => true
  | D4 false false true => true  | D4 false true true => false
  | D4 true false false => true  | D4 true true false => false
  | D4 true false true => false  | D4 true true true => true
  end.
Lemma unit_mod g : Cmod (unit_of g) = 1.
Proof.
  unfold Cmod. destruct g as [[] [] []]; cbn [unit_of fst snd]; match goal with |- sqrt ?x = 1 => replace x with 1 by ring end; apply sqrt_1.
Qed.

Lemma Rsum_ext_scal {X} (f : X -> R) a b (h : X -> R) l : 
  Rsum (fun c => f c * (a + b * h c)) l = a * Rsum f l + b * Rsum (fun c => f c * h c) l.
Proof. induction l as [|x l IH]; [simpl; lra|]. rewrite !Rsum_cons, IH. ring. Qed.

Lemma centre_moved g N (t t' : Z * Z -> R) : Rsum t (cells N) <> 0 ->
  (forall c, In c (cells N) -> t' (act_cell g N c) = t c) ->
  forall c, rel (centre (cells N) t') (act_cell g N c)
     = Cmult (unit_of g) (if conj_of g then Cconj (rel (centre (cells N) t) c) else rel (centre (cells N) t) c).
Proof.
  intros Hs Ht.
  assert (S : forall h : Z * Z -> R, Rsum (fun c => t' c * h c) (cells N) = Rsum (fun c => t c * h (act_cell g N c)) (cells N)).
  { intros h. rewrite <- (Rsum_perm _ _ _ (act_cells_perm g N)), Rsum_map. apply Rsum_ext. intros c Hc. rewrite Ht; auto. }
  assert (S0 : Rsum t' (cells N) = Rsum t (cells N)).
  { rewrite <- (Rsum_perm _ _ _ (act_cells_perm g N)), Rsum_map. apply Rsum_ext. intros c Hc. apply Ht; auto. }
  assert (EX : Rsum (fun c => t' c * IZR (snd c)) (cells N) = 
       (if d_sx g then IZR (N - 1) else 0) * Rsum t (cells N) + (if d_sx g then -1 else 1) * Rsum (fun c => t c * IZR (if d_tr g then fst c else snd c)) (cells N)).
  { rewrite S, <- Rsum_ext_scal. apply Rsum_ext. intros [a b] _. f_equal.
    destruct g as [[] [] []]; unfold act_cell; cbn [d_tr d_sx d_sy fst snd]; rewrite ?minus_IZR; ring. }
  assert (EY : Rsum (fun c => t' c * IZR (fst c)) (cells N) = 
       (if d_sy g then IZR (N - 1) else 0) * Rsum t (cells N) + (if d_sy g then -1 else 1) * Rsum (fun c => t c * IZR (if d_tr g then snd c else fst c)) (cells N)).
  { rewrite S, <- Rsum_ext_scal. apply Rsum_ext. intros [a b] _. f_equal.
    destruct g as [[] [] []]; unfold act_cell; cbn [d_tr d_sx d_sy fst snd]; rewrite ?minus_IZR; ring. }
  intros [a b]. unfold rel, centre. cbn [fst snd]. rewrite EX, EY, S0.
  set (T := Rsum t (cells N)) in *.
  destruct g as [[] [] []]; cbn [d_tr d_sx d_sy unit_of conj_of act_cell fst snd];
  unfold Cmult, Cconj; cbn [fst snd];
  generalize (Rsum (fun c : Z * Z => t c * IZR (fst c)) (cells N)) (Rsum (fun c : Z * Z => t c * IZR (snd c)) (cells N)); intros U V;
  rewrite ?minus_IZR; f_equal; field; exact Hs.
Qed.

Lemma ecc_n_zero n cs t : (forall c, In c cs -> t c < 1 / 1000000000000) -> ecc_n n cs t = 0.
Proof.
  intros H. unfold ecc_n. fold (big t cs).
  assert (E : big t cs = []).
  { unfold big. induction cs as [|c cs IH]; [reflexivity|]. cbn [filter].
    replace (Rltb (t c) (1 / 1000000000000)) with true by (symmetry; apply Rltb_true; apply H; simpl; auto).
    cbn [negb]. apply IH. intros; apply H; simpl; auto. }
  rewrite E. cbn [Csum fold_right]. rewrite Cmod_0. unfold Rdiv. ring.
Qed.

Lemma Rsum_zero_all {X} (f : X -> R) l : (forall x, In x l -> 0 <= f x) -> Rsum f l = 0 -> forall x, In x l -> f x = 0.
Proof.
  induction l as [|y l IH]; intros Hn Hs x Hx; [destruct Hx|]. rewrite Rsum_cons in Hs.
  pose proof (Hn y (or_introl eq_refl)). pose proof (Rsum_nonneg f l (fun z Hz => Hn z (or_intror Hz))).
  destruct Hx as [<-|Hx]; [lra|]. apply IH; auto; [intros; apply Hn; simpl; auto|lra].
Qed.

Lemma ecc_n_moved n g N (t t' : Z * Z -> R) :
  (Rsum t (cells N) <> 0 \/ forall c, In c (cells N) -> 0 <= t c) ->
  (forall c, In c (cells N) -> t' (act_cell g N c) = t c) ->
  ecc_n n (cells N) t' = ecc_n n (cells N) t.
Proof.
  intros Hs Ht. destruct (Req_EM_T (Rsum t (cells N)) 0) as [Z|NZ].
  - assert (P : forall c, In c (cells N) -> 0 <= t c) by (destruct Hs as [Hs|Hs]; [contradiction|auto]).
    pose proof (Rsum_zero_all _ _ P Z) as A0.
    rewrite !ecc_n_zero; auto.
    + intros c Hc. rewrite A0 by auto. lra.
    + intros c Hc. rewrite <- (act_inv_cell g N c). rewrite Ht, A0.
      * lra.
      * destruct c as [y x]. apply in_cells in Hc. apply (inv_cell_inside g) in Hc. destruct (inv_cell g N (y, x)). apply in_cells. exact Hc.
      * destruct c as [y x]. apply in_cells in Hc. apply (inv_cell_inside g) in Hc. destruct (inv_cell g N (y, x)). apply in_cells. exact Hc.
  - symmetry. apply (ecc_n_isometry n (cells N) t' t (act_cell g N) (unit_of g) (conj_of g)).
    + apply act_cells_perm.
    + intros c Hc. symmetry. auto.
    + apply unit_mod.
    + intros c _. apply centre_moved; auto.
Qed.

(** ** Thickness of a moved nucleon *)

Lemma dist2_act g (q : constituent RA) x y :
  dist2 (fst (act_pt g (x, y))) (snd (act_pt g (x, y))) (act_constituent g q) = dist2 x y q.
Proof. destruct g as [[] [] []]; unfold dist2, act_pt, act_constituent; cbn; ring. Qed.

Lemma thick_act cfg sp g n x y :
  thick cfg sp (act_nucleon g n) (fst (act_pt g (x, y))) (snd (act_pt g (x, y))) = thick cfg sp n x y.
Proof.
  unfold thick. f_equal. unfold act_nucleon. cbn [n_cons]. rewrite Rsum_map. apply Rsum_ext. intros q _.
  unfold term. rewrite dist2_act. reflexivity.
Qed.

(** Cell centres move like points. *)
Lemma centre_act g (dxy xymax : R) N iy ix : xymax = IZR N * dxy / 2 ->
  let cc := cell_centre (A:=RA) dxy xymax in
  let c := act_cell g N (iy, ix) in
  (cc (snd c), cc (fst c)) = act_pt g (cc ix, cc iy).
Proof.
  intros E cc c.
  assert (H : forall i, cc (N - 1 - i)%Z = - cc i).
  { intros i. unfold cc, cell_centre. cbn [nsub nmul nadd nofZ nlit RA RA_with]. rlits. rewrite !minus_IZR, E. toR. field. }
  unfold c, act_cell, act_pt. destruct g as [[] [] []]; cbn [d_tr d_sx d_sy fst snd]; rewrite ?H; reflexivity.
Qed.

Lemma filter_act g l : filter n_part (map (act_nucleon g) l) = map (act_nucleon g) (filter n_part l).
Proof. induction l as [|n l IH]; [reflexivity|]. cbn [map filter]. cbn [act_nucleon n_part]. destruct (n_part n); cbn [map]; rewrite IH; reflexivity. Qed.

Lemma nuclear_thickness_act (cfg : config RA) sp dbg dbg' (dxy xymax : R) N g l k gr k' j gr' j' :
  0 < dxy -> xymax = IZR N * dxy / 2 ->
  compute_nuclear_thickness (A:=RA) dbg (nucleon_common_of cfg sp) dxy xymax N l k = Ret (gr, k') ->
  compute_nuclear_thickness (A:=RA) dbg' (nucleon_common_of cfg sp) dxy xymax N (map (act_nucleon g) l) j = Ret (gr', j') ->
  forall c, In c (cells N) ->
    cell gr' (fst (act_cell g N c)) (snd (act_cell g N c)) = cell gr (fst c) (snd c).
Proof.
  intros Hd Hx H H' [iy ix] Hc. apply in_cells in Hc. cbn [fst snd].
  rewrite (nuclear_thickness_R _ _ _ _ _ _ _ _ _ _ Hd H) by auto.
  rewrite (nuclear_thickness_R _ _ _ _ _ _ _ _ _ _ Hd H') by (apply act_cell_inside; auto).
  rewrite filter_act, Rsum_map. apply Rsum_ext. intros n _.
  pose proof (centre_act g dxy xymax N iy ix Hx) as E. cbn zeta in E.
  rewrite <- (thick_act cfg sp g n (cell_centre (A:=RA) dxy xymax ix) (cell_centre (A:=RA) dxy xymax iy)).
  pose proof (f_equal fst E) as E1. pose proof (f_equal snd E) as E2. cbn [fst snd] in E1, E2.
  f_equal; [exact E1|exact E2].
Qed.

(** ** Observables as functions of the grid, in real arithmetic *)

Lemma compute_R (cfg : config RA) (ev : event RA) dbg nA nB nc ev' :
  evolved cfg ev -> event_compute dbg ev nA nB nc = Ret ev' ->
  let N := ev_nsteps ev in
  let t := fun c : Z * Z => cell (ev_TR ev') (fst c) (snd c) : R in
  ev_mult ev' = grid_step cfg * grid_step cfg * Rsum t (cells N) /\
  ev_ecc ev' = [(2, ecc_n 2 (cells N) t); (3, ecc_n 3 (cells N) t); (4, ecc_n 4 (cells N) t); (5, ecc_n 5 (cells N) t)]%Z.
Proof.
  intros He H N t.
  destruct (evolved_params _ _ He) as (ev0 & E0 & P). pose proof (evolved_ready _ _ He) as Hr.
  pose proof (event_compute_inv _ _ _ _ _ _ Hr H) as (PP & _ & _ & _ & _ & CT & EM & EX & EY & EE). fold N in PP, CT, EM, EX, EY, EE.
  set (t0 := rt (ev_mean ev) (ev_norm ev) (ev_TA ev') (ev_TB ev')) in *.
  assert (T : forall c, In c (cells N) -> t0 c = t c).
  { intros [y x] Hc. symmetry. apply CT. apply in_cells. exact Hc. }
  assert (D : ev_dxy ev = grid_step cfg).
  { destruct P as (_ & _ & <- & _). unfold event_new in E0. mstep E0. mstep E0. reflexivity. }
  cbn [nadd nmul ndiv nlit nofZ RA RA_with] in EM, EX, EY. rlits in EM. rlits in EX. rlits in EY.
  rewrite (fold_left_Rsum t0) in EM, EX, EY.
  rewrite (fold_left_Rsum (fun c => t0 c * IZR (snd c))) in EX.
  rewrite (fold_left_Rsum (fun c => t0 c * IZR (fst c))) in EY.
  rewrite Rplus_0_l in EM. rewrite !Rplus_0_l in EX, EY.
  rewrite (Rsum_ext t0 t) in EM, EX, EY by exact T.
  rewrite (Rsum_ext (fun c => t0 c * IZR (snd c)) (fun c => t c * IZR (snd c))) in EX by (intros c Hc; rewrite T; auto).
  rewrite (Rsum_ext (fun c => t0 c * IZR (fst c)) (fun c => t c * IZR (fst c))) in EY by (intros c Hc; rewrite T; auto).
  split; [rewrite EM, D; reflexivity|].
  change (Rsum (fun c => t c * IZR (snd c)) (cells N) / Rsum t (cells N)) with (fst (centre (cells N) t)) in EX.
  change (Rsum (fun c => t c * IZR (fst c)) (cells N) / Rsum t (cells N)) with (snd (centre (cells N) t)) in EY.
  rewrite EX, EY in EE.
  change (fold_left _ (cells N) _) with (fold_left (fun acc (c : Z * Z) =>
      if nltb RA (t c) tiny then acc else @obs_cell RA (fst (centre (cells N) t)) (snd (centre (cells N) t)) (t c) (fst c) (snd c) acc)
      (cells N) (@ecc_zero RA, @ecc_zero RA, @ecc_zero RA, @ecc_zero RA)) in EE.
  rewrite obs_fold in EE. rewrite EE.
  rewrite !ecc_finish_n by (unfold harm; auto). reflexivity.
Qed.
