(** Pre-generated configurations: rows of the file and the largest radius. *)
From Coq Require Import Reals Lra.
From Verif.Base Require Import Result Arith RArith Rng.
From Verif.Model Require Import Config Nucleon Files Nucleus.
From Verif.Spec Require Import Geometry.
From Verif.Proof Require Import Basics RBasics.
Local Open Scope R_scope.

Lemma at_index_R data i x : at_index (A:=RA) data i = Ret x ->
  (0 <= i)%Z /\ nth_error data (Z.to_nat i) = Some x.
Proof.
  unfold at_index. destruct (Z.ltb_spec i 0); [discriminate|].
  destruct (nth_error data (Z.to_nat i)); [|discriminate]. intros E. split; [lia|congruence].
Qed.

Lemma position_at_R data i p : position_at (A:=RA) data i = Ret p ->
  (0 <= i)%Z /\ file_row data (Z.to_nat i) = Some p.
Proof.
  unfold position_at. intros H.
  apply rbind_Ret_inv in H. destruct H as (x & Ex & H).
  apply rbind_Ret_inv in H. destruct H as (y & Ey & H).
  apply rbind_Ret_inv in H. destruct H as (z & Ez & H).
  apply at_index_R in Ex. apply at_index_R in Ey. apply at_index_R in Ez.
  destruct Ex as [I1 X], Ey as [I2 Y], Ez as [I3 Z]. split; [lia|].
  unfold file_row. cbn [num RA RA_with nof32] in *.
  replace (3 * Z.to_nat i)%nat with (Z.to_nat (3 * i)) by lia. rewrite X.
  replace (Z.to_nat (3 * i) + 1)%nat with (Z.to_nat (3 * i + 1)) by lia. rewrite Y.
  replace (Z.to_nat (3 * i) + 2)%nat with (Z.to_nat (3 * i + 2)) by lia. rewrite Z.
  congruence.
Qed.

Lemma rsq32_R (p : vec) : rsq32 (A:=RA) p = vdot p p.
Proof. destruct p as [[x y] z]. reflexivity. Qed.

Lemma max_fold_R (data : list R) l m0 m :
  rfold (fun rmax_sq i => rbind (position_at (A:=RA) data i)
           (fun p => let r_sq := rsq32 p in Ret (if nltb RA rmax_sq r_sq then r_sq else rmax_sq))) l m0 = Ret m ->
  (forall i, In i l -> (0 <= i)%Z /\ exists p, file_row data (Z.to_nat i) = Some p /\ vdot p p <= m) /\
  m0 <= m /\ (m = m0 \/ exists i p, In i l /\ file_row data (Z.to_nat i) = Some p /\ m = vdot p p).
Proof.
  revert m0. induction l as [|i l IH]; intros m0 H; simpl in H.
  - assert (m0 = m) by congruence. subst m0. split; [intros i []|]. split; [lra|left; reflexivity].
  - apply rbind_Ret_inv in H. destruct H as (m1 & E1 & H).
    apply rbind_Ret_inv in E1. destruct E1 as (p & Ep & E1).
    cbv zeta in E1. rewrite rsq32_R in E1.
    apply position_at_R in Ep. destruct Ep as [Hi Ep].
    assert (M : m0 <= m1 /\ vdot p p <= m1 /\ (m1 = m0 \/ m1 = vdot p p)).
    { cbn [nltb RA RA_with] in E1. destruct (Rltb_spec m0 (vdot p p)) as [L|L];
        assert (E : m1 = m1) by reflexivity; [assert (m1 = vdot p p) by congruence|assert (m1 = m0) by congruence];
        subst; split; try lra; split; try lra; auto. }
    destruct M as (M1 & M2 & M3). destruct (IH _ H) as (F & G & Hm). split; [|split].
    + intros j [<-|Hj]; [|apply F; exact Hj]. split; [exact Hi|]. exists p. split; [exact Ep|lra].
    + lra.
    + destruct Hm as [->|(j & q & Hj & Eq & ->)].
      * destruct M3 as [->| ->]; [left; reflexivity|right]. exists i, p. split; [left; reflexivity|auto].
      * right. exists j, q. split; [right; exact Hj|auto].
Qed.

Lemma in_zupto i n : In i (zupto n) <-> (0 <= i < n)%Z.
Proof.
  unfold zupto, zrange. rewrite in_map_iff. split.
  - intros (k & <- & Hk). apply in_seq in Hk. lia.
  - intros H. exists (Z.to_nat i). split; [lia|]. apply in_seq. lia.
Qed.

(** The number found is the largest squared distance of the rows looked at (0 if there are none). *)
Lemma max_rsq_R (data : list R) n m : max_rsq (A:=RA) data n = Ret m ->
  0 <= m /\
  (forall i, (0 <= i < n)%Z -> exists p, file_row data (Z.to_nat i) = Some p /\ vdot p p <= m) /\
  (m = 0 \/ exists i p, (0 <= i < n)%Z /\ file_row data (Z.to_nat i) = Some p /\ m = vdot p p).
Proof.
  unfold max_rsq. intros H. apply max_fold_R in H. cbn [nlit RA RA_with] in H. revert H. rlits. intros (F & G & M).
  split; [exact G|]. split.
  - intros i Hi. apply F. apply in_zupto. exact Hi.
  - destruct M as [->|(i & p & Hi & Ep & ->)]; [left; reflexivity|right].
    exists i, p. rewrite in_zupto in Hi. auto.
Qed.
