(** Lemmas about the result type, the monad, loops and integer ranges. *)
From Verif.Base Require Import Result Arith Rng.

Lemma bind_Ret_inv {S X Y} (m : M S X) (k : X -> M S Y) s y s' :
  bind m k s = (Ret y, s') -> exists x s1, m s = (Ret x, s1) /\ k x s1 = (Ret y, s').
Proof.
  unfold bind. destruct (m s) as [[x|e|u|] s1] eqn:E; intros H; try discriminate.
  exists x, s1. split; auto.
Qed.

Lemma bind_run {S X Y} (m : M S X) (k : X -> M S Y) s x s1 :
  m s = (Ret x, s1) -> bind m k s = k x s1.
Proof. unfold bind. intros ->. reflexivity. Qed.

Lemma bind_Throw {S X Y} (m : M S X) (k : X -> M S Y) s x s1 :
  m s = (Throw x, s1) -> bind m k s = (Throw x, s1).
Proof. unfold bind. intros ->. reflexivity. Qed.

Lemma bind_UB {S X Y} (m : M S X) (k : X -> M S Y) s x s1 :
  m s = (UB x, s1) -> bind m k s = (UB x, s1).
Proof. unfold bind. intros ->. reflexivity. Qed.

Lemma bind_OutOfFuel {S X Y} (m : M S X) (k : X -> M S Y) s s1 :
  m s = (OutOfFuel, s1) -> bind m k s = (OutOfFuel, s1).
Proof. unfold bind. intros ->. reflexivity. Qed.

Lemma rbind_Ret_inv {X Y} (m : result X) (k : X -> result Y) y :
  rbind m k = Ret y -> exists x, m = Ret x /\ k x = Ret y.
Proof. destruct m; simpl; intros; try discriminate. eauto. Qed.

Lemma on_eng_Ret_inv {A} {R : Rng A} {X} (m : M (engine R) X) s x s' :
  on_eng m s = (Ret x, s') ->
  exists e', m (rs_eng s) = (Ret x, e') /\ s' = MkRstate e' (rs_norm s) (rs_gamma s).
Proof.
  unfold on_eng. destruct (m (rs_eng s)) as [r e'] eqn:E. intros H. inversion H; subst. eauto.
Qed.

Lemma lift_Ret_inv {S X} (r : result X) (s s' : S) x :
  lift r s = (Ret x, s') -> r = Ret x /\ s' = s.
Proof. unfold lift. intros H; inversion H; auto. Qed.

Lemma act_inv {S X} (f : S -> X * S) s r s' :
  act f s = (r, s') -> exists x, f s = (x, s') /\ r = Ret x.
Proof. unfold act. destruct (f s) as [x s1]. intros H; inversion H; subst; eauto. Qed.

Lemma pair_Ret_inj {S X} (a b : X) (s s' : S) : (Ret a, s) = (Ret b, s') -> a = b /\ s = s'.
Proof. intros H. inversion H; auto. Qed.

(** Peel monadic binds off a hypothesis [H : _ = (Ret _, _)] or [H : _ = Ret _]. *)
Ltac mstep H :=
  match type of H with
  | bind _ _ _ = (Ret _, _) =>
      let x := fresh "x" in let s := fresh "s" in let E := fresh "E" in
      apply bind_Ret_inv in H; destruct H as (x & s & E & H)
  | rbind _ _ = Ret _ =>
      let x := fresh "x" in let E := fresh "E" in
      apply rbind_Ret_inv in H; destruct H as (x & E & H)
  | ret _ _ = (Ret _, _) => unfold ret in H; inversion H; subst; clear H
  | (Ret _, _) = (Ret _, _) => inversion H; subst; clear H
  | Ret _ = Ret _ => inversion H; subst; clear H
  | lift _ _ = (Ret _, _) => apply lift_Ret_inv in H; destruct H as [H ->]
  | (let '(_, _) := ?p in _) = _ => destruct p eqn:?
  | (let '(_, _) := ?p in _) _ = _ => destruct p eqn:?
  end.

Lemma rfold_app {X Y} (f : Y -> X -> result Y) l1 l2 y :
  rfold f (l1 ++ l2) y = rbind (rfold f l1 y) (rfold f l2).
Proof.
  revert y. induction l1 as [|x l1 IH]; intros y; simpl; [reflexivity|].
  destruct (f y x); simpl; auto.
Qed.

(** A loop whose steps all return, under an invariant, returns and keeps it. *)
Lemma rfold_inv {X Y} (f : Y -> X -> result Y) (P : Y -> Prop) l y :
  P y -> (forall y x, P y -> In x l -> exists y', f y x = Ret y' /\ P y') ->
  exists y', rfold f l y = Ret y' /\ P y'.
Proof.
  revert y. induction l as [|x l IH]; intros y Hy Hf; simpl; [eauto|].
  destruct (Hf y x Hy (or_introl eq_refl)) as (y1 & -> & H1). simpl.
  apply IH; auto. intros y2 x2 Hy2 Hin. apply Hf; simpl; auto.
Qed.

(** If a loop returned, an invariant kept by each returning step holds. *)
Lemma rfold_Ret_inv {X Y} (f : Y -> X -> result Y) (P : Y -> Prop) l y y' :
  P y -> (forall y x y', P y -> In x l -> f y x = Ret y' -> P y') ->
  rfold f l y = Ret y' -> P y'.
Proof.
  revert y. induction l as [|x l IH]; intros y Hy Hf H; simpl in H.
  - inversion H; subst; auto.
  - apply rbind_Ret_inv in H. destruct H as (y1 & E & H).
    apply (IH y1); auto.
    + eapply Hf; eauto. simpl; auto.
    + intros; eapply Hf; eauto. simpl; auto.
Qed.

(** A loop whose steps are pure is a fold. *)
Lemma rfold_pure {X Y} (f : Y -> X -> result Y) (g : Y -> X -> Y) l y :
  (forall y x, In x l -> f y x = Ret (g y x)) -> rfold f l y = Ret (fold_left g l y).
Proof.
  revert y. induction l as [|x l IH]; intros y H; simpl; [reflexivity|].
  rewrite H by (simpl; auto). simpl. apply IH. intros; apply H; simpl; auto.
Qed.

Lemma rfold_ext {X Y} (f g : Y -> X -> result Y) l y :
  (forall y x, In x l -> f y x = g y x) -> rfold f l y = rfold g l y.
Proof.
  revert y. induction l as [|x l IH]; intros y H; simpl; [reflexivity|].
  rewrite H by (simpl; auto). destruct (g y x); simpl; auto.
  apply IH. intros; apply H; simpl; auto.
Qed.

Lemma mfold_app {S X Y} (f : Y -> X -> M S Y) l1 l2 y s :
  mfold f (l1 ++ l2) y s = bind (mfold f l1 y) (mfold f l2) s.
Proof.
  revert y s. induction l1 as [|x l1 IH]; intros y s; simpl; [reflexivity|].
  unfold bind at 1 3. unfold bind at 1.
  destruct (f y x s) as [[y1| | |] s1]; try reflexivity. rewrite IH. reflexivity.
Qed.

(** ** Integer ranges *)

Lemma in_zrange lo hi z : In z (zrange lo hi) <-> (lo <= z <= hi)%Z.
Proof.
  unfold zrange. rewrite in_map_iff. split.
  - intros (k & <- & H). apply in_seq in H. lia.
  - intros H. exists (Z.to_nat (z - lo)). split; [lia|]. apply in_seq. lia.
Qed.

Lemma zrange_length lo hi : length (zrange lo hi) = Z.to_nat (hi - lo + 1).
Proof. unfold zrange. rewrite map_length, seq_length. reflexivity. Qed.

Lemma zrange_nodup lo hi : NoDup (zrange lo hi).
Proof.
  unfold zrange. apply FinFun.Injective_map_NoDup; [|apply seq_NoDup].
  intros a b H. lia.
Qed.

Lemma in_zupto n z : In z (zupto n) <-> (0 <= z < n)%Z.
Proof. unfold zupto. rewrite in_zrange. lia. Qed.

Lemma zupto_length n : length (zupto n) = Z.to_nat n.
Proof. unfold zupto. rewrite zrange_length. f_equal. lia. Qed.

Lemma zupto_nodup n : NoDup (zupto n).
Proof. apply zrange_nodup. Qed.

Lemma zrange_empty lo hi : (hi < lo)%Z -> zrange lo hi = [].
Proof. intros H. unfold zrange. replace (Z.to_nat (hi - lo + 1)) with O by lia. reflexivity. Qed.

Lemma zrange_cons lo hi : (lo <= hi)%Z -> zrange lo hi = lo :: zrange (lo + 1) hi.
Proof.
  intros H. unfold zrange.
  replace (Z.to_nat (hi - lo + 1)) with (S (Z.to_nat (hi - (lo + 1) + 1))) by lia.
  cbn [seq map]. f_equal; [lia|].
  rewrite <- seq_shift, map_map. apply map_ext. intros a. lia.
Qed.

Lemma zrange_snoc lo hi : (lo <= hi)%Z -> zrange lo hi = zrange lo (hi - 1) ++ [hi].
Proof.
  intros H. unfold zrange.
  replace (Z.to_nat (hi - lo + 1)) with (Z.to_nat (hi - 1 - lo + 1) + 1)%nat by lia.
  rewrite seq_app, map_app. f_equal. cbn [seq map Nat.add]. f_equal. lia.
Qed.

Lemma zupto_snoc n : (0 <= n)%Z -> zupto (n + 1) = zupto n ++ [n].
Proof. intros H. unfold zupto. rewrite zrange_snoc by lia. repeat f_equal; lia. Qed.

Lemma zupto_nth n i : (i < Z.to_nat n)%nat -> nth_error (zupto n) i = Some (Z.of_nat i).
Proof.
  intros H. unfold zupto, zrange. rewrite nth_error_map.
  rewrite (nth_error_nth' _ 0%nat) by (rewrite seq_length; lia).
  rewrite seq_nth by lia. simpl. f_equal.
Qed.
