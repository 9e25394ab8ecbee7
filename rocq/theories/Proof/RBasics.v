(** Small facts about the real instance. *)
From Coq Require Import Reals Lra Permutation.
From Verif.Base Require Import Result Arith RArith.
Local Open Scope R_scope.

Lemma Rlit_0 m : Rlit m 0 = IZR m.
Proof. unfold Rlit. simpl. f_equal. lia. Qed.
Lemma Rlit_m1 m : Rlit m (-1) = IZR m / 10. Proof. reflexivity. Qed.
Lemma Rlit_m2 m : Rlit m (-2) = IZR m / 100. Proof. reflexivity. Qed.
Lemma Rlit_m3 m : Rlit m (-3) = IZR m / 1000. Proof. reflexivity. Qed.
Lemma Rlit_m6 m : Rlit m (-6) = IZR m / 1000000. Proof. reflexivity. Qed.
Lemma Rlit_m10 m : Rlit m (-10) = IZR m / 10000000000. Proof. reflexivity. Qed.
Lemma Rlit_m12 m : Rlit m (-12) = IZR m / 1000000000000. Proof. reflexivity. Qed.

Ltac rlits := rewrite ?Rlit_0, ?Rlit_m1, ?Rlit_m2, ?Rlit_m3, ?Rlit_m6, ?Rlit_m10, ?Rlit_m12.
Tactic Notation "rlits" "in" ident(H) :=
  rewrite ?Rlit_0, ?Rlit_m1, ?Rlit_m2, ?Rlit_m3, ?Rlit_m6, ?Rlit_m10, ?Rlit_m12 in H.

(** Sums over lists. *)
Definition Rsum {X} (f : X -> R) (l : list X) : R := fold_right (fun x acc => f x + acc) 0 l.

Lemma fold_left_Rsum {X} (f : X -> R) l acc :
  fold_left (fun a x => a + f x) l acc = acc + Rsum f l.
Proof. revert acc. induction l as [|x l IH]; intros; simpl; [lra|]. rewrite IH. lra. Qed.

Lemma fold_left_Rsum2 {X Y} (f : X -> Y -> R) l l' acc :
  fold_left (fun a x => fold_left (fun a' y => a' + f x y) l' a) l acc
  = acc + Rsum (fun x => Rsum (f x) l') l.
Proof.
  revert acc. induction l as [|x l IH]; intros; simpl; [lra|].
  rewrite IH, (fold_left_Rsum (f x)). lra.
Qed.

Lemma Rsum_ext {X} (f g : X -> R) l : (forall x, In x l -> f x = g x) -> Rsum f l = Rsum g l.
Proof. induction l as [|x l IH]; intros H; simpl; auto. rewrite H, IH; simpl; auto. intros; apply H; simpl; auto. Qed.
Lemma Rsum_scale {X} (f : X -> R) c l : Rsum (fun x => c * f x) l = c * Rsum f l.
Proof. induction l as [|x l IH]; simpl; [lra|]. rewrite IH. lra. Qed.
Lemma Rsum_plus {X} (f g : X -> R) l : Rsum (fun x => f x + g x) l = Rsum f l + Rsum g l.
Proof. induction l as [|x l IH]; simpl; [lra|]. rewrite IH. lra. Qed.
Lemma Rsum_const {X} c (l : list X) : Rsum (fun _ => c) l = INR (length l) * c.
Proof. induction l as [|x l IH]; [simpl; lra|]. cbn [Rsum fold_right length]. fold (@Rsum X (fun _ => c) l). rewrite IH, S_INR. lra. Qed.
Lemma Rsum_le {X} (f g : X -> R) l : (forall x, In x l -> f x <= g x) -> Rsum f l <= Rsum g l.
Proof. induction l as [|x l IH]; intros H; simpl; [lra|]. apply Rplus_le_compat; [apply H; simpl; auto|apply IH; intros; apply H; simpl; auto]. Qed.
Lemma Rsum_nonneg {X} (f : X -> R) l : (forall x, In x l -> 0 <= f x) -> 0 <= Rsum f l.
Proof. induction l as [|x l IH]; intros H; simpl; [lra|]. pose proof (H x (or_introl eq_refl)). specialize (IH (fun y Hy => H y (or_intror Hy))). lra. Qed.
Lemma Rsum_app {X} (f : X -> R) l1 l2 : Rsum f (l1 ++ l2) = Rsum f l1 + Rsum f l2.
Proof. induction l1; simpl; [lra|]. rewrite IHl1. lra. Qed.
Lemma Rsum_map {X Y} (g : X -> Y) (f : Y -> R) l : Rsum f (map g l) = Rsum (fun x => f (g x)) l.
Proof. induction l; simpl; auto. rewrite IHl. auto. Qed.
Lemma Rsum_abs {X} (f : X -> R) l : Rabs (Rsum f l) <= Rsum (fun x => Rabs (f x)) l.
Proof.
  induction l as [|x l IH]; simpl; [rewrite Rabs_R0; lra|].
  eapply Rle_trans; [apply Rabs_triang|]. lra.
Qed.
Lemma Rsum_perm {X} (f : X -> R) l l' : Permutation l l' -> Rsum f l = Rsum f l'.
Proof. induction 1; simpl; lra. Qed.

(** Goals about [num RA] seen as goals about R. *)
Ltac toR := cbn [num RA RA_with nadd nsub nmul ndiv nneg nlit nofZ];
  match goal with |- @eq _ ?a ?b => apply (Rplus_eq_reg_l 0 a b) | _ => idtac end.
Ltac rring := toR; ring.
Lemma Rsum_cons {X} (f : X -> R) x l : Rsum f (x :: l) = f x + Rsum f l.
Proof. reflexivity. Qed.
Lemma Rabs_def2x x a : Rabs x <= a -> - a <= x <= a.
Proof. intros H. pose proof (Rle_abs x). pose proof (Rle_abs (- x)). rewrite Rabs_Ropp in *. lra. Qed.
