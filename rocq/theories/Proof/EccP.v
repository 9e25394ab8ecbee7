(** Eccentricities in real arithmetic. *)
From Coq Require Import Reals Lra Permutation.
From Coquelicot Require Import Complex.
From Verif.Base Require Import Result Arith RArith.
From Verif.Model Require Import Config Nucleon Nucleus Event.
From Verif.Spec Require Import Grid Ecc.
From Verif.Proof Require Import Basics RBasics GridP EventP.
Local Open Scope R_scope.

(** Contribution of one cell to harmonic n: numerator (re, im) and weight, as in
    event.cxx. *)
Definition num_n (n : nat) (x y t : R) : R * R :=
  match n with
  | 2%nat => (t * (y*y - x*x), t * 2 * (x * y))
  | 3%nat => (t * (y*y*y - 3 * y * (x*x)), t * (3 * x * (y*y) - x*x*x))
  | 4%nat => (t * (x*x*(x*x) + y*y*(y*y) - 6 * (x*x*(y*y))), t * 4 * (x*y) * (y*y - x*x))
  | _ => (t * y * (5 * (x*x*(x*x)) - 10 * (x*x*(y*y)) + y*y*(y*y)),
          t * x * (x*x*(x*x) - 10 * (x*x*(y*y)) + 5 * (y*y*(y*y))))
  end.

Definition wt_n (n : nat) (x y t : R) : R :=
  let r2 := x*x + y*y in let r := sqrt r2 in
  match n with
  | 2%nat => t * r2 | 3%nat => t * r2 * r | 4%nat => t * (r2 * r2) | _ => t * (r2 * r2) * r
  end.

Definition acc_n (n : nat) (xc yc : R) (t : Z * Z -> R) (cs : list (Z * Z)) (a : ecc_acc RA) : ecc_acc RA :=
  @EccAcc RA (e_re a + Rsum (fun c => fst (num_n n (IZR (snd c) - xc) (IZR (fst c) - yc) (t c))) cs)
         (e_im a + Rsum (fun c => snd (num_n n (IZR (snd c) - xc) (IZR (fst c) - yc) (t c))) cs)
         (e_wt a + Rsum (fun c => wt_n n (IZR (snd c) - xc) (IZR (fst c) - yc) (t c)) cs).

Definition big (t : Z * Z -> R) (cs : list (Z * Z)) : list (Z * Z) :=
  filter (fun c => negb (Rltb (t c) (1 / 1000000000000))) cs.

Lemma obs_fold xc yc (t : Z * Z -> R) cs a2 a3 a4 a5 :
  fold_left (fun acc (c : Z * Z) =>
      if nltb RA (t c) tiny then acc else @obs_cell RA xc yc (t c) (fst c) (snd c) acc) cs (a2, a3, a4, a5)
  = (acc_n 2 xc yc t (big t cs) a2, acc_n 3 xc yc t (big t cs) a3,
     acc_n 4 xc yc t (big t cs) a4, acc_n 5 xc yc t (big t cs) a5).
Proof.
  revert a2 a3 a4 a5. induction cs as [|c cs IH]; intros.
  - unfold acc_n; simpl. rewrite !Rplus_0_r. destruct a2, a3, a4, a5; reflexivity.
  - cbn [fold_left big filter].
    replace (nltb RA (t c) tiny) with (Rltb (t c) (1 / 1000000000000)) by reflexivity.
    destruct (Rltb (t c) (1 / 1000000000000)); cbn [negb].
    + apply IH.
    + unfold obs_cell. rewrite IH. fold (big t cs).
      unfold acc_n, ecc_add. cbn [e_re e_im e_wt Rsum fold_right].
      cbn [num_n wt_n fst snd nofZ nsub nadd nmul nsqrt nlit RA RA_with]. rlits.
      rewrite !Rplus_assoc. reflexivity.
Qed.

(** One cell's numerator is t z^n up to reflections and quarter turns. *)
Lemma zpow2 x y : zpow (x, y) 2 = (x*x - y*y, 2*(x*y)).
Proof. unfold zpow; simpl. unfold Cmult, RtoC; simpl. f_equal; ring. Qed.
Lemma zpow3 x y : zpow (x, y) 3 = (x*x*x - 3*x*(y*y), 3*y*(x*x) - y*y*y).
Proof. unfold zpow; simpl. unfold Cmult, RtoC; simpl. f_equal; ring. Qed.
Lemma zpow4 x y : zpow (x, y) 4 = (x*x*(x*x) + y*y*(y*y) - 6*(x*x*(y*y)), 4*(x*y)*(x*x - y*y)).
Proof. unfold zpow; simpl. unfold Cmult, RtoC; simpl. f_equal; ring. Qed.
Lemma zpow5 x y : zpow (x, y) 5 = (x*(x*x*(x*x) - 10*(x*x*(y*y)) + 5*(y*y*(y*y))), y*(5*(x*x*(x*x)) - 10*(x*x*(y*y)) + y*y*(y*y))).
Proof. unfold zpow; simpl. unfold Cmult, RtoC; simpl. f_equal; ring. Qed.

Lemma Csum_fst {X} (f : X -> C) l : fst (Csum f l) = Rsum (fun x => fst (f x)) l.
Proof. induction l; simpl; auto. rewrite IHl. auto. Qed.
Lemma Csum_snd {X} (f : X -> C) l : snd (Csum f l) = Rsum (fun x => snd (f x)) l.
Proof. induction l; simpl; auto. rewrite IHl. auto. Qed.
Lemma Rsum_opp {X} (f : X -> R) l : Rsum (fun x => - f x) l = - Rsum f l.
Proof. induction l; simpl; [lra|]. rewrite IHl. lra. Qed.

Definition harm (n : nat) : Prop := (n = 2 \/ n = 3 \/ n = 4 \/ n = 5)%nat.

Lemma modulus_n n (t : Z * Z -> R) (z0 : C) cs : harm n ->
  sqrt (Rsum (fun c => fst (num_n n (IZR (snd c) - fst z0) (IZR (fst c) - snd z0) (t c))) cs ^ 2 +
        Rsum (fun c => snd (num_n n (IZR (snd c) - fst z0) (IZR (fst c) - snd z0) (t c))) cs ^ 2)
  = Cmod (Csum (fun c => Cmult (RtoC (t c)) (zpow (rel z0 c) n)) cs).
Proof.
  intros Hn. unfold Cmod. rewrite Csum_fst, Csum_snd. f_equal.
  destruct Hn as [->|[->|[->| ->]]].
  - rewrite (Rsum_ext _ (fun c => - fst (RtoC (t c) * zpow (rel z0 c) 2)%C)),
      (Rsum_ext (fun c => snd (num_n 2 _ _ _)) (fun c => snd (RtoC (t c) * zpow (rel z0 c) 2)%C)).
    + rewrite Rsum_opp. ring.
    + intros c _. unfold rel. rewrite zpow2. cbn -[Rplus Rmult]. ring.
    + intros c _. unfold rel. rewrite zpow2. cbn -[Rplus Rmult]. ring.
  - rewrite (Rsum_ext _ (fun c => - snd (RtoC (t c) * zpow (rel z0 c) 3)%C)),
      (Rsum_ext (fun c => snd (num_n 3 _ _ _)) (fun c => - fst (RtoC (t c) * zpow (rel z0 c) 3)%C)).
    + rewrite !Rsum_opp. ring.
    + intros c _. unfold rel. rewrite zpow3. cbn -[Rplus Rmult]. ring.
    + intros c _. unfold rel. rewrite zpow3. cbn -[Rplus Rmult]. ring.
  - rewrite (Rsum_ext _ (fun c => fst (RtoC (t c) * zpow (rel z0 c) 4)%C)),
      (Rsum_ext (fun c => snd (num_n 4 _ _ _)) (fun c => - snd (RtoC (t c) * zpow (rel z0 c) 4)%C)).
    + rewrite !Rsum_opp. ring.
    + intros c _. unfold rel. rewrite zpow4. cbn -[Rplus Rmult]. ring.
    + intros c _. unfold rel. rewrite zpow4. cbn -[Rplus Rmult]. ring.
  - rewrite (Rsum_ext _ (fun c => snd (RtoC (t c) * zpow (rel z0 c) 5)%C)),
      (Rsum_ext (fun c => snd (num_n 5 _ _ _)) (fun c => fst (RtoC (t c) * zpow (rel z0 c) 5)%C)).
    + ring.
    + intros c _. unfold rel. rewrite zpow5. cbn -[Rplus Rmult]. ring.
    + intros c _. unfold rel. rewrite zpow5. cbn -[Rplus Rmult]. ring.
Qed.

Lemma weight_n n t (z0 : C) (c : Z * Z) : harm n ->
  wt_n n (IZR (snd c) - fst z0) (IZR (fst c) - snd z0) t = t * Cmod (rel z0 c) ^ n.
Proof.
  intros Hn. unfold wt_n, rel, Cmod. cbn [fst snd].
  set (x := IZR (snd c) - fst z0). set (y := IZR (fst c) - snd z0).
  assert (P : 0 <= x ^ 2 + y ^ 2) by (pose proof (pow2_ge_0 x); pose proof (pow2_ge_0 y); lra).
  replace (x * x + y * y) with (x ^ 2 + y ^ 2) by ring.
  pose proof (sqrt_sqrt _ P) as Q. set (r := sqrt (x ^ 2 + y ^ 2)) in *.
  destruct Hn as [->|[->|[->| ->]]]; rewrite <- Q; simpl; ring.
Qed.

(** The value stored for harmonic n. *)
Lemma ecc_finish_n n t cs : harm n ->
  ecc_finish (acc_n n (fst (centre cs t)) (snd (centre cs t)) t (big t cs) ecc_zero) = ecc_n n cs t.
Proof.
  intros Hn. unfold ecc_finish, acc_n, ecc_zero, ecc_n. cbn [e_re e_im e_wt].
  cbn [nsqrt nadd nmul ndiv nfmax RA RA_with num nlit]. unfold tiny. cbn [nlit RA RA_with]. rlits.
  rewrite !Rplus_0_l. fold (big t cs). rewrite <- modulus_n by assumption.
  f_equal; [f_equal; ring|]. f_equal.
  apply Rsum_ext. intros c _. apply weight_n. assumption.
Qed.

(** Every ecc_n lies in [0, 1]. *)
Lemma Csum_mod {X} (f : X -> C) l : Cmod (Csum f l) <= Rsum (fun x => Cmod (f x)) l.
Proof.
  induction l; simpl; [rewrite Cmod_0; lra|].
  eapply Rle_trans; [apply Cmod_triangle|]. lra.
Qed.
Lemma Cmod_zpow z n : Cmod (zpow z n) = Cmod z ^ n.
Proof.
  induction n; [apply Cmod_1|].
  change (zpow z (S n)) with (Cmult z (zpow z n)). rewrite Cmod_mult, IHn. reflexivity.
Qed.

Lemma ecc_n_range n cs t : 0 <= ecc_n n cs t <= 1.
Proof.
  unfold ecc_n. set (z := rel _). fold (big t cs).
  set (W := Rsum _ (big t cs)).
  assert (E : Rsum (fun c => Cmod (Cmult (RtoC (t c)) (zpow (z c) n))) (big t cs) = W).
  { apply Rsum_ext. intros c Hc. apply filter_In in Hc. destruct Hc as [_ Hc].
    apply negb_true_iff, Rltb_false in Hc.
    rewrite Cmod_mult, Cmod_zpow, Cmod_R, Rabs_right by lra. reflexivity. }
  pose proof (Csum_mod (fun c => Cmult (RtoC (t c)) (zpow (z c) n)) (big t cs)) as H.
  eapply Rle_trans in H; [|apply Rle_refl]. apply Rle_trans with (r3 := W) in H; [|right; exact E].
  pose proof (Cmod_ge_0 (Csum (fun c => Cmult (RtoC (t c)) (zpow (z c) n)) (big t cs))) as H0.
  pose proof (Rmax_l W (1 / 1000000000000)). pose proof (Rmax_r W (1 / 1000000000000)).
  set (D := Rmax W (1 / 1000000000000)) in *. set (N := Cmod _) in *.
  assert (0 < D) by lra. split.
  - apply Rmult_le_pos; [lra|]. left. apply Rinv_0_lt_compat. lra.
  - apply Rmult_le_reg_r with D; auto. unfold Rdiv. rewrite Rmult_assoc, Rinv_l by lra. lra.
Qed.

(** A permutation of the cells that acts as an isometry of the plane fixing the
    weights' origin leaves ecc_n unchanged. *)
Lemma Csum_ext {X} (f g : X -> C) l : (forall x, In x l -> f x = g x) -> Csum f l = Csum g l.
Proof.
  induction l as [|x l IH]; intros H; [reflexivity|].
  change (Cplus (f x) (Csum f l) = Cplus (g x) (Csum g l)).
  rewrite H by (simpl; auto). rewrite IH; auto. intros; apply H; simpl; auto.
Qed.
Lemma Csum_map {X Y} (h : X -> Y) (f : Y -> C) l : Csum f (map h l) = Csum (fun x => f (h x)) l.
Proof. induction l; simpl; auto. rewrite IHl. auto. Qed.
Lemma Csum_perm {X} (f : X -> C) l l' : Permutation l l' -> Csum f l = Csum f l'.
Proof.
  induction 1; simpl; auto; [congruence| |congruence].
  rewrite !Cplus_assoc, (Cplus_comm (f y)). reflexivity.
Qed.
Lemma Csum_Cmult {X} (f : X -> C) u l : Csum (fun x => Cmult u (f x)) l = Cmult u (Csum f l).
Proof.
  induction l; simpl; [unfold Cmult, RtoC; simpl; f_equal; ring|]. rewrite IHl. ring.
Qed.
Lemma Csum_conj {X} (f : X -> C) l : Csum (fun x => Cconj (f x)) l = Cconj (Csum f l).
Proof.
  induction l; simpl; [unfold Cconj, RtoC; simpl; f_equal; ring|]. rewrite IHl.
  unfold Cconj, Cplus. simpl. f_equal. ring.
Qed.
Lemma Cmod_conj z : Cmod (Cconj z) = Cmod z.
Proof. unfold Cmod, Cconj. simpl. f_equal. ring. Qed.
Lemma zpow_conj z n : zpow (Cconj z) n = Cconj (zpow z n).
Proof.
  induction n; [unfold zpow, Cconj, RtoC; simpl; f_equal; ring|].
  change (zpow (Cconj z) (S n)) with (Cmult (Cconj z) (zpow (Cconj z) n)). rewrite IHn.
  change (zpow z (S n)) with (Cmult z (zpow z n)). unfold Cmult, Cconj; simpl. f_equal; ring.
Qed.
Lemma zpow_mult u z n : zpow (Cmult u z) n = Cmult (zpow u n) (zpow z n).
Proof.
  induction n; [unfold zpow, Cmult, RtoC; simpl; f_equal; ring|].
  change (zpow (Cmult u z) (S n)) with (Cmult (Cmult u z) (zpow (Cmult u z) n)). rewrite IHn.
  change (zpow z (S n)) with (Cmult z (zpow z n)). change (zpow u (S n)) with (Cmult u (zpow u n)). ring.
Qed.

(** [s] permutes the cells; seen from the centres, it acts as z |-> u z or
    z |-> u conj(z) with |u| = 1. *)
Lemma ecc_n_isometry n cs t t' (s : Z * Z -> Z * Z) (u : C) (flip : bool) :
  Permutation (map s cs) cs ->
  (forall c, In c cs -> t' c = t (s c)) ->
  Cmod u = 1 ->
  (forall c, In c cs -> rel (centre cs t) (s c)
     = Cmult u (if flip then Cconj (rel (centre cs t') c) else rel (centre cs t') c)) ->
  ecc_n n cs t' = ecc_n n cs t.
Proof.
  intros Hp Ht Hu Hr. unfold ecc_n.
  set (z := rel (centre cs t)) in *. set (z' := rel (centre cs t')) in *.
  fold (big t cs). fold (big t' cs).
  assert (Hb : Permutation (map s (big t' cs)) (big t cs)).
  { assert (E : map s (big t' cs) = big t (map s cs)).
    { unfold big. clear Hp Hr. induction cs as [|c cs IH]; [reflexivity|].
      cbn [map filter]. rewrite <- (Ht c) by (simpl; auto).
      destruct (negb (Rltb (t' c) _)); cbn [map]; rewrite IH; auto; intros; apply Ht; simpl; auto. }
    rewrite E. unfold big. clear - Hp. induction Hp; cbn [filter]; auto.
    - destruct (negb _); auto.
    - destruct (negb (Rltb (t x) _)), (negb (Rltb (t y) _)); auto. constructor.
    - etransitivity; eauto. }
  assert (Hin : forall c, In c (big t' cs) -> In c cs) by (intros c Hc; apply filter_In in Hc; tauto).
  assert (Hm : forall c, In c cs -> Cmod (z (s c)) = Cmod (z' c)).
  { intros c Hc. rewrite (Hr c Hc), Cmod_mult, Hu, Rmult_1_l. destruct flip; auto using Cmod_conj. }
  f_equal.
  - rewrite <- (Csum_perm _ _ _ Hb), Csum_map.
    transitivity (Cmod (Cmult (zpow u n) (if flip then Cconj (Csum (fun c => Cmult (RtoC (t' c)) (zpow (z' c) n)) (big t' cs))
        else Csum (fun c => Cmult (RtoC (t' c)) (zpow (z' c) n)) (big t' cs)))).
    + rewrite Cmod_mult, Cmod_zpow, Hu, pow1, Rmult_1_l. destruct flip; [rewrite Cmod_conj|]; reflexivity.
    + f_equal. destruct flip.
      * rewrite <- Csum_conj, <- Csum_Cmult. apply Csum_ext. intros c Hc.
        rewrite (Hr c (Hin c Hc)), <- (Ht c (Hin c Hc)), zpow_mult, zpow_conj.
        unfold Cmult, Cconj, RtoC; simpl. f_equal; ring.
      * rewrite <- Csum_Cmult. apply Csum_ext. intros c Hc.
        rewrite (Hr c (Hin c Hc)), <- (Ht c (Hin c Hc)), zpow_mult. ring.
  - f_equal. rewrite <- (Rsum_perm _ _ _ Hb), Rsum_map. apply Rsum_ext. intros c Hc.
    rewrite Hm, Ht by auto. reflexivity.
Qed.
