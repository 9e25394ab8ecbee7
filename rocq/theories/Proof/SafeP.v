(** A calculus for "no undefined behaviour" and bounds on doubles. *)
From Coq Require Import ZArith Reals Lra Lia Bool List Psatz Permutation.
From Flocq Require Import Core BinarySingleNaN.
From Verif.Base Require Import Result Arith FArith Rng.
From Verif.Spec Require Import Finite Safe.
From Verif.Proof Require Import Basics Ieee IeeeInt.
Import ListNotations.
Local Open Scope R_scope.

(** Returns a value with Q, throws an exception with Ex, or has not finished. *)
Definition outcome {X} (Ex : exn -> Prop) (Q : X -> Prop) (r : result X) : Prop :=
  match r with Ret x => Q x | Throw e => Ex e | UB _ => False | OutOfFuel => True end.

Definition safe {S X} (I : S -> Prop) (Ex : exn -> Prop) (m : M S X) (Q : X -> Prop) : Prop :=
  forall s, I s -> outcome Ex Q (fst (m s)) /\ I (snd (m s)).

Lemma outcome_bind {X Y} Ex (Q : X -> Prop) (P : Y -> Prop) (r : result X) (k : X -> result Y) :
  outcome Ex Q r -> (forall x, Q x -> outcome Ex P (k x)) -> outcome Ex P (rbind r k).
Proof. destruct r; cbn; auto. Qed.
Lemma outcome_weaken {X} (Ex Ex' : exn -> Prop) (Q P : X -> Prop) (r : result X) :
  outcome Ex Q r -> (forall e, Ex e -> Ex' e) -> (forall x, Q x -> P x) -> outcome Ex' P r.
Proof. destruct r; cbn; auto. Qed.
Lemma outcome_rfold {S X} Ex (f : S -> X -> result S) (P : S -> Prop) (l : list X) :
  (forall s x, In x l -> P s -> outcome Ex P (f s x)) -> forall s, P s -> outcome Ex P (rfold f l s).
Proof.
  induction l as [|x l IH]; intros Hf s Hs; cbn [rfold]; [exact Hs|].
  apply (outcome_bind Ex P); [apply Hf; simpl; auto|]. intros s1 H1. apply IH; auto. intros; apply Hf; simpl; auto.
Qed.

Section Calc.
Context {S : Type} (I : S -> Prop) (Ex : exn -> Prop).

Lemma safe_ret {X} (Q : X -> Prop) x : Q x -> safe I Ex (ret x) Q.
Proof. intros H s Hs. split; [exact H|exact Hs]. Qed.
Lemma safe_bind {X Y} (Q : X -> Prop) (P : Y -> Prop) (m : M S X) (k : X -> M S Y) :
  safe I Ex m Q -> (forall x, Q x -> safe I Ex (k x) P) -> safe I Ex (bind m k) P.
Proof.
  intros Hm Hk s Hs. destruct (Hm s Hs) as [O J]. unfold bind. destruct (m s) as [r s1]. cbn [fst snd] in O, J.
  destruct r as [x|e|u|]; cbn [outcome] in O.
  - apply Hk; assumption.
  - split; assumption.
  - destruct O.
  - split; [exact Logic.I|exact J].
Qed.
Lemma safe_weaken {X} (Q P : X -> Prop) (m : M S X) : safe I Ex m Q -> (forall x, Q x -> P x) -> safe I Ex m P.
Proof. intros H HP s Hs. destruct (H s Hs) as [O J]. split; [|exact J]. apply (outcome_weaken Ex Ex Q P); auto. Qed.
Lemma safe_lift {X} (Q : X -> Prop) (r : result X) : outcome Ex Q r -> safe I Ex (lift r) Q.
Proof. intros H s Hs. split; assumption. Qed.
Lemma safe_throw {X} (Q : X -> Prop) e : Ex e -> safe I Ex (throw e) Q.
Proof. intros H s Hs. split; assumption. Qed.
Lemma safe_fuel {X} (Q : X -> Prop) : safe I Ex out_of_fuel Q.
Proof. intros s Hs. split; [exact Logic.I|assumption]. Qed.
Lemma safe_mfold {X Y} (f : Y -> X -> M S Y) (P : Y -> Prop) (l : list X) :
  (forall y x, In x l -> P y -> safe I Ex (f y x) P) -> forall y, P y -> safe I Ex (mfold f l y) P.
Proof.
  induction l as [|x l IH]; intros Hf y Hy; cbn [mfold]; [apply safe_ret; exact Hy|].
  apply (safe_bind P); [apply Hf; simpl; auto|]. intros y1 H1. apply IH; auto. intros; apply Hf; simpl; auto.
Qed.
Lemma safe_mrepeat {X} n (m : M S X) (Q : X -> Prop) :
  safe I Ex m Q -> safe I Ex (mrepeat n m) (fun l => length l = n /\ Forall Q l).
Proof.
  intros H. induction n as [|n IH]; cbn [mrepeat]; [apply safe_ret; auto|].
  apply (safe_bind Q); [exact H|]. intros x Hx. apply (safe_bind _ _ _ _ IH). intros xs [L F].
  apply safe_ret. split; [simpl; lia|constructor; auto].
Qed.
End Calc.

(** ** Bounds on doubles *)
Section Bounds.
Variable L : Libm.

Lemma sized_le x a b : sized x a -> a <= b -> sized x b.
Proof. intros [F B] H. split; [exact F|lra]. Qed.
Lemma sized_upto x b : finite_upto x b -> sized x b.
Proof. intros [F B]. split; [exact F|]. rewrite Rabs_pos_eq; lra. Qed.

Lemma rnd_abs_le x b : rep b -> Rabs x <= b -> Rabs (rnd x) <= b.
Proof.
  intros Rb H. apply Rabs_le_inv in H. apply Rabs_le. rewrite <- (rnd_id b Rb), <- rnd_opp. split; apply rnd_le; lra.
Qed.

Lemma rnd_upper x b : rep b -> x <= b -> rnd x <= b.
Proof. intros Rb H. rewrite <- (rnd_id b Rb). apply rnd_le. exact H. Qed.

Lemma sized_rnd x v b : rep b -> b <= bpow radix2 1000 -> Rabs v <= b ->
  (Rabs v <= bpow radix2 1000 -> B2R x = rnd v /\ is_finite x = true /\ True) -> sized x b.
Proof.
  intros Rb Hb Hv H. destruct H as (E & F & _); [lra|]. split; [exact F|]. rewrite E. apply rnd_abs_le; assumption.
Qed.

Lemma sized_add x y a b c : sized x a -> sized y b -> a + b <= c -> rep c -> c <= bpow radix2 1000 -> sized (f64_add x y) c.
Proof.
  intros [F1 B1] [F2 B2] Hc Rc H1.
  assert (V : Rabs (B2R x + B2R y) <= c) by (eapply Rle_trans; [apply Rabs_triang|lra]).
  destruct (add_ok x y F1 F2) as (E & F & _); [lra|]. split; [exact F|]. rewrite E. apply rnd_abs_le; assumption.
Qed.
Lemma sized_opp x a : sized x a -> sized (Bopp x) a.
Proof. intros [F B]. split; [rewrite is_finite_Bopp; exact F|]. rewrite B2R_Bopp, Rabs_Ropp. exact B. Qed.
Lemma sized_sub x y a b c : sized x a -> sized y b -> a + b <= c -> rep c -> c <= bpow radix2 1000 -> sized (f64_sub x y) c.
Proof.
  intros [F1 B1] [F2 B2] Hc Rc H1.
  assert (V : Rabs (B2R x - B2R y) <= c) by (unfold Rminus; eapply Rle_trans; [apply Rabs_triang|rewrite Rabs_Ropp; lra]).
  destruct (sub_ok x y F1 F2) as (E & F & _); [lra|]. split; [exact F|]. rewrite E. apply rnd_abs_le; assumption.
Qed.
Lemma sized_mul x y a b c : sized x a -> sized y b -> a * b <= c -> rep c -> c <= bpow radix2 1000 -> sized (f64_mul x y) c.
Proof.
  intros [F1 B1] [F2 B2] Hc Rc H1.
  assert (V : Rabs (B2R x * B2R y) <= c).
  { rewrite Rabs_mult. eapply Rle_trans; [|exact Hc]. apply Rmult_le_compat; auto; apply Rabs_pos. }
  destruct (mul_ok x y F1 F2) as (E & F & _); [lra|]. split; [exact F|]. rewrite E. apply rnd_abs_le; assumption.
Qed.
Lemma sized_div x y a b c : sized x a -> 0 < b -> b <= Rabs (B2R y) -> a <= c * b -> rep c -> c <= bpow radix2 1000 -> sized (f64_div x y) c.
Proof.
  intros [F1 B1] Hb By Hc Rc H1. assert (Y : B2R y <> 0) by (intros E; rewrite E, Rabs_R0 in By; lra).
  assert (V : Rabs (B2R x / B2R y) <= c).
  { unfold Rdiv. rewrite Rabs_mult, Rabs_inv. apply Rmult_le_reg_r with (Rabs (B2R y)); [lra|].
    rewrite Rmult_assoc, Rinv_l, Rmult_1_r by lra. assert (0 <= c) by (pose proof (Rabs_pos (B2R x)); nra). nra. }
  destruct (div_ok x y F1 Y) as (E & F & _); [lra|]. split; [exact F|]. rewrite E. apply rnd_abs_le; assumption.
Qed.

Lemma rep_small z : (Z.abs z <= 2 ^ 53)%Z -> rep (IZR z).
Proof. apply rep_Z. Qed.
Lemma big_1000 z : (z <= 2 ^ 53)%Z -> IZR z <= bpow radix2 1000.
Proof. intros H. apply IZR_le in H. eapply Rle_trans; [exact H|]. change (IZR (2 ^ 53)) with (bpow radix2 53). apply bpow_le. lia. Qed.

(** Closed literals. *)
Definition sizedb (x : f64) (z : Z) : bool :=
  is_finite x && negb (f64_ltb (f64_ofZ z) (Babs x)).
Lemma sizedb_ok x z : (Z.abs z <= 2 ^ 53)%Z -> sizedb x z = true -> sized x (IZR z).
Proof.
  intros Hz H. apply andb_true_iff in H. destruct H as [F H]. split; [exact F|].
  destruct (ofZ_ok z Hz) as [Fz Vz]. rewrite ltb_ok in H; [|exact Fz|rewrite is_finite_Babs; exact F].
  rewrite Vz, B2R_Babs in H. destruct (Rlt_bool_spec (IZR z) (Rabs (B2R x))); [discriminate|assumption].
Qed.
Definition nonnegb (x : f64) : bool := is_finite x && negb (f64_ltb x (f64_ofZ 0)).
Lemma nonnegb_ok x : nonnegb x = true -> 0 <= B2R x.
Proof.
  intros H. apply andb_true_iff in H. destruct H as [F H]. destruct (ofZ_ok 0 ltac:(lia)) as [Fz Vz].
  rewrite ltb_ok in H by assumption. rewrite Vz in H. destruct (Rlt_bool_spec (B2R x) 0); [discriminate|assumption].
Qed.
Lemma upto_b x z : (Z.abs z <= 2 ^ 53)%Z -> sizedb x z = true -> nonnegb x = true -> finite_upto x (IZR z).
Proof.
  intros Hz H1 H2. destruct (sizedb_ok x z Hz H1) as [F B]. split; [exact F|]. split; [apply nonnegb_ok; exact H2|].
  eapply Rle_trans; [apply Rle_abs|exact B].
Qed.

(** sqrt(1 - c c) for c in [-1, 1]. *)
Lemma sine_upto (c : f64) : sized c 1 -> finite_upto (f64_sqrt (f64_sub (f64_lit 1 0) (f64_mul c c))) 1.
Proof.
  intros [F B]. assert (R1 : rep 1) by (apply (rep_Z 1); lia). assert (B1 : 1 <= bpow radix2 1000) by (apply (big_1000 1); lia).
  apply Rabs_le_inv in B. assert (V : 0 <= B2R c * B2R c <= 1) by nra.
  destruct (mul_ok c c F F) as (E & F2 & _); [rewrite Rabs_pos_eq; lra|].
  assert (V2 : 0 <= B2R (f64_mul c c) <= 1).
  { rewrite E. split; [apply rnd_nonneg; lra|]. apply rnd_upper; [exact R1|lra]. }
  assert (F1 : is_finite (f64_lit 1 0) = true) by (vm_compute; reflexivity).
  assert (E1 : B2R (f64_lit 1 0) = 1) by (destruct (ofZ_ok 1 ltac:(lia)) as [_ W]; exact W).
  destruct (sub_ok (f64_lit 1 0) (f64_mul c c) F1 F2) as (E3 & F3 & S3); [rewrite E1, Rabs_pos_eq; lra|].
  set (y := f64_sub _ _) in *. rewrite E1 in E3.
  assert (V3 : 0 <= B2R y <= 1).
  { rewrite E3. split; [apply rnd_nonneg; lra|]. apply rnd_upper; [exact R1|lra]. }
  assert (SY : Bsign y = false).
  { rewrite S3, E1. destruct (Rcompare_spec (1 - B2R (f64_mul c c)) 0); [lra|reflexivity|reflexivity]. }
  destruct (sqrt_ok y F3 SY) as (E4 & F4 & _).
split; [exact F4|]. rewrite E4. split; [apply rnd_nonneg, sqrt_pos|].
  apply rnd_upper; [exact R1|]. rewrite <- sqrt_1. apply sqrt_le_1_alt. lra.
Qed.
End Bounds.
