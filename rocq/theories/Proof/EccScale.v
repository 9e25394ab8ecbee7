(** Multiplying all weights by a constant does not change the eccentricities, as
    long as no weight is close to the cut. *)
From Coq Require Import Reals ZArith List Lra Lia.
From Coquelicot Require Import Complex.
From Verif.Base Require Import RArith.
From Verif.Spec Require Import Ecc.
From Verif.Proof Require Import RBasics EccP.
Import ListNotations.
Local Open Scope R_scope.

Definition cut : R := 1 / 1000000000000.

Lemma centre_scale cs (t : Z * Z -> R) k : k <> 0 -> Rsum t cs <> 0 -> centre cs (fun c => k * t c) = centre cs t.
Proof.
  intros Hk Ht. unfold centre. rewrite (Rsum_scale t).
  rewrite (Rsum_ext (fun c => k * t c * IZR (snd c)) (fun c => k * (t c * IZR (snd c)))) by (intros; ring).
  rewrite (Rsum_ext (fun c => k * t c * IZR (fst c)) (fun c => k * (t c * IZR (fst c)))) by (intros; ring).
  rewrite !(Rsum_scale (fun c => t c * _)). f_equal; field; auto.
Qed.

Lemma all_or_two (l : list (Z * Z)) c0 : In c0 l -> (forall c, In c l -> c = c0) \/ exists c, In c l /\ c <> c0.
Proof.
  intros _. induction l as [|d l IH]; [left; intros c []|].
  destruct (Z.eq_dec (fst d) (fst c0)) as [E1|N1]; [destruct (Z.eq_dec (snd d) (snd c0)) as [E2|N2]|].
  - assert (d = c0) by (destruct d, c0; cbn in *; congruence). destruct IH as [IH|(c & Hc & N)].
    + left. intros c [<-|Hc]; auto.
    + right. exists c. split; [right; exact Hc|exact N].
  - right. exists d. split; [left; reflexivity|congruence].
  - right. exists d. split; [left; reflexivity|congruence].
Qed.

Lemma far_half (z0 : C) (c d : Z * Z) : c <> d -> / 2 <= Cmod (rel z0 c) \/ / 2 <= Cmod (rel z0 d).
Proof.
  intros N. destruct (Rle_dec (/ 2) (Cmod (rel z0 c))) as [H|H]; [left; exact H|].
  destruct (Rle_dec (/ 2) (Cmod (rel z0 d))) as [H'|H']; [right; exact H'|]. exfalso.
  assert (T : Cmod (Cminus (rel z0 c) (rel z0 d)) < 1).
  { eapply Rle_lt_trans; [apply Cmod_triangle|]. rewrite Cmod_opp. lra. }
  assert (D : forall u v : Z, (u <> v)%Z -> 1 <= Rabs (IZR u - IZR v)).
  { intros u v Huv. rewrite <- minus_IZR, <- abs_IZR. apply IZR_le. lia. }
  pose proof (Rmax_Cmod (Cminus (rel z0 c) (rel z0 d))) as M. unfold Cminus, rel, Cplus, Copp in M, T. cbn [fst snd] in M, T.
  replace (IZR (snd c) - fst z0 + - (IZR (snd d) - fst z0)) with (IZR (snd c) - IZR (snd d)) in M, T by ring.
  replace (IZR (fst c) - snd z0 + - (IZR (fst d) - snd z0)) with (IZR (fst c) - IZR (fst d)) in M, T by ring.
  assert (S : snd c <> snd d \/ fst c <> fst d).
  { destruct (Z.eq_dec (snd c) (snd d)) as [E|E]; [|left; exact E]. right. intros F. apply N. destruct c, d; cbn in *; congruence. }
  destruct S as [S|S]; apply D in S.
  - pose proof (Rmax_l (Rabs (IZR (snd c) - IZR (snd d))) (Rabs (IZR (fst c) - IZR (fst d)))). lra.
  - pose proof (Rmax_r (Rabs (IZR (snd c) - IZR (snd d))) (Rabs (IZR (fst c) - IZR (fst d)))). lra.
Qed.

Lemma Rsum_ge_one {X} (f : X -> R) l x : (forall y, In y l -> 0 <= f y) -> In x l -> f x <= Rsum f l.
Proof.
  induction l as [|y l IH]; intros H []; rewrite Rsum_cons.
  - subst. assert (0 <= Rsum f l) by (apply Rsum_nonneg; intros; apply H; right; assumption). lra.
  - assert (f x <= Rsum f l) by (apply IH; auto; intros; apply H; right; assumption). pose proof (H y (or_introl eq_refl)). lra.
Qed.

Lemma ecc_scale n cs (t : Z * Z -> R) k : (1 <= n <= 5)%nat -> 0 < k ->
  (forall c, In c cs -> t c = 0 \/ 32 * cut <= t c /\ 32 * cut <= k * t c) ->
  ecc_n n cs (fun c => k * t c) = ecc_n n cs t.
Proof.
  intros Hn Hk Ht. assert (C0 : 0 < cut) by (unfold cut; lra).
  set (bg := filter (fun c => negb (Rltb (t c) (1 / 1000000000000))) cs).
  assert (B : filter (fun c => negb (Rltb (k * t c) (1 / 1000000000000))) cs = bg).
  { apply filter_ext_in. intros c Hc. f_equal. fold cut.
    destruct (Ht c Hc) as [->|[H1 H2]].
    - rewrite Rmult_0_r. reflexivity.
    - destruct (Rltb_spec (k * t c) cut), (Rltb_spec (t c) cut); auto; lra. }
  assert (In' : forall c, In c bg -> 32 * cut <= t c /\ 32 * cut <= k * t c).
  { intros c Hc. apply filter_In in Hc. destruct Hc as [Hc Hb]. destruct (Ht c Hc) as [E|]; [|assumption].
    rewrite E in Hb. fold cut in Hb. destruct (Rltb_spec 0 cut); [discriminate|lra]. }
  assert (Out : forall f, Rsum (fun c => t c * f c) cs = Rsum (fun c => t c * f c) bg).
  { intros f. unfold bg. clear -Ht C0. induction cs as [|c cs IH]; [reflexivity|]. cbn [filter].
    assert (IH' := IH (fun c Hc => Ht c (or_intror Hc))). destruct (Ht c (or_introl eq_refl)) as [E|[H1 _]].
    - rewrite Rsum_cons, IH', E. fold cut. destruct (Rltb_spec 0 cut); [cbn [negb]; ring|lra].
    - fold cut. destruct (Rltb_spec (t c) cut); [lra|]. cbn [negb]. rewrite !Rsum_cons, IH'. reflexivity. }
  unfold ecc_n. fold bg. rewrite B.
  destruct bg as [|c0 rest] eqn:Eb.
  { cbn [Csum fold_right]. rewrite Cmod_0. unfold Rdiv. rewrite !Rmult_0_l. reflexivity. }
  rewrite <- Eb in *.
  assert (I0 : In c0 bg) by (rewrite Eb; left; reflexivity).
  assert (S0 : Rsum t cs = Rsum t bg).
  { rewrite (Rsum_ext t (fun c => t c * 1)), (Rsum_ext t (fun c => t c * 1)) by (intros; ring). apply Out. }
  assert (St : 0 < Rsum t bg).
  { apply Rlt_le_trans with (t c0); [pose proof (In' c0 I0); lra|]. apply Rsum_ge_one; [|exact I0]. intros c Hc. pose proof (In' c Hc). lra. }
  rewrite centre_scale by (rewrite ?S0; lra). set (z0 := centre cs t).
  rewrite (Csum_ext _ (fun c => Cmult (RtoC k) (Cmult (RtoC (t c)) (zpow (rel z0 c) n)))).
  2:{ intros c _. rewrite RtoC_mult. ring. }
  rewrite Csum_Cmult, Cmod_mult, Cmod_R, (Rabs_right k) by lra.
  rewrite (Rsum_ext (fun c => k * t c * Cmod (rel z0 c) ^ n) (fun c => k * (t c * Cmod (rel z0 c) ^ n))) by (intros; ring).
  rewrite (Rsum_scale (fun c => t c * Cmod (rel z0 c) ^ n)). set (W := Rsum _ bg).
  fold cut. destruct (all_or_two bg c0 I0) as [One|(c1 & I1 & N1)].
  - (* a single cell: it is the centre *)
    assert (Z : forall c, In c bg -> rel z0 c = RtoC 0).
    { intros c Hc. rewrite (One c Hc). unfold z0, centre, rel, RtoC. cbn [fst snd]. rewrite S0, !Out.
      rewrite (Rsum_ext (fun c => t c * IZR (snd c)) (fun c => IZR (snd c0) * t c)) by (intros d Hd; rewrite (One d Hd); ring).
      rewrite (Rsum_ext (fun c => t c * IZR (fst c)) (fun c => IZR (fst c0) * t c)) by (intros d Hd; rewrite (One d Hd); ring).
      rewrite !(Rsum_scale t). f_equal; field; lra. }
    assert (Q : Cmod (Csum (fun c => Cmult (RtoC (t c)) (zpow (rel z0 c) n)) bg) = 0).
    { apply Rle_antisym; [|apply Cmod_ge_0]. eapply Rle_trans; [apply Csum_mod|]. right.
      rewrite (Rsum_ext _ (fun _ => 0 * 1)); [rewrite (Rsum_scale (fun _ => 1)); ring|].
      intros c Hc. rewrite (Z c Hc), Cmod_mult, Cmod_zpow, Cmod_0, pow_i by lia. ring. }
    rewrite Q. unfold Rdiv. ring.
  - assert (P : forall c, In c bg -> 0 <= t c * Cmod (rel z0 c) ^ n).
    { intros c Hc. apply Rmult_le_pos; [pose proof (In' c Hc); lra|]. apply pow_le, Cmod_ge_0. }
    assert (G : forall c, In c bg -> / 2 <= Cmod (rel z0 c) -> cut <= W /\ cut <= k * W).
    { intros c Hc Hh. pose proof (Rsum_ge_one _ bg c P Hc) as GW. fold W in GW. cbv beta in GW.
      assert (Q : / 32 <= Cmod (rel z0 c) ^ n).
      { apply Rle_trans with ((/ 2) ^ n); [|apply pow_incr; lra].
        destruct Hn as [_ Hn]. do 6 (destruct n as [|n]; [simpl; lra|]). lia. }
      pose proof (In' c Hc) as [L1 L2].
      assert (K : 32 * cut * / 32 <= t c * Cmod (rel z0 c) ^ n) by (apply Rmult_le_compat; lra).
      assert (K' : 32 * cut * / 32 <= k * t c * Cmod (rel z0 c) ^ n) by (apply Rmult_le_compat; lra).
      split; [lra|]. assert (k * (t c * Cmod (rel z0 c) ^ n) <= k * W) by (apply Rmult_le_compat_l; lra). lra. }
    assert (H : cut <= W /\ cut <= k * W) by (destruct (far_half z0 c1 c0 N1) as [Hh|Hh]; [exact (G _ I1 Hh)|exact (G _ I0 Hh)]).
    rewrite !Rmax_left by lra. field. lra.
Qed.

Lemma ecc_n_ext n cs (t u : Z * Z -> R) : (forall c, In c cs -> t c = u c) -> ecc_n n cs t = ecc_n n cs u.
Proof.
  intros H. unfold ecc_n.
  assert (Z0 : centre cs t = centre cs u).
  { unfold centre. rewrite (Rsum_ext t u cs H).
    rewrite (Rsum_ext (fun c => t c * IZR (snd c)) (fun c => u c * IZR (snd c))) by (intros c Hc; rewrite (H c Hc); reflexivity).
    rewrite (Rsum_ext (fun c => t c * IZR (fst c)) (fun c => u c * IZR (fst c))) by (intros c Hc; rewrite (H c Hc); reflexivity).
    reflexivity. }
  rewrite Z0.
  rewrite (filter_ext_in (fun c => negb (Rltb (t c) (1 / 1000000000000))) (fun c => negb (Rltb (u c) (1 / 1000000000000))))
    by (intros c Hc; rewrite (H c Hc); reflexivity).
  set (bg := filter _ cs). assert (Hb : forall c, In c bg -> t c = u c) by (intros c Hc; apply filter_In in Hc; apply H, Hc).
  f_equal.
  - f_equal. apply Csum_ext. intros c Hc. rewrite (Hb c Hc). reflexivity.
  - f_equal. apply Rsum_ext. intros c Hc. rewrite (Hb c Hc). reflexivity.
Qed.
