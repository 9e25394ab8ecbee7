(** Integers and binary64: conversions, truncation and ceiling. *)
From Coq Require Import ZArith Reals Lra Lia Bool.
From Flocq Require Import Core BinarySingleNaN.
From Verif.Base Require Import Result Arith FArith.
From Verif.Proof Require Import Ieee DecR.
Local Open Scope R_scope.

Lemma rep_Z z : (Z.abs z <= 2 ^ 53)%Z -> rep (IZR z).
Proof.
  intros H. destruct (Z.eq_dec (Z.abs z) (2 ^ 53)) as [E|E].
  - destruct (Z.abs_spec z) as [[_ A]|[_ A]].
    + replace z with (2 ^ 53)%Z by lia. change (IZR (2 ^ 53)) with (bpow radix2 53). apply rep_bpow. lia.
    + replace z with (- 2 ^ 53)%Z by lia. rewrite opp_IZR. apply generic_format_opp. change (IZR (2 ^ 53)) with (bpow radix2 53). apply rep_bpow. lia.
  - apply generic_format_FLT. apply FLT_spec with (Float radix2 z 0).
    + unfold F2R. cbn [Fnum Fexp bpow]. ring.
    + cbn [Fnum]. change (Zpower radix2 53) with (2 ^ 53)%Z. lia.
    + cbn [Fexp]. lia.
Qed.
Lemma ofZ_ok z : (Z.abs z <= 2 ^ 53)%Z -> is_finite (f64_ofZ z) = true /\ B2R (f64_ofZ z) = IZR z.
Proof.
  intros H. assert (E : f64_ofZ z = f64_mk z 0) by reflexivity. rewrite E.
  assert (M : IZR z * bpow radix2 0 = IZR z) by (cbn [bpow]; ring).
  destruct (mk_ok z 0) as [F V].
  - rewrite M, <- abs_IZR. apply Rle_trans with (bpow radix2 53); [|apply bpow_le; lia].
    change (bpow radix2 53) with (IZR (2 ^ 53)). apply IZR_le. exact H.
  - split; [exact F|]. rewrite V, M. apply rnd_id, rep_Z, H.
Qed.

(** |m 2^e| for e < 0. *)
Lemma neg_exp m e : (e < 0)%Z -> IZR (Zpos m) * bpow radix2 e = IZR (Zpos m) / IZR (2 ^ (- e)).
Proof.
  intros H. unfold Rdiv. f_equal. replace e with (- (- e))%Z at 1 by lia. rewrite bpow_opp. f_equal. symmetry. apply (IZR_Zpower radix2). lia.
Qed.
Lemma pos_exp m e : (0 <= e)%Z -> IZR (Zpos m) * bpow radix2 e = IZR (Zpos m * 2 ^ e).
Proof. intros H. rewrite mult_IZR. f_equal. symmetry. apply (IZR_Zpower radix2). exact H. Qed.

Lemma B2R_finite s m e H : B2R (B754_finite s m e H : f64) = (if s then - (IZR (Zpos m) * bpow radix2 e) else IZR (Zpos m) * bpow radix2 e).
Proof. cbn [B2R]. unfold F2R. cbn [Fnum Fexp]. destruct s; cbn [cond_Zopp]; [|reflexivity]. change (Z.neg m) with (- Z.pos m)%Z. rewrite opp_IZR. ring. Qed.

Lemma trunc_ok (x : f64) : is_finite x = true -> f64_trunc x = Some (Ztrunc (B2R x)).
Proof.
  intros F. destruct x as [s|s| |s m e He]; try discriminate F.
  - cbn [f64_trunc B2R]. f_equal. symmetry. apply (Ztrunc_IZR 0).
  - rewrite B2R_finite. unfold f64_trunc. f_equal.
    assert (K : (if (0 <=? e)%Z then Z.pos m * 2 ^ e else Z.pos m / 2 ^ (- e))%Z = Ztrunc (IZR (Zpos m) * bpow radix2 e)).
    { destruct (Z.leb_spec 0 e) as [L|L].
      - rewrite pos_exp by exact L. symmetry. apply Ztrunc_IZR.
      - rewrite neg_exp by exact L. assert (0 < 2 ^ (- e))%Z by (apply Z.pow_pos_nonneg; lia).
        rewrite Ztrunc_floor; [|apply Rmult_le_pos; [apply IZR_le; lia|left; apply Rinv_0_lt_compat; apply IZR_lt; lia]].
        symmetry. apply Zfloor_div. lia. }
    rewrite K. destruct s; [|reflexivity]. rewrite Ztrunc_opp. reflexivity.
Qed.

Lemma ceil_ok (x : f64) : is_finite x = true -> Rabs (B2R x) <= IZR (2 ^ 53) ->
  is_finite (f64_ceil x) = true /\ B2R (f64_ceil x) = IZR (Zceil (B2R x)).
Proof.
  intros F Hx. destruct x as [s|s| |s m e He]; try discriminate F.
  - cbn [f64_ceil B2R]. split; [reflexivity|]. rewrite (Zceil_IZR 0). reflexivity.
  - rewrite B2R_abs in Hx. unfold f64_ceil. destruct (Z.leb_spec 0 e) as [L|L].
    + split; [reflexivity|]. rewrite B2R_finite, pos_exp by exact L. destruct s; [|rewrite Zceil_IZR; reflexivity].
      rewrite <- opp_IZR, Zceil_IZR. reflexivity.
    + set (p := (2 ^ (- e))%Z). assert (Hp : (0 < p)%Z) by (apply Z.pow_pos_nonneg; lia).
      rewrite neg_exp in Hx by exact L. fold p in Hx.
      pose proof (Z.div_mod (Z.pos m) p ltac:(lia)) as D. pose proof (Z.mod_pos_bound (Z.pos m) p Hp) as MB.
      assert (Hpr : 0 < IZR p) by (apply IZR_lt; exact Hp).
      assert (FL : Zfloor (IZR (Zpos m) / IZR p) = (Z.pos m / p)%Z) by (apply Zfloor_div; lia).
      assert (Q : (0 <= Z.pos m / p <= 2 ^ 53)%Z).
      { split; [apply Z.div_pos; lia|]. apply le_IZR. rewrite <- FL. eapply Rle_trans; [apply Zfloor_lb|exact Hx]. }
      rewrite B2R_finite, neg_exp by exact L. fold p. destruct s.
      * assert (C : Zceil (- (IZR (Zpos m) / IZR p)) = (- (Z.pos m / p))%Z) by (unfold Zceil; rewrite Ropp_involutive, FL; reflexivity).
        rewrite C. destruct (Z.eqb_spec (Z.pos m / p) 0) as [E|E]; [rewrite E; split; reflexivity|].
        apply ofZ_ok. lia.
      * assert (C : Zceil (IZR (Zpos m) / IZR p) = if (Z.pos m mod p =? 0)%Z then (Z.pos m / p)%Z else (Z.pos m / p + 1)%Z).
        { destruct (Z.eqb_spec (Z.pos m mod p) 0) as [E|E].
          - replace (IZR (Zpos m) / IZR p) with (IZR (Z.pos m / p)); [apply Zceil_IZR|].
            rewrite D at 2. rewrite E, Z.add_0_r, mult_IZR. field. lra.
          - rewrite Zceil_floor_neq; [rewrite FL; reflexivity|]. rewrite FL. intros K. apply E.
            assert (K2 : IZR (p * (Z.pos m / p)) = IZR (Z.pos m)) by (rewrite mult_IZR, K; field; lra).
            apply eq_IZR in K2. lia. }
        rewrite C. apply ofZ_ok. destruct (Z.eqb_spec (Z.pos m mod p) 0) as [E|E]; [lia|].
        assert (Z.pos m / p < 2 ^ 53)%Z; [|lia]. apply lt_IZR. apply Rlt_le_trans with (2 := Hx).
        assert (K : Z.pos m = (p * (Z.pos m / p) + Z.pos m mod p)%Z) by exact D. rewrite K at 2. rewrite plus_IZR, mult_IZR.
        assert (0 < IZR (Z.pos m mod p)) by (apply IZR_lt; lia).
        unfold Rdiv. rewrite Rmult_plus_distr_r. replace (IZR p * IZR (Z.pos m / p) * / IZR p) with (IZR (Z.pos m / p)) by (field; lra).
        assert (0 < IZR (Z.pos m mod p) * / IZR p) by (apply Rmult_lt_0_compat; [assumption|apply Rinv_0_lt_compat; exact Hpr]). lra.
Qed.

(** static_cast<int>(std::ceil(x)). *)
Lemma ceil_trunc_ok (x : f64) : is_finite x = true -> Rabs (B2R x) <= IZR (2 ^ 53) -> f64_trunc (f64_ceil x) = Some (Zceil (B2R x)).
Proof. intros F H. destruct (ceil_ok x F H) as [F' V]. rewrite trunc_ok by exact F'. rewrite V, Ztrunc_IZR. reflexivity. Qed.
