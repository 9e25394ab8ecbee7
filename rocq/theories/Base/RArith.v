(** Exact real arithmetic as an instance of [Arith]. *)
From Coq Require Import ZArith Reals Lra Lia Bool.
From Flocq Require Import Core.
From Verif.Base Require Import Arith.
Open Scope R_scope.

(** x < y as a boolean. *)
Definition Rltb (x y : R) : bool := if Rlt_dec x y then true else false.

(** C's pow for x >= 0: unlike [Rpower], pow(0, p) = 0 for p > 0 and
    pow(0, 0) = 1.  (pow(0, p) = +infinity for p < 0 has no real counterpart;
    the value 0 used here is never relied on: see the guards in Event.v.) *)
Definition Rpow (x p : R) : R :=
  if Req_EM_T x 0 then (if Req_EM_T p 0 then 1 else 0) else Rpower x p.

(** Real cube root. *)
Definition Rcbrt (x : R) : R :=
  if Rlt_dec x 0 then - Rpow (- x) (1/3) else Rpow x (1/3).

(** Decimal m * 10^e. *)
Definition Rlit (m e : Z) : R :=
  if (e <? 0)%Z then IZR m / IZR (10 ^ (- e)) else IZR (m * 10 ^ e).

Definition radix10 : radix := Build_radix 10 (refl_equal true).

Definition Rfixed (k : Z) (x : R) : fdec :=
  FDec (Rltb x 0) (ZnearestE (Rabs x * IZR (10 ^ k))).

(** decimal exponent: 10^e <= |x| < 10^(e+1) *)
Definition Rdecexp (x : R) : Z := (mag radix10 x - 1)%Z.

Definition Rsci (k : Z) (x : R) : sdec :=
  if Req_EM_T x 0 then SDec false 0 0
  else
    let e := Rdecexp x in
    let m := ZnearestE (Rabs x * bpow radix10 (k - e)) in
    if (m =? 10 ^ (k + 1))%Z then SDec (Rltb x 0) (10 ^ k) (e + 1)
    else SDec (Rltb x 0) m e.

(** The exponential integral Ei and erf^-1 are library functions of Boost: they
    are arguments of the instance; theorems state what they need of them. *)
Definition RA_with (Ei erfinv : R -> R) : Arith := {|
  num := R;
  nadd := Rplus; nsub := Rminus; nmul := Rmult; ndiv := Rdiv; nneg := Ropp;
  nabs := Rabs; nsqrt := R_sqrt.sqrt; ncbrt := Rcbrt;
  nexp := exp; nlog := ln; nlog10 := fun x => ln x / ln 10; npow := Rpow;
  ncos := cos; nsin := sin;
  nceil := fun x => IZR (Zceil x);
  nfmin := Rmin; nfmax := Rmax;
  nexpint := Ei; nerfinv := erfinv;
  nltb := Rltb;
  nofZ := IZR;
  nlit := Rlit;
  npi := PI; ntwo_pi := 2 * PI; none_div_two_pi := / (2 * PI);
  none_div_root_pi := / R_sqrt.sqrt PI; nroot_two := R_sqrt.sqrt 2;
  ntrunc := fun x => Some (Ztrunc x);
  nmul32 := Rmult; nadd32 := Rplus; nof32 := fun x => x;
  nfixed := Rfixed; nsci := Rsci
|}.

(** Default real instance (Ei and erf^-1 irrelevant). *)
Definition RA : Arith := RA_with (fun _ => 0) (fun _ => 0).

Lemma Rltb_true x y : Rltb x y = true <-> x < y.
Proof. unfold Rltb; destruct (Rlt_dec x y); split; auto; try discriminate; contradiction. Qed.

Lemma Rltb_false x y : Rltb x y = false <-> y <= x.
Proof. unfold Rltb; destruct (Rlt_dec x y); split; intros; auto; try discriminate; try lra. Qed.

Lemma Rltb_spec x y : reflect (x < y) (Rltb x y).
Proof. unfold Rltb; destruct (Rlt_dec x y); constructor; auto. Qed.
