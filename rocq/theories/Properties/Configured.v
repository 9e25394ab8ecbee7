(** C29, C32 at the level of the command line: projectiles by name and the
    configured minimum distance. *)
From Coq Require Import Reals Lra Permutation Sorted.
From Verif.Base Require Import Result Arith RArith Rng.
From Verif.Model Require Import Random Config Nucleon Files Nucleus Collider.
From Verif.Spec Require Import Contract Draws Geometry Radii Species.
From Verif.Proof Require Import Basics RBasics Sampling Ctor ShiftP RadiiP.
From Verif.Properties Require Import Nuclei Species LightNuclei NucleiInst.
Local Open Scope R_scope.

(** A nucleus made from projectile name [s] with --nucleon-min-dist [d], then
    sampled any number of times with any changes of its nucleons in between. *)
Inductive in_use_as (bd : build) (f : fs RA) (s : string) (d : R) : nucleus RA -> Prop :=
| as_created : forall nu, nucleus_create (A:=RA) bd f s d = Ret nu -> in_use_as bd f s d nu
| as_sampled : forall (rg : Rng RA) fuel offset e e' nu nu',
    in_use_as bd f s d nu -> sample_nucleons rg fuel nu offset e = (Ret nu', e') -> in_use_as bd f s d nu'
| as_collided : forall nu ns,
    in_use_as bd f s d nu -> length ns = length (nu_nucleons nu) -> in_use_as bd f s d (with_nucleons nu ns).

Lemma in_use_as_in_use bd f s d nu : in_use_as bd f s d nu -> in_use bd f nu.
Proof.
  induction 1; [eapply in_use_created|eapply in_use_sampled|eapply in_use_collided]; eassumption.
Qed.

Lemma in_use_as_shape bd f s d nu n sh : in_use_as bd f s d nu -> lookup s species = Some (n, sh) ->
  length (nu_nucleons nu) = n /\ has_shape sh d (nu_kind nu).
Proof.
  intros U L. induction U as [nu C|rg fuel offset e e' nu nu' U IH H|nu ns U IH H].
  - destruct (C27_table bd f s d n sh L) as (nu1 & C1 & N & S). assert (nu = nu1) by congruence. subst nu1.
    rewrite N, repeat_length. auto.
  - destruct (sample_nucleons_reset rg _ _ _ _ _ _ (in_use_wf _ _ _ (in_use_as_in_use _ _ _ _ _ U)) H) as (K & _ & Ln & _).
    rewrite K, Ln. exact IH.
  - cbn [with_nucleons nu_nucleons nu_kind]. destruct IH as [I1 I2]. split; [congruence|exact I2].
Qed.

(** In a nucleus placed with [tries] attempts per nucleon, every nucleon is at
    least [d] away from the earlier ones, unless it used up its 1000 attempts. *)
Definition apart (d : R) (tries : list nat) (ns : list (nucleon RA)) : Prop :=
  length tries = length ns /\
  (forall k, In k tries -> (1 <= k <= 1000)%nat) /\
  (d * d < 1 / 10000000000 -> forall k, In k tries -> k = 1%nat) /\
  (forall i n k, nth_error ns i = Some n -> nth_error tries i = Some k ->
     d * d < 1 / 10000000000 \/ k = 1000%nat \/
     forall j m, (j < i)%nat -> nth_error ns j = Some m -> d <= vdist (pos n) (pos m)).

Lemma nth_error_same_length {X Y} (l : list X) (l' : list Y) i x :
  length l = length l' -> nth_error l i = Some x -> exists y, nth_error l' i = Some y.
Proof.
  intros E H. destruct (nth_error l' i) eqn:N; [eauto|]. exfalso.
  apply nth_error_None in N. assert (i < length l)%nat by (apply nth_error_Some; congruence). lia.
Qed.

(** Every spherical projectile of the table, whatever its history. *)
Theorem C29_spherical :
  forall (rg : Rng RA), rng_ok rg ->
  forall bd f s (d : R) N r a, lookup s species = Some (N, Spherical r a) -> 0 <= d ->
  forall fuel (nu nu' : nucleus RA) (offset : R) e e', in_use_as bd f s d nu ->
  sample_nucleons rg fuel nu offset e = (Ret nu', e') ->
  length (nu_nucleons nu') = N /\
  exists raw e0 tries,
    (* N radii are drawn, then two numbers per attempt *)
    mrepeat N (woods_saxon_draw rg (milli r) (milli a)) e = (Ret raw, e0) /\ e' = after rg (2 * total tries) e0 /\
    apart d tries (nu_nucleons nu').
Proof.
  intros rg OK bd f s d N r a L Hd fuel nu nu' offset e e' U H.
  destruct (in_use_as_shape _ _ _ _ _ _ _ U L) as [Ln Sh]. unfold has_shape in Sh.
  destruct (nu_kind nu) as [| |r' a' d2| |] eqn:K; try contradiction. destruct Sh as (-> & -> & ->).
  assert (P : 0 <= milli r + 10 * milli a).
  { revert L. unfold species. cbn [lookup]. repeat (destruct (String.eqb _ _); [intros E; try discriminate E; injection E as _ <- <-; unfold milli; lra|]). discriminate. }
  destruct (C29_min_distance rg OK fuel nu nu' _ _ d offset e e' K Hd P H) as (raw & e0 & tries & H1 & H2 & H3 & H4).
  destruct (in_use_as_shape _ _ _ _ _ _ _ (as_sampled _ _ _ _ _ _ _ _ _ _ _ U H) L) as [Ln' _].
  split; [exact Ln'|]. rewrite Ln in H1. exists raw, e0, tries. unfold apart. tauto.
Qed.

(** Every deformed projectile of the table. *)
Theorem C29_deformed :
  forall (rg : Rng RA), rng_ok rg ->
  forall bd f s (d : R) N r a b2 b4, lookup s species = Some (N, Deformed r a b2 b4) -> 0 <= d ->
  forall fuel (nu nu' : nucleus RA) (offset : R) e e', in_use_as bd f s d nu ->
  sample_nucleons rg fuel nu offset e = (Ret nu', e') ->
  length (nu_nucleons nu') = N /\
  exists rmax raw e0 tries,
    rmax = milli r * (1 + 63 / 100 * Rabs (milli b2) + 85 / 100 * Rabs (milli b4)) + 10 * milli a /\
    (* the orientation (two draws), N points (r, cos theta), then one number per attempt *)
    mrepeat N (sample_deformed_point rg fuel (milli r) (milli a) (milli b2) (milli b4) rmax)
      (after rg 2 e) = (Ret raw, e0) /\ e' = after rg (total tries) e0 /\
    apart d tries (nu_nucleons nu') /\
    forall n, In n (nu_nucleons nu') -> vnorm (from_centre offset n) <= rmax.
Proof.
  intros rg OK bd f s d N r a b2 b4 L Hd fuel nu nu' offset e e' U H.
  destruct (in_use_as_shape _ _ _ _ _ _ _ U L) as [Ln Sh]. unfold has_shape in Sh.
  destruct (nu_kind nu) as [| | |r' a' b2' b4' rmax d2|] eqn:K; try contradiction.
  destruct Sh as (-> & -> & -> & -> & -> & ->).
  set (rmax := milli r * _ + _) in *.
  assert (P : 0 <= rmax).
  { revert L. unfold species, rmax. cbn [lookup]. repeat (destruct (String.eqb _ _);
     [intros E; try discriminate E; injection E as _ <- <- <- <-; unfold milli;
      pose proof (Rabs_pos (162/1000)); pose proof (Rabs_pos (-6/1000)); pose proof (Rabs_pos (-3/1000)); 
      pose proof (Rabs_pos (-131/1000)); pose proof (Rabs_pos (-31/1000)); pose proof (Rabs_pos (280/1000));
      pose proof (Rabs_pos (93/1000)); pose proof (Rabs_pos (265/1000)); pose proof (Rabs_pos (0/1000)); lra|]). discriminate. }
  destruct (C31_deformed rg OK fuel nu nu' _ _ _ _ rmax d offset e e' K Hd P H)
    as (m & raw & points & tries & e0 & _ & H1 & _ & _ & L1 & L2 & L3 & H2 & Hi).
  split; [congruence|]. exists rmax, raw, e0, tries. split; [reflexivity|]. rewrite Ln in H1.
  split; [exact H1|]. split; [exact H2|].
  assert (G : forall i n, nth_error (nu_nucleons nu') i = Some n -> exists r0 c k,
     nth_error points i = Some (r0, c) /\ nth_error tries i = Some k).
  { intros i n Hn. destruct (nth_error_same_length _ points _ _ (eq_trans L3 (eq_sym L1)) Hn) as ([r0 c] & Hp).
    destruct (nth_error_same_length _ tries _ _ (eq_trans L3 (eq_sym L2)) Hn) as (k & Hk). eauto 6. }
  split.
  - split; [congruence|]. split; [|split].
    + intros k Hk. apply In_nth_error in Hk. destruct Hk as (i & Hk).
      destruct (nth_error_same_length _ (nu_nucleons nu') _ _ (eq_trans L2 (eq_sym L3)) Hk) as (n & Hn).
      destruct (G i n Hn) as (r0 & c & k' & Hp & Hk'). assert (k' = k) by congruence. subst k'.
      destruct (Hi i n r0 c k Hn Hp Hk) as (_ & _ & _ & _ & Q & _). exact Q.
    + intros Hs k Hk. apply In_nth_error in Hk. destruct Hk as (i & Hk).
      destruct (nth_error_same_length _ (nu_nucleons nu') _ _ (eq_trans L2 (eq_sym L3)) Hk) as (n & Hn).
      destruct (G i n Hn) as (r0 & c & k' & Hp & Hk'). assert (k' = k) by congruence. subst k'.
      destruct (Hi i n r0 c k Hn Hp Hk) as (_ & _ & _ & _ & _ & Q & _). auto.
    + intros i n k Hn Hk. destruct (G i n Hn) as (r0 & c & k' & Hp & Hk').
      destruct (Hi i n r0 c k Hn Hp Hk) as (_ & _ & _ & _ & _ & _ & Q). exact Q.
  - intros n Hn. apply In_nth_error in Hn. destruct Hn as (i & Hn). destruct (G i n Hn) as (r0 & c & k & Hp & Hk).
    destruct (Hi i n r0 c k Hn Hp Hk) as (_ & -> & Q & _). lra.
Qed.

(** The deuteron: point-symmetric nucleons at the radius of the accepted draw,
    with the Hulthen parameters 0.457 and 2.35 per fm. *)
Theorem C32_projectile :
  forall (rg : Rng RA), rng_ok rg ->
  forall bd f (d : R) fuel (nu nu' : nucleus RA) (offset : R) e e', in_use_as bd f "d" d nu ->
  (forall k, 0 < drawn rg (2 * k) e) ->
  sample_nucleons rg fuel nu offset e = (Ret nu', e') ->
  exists t n1 n2 r,
    nu_nucleons nu' = [n1; n2] /\
    drawn rg (2 * t) e = exp (- (2 * (457 / 1000) * r)) /\
    drawn rg (2 * t + 1) e <=
      (exp (- (457 / 1000) * r) - exp (- (235 / 100) * r)) ^ 2 / exp (- (2 * (457 / 1000) * r)) <= 1 /\
    vnorm (from_centre offset n1) = r /\
    from_centre offset n2 = (- vx (from_centre offset n1), - vy (from_centre offset n1), - vz (from_centre offset n1)).
Proof.
  intros rg OK bd f d fuel nu nu' offset e e' U Hpos H.
  destruct (in_use_as_shape _ _ _ _ _ 2%nat (Hulthen 457 2350) U eq_refl) as [Ln Sh]. unfold has_shape in Sh.
  destruct (nu_kind nu) as [|a b| | |] eqn:K; try contradiction. destruct Sh as [Ea Eb]. unfold milli in Ea, Eb.
  assert (Ha : 0 < a) by (rewrite Ea; lra). assert (Hab : a <= b) by (rewrite Ea, Eb; lra).
  destruct (C32_deuteron rg OK fuel nu nu' a b offset e e' K Ln Ha Hab Hpos H)
    as (t & u & r & c & ph & n1 & n2 & Eu & Er & Hr & Hw & _ & _ & _ & _ & En & S1 & S2 & V1 & V2).
  exists t, n1, n2, r. split; [exact En|]. rewrite <- Eu. subst a.
  split; [exact Er|]. replace (235 / 100) with b by (rewrite Eb; lra).
  assert (HW : hulthen_weight (457 / 1000) b r u = (exp (- (457 / 1000) * r) - exp (- b * r)) ^ 2 / exp (- (2 * (457 / 1000) * r))).
  { unfold hulthen_weight. rewrite <- Er. reflexivity. }
  split.
  { rewrite <- HW. split; [exact Hw|].
    assert (Hu : 0 < u <= 1).
    { rewrite Er. split; [apply exp_pos|]. rewrite <- exp_0. destruct (Req_dec r 0) as [->|].
      - right. f_equal. ring.
      - left. apply exp_increasing. nra. }
    pose proof (proj2 (C32_weight (457 / 1000) b u Ha Hab Hu)) as W.
    replace (- ln u / (2 * (457 / 1000))) with r in W; [lra|]. rewrite Er, ln_exp. field. }
  split; [exact V1|]. destruct S1 as (X1 & Y1 & Z1). destruct S2 as (X2 & Y2 & Z2).
  unfold from_centre, vx, vy, vz in *. destruct (sph r c ph) as [[x y] z]. cbn [fst snd] in *.
  rewrite X1, Y1, Z1, X2, Y2, Z2. replace (- x + offset - offset) with (- (x + offset - offset)) by ring. reflexivity.
Qed.

(** The hypotheses hold for lead, uranium and the deuteron, used twice in a row. *)
Example C29_spherical_instance : forall bd f fuel (d offset : R), 0 <= d -> exists (rg : Rng RA) (nu nu' : nucleus RA) e e',
  rng_ok rg /\ lookup "Pb"%string species = Some (208%nat, Spherical 6620 546) /\ in_use_as bd f "Pb" d nu /\
  sample_nucleons rg fuel nu offset e = (Ret nu', e') /\ in_use_as bd f "Pb" d nu'.
Proof.
  intros bd f fuel d offset Hd. destruct (C30_instance bd f fuel d offset Hd) as (nu & nu' & e' & C & _ & _ & _ & _ & S).
  exists (toy RA (fun _ => 1 / 2)), nu, nu', 0%nat, e'. split; [apply toy_ok; intros; lra|]. split; [reflexivity|].
  split; [constructor; exact C|]. split; [exact S|]. eapply as_sampled; [constructor; exact C|exact S].
Qed.

Example C29_deformed_instance : forall bd f fuel (d offset : R), 0 <= d -> exists (rg : Rng RA) (nu nu' : nucleus RA) e e',
  rng_ok rg /\ lookup "U"%string species = Some (238%nat, Deformed 6810 600 280 93) /\ in_use_as bd f "U" d nu /\
  sample_nucleons rg (S fuel) nu offset e = (Ret nu', e') /\ in_use_as bd f "U" d nu'.
Proof.
  intros bd f fuel d offset Hd. destruct (C31_instance bd f fuel d offset Hd) as (nu & nu' & rmax & e' & C & _ & _ & _ & S).
  exists (toy RA (fun _ => 0)), nu, nu', 0%nat, e'. split; [apply toy_ok; intros; lra|]. split; [reflexivity|].
  split; [constructor; exact C|]. split; [exact S|]. eapply as_sampled; [constructor; exact C|exact S].
Qed.

Example C32_projectile_instance : forall bd f fuel (offset : R), exists (rg : Rng RA) (nu nu' : nucleus RA) e e',
  rng_ok rg /\ in_use_as bd f "d" 0 nu /\ (forall k, 0 < drawn rg (2 * k) e) /\
  sample_nucleons rg (S fuel) nu offset e = (Ret nu', e') /\ in_use_as bd f "d" 0 nu'.
Proof.
  intros bd f fuel offset. destruct (C32_instance bd f fuel offset) as (nu & nu' & a & b & e' & C & _ & _ & _ & _ & OK & P & S).
  exists (toy RA (fun k => if Nat.even k then 1 / 2 else 0)), nu, nu', 0%nat, e'. split; [exact OK|].
  split; [constructor; exact C|]. split; [exact P|]. split; [exact S|]. eapply as_sampled; [constructor; exact C|exact S].
Qed.
