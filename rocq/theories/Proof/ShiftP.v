(** Sampling with different offsets (exact arithmetic). *)
From Coq Require Import Reals Lra Permutation.
From Verif.Base Require Import Result Arith RArith Rng.
From Verif.Model Require Import Random Config Nucleon Files Nucleus Collider.
From Verif.Spec Require Import Contract Draws Geometry.
From Verif.Proof Require Import Basics RBasics Sampling Ctor.
Local Open Scope R_scope.

Lemma in_use_wf {A} bd f (nu : nucleus A) : in_use bd f nu -> nucleus_wf nu.
Proof.
  induction 1 as [sp d nu H|R fuel o e e' nu nu' H IH Hs|nu ns H IH Hl].
  - eapply nucleus_create_fresh; eauto.
  - destruct (sample_nucleons_reset R _ _ _ _ _ _ IH Hs) as (K & _ & L & _).
    unfold nucleus_wf in *. rewrite K. destruct (nu_kind nu); rewrite ?L; auto.
  - unfold nucleus_wf, with_nucleons in *. simpl. destruct (nu_kind nu); rewrite ?Hl; auto.
Qed.

(** Two outcomes: the same failure, or related results. *)
Definition rel_res {X Y} (P : X -> Y -> Prop) (r1 : result X) (r2 : result Y) : Prop :=
  match r1, r2 with
  | Ret x, Ret y => P x y
  | Throw a, Throw b => a = b
  | UB a, UB b => a = b
  | OutOfFuel, OutOfFuel => True
  | _, _ => False
  end.

Section Shift.
Variable rg : Rng RA.
Variables o1 o2 : R.
Notation sh := (shifted (o2 - o1)).

Lemma set_pos_shift n1 n2 x y z : n_cons n1 = n_cons n2 ->
  sh (set_nucleon_position (A:=RA) o1 n1 x y z) (set_nucleon_position (A:=RA) o2 n2 x y z).
Proof.
  intros E. unfold shifted, set_nucleon_position, set_position. cbn -[RA]. rewrite E.
  f_equal. toR. ring.
Qed.

Lemma too_close_shift d p1 p2 n1 n2 :
  Forall2 sh p1 p2 -> sh n1 n2 ->
  is_too_close (A:=RA) d p1 n1 = is_too_close (A:=RA) d p2 n2.
Proof.
  intros H Hn. unfold is_too_close. destruct (nltb RA d _); auto.
  induction H as [|a b l1 l2 Hab H IH]; auto. cbn [existsb]. f_equal; [|exact IH].
  unfold shifted in *. subst. unfold dist3_sq. cbn [n_x n_y n_z].
  match goal with |- nltb _ ?a _ = nltb _ ?b _ => replace b with a; [reflexivity|] end.
  toR. ring.
Qed.

Lemma shifted_cons n1 n2 : sh n1 n2 -> n_cons n1 = n_cons n2.
Proof. unfold shifted. intros ->. reflexivity. Qed.

Lemma place_ws_shift t d r p1 p2 n1 n2 e :
  Forall2 sh p1 p2 -> n_cons n1 = n_cons n2 ->
  exists m1 m2 e', place_ws (A:=RA) rg (S t) d o1 r p1 n1 e = (Ret m1, e') /\
    place_ws (A:=RA) rg (S t) d o2 r p2 n2 e = (Ret m2, e') /\ sh m1 m2.
Proof.
  intros Hp. revert n1 n2 e. induction t as [|t IH]; intros n1 n2 e Hc.
  - cbn [place_ws]. repeat (erewrite !(bind_run (cos_theta rg)) by apply cos_theta_run; erewrite !(bind_run (phi rg)) by apply phi_run).
    destruct (polar _ _ _) as [[x y] z].
    unfold ret. do 3 eexists. split; [reflexivity|]. split; [reflexivity|]. apply set_pos_shift; auto.
  - remember (S t) as t1. cbn [place_ws].
    erewrite !(bind_run (cos_theta rg)) by apply cos_theta_run. erewrite !(bind_run (phi rg)) by apply phi_run.
    destruct (polar _ _ _) as [[x y] z]. subst t1.
    rewrite (too_close_shift d p1 p2 _ _ Hp (set_pos_shift n1 n2 x y z Hc)).
    destruct (is_too_close d p2 _).
    + apply IH. exact Hc.
    + unfold ret. do 3 eexists. split; [reflexivity|]. split; [reflexivity|]. apply set_pos_shift; auto.
Qed.

Lemma place_all_ws_shift d radii p1 p2 todo e :
  Forall2 sh p1 p2 ->
  let a := place_all_ws (A:=RA) rg d o1 radii p1 todo e in
  let b := place_all_ws (A:=RA) rg d o2 radii p2 todo e in
  rel_res (Forall2 sh) (fst a) (fst b) /\ snd a = snd b.
Proof.
  revert radii p1 p2 e. induction todo as [|n todo IH]; intros radii p1 p2 e Hp.
  - destruct radii; simpl; auto.
  - destruct radii as [|r radii]; [simpl; auto|]. cbn [place_all_ws].
    destruct (place_ws_shift 999 d r p1 p2 n n e Hp eq_refl) as (m1 & m2 & e' & E1 & E2 & Hs).
    change (S 999) with 1000%nat in E1, E2.
    erewrite (bind_run (place_ws rg 1000 d o1 r p1 n)) by exact E1.
    erewrite (bind_run (place_ws rg 1000 d o2 r p2 n)) by exact E2.
    apply IH. apply Forall2_app; auto.
Qed.

Lemma place_deformed_shift t d rot rs z p1 p2 n1 n2 e :
  Forall2 sh p1 p2 -> n_cons n1 = n_cons n2 ->
  exists m1 m2 e', place_deformed (A:=RA) rg (S t) d o1 rot rs z p1 n1 e = (Ret m1, e') /\
    place_deformed (A:=RA) rg (S t) d o2 rot rs z p2 n2 e = (Ret m2, e') /\ sh m1 m2.
Proof.
  intros Hp. revert z n1 n2 e. induction t as [|t IH]; intros z n1 n2 e Hc.
  - cbn [place_deformed]. erewrite !(bind_run (phi rg)) by apply phi_run.
    destruct (rot _) as [[x y] w].
    unfold ret. do 3 eexists. split; [reflexivity|]. split; [reflexivity|]. apply set_pos_shift; auto.
  - remember (S t) as t1. cbn [place_deformed].
    erewrite !(bind_run (phi rg)) by apply phi_run.
    destruct (rot _) as [[x y] w]. subst t1.
    rewrite (too_close_shift d p1 p2 _ _ Hp (set_pos_shift n1 n2 x y w Hc)).
    destruct (is_too_close d p2 _).
    + apply IH. exact Hc.
    + unfold ret. do 3 eexists. split; [reflexivity|]. split; [reflexivity|]. apply set_pos_shift; auto.
Qed.

Lemma place_all_deformed_shift d rot samples p1 p2 todo e :
  Forall2 sh p1 p2 ->
  let a := place_all_deformed (A:=RA) rg d o1 rot samples p1 todo e in
  let b := place_all_deformed (A:=RA) rg d o2 rot samples p2 todo e in
  rel_res (Forall2 sh) (fst a) (fst b) /\ snd a = snd b.
Proof.
  revert samples p1 p2 e. induction todo as [|n todo IH]; intros samples p1 p2 e Hp.
  - destruct samples; simpl; auto.
  - destruct samples as [|[r c] samples]; [simpl; auto|]. cbn [place_all_deformed].
    destruct (place_deformed_shift 999 d rot (nmul RA r (nsqrt RA (nsub RA (nlit RA 1 0) (nmul RA c c)))) (nmul RA r c) p1 p2 n n e Hp eq_refl) as (m1 & m2 & e' & E1 & E2 & Hs).
    change (S 999) with 1000%nat in E1, E2.
    match type of E1 with ?m e = _ => erewrite (bind_run m) by exact E1 end.
    match type of E2 with ?m e = _ => erewrite (bind_run m) by exact E2 end.
    apply IH. apply Forall2_app; auto.
Qed.

Lemma place_manual_shift rot data i ns :
  rel_res (Forall2 sh) (place_manual (A:=RA) o1 rot data i ns) (place_manual (A:=RA) o2 rot data i ns).
Proof.
  revert i. induction ns as [|n ns IH]; intros i; simpl; auto.
  destruct (position_at data i) as [p| | |]; simpl; auto. destruct (rot p) as [[x y] z].
  specialize (IH (i + 1)%Z).
  destruct (place_manual (A:=RA) o1 rot data (i+1) ns), (place_manual (A:=RA) o2 rot data (i+1) ns); simpl in *; auto; try contradiction.
  constructor; auto. apply set_pos_shift. reflexivity.
Qed.

Lemma bind_rel {S X Y Z} (P : Y -> Z -> Prop) (m : M S X) (k1 : X -> M S Y) (k2 : X -> M S Z) s :
  (forall x s1, rel_res P (fst (k1 x s1)) (fst (k2 x s1)) /\ snd (k1 x s1) = snd (k2 x s1)) ->
  rel_res P (fst (bind m k1 s)) (fst (bind m k2 s)) /\ snd (bind m k1 s) = snd (bind m k2 s).
Proof. intros H. unfold bind. destruct (m s) as [[x| | |] s1]; simpl; auto. Qed.

Lemma sample_nucleons_shift fuel nu e :
  nucleus_wf nu ->
  let a := sample_nucleons (A:=RA) rg fuel nu o1 e in
  let b := sample_nucleons (A:=RA) rg fuel nu o2 e in
  rel_res (fun n1 n2 : nucleus RA => nu_kind n1 = nu_kind n2 /\ nu_offset n1 = o1 /\ nu_offset n2 = o2 /\
                        Forall2 sh (nu_nucleons n1) (nu_nucleons n2)) (fst a) (fst b)
  /\ snd a = snd b.
Proof.
  intros W. unfold sample_nucleons. cbv zeta.
  set (m1 := match nu_kind nu with KProton => sample_proton (A:=RA) rg o1 _ | _ => _ end).
  set (m2 := match nu_kind nu with KProton => sample_proton (A:=RA) rg o2 _ | _ => _ end).
  assert (G : rel_res (Forall2 sh) (fst (m1 e)) (fst (m2 e)) /\ snd (m1 e) = snd (m2 e)).
  { subst m1 m2. unfold nucleus_wf in W.
    destruct (nu_kind nu) as [ |a b|Rw a d|Rw a b2 b4 rm d|nconf nn data rm].
    - destruct (nu_nucleons nu) as [|n [|? ?]]; try discriminate. cbn -[RA].
      split; auto. constructor; auto. apply set_pos_shift. reflexivity.
    - destruct (nu_nucleons nu) as [|n [|n2 [|? ?]]]; try discriminate. unfold sample_deuteron.
      apply bind_rel. intros r s1. apply bind_rel. intros c s2. apply bind_rel. intros ph s3.
      destruct (polar _ _ _) as [[x y] z]. cbn -[RA]. split; auto.
      constructor; [apply set_pos_shift; reflexivity|]. constructor; [apply set_pos_shift; reflexivity|auto].
    - unfold sample_ws. apply bind_rel. intros radii s1. apply place_all_ws_shift. constructor.
    - unfold sample_deformed. apply bind_rel. intros ca s1. apply bind_rel. intros ab s2.
      apply bind_rel. intros smp s3. apply place_all_deformed_shift. constructor.
    - unfold sample_manual. apply bind_rel. intros a1 s1. apply bind_rel. intros c2 s2.
      apply bind_rel. intros a3 s3. apply bind_rel. intros ix s4.
      destruct (nconf <=? ix)%Z; [cbn -[RA]; auto|]. unfold lift. cbn [fst snd]. split; auto.
      apply place_manual_shift. }
  destruct G as [G1 G2]. unfold bind.
  destruct (m1 e) as [r1 e1], (m2 e) as [r2 e2]. cbn [fst snd] in *. subst e2.
  destruct r1, r2; cbn in *; auto; try contradiction.
Qed.
End Shift.
