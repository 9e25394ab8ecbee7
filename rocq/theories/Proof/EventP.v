(** Event::compute depends only on the parameters of the Event object. *)
From Verif.Base Require Import Result Arith.
From Verif.Model Require Import FastExp Config Nucleon Nucleus Event.
From Verif.Spec Require Import Grid.
From Verif.Proof Require Import Basics GridP.

Section EventP.
Context {A : Arith}.

(** What the constructor fixes. *)
Definition same_params (ev ev' : event A) : Prop :=
  ev_mean ev = ev_mean ev' /\ ev_norm ev = ev_norm ev' /\ ev_dxy ev = ev_dxy ev' /\
  ev_nsteps ev = ev_nsteps ev' /\ ev_xymax ev = ev_xymax ev'.

(** The reduced-thickness array has the right size and the eccentricity map is
    empty or holds the keys 2, 3, 4, 5: true after construction and after every
    compute. *)
Definition ready (ev : event A) : Prop :=
  square (ev_nsteps ev) (ev_TR ev) /\
  (ev_ecc ev = [] \/ exists a b c d, ev_ecc ev = [(2, a); (3, b); (4, c); (5, d)]%Z).

Lemma map_set_all (m : list (Z * num A)) e2 e3 e4 e5 :
  (m = [] \/ exists a b c d, m = [(2, a); (3, b); (4, c); (5, d)]%Z) ->
  map_set (map_set (map_set (map_set m 2 e2) 3 e3) 4 e4) 5 e5 = [(2, e2); (3, e3); (4, e4); (5, e5)]%Z.
Proof. intros [->|(a & b & c & d & ->)]; reflexivity. Qed.

Lemma nuclear_thickness_square dbg nc dxy xymax N l k g k' :
  @compute_nuclear_thickness A dbg nc dxy xymax N l k = Ret (g, k') -> square N g.
Proof.
  unfold compute_nuclear_thickness. intros H.
  apply (rfold_Ret_inv _ (fun acc : grid A * Z => square N (fst acc))) in H; auto.
  - apply zeros_square.
  - intros [g0 k0] n [g1 k1] S _ E. destruct (n_part n); [|inversion E; subst; auto].
    mstep E. mstep E. simpl in *. eapply deposit_inv; eauto.
Qed.

(** What a successful compute produced. *)
Lemma event_compute_inv dbg ev As Bs nc ev' :
  ready ev -> event_compute dbg ev As Bs nc = Ret ev' ->
  let N := ev_nsteps ev in
  let t := rt (ev_mean ev) (ev_norm ev) (ev_TA ev') (ev_TB ev') in
  let sum := fold_left (fun a c => nadd A a (t c)) (cells N) (nlit A 0 0) in
  same_params ev ev' /\
  (exists k k', compute_nuclear_thickness dbg nc (ev_dxy ev) (ev_xymax ev) N As 0 = Ret (ev_TA ev', k) /\
               compute_nuclear_thickness dbg nc (ev_dxy ev) (ev_xymax ev) N Bs k = Ret (ev_TB ev', k') /\
               ev_npart ev' = k') /\
  square N (ev_TA ev') /\ square N (ev_TB ev') /\ square N (ev_TR ev') /\
  (forall iy ix, inside N iy ix -> cell (ev_TR ev') iy ix = t (iy, ix)) /\
  ev_mult ev' = nmul A (nmul A (ev_dxy ev) (ev_dxy ev)) sum /\
  ev_ixcm ev' = ndiv A (fold_left (fun a c => nadd A a (nmul A (t c) (nofZ A (snd c)))) (cells N) (nlit A 0 0)) sum /\
  ev_iycm ev' = ndiv A (fold_left (fun a c => nadd A a (nmul A (t c) (nofZ A (fst c)))) (cells N) (nlit A 0 0)) sum /\
  (let '(a2, a3, a4, a5) :=
     fold_left (fun acc (c : Z * Z) =>
       if nltb A (cell (ev_TR ev') (fst c) (snd c)) tiny then acc
       else obs_cell (ev_ixcm ev') (ev_iycm ev') (cell (ev_TR ev') (fst c) (snd c)) (fst c) (snd c) acc)
       (cells N) (ecc_zero, ecc_zero, ecc_zero, ecc_zero) in
   ev_ecc ev' = [(2, ecc_finish a2); (3, ecc_finish a3); (4, ecc_finish a4); (5, ecc_finish a5)]%Z).
Proof.
  intros [ST HE] H. unfold event_compute in H.
  mstep H. destruct x as [TA k]. rename E into EA.
  mstep H. destruct x as [TB k']. rename E into EB.
  pose proof (nuclear_thickness_square _ _ _ _ _ _ _ _ _ EA) as SA.
  pose proof (nuclear_thickness_square _ _ _ _ _ _ _ _ _ EB) as SB.
  destruct (reduced_thickness_spec ev TA TB SA SB ST) as (TR & ER & SR & CR).
  rewrite ER in H. cbn [rbind] in H.
  destruct (observables_spec (ev_nsteps ev) TR
     (ndiv A (fold_left (fun a c => nadd A a (nmul A (rt (ev_mean ev) (ev_norm ev) TA TB c) (nofZ A (snd c)))) (cells (ev_nsteps ev)) (nlit A 0 0))
             (fold_left (fun a c => nadd A a (rt (ev_mean ev) (ev_norm ev) TA TB c)) (cells (ev_nsteps ev)) (nlit A 0 0)))
     (ndiv A (fold_left (fun a c => nadd A a (nmul A (rt (ev_mean ev) (ev_norm ev) TA TB c) (nofZ A (fst c)))) (cells (ev_nsteps ev)) (nlit A 0 0))
             (fold_left (fun a c => nadd A a (rt (ev_mean ev) (ev_norm ev) TA TB c)) (cells (ev_nsteps ev)) (nlit A 0 0)))
     SR) as (e & EO & Ee).
  rewrite EO in H. cbn [rbind] in H. cbv zeta in Ee.
  destruct (fold_left _ (cells (ev_nsteps ev)) (ecc_zero, ecc_zero, ecc_zero, ecc_zero)) as [[[a2 a3] a4] a5] eqn:EF in Ee.
  subst e. mstep H. cbn [ev_TA ev_TB ev_TR ev_mult ev_ixcm ev_iycm ev_npart ev_ecc ev_mean ev_norm ev_dxy ev_nsteps ev_xymax].

  split; [unfold same_params; auto 6|]. split; [exists k, k'; auto|].
  repeat (split; [assumption || reflexivity|]).
  rewrite EF. apply map_set_all. exact HE.
Qed.

Lemma event_compute_ready dbg ev As Bs nc ev' :
  ready ev -> event_compute dbg ev As Bs nc = Ret ev' -> ready ev' /\ same_params ev ev'.
Proof.
  intros Hr H. pose proof (event_compute_inv _ _ _ _ _ _ Hr H) as (P & _ & _ & _ & S & _ & _ & _ & _ & E).
  split; auto. split.
  - destruct P as (_ & _ & _ & <- & _). exact S.
  - right. destruct (fold_left _ _ _) as [[[a2 a3] a4] a5]. eauto.
Qed.

Lemma event_new_ready cfg ev : event_new (A:=A) cfg = Ret ev -> ready ev.
Proof.
  unfold event_new. intros H. mstep H. mstep H. split; [apply zeros_square|left; reflexivity].
Qed.

(** The outcome of compute is the same for two objects with the same parameters,
    whatever they computed before. *)
Lemma event_compute_same dbg ev1 ev2 As Bs nc :
  ready ev1 -> ready ev2 -> same_params ev1 ev2 ->
  event_compute dbg ev1 As Bs nc = event_compute dbg ev2 As Bs nc.
Proof.
  intros [S1 H1] [S2 H2] (Pm & Pn & Pd & Ps & Px). unfold event_compute.
  rewrite <- Pd, <- Ps, <- Px.
  destruct (compute_nuclear_thickness dbg nc (ev_dxy ev1) (ev_xymax ev1) (ev_nsteps ev1) As 0)
    as [[TA k]| | |] eqn:EA; try reflexivity. cbn [rbind].
  destruct (compute_nuclear_thickness dbg nc (ev_dxy ev1) (ev_xymax ev1) (ev_nsteps ev1) Bs k)
    as [[TB k']| | |] eqn:EB; try reflexivity. cbn [rbind].
  pose proof (nuclear_thickness_square _ _ _ _ _ _ _ _ _ EA) as SA.
  pose proof (nuclear_thickness_square _ _ _ _ _ _ _ _ _ EB) as SB.
  destruct (reduced_thickness_spec ev1 TA TB SA SB S1) as (TR1 & ER1 & SR1 & CR1).
  rewrite <- Ps in S2.
  pose proof (reduced_thickness_spec ev2 TA TB) as X. rewrite <- Ps, <- Pm, <- Pn, <- Pd in X.
  destruct (X SA SB S2) as (TR2 & ER2 & SR2 & CR2). clear X.
  rewrite ER1, ER2. cbn [rbind].
  assert (ET : TR1 = TR2).
  { apply (square_ext (ev_nsteps ev1)); auto. intros iy ix Hi. rewrite CR1, CR2; auto. }
  subst TR2.
  destruct (compute_observables _ _ _ _) as [[[[e2 e3] e4] e5]| | |]; try reflexivity. cbn [rbind].
  rewrite !map_set_all by assumption. rewrite <- Pm, <- Pn. reflexivity.
Qed.

Lemma same_params_refl ev : same_params ev ev. Proof. unfold same_params; auto. Qed.
Lemma same_params_trans a b c : same_params a b -> same_params b c -> same_params a c.
Proof. unfold same_params. intuition congruence. Qed.

End EventP.
