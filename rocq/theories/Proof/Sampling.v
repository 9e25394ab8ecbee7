(** sample_nucleons: all nucleus types, any arithmetic. *)
From Coq Require Import Permutation.
From Verif.Base Require Import Result Arith Rng.
From Verif.Model Require Import Random Config Nucleon Files Nucleus.
From Verif.Spec Require Import Contract Draws.
From Verif.Proof Require Import Basics.

Lemma iter_succ_r {X} (f : X -> X) n x : Nat.iter (S n) f x = Nat.iter n f (f x).
Proof. induction n as [|n IH]; simpl; auto. rewrite <- IH. reflexivity. Qed.
Lemma iter_add {X} (f : X -> X) m n x : Nat.iter (m + n) f x = Nat.iter m f (Nat.iter n f x).
Proof. induction m as [|m IH]; simpl; auto. rewrite IH. reflexivity. Qed.

Section Sampling.
Context {A : Arith} (R : Rng A).

Lemma after_S k e : after R (S k) e = snd (canonical R (after R k e)).
Proof. reflexivity. Qed.
Lemma after_S' k e : after R (S k) e = after R k (snd (canonical R e)).
Proof. unfold after. rewrite iter_succ_r. reflexivity. Qed.
Lemma after_add j k e : after R (j + k) e = after R j (after R k e).
Proof. unfold after. apply iter_add. Qed.
Lemma drawn_after j k e : drawn R j (after R k e) = drawn R (j + k) e.
Proof. unfold drawn. rewrite after_add. reflexivity. Qed.
Lemma cos_draw_after j k e : cos_draw R j (after R k e) = cos_draw R (j + k) e.
Proof. unfold cos_draw. rewrite drawn_after. reflexivity. Qed.
Lemma phi_draw_after j k e : phi_draw R j (after R k e) = phi_draw R (j + k) e.
Proof. unfold phi_draw. rewrite drawn_after. reflexivity. Qed.

Lemma draw_canonical_run e : draw_canonical R e = (Ret (drawn R 0 e), after R 1 e).
Proof. unfold draw_canonical, act, drawn, after. simpl. destruct (canonical R e); reflexivity. Qed.
Lemma cos_theta_run e : cos_theta R e = (Ret (cos_draw R 0 e), after R 1 e).
Proof. unfold cos_theta. erewrite bind_run by apply draw_canonical_run. reflexivity. Qed.
Lemma phi_run e : phi R e = (Ret (phi_draw R 0 e), after R 1 e).
Proof. unfold phi. erewrite bind_run by apply draw_canonical_run. reflexivity. Qed.

(** ** One Woods-Saxon nucleon *)

(** Position of attempt [i] (counted from 0). *)
Definition ws_attempt (r : num A) (i : nat) (e : engine R) : num A * num A * num A :=
  polar r (cos_draw R (2 * i) e) (phi_draw R (2 * i + 1) e).

Definition placed (offset : num A) (n : nucleon A) (p : num A * num A * num A) : nucleon A :=
  let '(x, y, z) := p in set_position n (nadd A x offset) y z.

Lemma placed_placed offset n p q : placed offset (placed offset n p) q = placed offset n q.
Proof. destruct p as [[? ?] ?], q as [[? ?] ?]. reflexivity. Qed.

Lemma place_ws_run t dminsq offset r prev n e :
  exists k, (k <= t)%nat /\
    place_ws R (S t) dminsq offset r prev n e =
      (Ret (placed offset n (ws_attempt r k e)), after R (2 * (k + 1)) e) /\
    ((k < t)%nat -> is_too_close dminsq prev (placed offset n (ws_attempt r k e)) = false) /\
    (forall i, (i < k)%nat -> is_too_close dminsq prev (placed offset n (ws_attempt r i e)) = true).
Proof.
  revert n e. induction t as [|t IH]; intros n e.
  - exists 0%nat. split; [lia|]. split; [|split; intros; lia].
    cbn [place_ws]. erewrite bind_run by apply cos_theta_run. erewrite bind_run by apply phi_run.
    rewrite phi_draw_after. unfold ws_attempt. simpl (2 * 0)%nat. simpl (0 + 1)%nat.
    destruct (polar r (cos_draw R 0 e) (phi_draw R 1 e)) as [[x y] z].
    reflexivity.
  - assert (E0 : place_ws R (S (S t)) dminsq offset r prev n e =
       (if is_too_close dminsq prev (placed offset n (ws_attempt r 0 e))
        then place_ws R (S t) dminsq offset r prev (placed offset n (ws_attempt r 0 e))
        else ret (placed offset n (ws_attempt r 0 e))) (after R 2 e)).
    { remember (S t) as t1. cbn [place_ws].
      erewrite bind_run by apply cos_theta_run. erewrite bind_run by apply phi_run.
      rewrite phi_draw_after. unfold ws_attempt. simpl (2 * 0)%nat. simpl (0 + 1)%nat.
      destruct (polar r (cos_draw R 0 e) (phi_draw R 1 e)) as [[x y] z].
      subst t1. reflexivity. }
    rewrite E0. destruct (is_too_close dminsq prev (placed offset n (ws_attempt r 0 e))) eqn:E.
    + destruct (IH (placed offset n (ws_attempt r 0 e)) (after R 2 e)) as (k & Hk & H1 & H2 & H3).
      assert (Ea : forall i, ws_attempt r i (after R 2 e) = ws_attempt r (S i) e).
      { intros i. unfold ws_attempt. rewrite cos_draw_after, phi_draw_after.
        f_equal; f_equal; lia. }
      rewrite Ea, placed_placed in H1, H2. exists (S k). split; [lia|]. split; [|split].
      * rewrite H1. rewrite <- after_add. do 2 f_equal. lia.
      * intros H. apply H2. lia.
      * intros [|i] Hi; auto. specialize (H3 i). rewrite Ea, placed_placed in H3. apply H3. lia.
    + exists 0%nat. split; [lia|]. split; [reflexivity|]. split; auto. intros; lia.
Qed.

(** ** All nucleons of a Woods-Saxon nucleus *)

Definition sum (l : list nat) : nat := fold_right Nat.add 0%nat l.

Lemma nth_error_app_l {X} (l1 l2 : list X) i : (i < length l1)%nat -> nth_error (l1 ++ l2) i = nth_error l1 i.
Proof. apply nth_error_app1. Qed.

(** [tries k] attempts were used by nucleon number k (from 0) of [new]; [fresh k] gives
    its position as a function of the engine when its placement began. *)
Lemma place_all_ws_run dminsq offset radii prev todo e :
  length radii = length todo ->
  exists new ks,
    place_all_ws R dminsq offset radii prev todo e = (Ret (prev ++ new), after R (2 * sum ks) e) /\
    length new = length todo /\ length ks = length todo /\
    forall i n0 r,
      nth_error todo i = Some n0 -> nth_error radii i = Some r ->
      exists k, nth_error ks i = Some k /\ (1 <= k <= 1000)%nat /\
        let e_i := after R (2 * sum (firstn i ks)) e in
        let att := fun j => placed offset n0 (ws_attempt r j e_i) in
        nth_error new i = Some (att (k - 1)%nat) /\
        ((k < 1000)%nat -> is_too_close dminsq (prev ++ firstn i new) (att (k - 1)%nat) = false) /\
        (forall j, (j < k - 1)%nat -> is_too_close dminsq (prev ++ firstn i new) (att j) = true).
Proof.
  revert radii prev e. induction todo as [|n todo IH]; intros radii prev e Hl.
  - exists [], []. destruct radii; [|discriminate]. rewrite app_nil_r. repeat split.
    intros [|i]; simpl; intros; discriminate.
  - destruct radii as [|r radii]; [discriminate|]. simpl in Hl. injection Hl as Hl.
    destruct (place_ws_run 999 dminsq offset r prev n e) as (k & Hk & E & Hc & Hb).
    change (S 999) with 1000%nat in E. cbn [place_all_ws].
    set (n' := placed offset n (ws_attempt r k e)) in *.
    set (e1 := after R (2 * (k + 1)) e) in *.
    destruct (IH radii (prev ++ [n']) e1 Hl) as (new & ks & En & Hl1 & Hl2 & Hi).
    exists (n' :: new), (S k :: ks).
    split; [|split; [|split]]; [|simpl; lia|simpl; lia|].
    + erewrite bind_run by exact E. rewrite En. rewrite <- app_assoc. simpl app.
      unfold e1. rewrite <- after_add. do 2 f_equal. simpl sum. lia.
    + intros [|i] n0 r0 H1 H2.
      * simpl in H1, H2. inversion H1; inversion H2; subst n0 r0. exists (S k). split; [reflexivity|].
        split; [lia|]. cbv zeta. rewrite Nat.sub_succ, Nat.sub_0_r. cbn [firstn]. rewrite app_nil_r.
        simpl sum. simpl (2 * 0)%nat. cbn [after]. change (after R 0 e) with e.
        repeat split; auto. intros Hlt. apply Hc. lia.
      * simpl in H1, H2. destruct (Hi i n0 r0 H1 H2) as (k' & Hk' & Hr & H).
        exists k'. split; [exact Hk'|]. split; [exact Hr|]. cbv zeta in *.
        cbn [firstn sum fold_right].
        assert (Ee : after R (2 * sum (firstn i ks)) e1 = after R (2 * (S k + sum (firstn i ks))) e).
        { unfold e1. rewrite <- after_add. f_equal. lia. }
        rewrite Ee in H. unfold sum in *. rewrite <- app_assoc in H. simpl app in H.
        exact H.
Qed.

(** ** One deformed nucleon *)

Notation vec := (num A * num A * num A)%type.

(** z after i sign changes *)
Definition flip (z : num A) (i : nat) : num A := Nat.iter i (fun z => nmul A z (nofZ A (-1))) z.

Definition def_attempt (rot : vec -> vec) (rsin z : num A) (i : nat) (e : engine R) : vec :=
  rot (nmul A rsin (ncos A (phi_draw R i e)), nmul A rsin (nsin A (phi_draw R i e)), flip z i).

Lemma place_deformed_run t dminsq offset rot rsin z prev n e :
  exists k, (k <= t)%nat /\
    place_deformed R (S t) dminsq offset rot rsin z prev n e =
      (Ret (placed offset n (def_attempt rot rsin z k e)), after R (k + 1) e) /\
    ((k < t)%nat -> is_too_close dminsq prev (placed offset n (def_attempt rot rsin z k e)) = false) /\
    (forall i, (i < k)%nat -> is_too_close dminsq prev (placed offset n (def_attempt rot rsin z i e)) = true).
Proof.
  revert z n e. induction t as [|t IH]; intros z n e.
  - exists 0%nat. split; [lia|]. split; [|split; intros; lia].
    cbn [place_deformed]. erewrite bind_run by apply phi_run.
    unfold def_attempt, flip. cbn [Nat.iter nat_rect].
    destruct (rot _) as [[x y] w]. reflexivity.
  - assert (E0 : place_deformed R (S (S t)) dminsq offset rot rsin z prev n e =
       (if is_too_close dminsq prev (placed offset n (def_attempt rot rsin z 0 e))
        then place_deformed R (S t) dminsq offset rot rsin (nmul A z (nofZ A (-1))) prev
               (placed offset n (def_attempt rot rsin z 0 e))
        else ret (placed offset n (def_attempt rot rsin z 0 e))) (after R 1 e)).
    { remember (S t) as t1. cbn [place_deformed].
      erewrite bind_run by apply phi_run.
      unfold def_attempt, flip. cbn [Nat.iter nat_rect].
      destruct (rot _) as [[x y] w]. subst t1. reflexivity. }
    rewrite E0. destruct (is_too_close dminsq prev (placed offset n (def_attempt rot rsin z 0 e))) eqn:E.
    + destruct (IH (nmul A z (nofZ A (-1))) (placed offset n (def_attempt rot rsin z 0 e)) (after R 1 e))
        as (k & Hk & H1 & H2 & H3).
      assert (Ea : forall i, def_attempt rot rsin (nmul A z (nofZ A (-1))) i (after R 1 e)
                             = def_attempt rot rsin z (S i) e).
      { intros i. unfold def_attempt. rewrite phi_draw_after.
        replace (i + 1)%nat with (S i) by lia.
        replace (flip (nmul A z (nofZ A (-1))) i) with (flip z (S i)); [reflexivity|].
        unfold flip. rewrite iter_succ_r. reflexivity. }
      rewrite Ea, placed_placed in H1, H2. exists (S k). split; [lia|]. split; [|split].
      * rewrite H1. rewrite <- after_add. do 2 f_equal. lia.
      * intros H. apply H2. lia.
      * intros [|i] Hi; auto. specialize (H3 i). rewrite Ea, placed_placed in H3. apply H3. lia.
    + exists 0%nat. split; [lia|]. split; [reflexivity|]. split; auto. intros; lia.
Qed.

Definition r_sin (rc : num A * num A) : num A :=
  nmul A (fst rc) (nsqrt A (nsub A (nlit A 1 0) (nmul A (snd rc) (snd rc)))).
Definition r_cos (rc : num A * num A) : num A := nmul A (fst rc) (snd rc).

Lemma place_all_deformed_run dminsq offset rot samples prev todo e :
  length samples = length todo ->
  exists new ks,
    place_all_deformed R dminsq offset rot samples prev todo e = (Ret (prev ++ new), after R (sum ks) e) /\
    length new = length todo /\ length ks = length todo /\
    forall i n0 rc,
      nth_error todo i = Some n0 -> nth_error samples i = Some rc ->
      exists k, nth_error ks i = Some k /\ (1 <= k <= 1000)%nat /\
        let e_i := after R (sum (firstn i ks)) e in
        let att := fun j => placed offset n0 (def_attempt rot (r_sin rc) (r_cos rc) j e_i) in
        nth_error new i = Some (att (k - 1)%nat) /\
        ((k < 1000)%nat -> is_too_close dminsq (prev ++ firstn i new) (att (k - 1)%nat) = false) /\
        (forall j, (j < k - 1)%nat -> is_too_close dminsq (prev ++ firstn i new) (att j) = true).
Proof.
  revert samples prev e. induction todo as [|n todo IH]; intros samples prev e Hl.
  - exists [], []. destruct samples; [|discriminate]. rewrite app_nil_r. repeat split.
    intros [|i]; simpl; intros; discriminate.
  - destruct samples as [|[r c] samples]; [discriminate|]. simpl in Hl. injection Hl as Hl.
    destruct (place_deformed_run 999 dminsq offset rot (r_sin (r, c)) (r_cos (r, c)) prev n e)
      as (k & Hk & E & Hc & Hb).
    change (S 999) with 1000%nat in E. cbn [place_all_deformed].
    set (n' := placed offset n (def_attempt rot (r_sin (r, c)) (r_cos (r, c)) k e)) in *.
    set (e1 := after R (k + 1) e) in *.
    destruct (IH samples (prev ++ [n']) e1 Hl) as (new & ks & En & Hl1 & Hl2 & Hi).
    exists (n' :: new), (S k :: ks).
    split; [|split; [|split]]; [|simpl; lia|simpl; lia|].
    + unfold r_sin, r_cos in E. cbn [fst snd] in E. erewrite bind_run by exact E.
      rewrite En. rewrite <- app_assoc. simpl app.
      unfold e1. rewrite <- after_add. do 2 f_equal. simpl sum. lia.
    + intros [|i] n0 r0 H1 H2.
      * simpl in H1, H2. inversion H1; inversion H2; subst n0 r0. exists (S k). split; [reflexivity|].
        split; [lia|]. cbv zeta. rewrite Nat.sub_succ, Nat.sub_0_r. cbn [firstn]. rewrite app_nil_r.
        simpl sum. change (after R 0 e) with e.
        repeat split; auto. intros Hlt. apply Hc. lia.
      * simpl in H1, H2. destruct (Hi i n0 r0 H1 H2) as (k' & Hk' & Hr & H).
        exists k'. split; [exact Hk'|]. split; [exact Hr|]. cbv zeta in *.
        cbn [firstn sum fold_right].
        assert (Ee : after R (sum (firstn i ks)) e1 = after R (S k + sum (firstn i ks)) e).
        { unfold e1. rewrite <- after_add. f_equal. lia. }
        rewrite Ee in H. unfold sum in *. rewrite <- app_assoc in H. simpl app in H.
        exact H.
Qed.

(** ** mrepeat *)

Lemma mrepeat_length {S X} k (m : M S X) s xs s' : mrepeat k m s = (Ret xs, s') -> length xs = k.
Proof.
  revert s xs s'. induction k as [|k IH]; simpl; intros s xs s' H.
  - mstep H. reflexivity.
  - mstep H. mstep H. mstep H. simpl. f_equal. eauto.
Qed.

Lemma mrepeat_Forall {S X} k (m : M S X) (P : X -> Prop) s xs s' :
  (forall s x s', m s = (Ret x, s') -> P x) -> mrepeat k m s = (Ret xs, s') -> Forall P xs.
Proof.
  intros Hm. revert s xs s'. induction k as [|k IH]; simpl; intros s xs s' H.
  - mstep H. constructor.
  - mstep H. mstep H. mstep H. constructor; eauto.
Qed.

Lemma mrepeat_act {S X} k (f : S -> X * S) s : exists xs s', mrepeat k (act f) s = (Ret xs, s').
Proof.
  revert s. induction k as [|k IH]; simpl; intros s; [unfold ret; eauto|].
  destruct (f s) as [x s1] eqn:E. erewrite bind_run by (unfold act; rewrite E; reflexivity).
  destruct (IH s1) as (xs & s2 & E2). erewrite bind_run by exact E2. unfold ret. eauto.
Qed.

(** ** Reset *)

(** The number of nucleons fits the type. *)
Definition nucleus_wf (nu : nucleus A) : Prop :=
  match nu_kind nu with
  | KProton => length (nu_nucleons nu) = 1%nat
  | KDeuteron _ _ => length (nu_nucleons nu) = 2%nat
  | KManual _ nnuc _ _ => length (nu_nucleons nu) = Z.to_nat nnuc
  | _ => True
  end.

Definition is_reset (n : nucleon A) : Prop := n_part n = false /\ n_cexist n = false.

Lemma placed_reset offset n p : is_reset (placed offset n p).
Proof. destruct p as [[? ?] ?]. split; reflexivity. Qed.

Lemma place_manual_reset offset rot data i ns ns' :
  place_manual offset rot data i ns = Ret ns' -> length ns' = length ns /\ Forall is_reset ns'.
Proof.
  revert i ns'. induction ns as [|n ns IH]; simpl; intros i ns' H.
  - mstep H. auto.
  - mstep H. destruct (rot x) as [[a b] c]. mstep H. mstep H. apply IH in E0. destruct E0.
    simpl. split; [lia|]. constructor; auto. split; reflexivity.
Qed.

Lemma nth_Forall {X} (P : X -> Prop) l : (forall i x, nth_error l i = Some x -> P x) -> Forall P l.
Proof. intros H. apply Forall_forall. intros x Hx. apply In_nth_error in Hx. destruct Hx. eauto. Qed.

Lemma nth_some {X} (l : list X) i : (i < length l)%nat -> exists x, nth_error l i = Some x.
Proof. intros H. destruct (nth_error l i) eqn:E; eauto. apply nth_error_None in E. lia. Qed.

Lemma sort_num_length l : (forall l, Permutation l (sort_num R l)) -> length (sort_num R l) = length l.
Proof. intros H. symmetry. apply Permutation_length. auto. Qed.

Lemma place_all_ws_reset dminsq offset radii prev todo e out e' :
  place_all_ws R dminsq offset radii prev todo e = (Ret out, e') ->
  exists new, out = prev ++ new /\ length new = length todo /\ Forall is_reset new.
Proof.
  revert radii prev e. induction todo as [|n todo IH]; intros radii prev e H.
  - assert (ret prev e = (Ret out, e')) as H1 by (destruct radii; exact H). clear H. rename H1 into H. mstep H. exists []. rewrite app_nil_r. auto.
  - destruct radii as [|r radii]; [discriminate|]. cbn [place_all_ws] in H. mstep H. apply IH in H.
    destruct H as (new & -> & Hl & Hf). exists (x :: new). rewrite <- app_assoc.
    split; [reflexivity|]. split; [simpl; lia|]. constructor; auto.
    destruct (place_ws_run 999 dminsq offset r prev n e) as (k & _ & E1 & _).
    change (S 999) with 1000%nat in E1. rewrite E1 in E. apply pair_Ret_inj in E. destruct E as [<- _]. apply placed_reset.
Qed.

Lemma place_all_deformed_reset dminsq offset rot samples prev todo e out e' :
  place_all_deformed R dminsq offset rot samples prev todo e = (Ret out, e') ->
  exists new, out = prev ++ new /\ length new = length todo /\ Forall is_reset new.
Proof.
  revert samples prev e. induction todo as [|n todo IH]; intros samples prev e H.
  - assert (ret prev e = (Ret out, e')) as H1 by (destruct samples; exact H). clear H. rename H1 into H. mstep H. exists []. rewrite app_nil_r. auto.
  - destruct samples as [|[r c] samples]; [discriminate|]. cbn [place_all_deformed] in H. mstep H. apply IH in H.
    destruct H as (new & -> & Hl & Hf). exists (x :: new). rewrite <- app_assoc.
    split; [reflexivity|]. split; [simpl; lia|]. constructor; auto.
    destruct (place_deformed_run 999 dminsq offset rot (r_sin (r, c)) (r_cos (r, c)) prev n e) as (k & _ & E1 & _).
    change (S 999) with 1000%nat in E1. unfold r_sin, r_cos in E1. cbn [fst snd] in E1.
    rewrite E1 in E. apply pair_Ret_inj in E. destruct E as [<- _]. apply placed_reset.
Qed.

Theorem sample_nucleons_reset fuel nu offset e nu' e' :
  nucleus_wf nu ->
  sample_nucleons R fuel nu offset e = (Ret nu', e') ->
  nu_kind nu' = nu_kind nu /\ nu_offset nu' = offset /\
  length (nu_nucleons nu') = length (nu_nucleons nu) /\ Forall is_reset (nu_nucleons nu').
Proof.
  unfold nucleus_wf, sample_nucleons. intros W H. mstep H. mstep H. simpl.
  split; [reflexivity|]. split; [reflexivity|].
  destruct (nu_kind nu) as [ |a b|Rw a d|Rw a b2 b4 rm d|nconf nn data rm].
  - destruct (nu_nucleons nu) as [|n [|? ?]]; try discriminate. unfold sample_proton in E.
    mstep E. split; auto. repeat constructor.
  - destruct (nu_nucleons nu) as [|n [|n2 [|? ?]]]; try discriminate. unfold sample_deuteron in E.
    mstep E. mstep E. mstep E. destruct (polar _ _ _) as [[p q] r]. mstep E. split; auto. repeat constructor.
  - unfold sample_ws in E. mstep E. apply place_all_ws_reset in E. destruct E as (new & -> & ? & ?). auto.
  - unfold sample_deformed in E. mstep E. mstep E. mstep E.
    apply place_all_deformed_reset in E. destruct E as (new & -> & ? & ?). auto.
  - unfold sample_manual in E. mstep E. mstep E. mstep E. mstep E.
    destruct (nconf <=? _)%Z; [discriminate|]. mstep E. eapply place_manual_reset; eauto.
Qed.

End Sampling.
