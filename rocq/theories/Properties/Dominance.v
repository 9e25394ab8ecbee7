(** C74: a larger cross section, or nucleons closer together, mean more
    participants and more collisions. *)
From Coq Require Import Reals Lra Lia ZArith List Bool.
From Verif.Base Require Import Result Arith RArith Rng.
From Verif.Model Require Import Config Random Nucleon Nucleus Collider.
From Verif.Spec Require Import Profile Law History Glauber CrossSection Dominance.
From Verif.Proof Require Import Basics RBasics Sampling LawP GlauberP.
From Verif.Properties Require Import CrossSection Ncoll Glauber.
Import ListNotations.
Local Open Scope R_scope.

Lemma flags_refl l : flags_below l l.
Proof. induction l; constructor; auto. Qed.

(** ** Independent trials *)
Lemma trials_mono qs : forall qs' (f g : list bool -> R), Forall (fun q => 0 <= q <= 1) qs' -> Forall (fun q => 0 <= q <= 1) qs ->
  Forall2 (fun q q' => q' <= q) qs qs' ->
  (forall hs hs', length hs = length qs -> flags_below hs hs' -> f hs <= g hs') -> trials qs f <= trials qs' g.
Proof.
  induction qs as [|q qs IH]; intros qs' f g R' R F M; inversion F as [|? q' ? qs'' Q F']; subst; [apply M; [reflexivity|constructor]|].
  inversion R' as [|? ? [P1 P2] R1]; subst. inversion R as [|? ? [P3 P4] R2]; subst. cbn [trials].
  set (Tt := trials qs'' (fun hs => g (true :: hs))). set (Tf := trials qs'' (fun hs => g (false :: hs))).
  assert (A1 : trials qs (fun hs => f (true :: hs)) <= Tt).
  { apply IH; auto. intros hs hs' L B. apply M; [cbn; congruence|]. constructor; auto. }
  assert (A2 : trials qs (fun hs => f (false :: hs)) <= Tf).
  { apply IH; auto. intros hs hs' L B. apply M; [cbn; congruence|]. constructor; auto. }
  assert (A3 : trials qs (fun hs => f (false :: hs)) <= Tt).
  { apply IH; auto. intros hs hs' L B. apply M; [cbn; congruence|]. constructor; [discriminate|auto]. }
  apply Rle_trans with ((1 - q) * Tt + q * trials qs (fun hs => f (false :: hs))); [nra|].
  apply Rle_trans with ((1 - q') * Tt + q' * trials qs (fun hs => f (false :: hs))); nra.
Qed.

Lemma any_mono hs hs' : flags_below hs hs' -> any hs = true -> any hs' = true.
Proof.
  unfold any. induction 1 as [|b b' hs hs' B _ IH]; cbn [existsb]; [discriminate|].
  intros H. apply orb_true_iff in H. apply orb_true_iff. destruct H as [H|H]; auto.
Qed.
Lemma count_mono hs hs' : flags_below hs hs' -> (count_true hs <= count_true hs')%Z.
Proof.
  induction 1 as [|b b' hs hs' B _ IH]; [lia|]. unfold count_true in *. cbn [filter].
  destruct b, b'; cbn [length]; try lia; discriminate (B eq_refl).
Qed.
Lemma exists_mono {X} (p : X -> bool) (ps : list X) hs hs' : flags_below hs hs' ->
  existsb (fun ph => p (fst ph) && snd ph) (combine ps hs) = true -> existsb (fun ph => p (fst ph) && snd ph) (combine ps hs') = true.
Proof.
  intros F. revert ps. induction F as [|b b' hs hs' B _ IH]; intros [|x ps]; cbn [combine existsb]; try discriminate.
  intros H. apply orb_true_iff in H. apply orb_true_iff. destruct H as [H|H]; [left|right; apply IH, H].
  cbn [fst snd] in *. apply andb_true_iff in H. destruct H as [H1 H2]. rewrite H1, (B H2). reflexivity.
Qed.
Lemma map_mono {X} (f g : X -> bool) l : (forall x, f x = true -> g x = true) -> flags_below (map f l) (map g l).
Proof. intros H. induction l; constructor; auto. Qed.
Lemma hit_A_mono na n hs hs' : flags_below hs hs' -> flags_below (hit_in_A na n hs) (hit_in_A na n hs').
Proof. intros F. apply map_mono. intros i. apply (exists_mono (fun p : nat * nat => Nat.eqb (fst p) i)), F. Qed.
Lemma hit_B_mono na n hs hs' : flags_below hs hs' -> flags_below (hit_in_B na n hs) (hit_in_B na n hs').
Proof. intros F. apply map_mono. intros j. apply (exists_mono (fun p : nat * nat => Nat.eqb (snd p) j)), F. Qed.

(** ** Probabilities *)
Lemma gauss_pos s2 x y : 0 < s2 -> 0 <= gauss2 s2 x y.
Proof.
  intros H. unfold gauss2. pose proof PI_RGT_0. pose proof (exp_pos (- (x ^ 2 + y ^ 2) / (2 * s2))).
  apply Rmult_le_pos; [lra|]. left. apply Rinv_0_lt_compat. nra.
Qed.
Lemma miss_01 w v s a b : 0 < v -> 0 <= s -> 0 <= miss w v s a b <= 1.
Proof.
  intros Hv Hs. unfold miss. destruct (Rlt_dec _ _); [lra|].
  pose proof (gauss_pos (2 * v ^ 2) (n_x a - n_x b) (n_y a - n_y b) ltac:(nra)).
  pose proof (exp_pos (- (s * gauss2 (2 * v ^ 2) (n_x a - n_x b) (n_y a - n_y b)))). split; [lra|].
  rewrite <- exp_0. destruct (Req_dec (s * gauss2 (2 * v ^ 2) (n_x a - n_x b) (n_y a - n_y b)) 0) as [->|N]; [rewrite Ropp_0; lra|].
  left. apply exp_increasing. nra.
Qed.
Lemma misses_range w v s As Bs : 0 < v -> 0 <= s -> Forall (fun q => 0 <= q <= 1) (misses w v s As Bs).
Proof.
  intros Hv Hs. apply Forall_forall. intros q H. apply in_flat_map in H. destruct H as (a & _ & H). apply in_map_iff in H. destruct H as (b & <- & _).
  apply miss_01; assumption.
Qed.

Lemma gauss_le s2 x y x' y' : 0 < s2 -> x' ^ 2 + y' ^ 2 <= x ^ 2 + y ^ 2 -> gauss2 s2 x y <= gauss2 s2 x' y'.
Proof.
  intros Hv D. unfold gauss2. pose proof PI_RGT_0. apply Rmult_le_compat_r; [left; apply Rinv_0_lt_compat; nra|].
  destruct (Req_dec (x' ^ 2 + y' ^ 2) (x ^ 2 + y ^ 2)) as [E|N]; [rewrite E; lra|]. left. apply exp_increasing.
  unfold Rdiv. apply Rmult_lt_compat_r; [apply Rinv_0_lt_compat; lra|lra].
Qed.

Lemma exp_le x y : x <= y -> exp x <= exp y.
Proof. intros [L|E]; [left; apply exp_increasing, L|rewrite E; lra]. Qed.

(** Closer, and with a larger cross section: a pair misses less often. *)
Lemma miss_le w v s s' a b a' b' : 0 < v -> 0 <= s <= s' -> distance a' b' <= distance a b -> miss w v s' a' b' <= miss w v s a b.
Proof.
  intros Hv Hs D. unfold distance in D. unfold miss at 2. destruct (Rlt_dec _ _) as [L|L]; [apply miss_01; lra|].
  unfold miss. destruct (Rlt_dec _ _) as [L'|L']; [lra|]. apply exp_le. apply Ropp_le_contravar.
  assert (D2 : (n_x a' - n_x b') ^ 2 + (n_y a' - n_y b') ^ 2 <= (n_x a - n_x b) ^ 2 + (n_y a - n_y b) ^ 2).
  { apply sqrt_le_0; [apply Rplus_le_le_0_compat; apply pow2_ge_0|apply Rplus_le_le_0_compat; apply pow2_ge_0|exact D]. }
  pose proof (gauss_le (2 * v ^ 2) _ _ _ _ ltac:(nra) D2) as G.
  pose proof (gauss_pos (2 * v ^ 2) (n_x a - n_x b) (n_y a - n_y b) ltac:(nra)). apply Rmult_le_compat; lra.
Qed.

Lemma misses_le w v s s' : 0 < v -> 0 <= s <= s' -> forall As Bs As' Bs', closer As Bs As' Bs' ->
  Forall2 (fun q q' => q' <= q) (misses w v s As Bs) (misses w v s' As' Bs').
Proof.
  intros Hv Hs As Bs. induction As as [|a As IH]; intros [|a' As'] Bs' (L1 & L2 & C); try discriminate L1; [constructor|].
  unfold misses. cbn [flat_map]. apply Forall2_app.
  - assert (C0 : forall j b b', nth_error Bs j = Some b -> nth_error Bs' j = Some b' -> distance a' b' <= distance a b).
    { intros j b b' H H'. eapply (C 0%nat j); eauto; reflexivity. }
    clear C L1 IH. revert Bs' L2 C0. induction Bs as [|b Bs IHB]; intros [|b' Bs'] L2 C0; try discriminate L2; [constructor|].
    constructor; [apply miss_le; auto; apply (C0 0%nat); reflexivity|]. apply IHB; [cbn in L2; congruence|]. intros j. apply (C0 (S j)).
  - apply IH. split; [cbn in L1; congruence|]. split; [exact L2|]. intros i j. apply (C (S i) j).
Qed.

(** ** The theorems *)

(** With --ncoll: any growing quantity is larger on average. *)
Theorem C74_more : forall U D cfg sp sp' co co' As Bs As' Bs',
  glauber U D cfg sp co As Bs -> glauber U D cfg sp' co' As' Bs' -> ncoll cfg = true ->
  sp <= sp' -> closer As Bs As' Bs' ->
  forall seed ns gs (f : list bool -> list bool -> Z -> bool -> R) other, grows f ->
  exists m m',
    mean_of (A:=RA) U (on_tape ns gs (pair_loop (ideal D seed) co As Bs 0 false)) (seen f other) m /\
    mean_of (A:=RA) U (on_tape ns gs (pair_loop (ideal D seed) co' As' Bs' 0 false)) (seen f other) m' /\ m <= m'.
Proof.
  intros U D cfg sp sp' co co' As Bs As' Bs' G G' Hn Hs C seed ns gs f other Gr.
  eexists. eexists. split; [exact (C57_law U D cfg sp co As Bs G Hn seed ns gs f other)|].
  split; [exact (C57_law U D cfg sp' co' As' Bs' G' Hn seed ns gs f other)|].
  destruct G as [_ _ _ Hv Hs0 _ _ _ _ _]. destruct C as (L1 & L2 & C). rewrite L1, L2.
  apply trials_mono; [apply misses_range; lra|apply misses_range; lra|apply misses_le; [exact Hv|lra|repeat split; assumption]|].
  intros hs hs' _ F. apply Gr; [apply hit_A_mono, F|apply hit_B_mono, F|apply count_mono, F|apply any_mono, F].
Qed.

(** Without --ncoll: the same for the participants. *)
Theorem C74_more_participants : forall U D cfg sp sp' co co' As Bs As' Bs',
  glauber U D cfg sp co As Bs -> glauber U D cfg sp' co' As' Bs' ->
  sp <= sp' -> closer As Bs As' Bs' ->
  forall seed ns gs (f : list bool -> list bool -> bool -> R) other, grows2 f ->
  exists m m',
    mean_of (A:=RA) U (on_tape ns gs (pair_loop (ideal D seed) co As Bs 0 false)) (seen (fun fa fb _ c => f fa fb c) other) m /\
    mean_of (A:=RA) U (on_tape ns gs (pair_loop (ideal D seed) co' As' Bs' 0 false)) (seen (fun fa fb _ c => f fa fb c) other) m' /\ m <= m'.
Proof.
  intros U D cfg sp sp' co co' As Bs As' Bs' G G' Hs C seed ns gs f other Gr.
  eexists. eexists. split; [exact (C57_participants U D cfg sp co As Bs G seed ns gs f other)|].
  split; [exact (C57_participants U D cfg sp' co' As' Bs' G' seed ns gs f other)|].
  destruct G as [_ _ _ Hv Hs0 _ _ _ _ _]. destruct C as (L1 & L2 & C). rewrite L1, L2.
  apply trials_mono; [apply misses_range; lra|apply misses_range; lra|apply misses_le; [exact Hv|lra|repeat split; assumption]|].
  intros hs hs' _ F. apply (Gr _ _ _ _ 0%Z 0%Z); [apply hit_A_mono, F|apply hit_B_mono, F|lia|apply any_mono, F].
Qed.

Lemma closer_refl As Bs : closer As Bs As Bs.
Proof. split; [reflexivity|]. split; [reflexivity|]. intros i j a b a' b' H1 H2 H3 H4. assert (a' = a) by congruence. assert (b' = b) by congruence. subst. lra. Qed.

(** The chance that nothing collides shrinks, strictly if some pair is in range. *)
Theorem C74_hit : forall U D cfg sp sp' co co' As Bs,
  glauber U D cfg sp co As Bs -> glauber U D cfg sp' co' As Bs -> sp < sp' ->
  (exists a b, In a As /\ In b Bs /\ distance a b <= 6 * nucleon_width cfg) ->
  forall seed ns gs, exists p p',
    mean_of (A:=RA) U (on_tape ns gs (pair_loop (ideal D seed) co As Bs 0 false)) (seen (fun _ _ _ c => indicator (negb c)) 0) p /\
    mean_of (A:=RA) U (on_tape ns gs (pair_loop (ideal D seed) co' As Bs 0 false)) (seen (fun _ _ _ c => indicator (negb c)) 0) p' /\ p' < p.
Proof.
  intros U D cfg sp sp' co co' As Bs G G' Hs (a & b & Ha & Hb & Hd) seed ns gs.
  eexists. eexists. split; [exact (C57_no_collision U D cfg sp co As Bs G seed ns gs)|].
  split; [exact (C57_no_collision U D cfg sp' co' As Bs G' seed ns gs)|].
  destruct G as [_ _ _ Hv Hs0 _ _ _ _ _]. set (w := nucleon_width cfg) in *. set (v := constit_width cfg) in *.
  assert (P : forall s a b, 0 <= s -> 0 < miss w v s a b).
  { intros s x y _. unfold miss. destruct (Rlt_dec _ _); [lra|apply exp_pos]. }
  assert (Pos : forall {X} (f : X -> R) l, (forall x, 0 < f x) -> 0 < Rprod f l).
  { intros X f l H. unfold Rprod. induction l as [|x l IH]; cbn [fold_right]; [lra|]. apply Rmult_lt_0_compat; auto. }
  assert (St : forall {X} (f g : X -> R) l x0, (forall x, 0 < f x) -> (forall x, 0 < g x) -> (forall x, g x <= f x) -> In x0 l -> g x0 < f x0 -> Rprod g l < Rprod f l).
  { intros X f g l x0 Pf Pg Le. induction l as [|x l IH]; intros [] Lt; cbn [Rprod fold_right].
    - subst x. fold (Rprod f l) (Rprod g l). apply Rlt_le_trans with (f x0 * Rprod g l); [apply Rmult_lt_compat_r; [apply Pos; exact Pg|exact Lt]|].
      apply Rmult_le_compat_l; [left; apply Pf|]. clear -Le Pf Pg Pos. induction l as [|y l IH]; cbn [Rprod fold_right]; [lra|].
      fold (Rprod f l) (Rprod g l). apply Rmult_le_compat; [left; apply Pg|left; apply Pos; exact Pg|apply Le|exact IH].
    - fold (Rprod f l) (Rprod g l). apply Rle_lt_trans with (f x * Rprod g l); [apply Rmult_le_compat_r; [left; apply Pos; exact Pg|apply Le]|].
      apply Rmult_lt_compat_l; [apply Pf|]. apply IH; assumption. }
  assert (Le : forall x y, miss w v sp' x y <= miss w v sp x y) by (intros x y; apply miss_le; [exact Hv|lra|lra]).
  assert (Lt : miss w v sp' a b < miss w v sp a b).
  { unfold miss, distance in *. destruct (Rlt_dec _ _); [lra|]. apply exp_increasing. apply Ropp_lt_contravar. apply Rmult_lt_compat_r; [|exact Hs].
    unfold gauss2. pose proof PI_RGT_0. apply Rdiv_lt_0_compat; [apply exp_pos|]. assert (0 < v ^ 2) by (apply pow_lt; exact Hv). nra. }
  apply St with a; [intros x; apply Pos; intros y; apply P; lra|intros x; apply Pos; intros y; apply P; lra| |exact Ha|].
  - intros x. assert (M : forall l, Rprod (miss w v sp' x) l <= Rprod (miss w v sp x) l).
    { induction l as [|y l IH]; cbn [Rprod fold_right]; [lra|]. fold (Rprod (miss w v sp' x) l) (Rprod (miss w v sp x) l).
      apply Rmult_le_compat; [left; apply P; lra|left; apply Pos; intros z; apply P; lra|apply Le|exact IH]. }
    apply M.
  - apply St with b; [intros y; apply P; lra|intros y; apply P; lra|intros y; apply Le|exact Hb|exact Lt].
Qed.

(** The parameter sp is ordered like the nucleon-nucleon cross section it stands
    for. *)
Theorem C74_sigma : forall w sp sp' : R, 0 < w -> 0 < sp -> 0 < sp' ->
  (sp < sp' <-> disc_cross_section (6 * w) sp w < disc_cross_section (6 * w) sp' w).
Proof.
  intros w sp sp' Hw Hs Hs'. destruct Ei_exists as (Ei & HEi). split; [apply (C36_unique Ei HEi); assumption|]. intros L.
  destruct (Rtotal_order sp sp') as [H|[H|H]]; [exact H|subst; lra|].
  apply (C36_unique Ei HEi w sp' sp Hw Hs' Hs) in H. lra.
Qed.
