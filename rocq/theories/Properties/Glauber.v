(** C57: at given positions the pairs collide independently, and what follows for
    the participants, the binary collisions and the chance that nothing collides. *)
From Coq Require Import Reals Lra.
From Verif.Base Require Import Result Arith RArith Rng.
From Verif.Model Require Import Config Random Nucleon Nucleus Collider.
From Verif.Spec Require Import Profile Law History Glauber.
From Verif.Proof Require Import Basics RBasics Sampling LawP GlauberP.
From Verif.Properties Require Import Ncoll.
Local Open Scope R_scope.

(** The situation: uniform independent variates, one Gaussian constituent per
    nucleon, freshly sampled nuclei (no participants, no constituents yet: C28). *)
Record glauber (U : (R -> R) -> R) (D : shapes RA) (cfg : config RA) (sp : R) (co : collider RA) (As Bs : list (nucleon RA)) : Prop := {
  gl_uniform : uniform U;
  gl_canonical : forall u, sh_canonical D u = u;
  gl_w : 0 <= nucleon_width cfg;
  gl_v : 0 < constit_width cfg;
  gl_sigma : 0 <= sp;
  gl_one : constit_number cfg = 1%Z;
  gl_nc : co_nc co = nucleon_common_of cfg sp;
  gl_ncoll : co_calc_ncoll co = ncoll cfg;
  gl_A : Forall is_reset As;
  gl_B : Forall is_reset Bs
}.

(** What is seen of a pass over all pairs: participants of A, of B, the count, and
    whether anything collided; [other] if it failed. *)
Definition seen {X} (f : list bool -> list bool -> Z -> bool -> X) (other : X) (r : result (list (nucleon RA) * list (nucleon RA) * Z * bool)) : X :=
  match r with Ret (As, Bs, n, c) => f (map n_part As) (map n_part Bs) n c | _ => other end.

Lemma reset_single l : Forall is_reset l -> Forall single l.
Proof. apply Forall_impl. intros n [_ E] H. congruence. Qed.
Lemma reset_flags (l : list (nucleon RA)) : Forall is_reset l -> map n_part l = repeat false (length l).
Proof. induction 1 as [|n l [P _] _ IH]; [reflexivity|]. cbn. rewrite P, IH. reflexivity. Qed.
Lemma misses_length w v s As Bs : length (misses w v s As Bs) = (length As * length Bs)%nat.
Proof. unfold misses. induction As as [|a As IH]; [reflexivity|]. cbn [flat_map]. rewrite app_length, map_length, IH. reflexivity. Qed.

(** With --ncoll. *)
Theorem C57_law : forall U D cfg sp co As Bs, glauber U D cfg sp co As Bs -> ncoll cfg = true ->
  forall seed ns gs (f : list bool -> list bool -> Z -> bool -> R) other,
  mean_of (A:=RA) U (on_tape ns gs (pair_loop (ideal D seed) co As Bs 0 false)) (seen f other)
    (trials (misses (nucleon_width cfg) (constit_width cfg) sp As Bs) (fun hs =>
       f (hit_in_A (length As) (length Bs) hs) (hit_in_B (length As) (length Bs) hs) (count_true hs) (any hs))).
Proof.
  intros U D cfg sp co As Bs [HU HD Hw Hv Hs H1 Hco Hcc HA HB] Hn seed ns gs f other.
  exists (p_pairs D ns gs co As Bs 0 false). split.
  - intros t. apply rplans_on_tape. apply p_pairs_ok.
  - rewrite (pairs_law U HU D ns gs HD cfg sp Hw Hv Hs H1 Hn co Hco Hcc As Bs 0 false _ f (reset_single _ HA) (reset_single _ HB)); [|reflexivity].
    apply trials_ext. intros hs Lh. rewrite misses_length in Lh.
    rewrite (summary_spec (length Bs) (map n_part As) 0) by (rewrite map_length; auto). rewrite map_length, !reset_flags by assumption.
    rewrite !merge_false by (rewrite map_length, seq_length; reflexivity). rewrite Z.add_0_l, orb_false_r. reflexivity.
Qed.

(** With or without --ncoll, apart from the count. *)
Theorem C57_participants : forall U D cfg sp co As Bs, glauber U D cfg sp co As Bs ->
  forall seed ns gs (f : list bool -> list bool -> bool -> R) other,
  mean_of (A:=RA) U (on_tape ns gs (pair_loop (ideal D seed) co As Bs 0 false)) (seen (fun a b _ c => f a b c) other)
    (trials (misses (nucleon_width cfg) (constit_width cfg) sp As Bs) (fun hs =>
       f (hit_in_A (length As) (length Bs) hs) (hit_in_B (length As) (length Bs) hs) (any hs))).
Proof.
  intros U D cfg sp co As Bs G seed ns gs f other. destruct (ncoll cfg) eqn:En.
  - exact (C57_law U D cfg sp co As Bs G En seed ns gs (fun a b _ c => f a b c) other).
  - exists (p_pairs D ns gs co As Bs 0 false). split; [intros t; apply rplans_on_tape, p_pairs_ok|].
    destruct G as [HU HD Hw Hv Hs H1 Hco Hcc HA HB].
    assert (G' : glauber U D (ncoll_option true cfg) sp (ncoll_mode true co) As Bs).
    { constructor; try assumption; [|reflexivity]. cbn [ncoll_mode co_nc]. rewrite Hco. reflexivity. }
    destruct (C57_law _ _ _ _ _ _ _ G' eq_refl seed ns gs (fun a b _ c => f a b c) other) as (p & Hp & E).
    cbn [ncoll_option nucleon_width constit_width] in E. rewrite <- E.
    assert (Eo : ncoll_mode false co = co).
    { destruct co as [nc nev cc bm bx asy ws]. cbn in *. subst nc cc. rewrite En. unfold ncoll_mode, ncoll_common. cbn. f_equal.
      unfold nucleon_common_of. cbn. rewrite En. reflexivity. }
    transitivity (mean (A:=RA) U (seen (fun a b (_ : Z) c => f a b c) other) (p_pairs D ns gs (ncoll_mode true co) As Bs 0 false)).
    + rewrite <- Eo at 1. symmetry.
      eapply (coupled_mean (A:=RA) U (un_averages _ HU)); [apply (couple_pairs D ns gs co As Bs 0 0 false); apply reset_settled; assumption|].
      intros [[[[a b] n] c]| | |] [[[[a' b'] n'] c']| | |] H; cbn in H; try contradiction; try reflexivity.
      destruct H as (-> & -> & -> & _). reflexivity.
    + apply (mean_unique (A:=RA) U (un_averages _ HU)). intros t. rewrite <- Hp.
      rewrite (rplans_on_tape D seed ns gs (pair_loop (ideal D seed) (ncoll_mode true co) As Bs 0 false) _ (p_pairs_ok D seed ns gs _ _ _ _ _) t). reflexivity.
Qed.

(** ** Products *)
Lemma Rprod_ext {X} (f g : X -> R) l : (forall x, In x l -> f x = g x) -> Rprod f l = Rprod g l.
Proof. unfold Rprod. induction l as [|x l IH]; intros H; [reflexivity|]. cbn. rewrite H by (left; reflexivity). f_equal. apply IH. intros y Hy. apply H. right. exact Hy. Qed.
Lemma Rprod_app {X} (f : X -> R) l l' : Rprod f (l ++ l') = Rprod f l * Rprod f l'.
Proof. unfold Rprod. induction l as [|x l IH]; cbn; [lra|]. rewrite IH. lra. Qed.
Lemma Rprod_map {X Y} (g : X -> Y) (f : Y -> R) l : Rprod f (map g l) = Rprod (fun x => f (g x)) l.
Proof. unfold Rprod. induction l as [|x l IH]; [reflexivity|]. cbn. rewrite IH. reflexivity. Qed.
Lemma Rprod_flat_map {X Y} (g : X -> list Y) (f : Y -> R) l : Rprod f (flat_map g l) = Rprod (fun x => Rprod f (g x)) l.
Proof. induction l as [|x l IH]; [reflexivity|]. cbn [flat_map]. rewrite Rprod_app, IH. reflexivity. Qed.
Lemma Rprod_filter {X} (S : X -> bool) (f : X -> R) l : Rprod f (filter S l) = Rprod (fun x => if S x then f x else 1) l.
Proof. unfold Rprod. induction l as [|x l IH]; [reflexivity|]. cbn. destruct (S x); cbn; rewrite IH; lra. Qed.
Lemma Rprod_one {X} (l : list X) : Rprod (fun _ => 1) l = 1.
Proof. unfold Rprod. induction l as [|x l IH]; [reflexivity|]. cbn. rewrite IH. lra. Qed.
Lemma Rprod_pick (f : nat -> R) i : forall n s, (s <= i < s + n)%nat -> Rprod (fun k => if Nat.eqb k i then f k else 1) (seq s n) = f i.
Proof.
  induction n as [|n IH]; intros s H; [lia|]. cbn [seq]. change (Rprod ?g (s :: ?l)) with (g s * Rprod g l). cbv beta.
  destruct (Nat.eqb_spec s i) as [->|N].
  - rewrite (Rprod_ext _ (fun _ => 1)); [rewrite Rprod_one; lra|]. intros k Hk. apply in_seq in Hk. destruct (Nat.eqb_spec k i); [lia|reflexivity].
  - rewrite IH by lia. lra.
Qed.
Lemma map_nth_seq {X} (d : X) l : map (fun i => nth i l d) (seq 0 (length l)) = l.
Proof.
  induction l as [|x l IH]; [reflexivity|]. cbn [length seq map nth]. f_equal. rewrite <- seq_shift, map_map. exact IH.
Qed.

Section Pairs.
Variables (w v s : R) (As Bs : list (nucleon RA)).
Definition q_of (p : nat * nat) : R := miss w v s (nth (fst p) As (nucleon_zero (A:=RA))) (nth (snd p) Bs (nucleon_zero (A:=RA))).
Lemma misses_pairs : misses w v s As Bs = map q_of (all_pairs (length As) (length Bs)).
Proof.
  unfold misses, all_pairs. rewrite flat_map_concat_map, flat_map_concat_map, concat_map, map_map. f_equal.
  rewrite <- (map_nth_seq (nucleon_zero (A:=RA)) As) at 1. rewrite map_map. apply map_ext. intros i.
  rewrite map_map. rewrite <- (map_nth_seq (nucleon_zero (A:=RA)) Bs) at 1. rewrite map_map. reflexivity.
Qed.
Lemma prod_row i a : nth_error As i = Some a ->
  Rprod q_of (filter (fun p => Nat.eqb (fst p) i) (all_pairs (length As) (length Bs))) = Rprod (miss w v s a) Bs.
Proof.
  intros Ha. rewrite Rprod_filter. unfold all_pairs. rewrite Rprod_flat_map.
  assert (Li : (i < length As)%nat) by (apply nth_error_Some; congruence).
  transitivity (Rprod (fun k => if Nat.eqb k i then Rprod (miss w v s (nth k As (nucleon_zero (A:=RA)))) Bs else 1) (seq 0 (length As))).
  - apply Rprod_ext. intros k _. rewrite Rprod_map. cbn [fst snd]. destruct (Nat.eqb k i); [|apply Rprod_one].
    rewrite <- (map_nth_seq (nucleon_zero (A:=RA)) Bs) at 2. rewrite Rprod_map. reflexivity.
  - rewrite Rprod_pick by lia. rewrite (nth_error_nth _ _ _ Ha). reflexivity.
Qed.
Lemma prod_col j b : nth_error Bs j = Some b ->
  Rprod q_of (filter (fun p => Nat.eqb (snd p) j) (all_pairs (length As) (length Bs))) = Rprod (fun a => miss w v s a b) As.
Proof.
  intros Hb. rewrite Rprod_filter. unfold all_pairs. rewrite Rprod_flat_map.
  assert (Lj : (j < length Bs)%nat) by (apply nth_error_Some; congruence).
  rewrite <- (map_nth_seq (nucleon_zero (A:=RA)) As) at 2. rewrite Rprod_map. apply Rprod_ext. intros k _. rewrite Rprod_map. cbn [fst snd].
  rewrite Rprod_pick by lia. unfold q_of. cbn [fst snd]. rewrite (nth_error_nth _ _ _ Hb). reflexivity.
Qed.
End Pairs.

Lemma nth_flag (g : nat -> bool) n i : (i < n)%nat -> nth i (map g (seq 0 n)) false = g i.
Proof. intros H. rewrite (nth_indep _ false (g 0%nat)) by (rewrite map_length, seq_length; exact H). rewrite map_nth, seq_nth by exact H. reflexivity. Qed.

(** Nucleon i of A participates with probability 1 - prod_j q_ij. *)
Theorem C57_participant_A : forall U D cfg sp co As Bs, glauber U D cfg sp co As Bs ->
  forall seed ns gs i a, nth_error As i = Some a ->
  mean_of (A:=RA) U (on_tape ns gs (pair_loop (ideal D seed) co As Bs 0 false)) (seen (fun fa _ _ _ => indicator (nth i fa false)) 0)
    (1 - Rprod (fun b => miss (nucleon_width cfg) (constit_width cfg) sp a b) Bs).
Proof.
  intros U D cfg sp co As Bs G seed ns gs i a Ha.
  destruct (C57_participants U D cfg sp co As Bs G seed ns gs (fun fa _ _ => indicator (nth i fa false)) 0) as (p & Hp & E).
  exists p. split; [exact Hp|]. rewrite E. clear p Hp E.
  assert (Li : (i < length As)%nat) by (apply nth_error_Some; congruence).
  rewrite misses_pairs, <- (prod_row _ _ _ As Bs i a Ha), <- trials_some. apply trials_ext. intros hs _.
  unfold hit_in_A. rewrite nth_flag by exact Li. reflexivity.
Qed.
Theorem C57_participant_B : forall U D cfg sp co As Bs, glauber U D cfg sp co As Bs ->
  forall seed ns gs j b, nth_error Bs j = Some b ->
  mean_of (A:=RA) U (on_tape ns gs (pair_loop (ideal D seed) co As Bs 0 false)) (seen (fun _ fb _ _ => indicator (nth j fb false)) 0)
    (1 - Rprod (fun a => miss (nucleon_width cfg) (constit_width cfg) sp a b) As).
Proof.
  intros U D cfg sp co As Bs G seed ns gs j b Hb.
  destruct (C57_participants U D cfg sp co As Bs G seed ns gs (fun _ fb _ => indicator (nth j fb false)) 0) as (p & Hp & E).
  exists p. split; [exact Hp|]. rewrite E. clear p Hp E.
  assert (Lj : (j < length Bs)%nat) by (apply nth_error_Some; congruence).
  rewrite misses_pairs, <- (prod_col _ _ _ As Bs j b Hb), <- trials_some. apply trials_ext. intros hs _.
  unfold hit_in_B. rewrite nth_flag by exact Lj. reflexivity.
Qed.

(** Nothing collides with probability prod_ij q_ij. *)
Theorem C57_no_collision : forall U D cfg sp co As Bs, glauber U D cfg sp co As Bs ->
  forall seed ns gs,
  mean_of (A:=RA) U (on_tape ns gs (pair_loop (ideal D seed) co As Bs 0 false)) (seen (fun _ _ _ c => indicator (negb c)) 0)
    (Rprod (fun a => Rprod (fun b => miss (nucleon_width cfg) (constit_width cfg) sp a b) Bs) As).
Proof.
  intros U D cfg sp co As Bs G seed ns gs.
  destruct (C57_participants U D cfg sp co As Bs G seed ns gs (fun _ _ c => indicator (negb c)) 0) as (p & Hp & E).
  exists p. split; [exact Hp|]. rewrite E. clear p Hp E.
  transitivity (Rprod (q_of (nucleon_width cfg) (constit_width cfg) sp As Bs) (filter (fun _ => true) (all_pairs (length As) (length Bs)))).
  - rewrite <- trials_none, <- misses_pairs. apply trials_ext. intros hs Lh. f_equal. f_equal.
    rewrite misses_pairs, map_length in Lh. revert Lh. generalize (all_pairs (length As) (length Bs)). clear.
    induction hs as [|h hs IH]; intros [|p ps] L; try discriminate L; [reflexivity|]. cbn [any existsb combine fst snd andb]. f_equal. apply IH. cbn in L. congruence.
  - transitivity (Rprod (fun x => x) (misses (nucleon_width cfg) (constit_width cfg) sp As Bs)).
    + rewrite misses_pairs, Rprod_map. f_equal. generalize (all_pairs (length As) (length Bs)). induction l as [|x l IH]; [reflexivity|]. cbn. rewrite IH. reflexivity.
    + unfold misses. rewrite Rprod_flat_map. apply Rprod_ext. intros a _. rewrite Rprod_map. reflexivity.
Qed.

(** Mean numbers of binary collisions and of participants. *)
Theorem C57_mean_ncoll : forall U D cfg sp co As Bs, glauber U D cfg sp co As Bs -> ncoll cfg = true ->
  forall seed ns gs,
  mean_of (A:=RA) U (on_tape ns gs (pair_loop (ideal D seed) co As Bs 0 false)) (seen (fun _ _ n _ => IZR n) 0)
    (Rsum (fun a => Rsum (fun b => 1 - miss (nucleon_width cfg) (constit_width cfg) sp a b) Bs) As).
Proof.
  intros U D cfg sp co As Bs G Hn seed ns gs.
  destruct (C57_law U D cfg sp co As Bs G Hn seed ns gs (fun _ _ n _ => IZR n) 0) as (p & Hp & E).
  exists p. split; [exact Hp|]. rewrite E. clear p Hp E.
  rewrite misses_pairs, trials_count. rewrite <- (Rsum_map (q_of _ _ _ As Bs) (fun x => 1 - x)), <- misses_pairs.
  unfold misses. induction As as [|a As' IH] in |- *; [reflexivity|]. cbn [flat_map]. rewrite Rsum_app, IH, Rsum_map. reflexivity.
Qed.
Theorem C57_mean_npart : forall U D cfg sp co As Bs, glauber U D cfg sp co As Bs ->
  forall seed ns gs,
  mean_of (A:=RA) U (on_tape ns gs (pair_loop (ideal D seed) co As Bs 0 false)) (seen (fun fa fb _ _ => IZR (count_true fa + count_true fb)) 0)
    (Rsum (fun a => 1 - Rprod (fun b => miss (nucleon_width cfg) (constit_width cfg) sp a b) Bs) As
     + Rsum (fun b => 1 - Rprod (fun a => miss (nucleon_width cfg) (constit_width cfg) sp a b) As) Bs).
Proof.
  intros U D cfg sp co As Bs G seed ns gs.
  destruct (C57_participants U D cfg sp co As Bs G seed ns gs (fun fa fb _ => IZR (count_true fa + count_true fb)) 0) as (p & Hp & E).
  exists p. split; [exact Hp|]. rewrite E. clear p Hp E.
  assert (C : forall (g : nat -> bool) l, IZR (count_true (map g l)) = Rsum (fun k => indicator (g k)) l).
  { intros g l. unfold Rsum. induction l as [|k l IH]; [reflexivity|]. cbn [map fold_right]. rewrite count_cons, plus_IZR, IH. destruct (g k); reflexivity. }
  rewrite (trials_ext _ _ (fun hs => Rsum (fun i => indicator (existsb (inA i) (combine (all_pairs (length As) (length Bs)) hs))) (seq 0 (length As))
    + Rsum (fun j => indicator (existsb (inB j) (combine (all_pairs (length As) (length Bs)) hs))) (seq 0 (length Bs)))).
  2: { intros hs _. rewrite plus_IZR. unfold hit_in_A, hit_in_B. rewrite !C. reflexivity. }
  rewrite trials_add, !trials_sum. f_equal.
  - transitivity (Rsum (fun a => 1 - Rprod (fun b => miss (nucleon_width cfg) (constit_width cfg) sp a b) Bs) (map (fun i => nth i As (nucleon_zero (A:=RA))) (seq 0 (length As)))); [|rewrite map_nth_seq; reflexivity].
    rewrite Rsum_map. apply Rsum_ext. intros i Hi. apply in_seq in Hi.
    rewrite <- (prod_row _ _ _ As Bs i) by (apply nth_error_nth'; lia). rewrite misses_pairs. exact (trials_some (fun p => Nat.eqb (fst p) i) _ _).
  - transitivity (Rsum (fun b => 1 - Rprod (fun a => miss (nucleon_width cfg) (constit_width cfg) sp a b) As) (map (fun i => nth i Bs (nucleon_zero (A:=RA))) (seq 0 (length Bs)))); [|rewrite map_nth_seq; reflexivity].
    rewrite Rsum_map. apply Rsum_ext. intros j Hj. apply in_seq in Hj.
    rewrite <- (prod_col _ _ _ As Bs j) by (apply nth_error_nth'; lia). rewrite misses_pairs. exact (trials_some (fun p => Nat.eqb (snd p) j) _ _).
Qed.
