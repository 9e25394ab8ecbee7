(** Independent trials, and the law of a pass over all pairs. *)
From Coq Require Import Reals Lra.
From Verif.Base Require Import Result Arith RArith Rng.
From Verif.Model Require Import Config Random Nucleon Nucleus Collider.
From Verif.Spec Require Import Profile Law History Glauber.
From Verif.Proof Require Import Basics RBasics LawP.
From Verif.Properties Require Import Events.
Local Open Scope R_scope.

(** ** Trials *)
Lemma trials_ext qs : forall f g, (forall hs, length hs = length qs -> f hs = g hs) -> trials qs f = trials qs g.
Proof.
  induction qs as [|q qs IH]; intros f g H; cbn [trials]; [apply H; reflexivity|].
  f_equal; f_equal; apply IH; intros hs L; apply H; cbn; congruence.
Qed.
Lemma trials_app qs qs' : forall f, trials (qs ++ qs') f = trials qs (fun hs => trials qs' (fun hs' => f (hs ++ hs')%list)).
Proof. induction qs as [|q qs IH]; intros f; cbn [trials app]; [reflexivity|]. rewrite !IH. reflexivity. Qed.
Lemma trials_const qs c : trials qs (fun _ => c) = c.
Proof. induction qs as [|q qs IH]; cbn [trials]; [reflexivity|]. rewrite IH. lra. Qed.
Lemma trials_add qs : forall f g, trials qs (fun hs => f hs + g hs) = trials qs f + trials qs g.
Proof. induction qs as [|q qs IH]; intros f g; cbn [trials]; [reflexivity|]. rewrite !IH. lra. Qed.
Lemma trials_scale qs c : forall f, trials qs (fun hs => c * f hs) = c * trials qs f.
Proof. induction qs as [|q qs IH]; intros f; cbn [trials]; [reflexivity|]. rewrite !IH. lra. Qed.
Lemma trials_sum {X} qs (l : list X) : forall f : X -> list bool -> R, trials qs (fun hs => Rsum (fun x => f x hs) l) = Rsum (fun x => trials qs (f x)) l.
Proof.
  intros f. induction l as [|x l IH]; [exact (trials_const qs 0)|]. unfold Rsum in *. cbn [fold_right]. rewrite trials_add, IH. reflexivity.
Qed.

(** None of the trials selected by [S] succeeds. *)
Lemma trials_none {X} (S : X -> bool) (q : X -> R) ps :
  trials (map q ps) (fun hs => indicator (negb (existsb (fun ph => S (fst ph) && snd ph) (combine ps hs)))) = Rprod q (filter S ps).
Proof.
  induction ps as [|p ps IH]; [reflexivity|]. cbn [map trials combine existsb fst snd filter].
  destruct (S p); cbn [andb orb].
  - rewrite (trials_const _ (indicator (negb true))), IH. cbn. fold (Rprod q (filter S ps)). lra.
  - rewrite IH. lra.
Qed.
Lemma trials_some {X} (S : X -> bool) (q : X -> R) ps :
  trials (map q ps) (fun hs => indicator (existsb (fun ph => S (fst ph) && snd ph) (combine ps hs))) = 1 - Rprod q (filter S ps).
Proof.
  rewrite <- trials_none. rewrite <- (trials_const (map q ps) 1) at 1.
  transitivity (trials (map q ps) (fun hs => 1 + (-1) * indicator (negb (existsb (fun ph => S (fst ph) && snd ph) (combine ps hs))))).
  - apply trials_ext. intros hs _. destruct (existsb _ _); cbn; lra.
  - rewrite trials_add, trials_scale, !trials_const. lra.
Qed.
Lemma trials_count {X} (q : X -> R) ps :
  trials (map q ps) (fun hs => IZR (count_true hs)) = Rsum (fun p => 1 - q p) ps.
Proof.
  induction ps as [|p ps IH]; [reflexivity|]. cbn [map trials Rsum fold_right]. fold (Rsum (fun p => 1 - q p) ps). rewrite <- IH.
  transitivity ((1 - q p) * trials (map q ps) (fun hs => 1 + IZR (count_true hs)) + q p * trials (map q ps) (fun hs => IZR (count_true hs))).
  - f_equal. f_equal. apply trials_ext. intros hs _. unfold count_true. cbn [filter length]. rewrite Nat2Z.inj_succ, succ_IZR. lra.
  - rewrite trials_add, trials_const. lra.
Qed.

(** ** Means *)
Lemma mean_pbind {A X Y} (U : (num A -> R) -> R) (HU : averages U) (F : result Y -> R) (p : plan A (result X)) (k : X -> plan A (result Y)) :
  mean U F (pbind p k) = mean U (fun r => match r with Ret x => mean U F (k x) | Throw e => F (Throw e) | UB u => F (UB u) | OutOfFuel => F OutOfFuel end) p.
Proof.
  induction p as [[x| | |]|next IH]; try reflexivity. cbn [pbind mean]. apply (av_ext _ HU). exact IH.
Qed.

Section Pass.
Variable U : (R -> R) -> R.
Hypothesis HU : uniform U.
Variables (D : shapes RA) (seed : Z -> tape RA) (ns gs : R * R).
Hypothesis HD : forall u, sh_canonical D u = u.
Variables (cfg : config RA) (sp : R).
Hypothesis Hw : 0 <= nucleon_width cfg.
Hypothesis Hv : 0 < constit_width cfg.
Hypothesis Hs : 0 <= sp.
Hypothesis H1 : constit_number cfg = 1%Z.
Hypothesis Hn : ncoll cfg = true.
Variable co : collider RA.
Hypothesis Hco : co_nc co = nucleon_common_of cfg sp.
Hypothesis Hcc : co_calc_ncoll co = ncoll cfg.
Notation mu := (mean (A:=RA) U).
Notation q := (miss (nucleon_width cfg) (constit_width cfg) sp).

Definition single (n : nucleon RA) : Prop := n_cexist n = true -> exists f, n_cons n = [@Constituent RA (n_x n) (n_y n) f].
Definition like (n n' : nucleon RA) : Prop := n_x n' = n_x n /\ n_y n' = n_y n /\ single n'.
Lemma like_refl n : single n -> like n n. Proof. intros H. repeat split; assumption. Qed.
Lemma like_trans a b c : like a b -> like b c -> like a c.
Proof. intros (X1 & Y1 & _) (X2 & Y2 & S). split; [congruence|]. split; [congruence|exact S]. Qed.
Lemma like_miss a a' b b' : like a a' -> like b b' -> q a' b' = q a b.
Proof. intros (X1 & Y1 & _) (X2 & Y2 & _). unfold miss. rewrite X1, Y1, X2, Y2. reflexivity. Qed.

Lemma miss_range a b : 0 <= q a b <= 1.
Proof.
  unfold miss. destruct (Rlt_dec _ _); [lra|]. split; [apply Rlt_le, exp_pos|].
  rewrite <- exp_0. assert (G : 0 <= gauss2 (2 * constit_width cfg ^ 2) (n_x a - n_x b) (n_y a - n_y b)).
  { unfold gauss2. pose proof PI_RGT_0. apply Rlt_le, Rdiv_lt_0_compat; [apply exp_pos|]. apply Rmult_lt_0_compat; [lra|]. nra. }
  assert (L : - (sp * gauss2 (2 * constit_width cfg ^ 2) (n_x a - n_x b) (n_y a - n_y b)) <= 0) by nra.
  destruct L as [L|L]; [apply Rlt_le, exp_increasing, L|rewrite L; apply Rle_refl].
Qed.

(** Constituents: one, at the nucleon. *)
Lemma constituents_law n Y (F : result Y -> R) k v : single n ->
  (forall n', like n n' -> n_part n' = n_part n -> n_cexist n' = true -> mu F (k n') = v) ->
  mu F (pbind (p_constituents D ns gs (co_nc co) n) k) = v.
Proof.
  intros Sn H. unfold p_constituents. destruct (n_cexist n) eqn:E.
  - cbn [pbind]. apply H; [apply like_refl; exact Sn|reflexivity|exact E].
  - assert (M : nc_number (co_nc co) = 1%Z) by (rewrite Hco; cbn; rewrite H1; reflexivity). rewrite M.
    change (cons_max_size <? 1)%Z with false. cbv iota.
    change (Z.to_nat 1) with 1%nat. cbn [p_local pbind mean]. pose proof (un_averages _ HU) as Av.
    assert (C : forall g : R -> R, (forall x, g x = v) -> U g = v).
    { intros g Hg. rewrite <- (av_const _ Av v). apply (av_ext _ Av). exact Hg. }
    apply C. intros x. apply C. intros y. apply C. intros z. apply H; [|reflexivity|reflexivity].
    split; [reflexivity|]. split; [reflexivity|]. intros _. eexists. cbn [n_cons map n_x n_y q_x q_y q_fluct]. f_equal. f_equal; toR; rlits; field.
Qed.

Lemma pair_law a b (F : result (bool * nucleon RA * nucleon RA) -> R) v1 v0 : single a -> single b ->
  (forall a' b', like a a' -> like b b' -> n_part a' = true -> n_part b' = true -> F (Ret (true, a', b')) = v1) ->
  (forall a' b', like a a' -> like b b' -> n_part a' = n_part a -> n_part b' = n_part b -> F (Ret (false, a', b')) = v0) ->
  mu F (p_participate D ns gs (co_nc co) a b) = (1 - q a b) * v1 + q a b * v0.
Proof.
  intros Sa Sb F1 F0. unfold p_participate.
  replace (nc_calc_ncoll (co_nc co)) with true by (rewrite Hco; cbn; auto). rewrite andb_false_r. cbv iota.
  destruct (in_range_is_distance cfg sp a b Hw) as [I1 I2]. rewrite I2 in I1. unfold in_range in I1. rewrite <- Hco in I1.
  assert (Q : q a b = if nltb RA (nc_max_impact_sq (co_nc co)) (nadd RA (sqr (nsub RA (n_x a) (n_x b))) (sqr (nsub RA (n_y a) (n_y b))))
     then 1 else exp (- (sp * gauss2 (2 * constit_width cfg ^ 2) (n_x a - n_x b) (n_y a - n_y b)))).
  { unfold miss. destruct (nltb RA _ _) eqn:E.
    - destruct (Rlt_dec _ _) as [L|L]; [reflexivity|]. exfalso. apply Rnot_lt_le in L. apply I1 in L. congruence.
    - destruct (Rlt_dec _ _) as [L|L]; [|reflexivity]. exfalso. pose proof (proj1 I1 eq_refl). lra. }
  destruct (nltb RA _ _).
  - cbn [mean]. rewrite Q, (F0 a b); [lra| | |reflexivity|reflexivity]; apply like_refl; assumption.
  - apply constituents_law; [exact Sa|]. intros a' La Pa Ca. apply constituents_law; [exact Sb|]. intros b' Lb Pb Cb.
    cbn [mean].
    assert (P : one_minus_prob (co_nc co) (n_cons a') (n_cons b') = q a b).
    { rewrite Hco, C24_probability by (try assumption; rewrite H1; lia).
      destruct La as (Xa & Ya & Ka). destruct Lb as (Xb & Yb & Kb). destruct (Ka Ca) as [fa Ea]. destruct (Kb Cb) as [fb Eb].
      rewrite Ea, Eb, Q. unfold T_AB, Rsum. cbn [fold_right q_x q_y]. rewrite Xa, Ya, Xb, Yb, H1. f_equal. f_equal. f_equal. field. }
    transitivity (U (fun u => if Rlt_dec (q a b) u then v1 else v0)).
    + apply (av_ext _ (un_averages _ HU)). intros u. rewrite HD, P. unfold nltb at 1. cbn [RA RA_with]. unfold Rltb.
      destruct (Rlt_dec (q a b) u).
      * apply F1; [| |unfold set_participant; destruct (n_part a') eqn:E; [exact E|reflexivity]|unfold set_participant; destruct (n_part b') eqn:E; [exact E|reflexivity]].
        -- eapply like_trans; [exact La|]. unfold set_participant. destruct (n_part a'); [apply like_refl; apply La|]. split; [reflexivity|]. split; [reflexivity|]. exact (proj2 (proj2 La)).
        -- eapply like_trans; [exact Lb|]. unfold set_participant. destruct (n_part b'); [apply like_refl; apply Lb|]. split; [reflexivity|]. split; [reflexivity|]. exact (proj2 (proj2 Lb)).
      * apply F0; assumption.
    + apply (un_above _ HU). apply miss_range.
Qed.

(** A row. *)
Lemma count_cons h hs : count_true (h :: hs) = ((if h then 1 else 0) + count_true hs)%Z.
Proof. unfold count_true. destruct h; cbn [filter length]; lia. Qed.
Fixpoint merge (fs hs : list bool) : list bool :=
  match fs, hs with f :: fs', h :: hs' => (f || h) :: merge fs' hs' | _, _ => [] end.

Lemma row_law bs : forall a nc c (F : result (nucleon RA * list (nucleon RA) * Z * bool) -> R) f, single a -> Forall single bs ->
  (forall a' bs' nc' c', like a a' -> Forall2 like bs bs' -> F (Ret (a', bs', nc', c')) = f (n_part a') (map n_part bs') nc' c') ->
  mu F (p_row D ns gs co a bs nc c)
  = trials (map (q a) bs) (fun hs => f (n_part a || any hs) (merge (map n_part bs) hs) (nc + count_true hs)%Z (any hs || c)).
Proof.
  induction bs as [|b bs IH]; intros a nc c F f Sa Sb H.
  - cbn [p_row mean map trials any existsb merge]. rewrite H; [|apply like_refl; exact Sa|constructor].
    cbn [map]. rewrite orb_false_r. unfold count_true. cbn. rewrite Z.add_0_r. reflexivity.
  - inversion Sb as [|? ? Sb1 Sb2]; subst. cbn [p_row]. rewrite mean_pbind by apply HU.
    cbn [map trials].
    assert (K : forall h a1 b1, like a a1 -> like b b1 ->
      mu F (pbind (p_row D ns gs co a1 bs (if h && co_calc_ncoll co then (nc + 1)%Z else nc) (h || c)) (fun r =>
          let '(a'', bs'', nc'', c') := r in Done (Ret (a'', b1 :: bs'', nc'', c'))))
      = trials (map (q a) bs) (fun hs => f (n_part a1 || any hs) (n_part b1 :: merge (map n_part bs) hs)
          ((if h then nc + 1 else nc) + count_true hs)%Z (any hs || (h || c)))).
    { intros h a1 b1 La Lb. rewrite mean_pbind by apply HU.
      rewrite (IH a1 _ _ _ (fun pa fbs n c' => f pa (n_part b1 :: fbs) n c')).
      - rewrite Hcc, Hn, andb_true_r. f_equal. apply map_ext_in. intros b' Hb. apply like_miss; [exact La|]. apply like_refl. rewrite Forall_forall in Sb2. apply Sb2, Hb.
      - apply La.
      - exact Sb2.
      - intros a' bs' nc' c' La' Lbs. cbn [mean]. rewrite H; [reflexivity|eapply like_trans; eassumption|]. constructor; assumption. }
    erewrite (pair_law a b _ _ _ Sa Sb1); cycle 1.
    + intros a1 b1 La Lb Pa Pb. cbv iota beta. rewrite (K true a1 b1 La Lb), Pa, Pb. reflexivity.
    + intros a1 b1 La Lb Pa Pb. cbv iota beta. rewrite (K false a1 b1 La Lb), Pa, Pb. reflexivity.
    + f_equal; f_equal; apply trials_ext; intros hs _; cbn [any existsb merge map orb]; rewrite ?count_cons, ?orb_true_r, ?orb_false_r; f_equal; lia || (destruct (existsb _ hs); reflexivity) || reflexivity.
Qed.

(** All rows. *)
Fixpoint summary (fas fbs hs : list bool) (nc : Z) (c : bool) : list bool * list bool * Z * bool :=
  match fas with
  | [] => ([], fbs, nc, c)
  | fa :: fas' =>
      let h := firstn (length fbs) hs in
      let '(ra, rb, n, c') := summary fas' (merge fbs h) (skipn (length fbs) hs) (nc + count_true h)%Z (any h || c) in
      ((fa || any h) :: ra, rb, n, c')
  end.
Notation ms := (misses (nucleon_width cfg) (constit_width cfg) sp).
Lemma flat_map_ext' {X Y} (f g : X -> list Y) l : (forall x, In x l -> f x = g x) -> flat_map f l = flat_map g l.
Proof. induction l as [|x l IH]; intros H; [reflexivity|]. cbn. rewrite H by (left; reflexivity). rewrite IH; [reflexivity|]. intros y Hy. apply H. right. exact Hy. Qed.
Lemma like_misses As : forall bs bs', Forall single As -> Forall2 like bs bs' -> ms As bs' = ms As bs.
Proof.
  intros bs bs' SA L. unfold misses. apply flat_map_ext'. intros a Ha.
  induction L as [|b b' bs bs' Lb L IH]; [reflexivity|]. cbn [map]. f_equal; [|exact IH].
  apply like_miss; [apply like_refl; rewrite Forall_forall in SA; apply SA, Ha|exact Lb].
Qed.
Lemma like_length l l' : Forall2 like l l' -> length l' = length l.
Proof. induction 1 as [|x y l l' _ _ IH]; cbn; congruence. Qed.
Lemma merge_length fs : forall hs, length hs = length fs -> length (merge fs hs) = length fs.
Proof. induction fs as [|f fs IH]; intros [|h hs] L; try discriminate L; [reflexivity|]. cbn. f_equal. apply IH. cbn in L. congruence. Qed.
Lemma like_singles l l' : Forall2 like l l' -> Forall single l'.
Proof. induction 1 as [|x y l l' H _ IH]; constructor; [apply H|exact IH]. Qed.
Lemma likes_refl l : Forall single l -> Forall2 like l l.
Proof. induction 1; constructor; [apply like_refl|]; assumption. Qed.
Lemma likes_trans l : forall l' l'', Forall2 like l l' -> Forall2 like l' l'' -> Forall2 like l l''.
Proof.
  induction l as [|x l IH]; intros l' l'' H1' H2'; inversion H1'; subst; inversion H2'; subst; constructor; [eapply like_trans; eassumption|eapply IH; eassumption].
Qed.

Lemma pairs_law As : forall bs nc c (F : result (list (nucleon RA) * list (nucleon RA) * Z * bool) -> R) f,
  Forall single As -> Forall single bs ->
  (forall As' bs' nc' c', Forall2 like As As' -> Forall2 like bs bs' -> F (Ret (As', bs', nc', c')) = f (map n_part As') (map n_part bs') nc' c') ->
  mu F (p_pairs D ns gs co As bs nc c)
  = trials (ms As bs) (fun hs => let '(ra, rb, n, c') := summary (map n_part As) (map n_part bs) hs nc c in f ra rb n c').
Proof.
  induction As as [|a As IH]; intros bs nc c F f SA Sb H.
  - cbn [p_pairs mean misses flat_map trials map summary]. apply (H [] bs); [constructor|apply likes_refl; exact Sb].
  - inversion SA as [|? ? Sa SA']; subst. cbn [p_pairs]. rewrite mean_pbind by apply HU.
    change (ms (a :: As) bs) with (map (q a) bs ++ ms As bs)%list. rewrite trials_app.
    rewrite (row_law bs a nc c _ (fun pa fbs n c1 => trials (ms As bs) (fun hs => let '(ra, rb, n', c') := summary (map n_part As) fbs hs n c1 in f (pa :: ra) rb n' c'))).
    + apply trials_ext. intros hr Lr. rewrite map_length in Lr. apply trials_ext. intros hs _.
      cbn [map summary]. rewrite map_length. rewrite firstn_app, skipn_app, Lr, Nat.sub_diag. cbn [firstn skipn].
      rewrite app_nil_r, <- Lr, firstn_all, skipn_all. cbn [app].
      destruct (summary _ _ hs _ _) as [[[ra rb] n'] c']. reflexivity.
    + exact Sa.
    + exact Sb.
    + intros a1 bs1 n1 c1 La Lb. rewrite mean_pbind by apply HU.
      rewrite (IH bs1 n1 c1 _ (fun ra rb n' c' => f (n_part a1 :: ra) rb n' c')).
      * rewrite (like_misses As bs bs1) by assumption. reflexivity.
      * exact SA'.
      * eapply like_singles; exact Lb.
      * intros As' bs' nc' c' LA LB. cbn [mean]. rewrite H; [reflexivity|constructor; assumption|eapply likes_trans; eassumption].
Qed.
End Pass.

(** ** The summary of all rows *)
Definition rows_from (i0 na n : nat) : list (nat * nat) := flat_map (fun i => map (fun j => (i, j)) (seq 0 n)) (seq i0 na).
Lemma merge_false m hs : length hs = m -> merge (repeat false m) hs = hs.
Proof. revert m. induction hs as [|h hs IH]; intros [|m] L; try discriminate L; [reflexivity|]. cbn. f_equal. apply IH. cbn in L. congruence. Qed.

Lemma combine_app {X Y} (l1 l2 : list X) (m : list Y) :
  (length l1 <= length m)%nat -> combine (l1 ++ l2) m = (combine l1 (firstn (length l1) m) ++ combine l2 (skipn (length l1) m))%list.
Proof. revert m. induction l1 as [|x l1 IH]; intros m L; [reflexivity|]. destruct m as [|y m]; cbn in L; [lia|]. cbn. f_equal. apply IH. lia. Qed.
Lemma existsb_ext_in {X} (f g : X -> bool) l : (forall x, In x l -> f x = g x) -> existsb f l = existsb g l.
Proof. induction l as [|x l IH]; intros H; [reflexivity|]. cbn. rewrite H by (left; reflexivity). f_equal. apply IH. intros y Hy. apply H. right. exact Hy. Qed.
Lemma existsb_none {X} (f : X -> bool) l : (forall x, In x l -> f x = false) -> existsb f l = false.
Proof. intros H. rewrite (existsb_ext_in f (fun _ => false)) by exact H. induction l; [reflexivity|]. cbn. apply IHl. intros x Hx. apply H. right. exact Hx. Qed.
Lemma count_app a b : count_true (a ++ b) = (count_true a + count_true b)%Z.
Proof. unfold count_true. rewrite filter_app, app_length. lia. Qed.
Lemma any_app a b : any (a ++ b) = any a || any b.
Proof. apply existsb_app. Qed.
Lemma merge_assoc fs : forall hs ks, merge (merge fs hs) ks = merge fs (merge hs ks).
Proof. induction fs as [|f fs IH]; intros [|h hs] [|k ks]; try reflexivity. cbn. rewrite orb_assoc. f_equal. apply IH. Qed.

Definition inA (i : nat) (ph : nat * nat * bool) : bool := Nat.eqb (fst (fst ph)) i && snd ph.
Definition inB (j : nat) (ph : nat * nat * bool) : bool := Nat.eqb (snd (fst ph)) j && snd ph.

(** One row. *)
Lemma row_inA i i0 n : forall s h, length h = n -> existsb (inA i) (combine (map (fun j => (i0, j)) (seq s n)) h) = if Nat.eqb i0 i then any h else false.
Proof.
  induction n as [|n IH]; intros s [|b h] L; try discriminate L; [cbn; destruct (Nat.eqb i0 i); reflexivity|].
  cbn [seq map combine existsb any]. rewrite IH by (cbn in L; congruence). unfold inA at 1. cbn [fst snd]. fold (any h). destruct (Nat.eqb i0 i); reflexivity.
Qed.
Lemma row_inB i0 n : forall s h, length h = n -> map (fun j => existsb (inB j) (combine (map (fun j => (i0, j)) (seq s n)) h)) (seq s n) = h.
Proof.
  induction n as [|n IH]; intros s [|b h] L; try discriminate L; [reflexivity|].
  cbn [seq map combine existsb]. f_equal.
  - unfold inB at 1. cbn [fst snd]. rewrite Nat.eqb_refl. cbn [andb].
    rewrite existsb_none; [apply orb_false_r|]. intros [[x y] k] Hin. apply in_combine_l in Hin. apply in_map_iff in Hin. destruct Hin as (j & E & Hj).
    injection E as <- <-. apply in_seq in Hj. unfold inB. cbn [fst snd]. destruct (Nat.eqb_spec j s); [lia|reflexivity].
  - transitivity (map (fun j => existsb (inB j) (combine (map (fun j => (i0, j)) (seq (S s) n)) h)) (seq (S s) n)); [|apply IH; cbn in L; congruence]. apply map_ext_in. intros j Hj. apply in_seq in Hj.
    unfold inB at 1. cbn [fst snd]. destruct (Nat.eqb_spec s j); [lia|reflexivity].
Qed.

Lemma rows_firsts i0 na n p : In p (rows_from i0 na n) -> (i0 <= fst p)%nat.
Proof.
  unfold rows_from. rewrite in_flat_map. intros (i & Hi & Hp). apply in_map_iff in Hp. destruct Hp as (j & <- & _). apply in_seq in Hi. cbn. lia.
Qed.

Lemma summary_spec n fas : forall i0 fbs hs nc c, length fbs = n -> length hs = (length fas * n)%nat ->
  summary fas fbs hs nc c
  = (merge fas (map (fun i => existsb (inA i) (combine (rows_from i0 (length fas) n) hs)) (seq i0 (length fas))),
     merge fbs (map (fun j => existsb (inB j) (combine (rows_from i0 (length fas) n) hs)) (seq 0 n)),
     (nc + count_true hs)%Z, any hs || c).
Proof.
  induction fas as [|fa fas IH]; intros i0 fbs hs nc c Lb Lh.
  - destruct hs; [|discriminate Lh]. cbn [summary length rows_from seq flat_map combine existsb map merge any]. unfold count_true. cbn. rewrite Z.add_0_r.
    f_equal. f_equal. f_equal. clear -Lb. subst n. generalize 0%nat. induction fbs as [|f fbs IH]; intros s; [reflexivity|]. cbn. rewrite orb_false_r. f_equal. apply IH.
  - cbn [summary length]. rewrite Lb. set (h := firstn n hs). set (hs' := skipn n hs).
    assert (E : hs = (h ++ hs')%list) by (symmetry; apply firstn_skipn).
    assert (Lf : length h = n) by (unfold h; rewrite firstn_length; cbn [length] in Lh; nia).
    assert (Ls : length hs' = (length fas * n)%nat) by (unfold hs'; rewrite skipn_length; cbn [length] in Lh; nia).
    rewrite (IH (S i0)) by (try assumption; rewrite merge_length; congruence).
    assert (C : combine (rows_from i0 (S (length fas)) n) hs
      = (combine (map (fun j => (i0, j)) (seq 0 n)) h ++ combine (rows_from (S i0) (length fas) n) hs')%list).
    { unfold rows_from. cbn [seq flat_map]. rewrite combine_app by (rewrite map_length, seq_length; cbn [length] in Lh; nia).
      rewrite map_length, seq_length. reflexivity. }
    rewrite C. cbn [seq map merge]. rewrite E, count_app, any_app. f_equal; [f_equal; [f_equal|lia]|].
    + f_equal.
      * f_equal. rewrite existsb_app, row_inA by exact Lf. rewrite Nat.eqb_refl.
        rewrite (existsb_none (inA i0)); [symmetry; apply orb_false_r|]. intros [p k] Hin. apply in_combine_l in Hin. apply rows_firsts in Hin.
        unfold inA. cbn [fst snd]. destruct (Nat.eqb_spec (fst p) i0); [lia|reflexivity].
      * f_equal. apply map_ext_in. intros i Hi. apply in_seq in Hi. rewrite existsb_app, row_inA by exact Lf.
        destruct (Nat.eqb_spec i0 i); [lia|reflexivity].
    + rewrite merge_assoc. f_equal. rewrite <- (row_inB i0 n 0 h Lf) at 1. clear.
      generalize (combine (map (fun j => (i0, j)) (seq 0 n)) h). intros r. generalize (combine (rows_from (S i0) (length fas) n) hs'). intros r'.
      generalize (seq 0 n). induction l as [|j l IH]; [reflexivity|]. cbn. rewrite existsb_app, IH. reflexivity.
    + destruct (any h), (any hs'); reflexivity.
Qed.
