(** The command-line reader against its grammar. *)
From Coq Require Import Ascii.
From Verif.Base Require Import Result Arith Rng.
From Verif.Model Require Import Config Text Main CommandLine.
From Verif.Spec Require Import Decimal CommandLine.
Local Open Scope string_scope.

(** ** The table *)
Definition row (d : odesc) : string * option ascii * bool :=
  (o_long d, match o_short d with String _ (String c _) => Some c | _ => None end, takes_value (o_type d)).

Lemma rows : map row all_opts = documented.
Proof. reflexivity. Qed.

Lemma in_rows n l v : In (n, l, v) documented -> exists d, In d all_opts /\ row d = (n, l, v).
Proof. rewrite <- rows. rewrite in_map_iff. intros (d & H & I). eauto. Qed.

Lemma row_in d : In d all_opts -> In (row d) documented.
Proof. intros H. rewrite <- rows. apply in_map. exact H. Qed.

Definition shape_ok (d : odesc) : bool :=
  match o_short d with
  | "" => true
  | String a (String b "") => Ascii.eqb a "-" && negb (Ascii.eqb b "-")
  | _ => false
  end && match o_long d with "" => false | String a _ => negb (Ascii.eqb a "-") end.
Lemma shapes d : In d all_opts -> shape_ok d = true.
Proof. intros H. cut (forallb shape_ok all_opts = true); [intros F; apply (proj1 (forallb_forall _ _) F _ H)|reflexivity]. Qed.

Definition otype_eqb (a b : otype) : bool :=
  match a, b with
  | TFlag, TFlag | TSwitch, TSwitch | TTexts, TTexts | TPaths, TPaths | TPath, TPath | TInt, TInt | TInt64, TInt64 | TDouble, TDouble => true
  | _, _ => false
  end.
Definition odesc_eqb (a b : odesc) : bool :=
  String.eqb (o_long a) (o_long b) && String.eqb (o_short a) (o_short b) && otype_eqb (o_type a) (o_type b).
Lemma odesc_eqb_eq a b : odesc_eqb a b = true -> a = b.
Proof.
  unfold odesc_eqb. intros H. apply andb_prop in H. destruct H as [H Ht]. apply andb_prop in H. destruct H as [Hl Hs].
  apply String.eqb_eq in Hl, Hs. destruct a as [l1 s1 t1], b as [l2 s2 t2]. cbn in *. subst.
  destruct t1, t2; try discriminate; reflexivity.
Qed.

(** Two rows with a name in common are the same row. *)
Definition clash_ok (a b : odesc) : bool :=
  odesc_eqb a b ||
  negb (String.eqb (o_long a) (o_long b)) && negb (String.eqb (o_long a) (o_short b)) &&
  negb (String.eqb (o_short a) (o_long b)) && (String.eqb (o_short a) "" || negb (String.eqb (o_short a) (o_short b))).
Lemma no_clash a b : In a all_opts -> In b all_opts -> clash_ok a b = true.
Proof.
  intros Ha Hb. cut (forallb (fun a => forallb (clash_ok a) all_opts) all_opts = true); [|vm_compute; reflexivity].
  intros F. apply (proj1 (forallb_forall _ _) (proj1 (forallb_forall _ _) F _ Ha) _ Hb).
Qed.

Lemma long_unique a b : In a all_opts -> In b all_opts -> o_long a = o_long b -> a = b.
Proof.
  intros Ha Hb E. pose proof (no_clash a b Ha Hb) as C. unfold clash_ok in C. apply orb_prop in C. destruct C as [C|C]; [apply odesc_eqb_eq, C|].
  rewrite E, String.eqb_refl in C. discriminate.
Qed.

Lemma full_unique k a b : In a all_opts -> In b all_opts -> full_match k a = true -> full_match k b = true -> a = b.
Proof.
  intros Ha Hb Fa Fb. pose proof (no_clash a b Ha Hb) as C. unfold clash_ok in C. apply orb_prop in C. destruct C as [C|C]; [apply odesc_eqb_eq, C|].
  exfalso. apply andb_prop in C. destruct C as [C C4]. apply andb_prop in C. destruct C as [C C3]. apply andb_prop in C. destruct C as [C1 C2].
  unfold full_match in *. apply orb_prop in Fa, Fb.
  assert (Pa : o_long a = k \/ o_short a = k /\ o_short a <> "").
  { destruct Fa as [F|F]; [left; apply String.eqb_eq, F|right]. apply andb_prop in F. destruct F as [F1 F2]. apply String.eqb_eq in F2. split; [exact F2|].
    intros E. rewrite E in F1. discriminate. }
  assert (Pb : o_long b = k \/ o_short b = k /\ o_short b <> "").
  { destruct Fb as [F|F]; [left; apply String.eqb_eq, F|right]. apply andb_prop in F. destruct F as [F1 F2]. apply String.eqb_eq in F2. split; [exact F2|].
    intros E. rewrite E in F1. discriminate. }
  destruct Pa as [Pa|[Pa Na]], Pb as [Pb|[Pb Nb]]; rewrite Pa, Pb in *; rewrite ?String.eqb_refl in *; cbn in *; try discriminate.
  destruct k; [congruence|]. cbn in C4. discriminate.
Qed.

Lemma nodup_opts : NoDup all_opts.
Proof.
  assert (H : NoDup (map o_long all_opts)).
  { vm_compute. repeat (constructor; [intros F; repeat (destruct F as [F|F]; [discriminate F|]); exact F|]). constructor. }
  exact (NoDup_map_inv _ _ H).
Qed.

Lemma filter_one {X} (f : X -> bool) (l : list X) : NoDup l -> (forall x y, In x l -> In y l -> f x = true -> f y = true -> x = y) ->
  (filter f l = [] /\ forall x, In x l -> f x = false) \/ exists x, filter f l = [x] /\ In x l /\ f x = true.
Proof.
  intros N U. destruct (filter f l) as [|x [|y r]] eqn:E.
  - left. split; [reflexivity|]. intros x Hx. destruct (f x) eqn:F; [|reflexivity]. exfalso.
    assert (I : In x (filter f l)) by (apply filter_In; auto). rewrite E in I. exact I.
  - right. exists x. split; [reflexivity|]. apply filter_In. rewrite E. now left.
  - exfalso. assert (Nf : NoDup (filter f l)) by (apply NoDup_filter; exact N). rewrite E in Nf.
    assert (Ix : In x (filter f l)) by (rewrite E; now left). assert (Iy : In y (filter f l)) by (rewrite E; right; now left).
    apply filter_In in Ix, Iy. inversion Nf as [|? ? Nx _]. apply Nx. left. symmetry. apply U; tauto.
Qed.

(** ** Names *)
Lemma is_option_opt n : is_option n <-> exists d, In d all_opts /\ o_long d = n.
Proof.
  split.
  - intros (l & v & H). apply in_rows in H. destruct H as (d & Hd & E). exists d. split; [exact Hd|]. unfold row in E. congruence.
  - intros (d & Hd & <-). exists (snd (fst (row d))), (snd (row d)). apply row_in in Hd. exact Hd.
Qed.

Lemma has_letter_opt n c : has_letter n c <-> exists d, In d all_opts /\ o_long d = n /\ o_short d = String "-" (String c "").
Proof.
  split.
  - intros (v & H). apply in_rows in H. destruct H as (d & Hd & E). exists d. split; [exact Hd|]. unfold row in E.
    split; [congruence|]. pose proof (shapes d Hd) as Sh. unfold shape_ok in Sh. apply andb_prop in Sh. destruct Sh as [Sh _].
    destruct (o_short d) as [|a [|b [|]]]; try discriminate. apply andb_prop in Sh. destruct Sh as [Sa _]. apply Ascii.eqb_eq in Sa. subst a. congruence.
  - intros (d & Hd & <- & Es). exists (takes_value (o_type d)). pose proof (row_in d Hd) as H. unfold row in H. rewrite Es in H. exact H.
Qed.

Lemma with_value_opt n v : with_value n v <-> exists d, In d all_opts /\ o_long d = n /\ takes_value (o_type d) = v.
Proof.
  split.
  - intros (l & H). apply in_rows in H. destruct H as (d & Hd & E). exists d. unfold row in E. repeat split; congruence.
  - intros (d & Hd & <- & <-). exists (snd (fst (row d))). apply row_in in Hd. exact Hd.
Qed.

Lemma letter_not_dash n c : has_letter n c -> c <> "-"%char.
Proof.
  intros H. apply has_letter_opt in H. destruct H as (d & Hd & _ & Es). pose proof (shapes d Hd) as Sh. unfold shape_ok in Sh. rewrite Es in Sh.
  apply andb_prop in Sh. destruct Sh as [Sh _]. cbn [Ascii.eqb] in Sh. intros ->. rewrite andb_false_r in Sh. discriminate.
Qed.

Lemma option_not_dash n s : is_option n -> n <> String "-" s /\ n <> "".
Proof.
  intros H. apply is_option_opt in H. destruct H as (d & Hd & <-). pose proof (shapes d Hd) as Sh. unfold shape_ok in Sh.
  apply andb_prop in Sh. destruct Sh as [_ Sh]. split; intros E; rewrite E in Sh; discriminate.
Qed.

Lemma dash_prefix n s : is_option n -> String.prefix (String "-" s) n = false.
Proof.
  intros H. destruct n as [|a n]; [reflexivity|]. cbn [String.prefix]. destruct (ascii_dec "-" a) as [<-|]; [|reflexivity].
  exfalso. apply (proj1 (option_not_dash (String "-" n) n H)). reflexivity.
Qed.

Lemma full_spec k d : In d all_opts -> full_match k d = true <-> (o_long d = k \/ exists c, o_short d = String "-" (String c "") /\ k = String "-" (String c "")).
Proof.
  intros Hd. unfold full_match. rewrite orb_true_iff, andb_true_iff, !String.eqb_eq, negb_true_iff, String.eqb_neq. split.
  - intros [H|[H <-]]; [now left|right]. pose proof (shapes d Hd) as Sh. unfold shape_ok in Sh. apply andb_prop in Sh. destruct Sh as [Sh _].
    destruct (o_short d) as [|a [|b [|]]]; try discriminate; [contradiction|]. apply andb_prop in Sh. destruct Sh as [Sa _]. apply Ascii.eqb_eq in Sa. subst a. eauto.
  - intros [H|(c & E & ->)]; [now left|right]. rewrite E. split; [discriminate|reflexivity].
Qed.

(** The look-up with guessing finds exactly what [names] says. *)
Lemma find_names k d : find_option k true = Ret (Some d) <-> In d all_opts /\ names k (o_long d).
Proof.
  unfold find_option.
  destruct (filter_one (full_match k) all_opts nodup_opts (fun x y => full_unique k x y)) as [[Ef Nf]|(d1 & Ef & I1 & F1)]; rewrite Ef.
  - assert (NO : ~ is_option k).
    { intros H. apply is_option_opt in H. destruct H as (d' & Hd' & E'). assert (F : full_match k d' = true) by (apply full_spec; auto). rewrite Nf in F by exact Hd'. discriminate. }
    assert (NL : forall n c, has_letter n c -> k <> String "-" (String c "")).
    { intros n c H ->. apply has_letter_opt in H. destruct H as (d' & Hd' & _ & E'). assert (F : full_match (String "-" (String c "")) d' = true) by (apply full_spec; eauto).
      rewrite Nf in F by exact Hd'. discriminate. }
    split.
    + destruct (filter (approx_match k) all_opts) as [|d1 [|d2 r]] eqn:Ea; [discriminate| |discriminate]. intros H. injection H as <-.
      assert (I1 : In d1 (filter (approx_match k) all_opts)) by (rewrite Ea; now left). apply filter_In in I1. destruct I1 as [I1 A1]. split; [exact I1|].
      left. split; [apply is_option_opt; eauto|]. right. split; [exact NO|]. split; [exact A1|].
      intros n' Hn P. apply is_option_opt in Hn. destruct Hn as (d' & Hd' & <-).
      assert (I' : In d' (filter (approx_match k) all_opts)) by (apply filter_In; auto). rewrite Ea in I'. destruct I' as [<-|[]]. reflexivity.
    + intros [Hd [[_ [Hk|(_ & P & U)]]|(c & Hc & Hk)]].
      * exfalso. apply NO. apply is_option_opt. exists d. auto.
      * destruct (filter_one (approx_match k) all_opts nodup_opts) as [[Ea Na]|(d1 & Ea & I1 & A1)].
        { intros x y Hx Hy Px Py. apply long_unique; [exact Hx|exact Hy|].
          rewrite (U (o_long x)), (U (o_long y)); [reflexivity|apply is_option_opt; eauto|exact Py|apply is_option_opt; eauto|exact Px]. }
        { change (approx_match k d = true) in P. rewrite Na in P by exact Hd. discriminate. }
        rewrite Ea. do 2 f_equal. apply long_unique; [exact I1|exact Hd|]. apply U; [apply is_option_opt; eauto|exact A1].
      * exfalso. exact (NL _ _ Hc Hk).
  - split.
    + intros H. injection H as <-. split; [exact I1|]. apply full_spec in F1; [|exact I1]. destruct F1 as [E|(c & E & Ek)].
      * left. split; [apply is_option_opt; eauto|]. left. auto.
      * right. exists c. split; [apply has_letter_opt; eauto|exact Ek].
    + intros [Hd Hn]. do 2 f_equal. apply (full_unique k); [exact I1|exact Hd|exact F1|]. apply full_spec; [exact Hd|].
      destruct Hn as [[_ [Hk|(NO & P & U)]]|(c & Hc & Hk)].
      * left. auto.
      * exfalso. apply full_spec in F1; [|exact I1]. destruct F1 as [E|(c & E & Ek)].
        { apply NO. apply is_option_opt. eauto. }
        { subst k. rewrite dash_prefix in P by (apply is_option_opt; eauto). discriminate. }
      * right. exists c. split; [|exact Hk]. apply has_letter_opt in Hc. destruct Hc as (d' & Hd' & El & Es). rewrite <- (long_unique d' d Hd' Hd El). exact Es.
Qed.

Lemma find_errors k b : match find_option k b with Ret _ => True | Throw (PoError _) => True | _ => False end.
Proof.
  unfold find_option. destruct (filter (full_match k) all_opts) as [|? [|]]; [|exact I|exact I].
  destruct b; [|exact I]. destruct (filter (approx_match k) all_opts) as [|? [|]]; exact I.
Qed.

Lemma names_known k n : names k n -> exists d, In d all_opts /\ o_long d = n /\ find_option k true = Ret (Some d).
Proof.
  intros H. assert (D : exists d, In d all_opts /\ o_long d = n).
  { destruct H as [[H _]|(c & H & _)]; [apply is_option_opt, H|]. apply has_letter_opt in H. destruct H as (d & Hd & E & _). eauto. }
  destruct D as (d & Hd & <-). exists d. split; [exact Hd|]. split; [reflexivity|]. apply find_names. auto.
Qed.

Lemma names_dash c n : names (String "-" (String c "")) n -> has_letter n c.
Proof.
  intros [[Ho [E|(_ & P & _)]]|(c' & H & E)].
  - exfalso. rewrite <- E in Ho. exact (proj1 (option_not_dash _ (String c "") Ho) eq_refl).
  - rewrite dash_prefix in P by exact Ho. discriminate.
  - injection E as ->. exact H.
Qed.

Lemma names_dashes s n : names (String "-" s) n -> exists c, s = String c "" /\ has_letter n c.
Proof.
  intros [[Ho [E|(_ & P & _)]]|(c' & H & E)].
  - exfalso. rewrite <- E in Ho. exact (proj1 (option_not_dash _ s Ho) eq_refl).
  - rewrite dash_prefix in P by exact Ho. discriminate.
  - injection E as ->. eauto.
Qed.

Lemma names_nonempty k n : names k n -> k <> "".
Proof.
  intros [[Ho [->|(_ & P & U)]]|(c & _ & ->)].
  - apply (option_not_dash _ "" Ho).
  - intros ->. assert (H1 : is_option "help") by (apply is_option_opt; exists (Odesc "help" "-h" TFlag); split; [cbn; auto|reflexivity]).
    assert (H2 : is_option "quiet") by (apply is_option_opt; exists (Odesc "quiet" "-q" TSwitch); split; [cbn; auto 10|reflexivity]).
    pose proof (U _ H1 eq_refl). pose proof (U _ H2 eq_refl). congruence.
  - discriminate.
Qed.

Lemma value_type d v : In d all_opts -> with_value (o_long d) v -> takes_value (o_type d) = v.
Proof.
  intros Hd H. apply with_value_opt in H. destruct H as (d' & Hd' & E & <-). rewrite (long_unique d' d Hd' Hd E). reflexivity.
Qed.

(** ** Splitting at the equal sign *)
Lemma split_eq_spec s : match split_eq s with
  | (n, None) => s = n /\ without_eq n
  | (n, Some v) => s = n ++ String "=" v /\ without_eq n
  end.
Proof.
  induction s as [|c s IH]; [split; reflexivity|]. cbn [split_eq]. destruct (Ascii.eqb c "=") eqn:E.
  - apply Ascii.eqb_eq in E. subst c. split; reflexivity.
  - destruct (split_eq s) as [n [v|]]; destruct IH as [-> W]; (split; [reflexivity|]); unfold without_eq in *; cbn [every]; rewrite E, W; reflexivity.
Qed.

Lemma split_eq_none k : without_eq k -> split_eq k = (k, None).
Proof.
  induction k as [|c k IH]; [reflexivity|]. unfold without_eq. cbn [every split_eq]. intros H. apply andb_prop in H. destruct H as [H1 H2].
  apply negb_true_iff in H1. rewrite H1. rewrite IH by exact H2. reflexivity.
Qed.

Lemma split_eq_some k v : without_eq k -> split_eq (k ++ String "=" v) = (k, Some v).
Proof.
  induction k as [|c k IH]; [reflexivity|]. unfold without_eq. cbn [every String.append split_eq]. intros H. apply andb_prop in H. destruct H as [H1 H2].
  apply negb_true_iff in H1. rewrite H1. rewrite IH by exact H2. reflexivity.
Qed.

(** ** The next argument as a value *)
Definition looks_like (v : string) : result bool :=
  match parse_long v with
  | Some r => letr _ := r in Ret true
  | None => match parse_short v with
            | Some r => letr _ := r in Ret true
            | None => Ret false
            end
  end.

Lemma find_short_false k : exists o, find_option k false = Ret o.
Proof.
  unfold find_option. destruct (filter_one (full_match k) all_opts nodup_opts (fun x y => full_unique k x y)) as [[Ef _]|(d1 & Ef & _)]; rewrite Ef; eauto.
Qed.

Lemma group_total rest : forall k, exists ts, short_group k rest = Ret ts /\ ts <> [].
Proof.
  induction rest as [|c rest IH]; intros k; cbn [short_group]; [eexists; split; [reflexivity|discriminate]|].
  destruct (find_short_false k) as [o ->]. cbn [rbind]. destruct o as [d|]; [|eexists; split; [reflexivity|discriminate]].
  destruct (takes_value (o_type d)); [eexists; split; [reflexivity|discriminate]|].
  destruct (IH ("-" ++ String c "")) as (ts & -> & _). cbn [rbind]. eexists; split; [reflexivity|discriminate].
Qed.

Lemma find_dash_none s : (forall n c, has_letter n c -> s <> String c "") -> exists x, find_option (String "-" s) true = Ret x /\ x = None.
Proof.
  intros H. unfold find_option.
  destruct (filter_one (full_match (String "-" s)) all_opts nodup_opts (fun x y => full_unique _ x y)) as [[Ef Nf]|(d & Ef & Id & Fd)]; rewrite Ef.
  - assert (Ea : filter (approx_match (String "-" s)) all_opts = []).
    { destruct (filter (approx_match (String "-" s)) all_opts) as [|d r] eqn:E; [reflexivity|]. exfalso.
      assert (I : In d (filter (approx_match (String "-" s)) all_opts)) by (rewrite E; now left). apply filter_In in I. destruct I as [I P].
      unfold approx_match in P. rewrite dash_prefix in P by (apply is_option_opt; eauto). discriminate. }
    rewrite Ea. eauto.
  - exfalso. apply full_spec in Fd; [|exact Id]. destruct Fd as [E|(c & E & Ek)].
    + apply (proj1 (option_not_dash (o_long d) s ltac:(apply is_option_opt; eauto)) E).
    + injection Ek as ->. apply (H (o_long d) c); [apply has_letter_opt; eauto|reflexivity].
Qed.

Definition takes_next (v : string) : result bool :=
  letr like := looks_like v in
  if like then
    letr od := find_option v true in
    match od with Some _ => Throw (PoError "the required argument for option is missing") | None => Ret true end
  else Ret true.

Lemma takes_next_spec v : (separable v /\ takes_next v = Ret true) \/ (~ separable v /\ exists m, takes_next v = Throw (PoError m)).
Proof.
  unfold takes_next, looks_like.
  assert (G : forall s, v = String "-" s -> (forall k, without_eq k -> v <> "--" ++ k ++ "=") ->
    (separable v /\ (letr od := find_option v true in match od with Some _ => Throw (PoError "the required argument for option is missing") | None => Ret true end) = Ret true) \/
    (~ separable v /\ exists m, (letr od := find_option v true in match od with Some _ => Throw (PoError "the required argument for option is missing") | None => Ret true end) = Throw (PoError m))).
  { intros s -> NE. destruct s as [|c [|c' s']].
    - left. split; [split; [intros; discriminate|exact NE]|]. destruct (find_dash_none "") as (x & -> & ->); [intros; discriminate|reflexivity].
    - destruct (find_option (String "-" (String c "")) true) as [[d|]|x|u|] eqn:E.
      + right. apply find_names in E. destruct E as [Hd Hn]. split; [|cbn [rbind]; eauto]. intros [Sp _]. exact (Sp _ _ (names_dash _ _ Hn) eq_refl).
      + left. split; [|reflexivity]. split; [|exact NE]. intros n c0 Hc Ec. injection Ec as ->.
        destruct (names_known (String "-" (String c0 "")) n) as (d & _ & _ & F); [right; eauto|]. congruence.
      + pose proof (find_errors (String "-" (String c "")) true) as F. rewrite E in F. destruct x; try contradiction. exfalso.
        revert E. unfold find_option. destruct (filter_one (full_match (String "-" (String c ""))) all_opts nodup_opts (fun x y => full_unique _ x y)) as [[Ef _]|(d1 & Ef & _)]; rewrite Ef; [|discriminate].
        destruct (filter (approx_match (String "-" (String c ""))) all_opts) as [|d r] eqn:Ea; [discriminate|]. intros _.
        assert (I : In d (filter (approx_match (String "-" (String c ""))) all_opts)) by (rewrite Ea; now left). apply filter_In in I. destruct I as [I P].
        unfold approx_match in P. rewrite dash_prefix in P by (apply is_option_opt; eauto). discriminate.
      + pose proof (find_errors (String "-" (String c "")) true) as F. rewrite E in F. contradiction.
      + pose proof (find_errors (String "-" (String c "")) true) as F. rewrite E in F. contradiction.
    - left. split; [split; [intros n c0 _; discriminate|exact NE]|]. destruct (find_dash_none (String c (String c' s'))) as (x & -> & ->); [intros; discriminate|reflexivity]. }
  destruct v as [|a s]; [left; split; [split; intros; discriminate|reflexivity]|].
  destruct (Ascii.ascii_dec a "-") as [->|Na].
  2: { left. assert (L : parse_long (String a s) = None /\ parse_short (String a s) = None).
       { destruct a as [[] [] [] [] [] [] [] []]; try (split; reflexivity). congruence. }
       destruct L as [-> ->]. split; [split|reflexivity].
       - intros n c _ E. injection E as E _. contradiction.
       - intros k _ E. injection E as E _. contradiction. }
  destruct s as [|b s].
  { left. split; [split; [intros n c _; discriminate|intros k _; discriminate]|reflexivity]. }
  destruct (Ascii.ascii_dec b "-") as [->|Nb].
  - destruct s as [|b' s].
    + left. split; [split; [|intros k _ E]|reflexivity].
      * intros n c Hc E. injection E as <-. exact (letter_not_dash _ _ Hc eq_refl).
      * injection E as E. destruct k; discriminate.
    + cbn [parse_long]. pose proof (split_eq_spec (String b' s)) as Sp. destruct (split_eq (String b' s)) as [n [[|v0 v]|]] eqn:Es.
      * right. destruct Sp as [E W]. split; [|cbn [rbind]; eauto]. intros [_ NE]. apply (NE n W). cbn [String.append]. rewrite E. reflexivity.
      * cbn [rbind]. apply (G (String "-" (String b' s)) eq_refl). intros k W E. injection E as E. rewrite E in Es. change "=" with (String "=" "") in Es. rewrite split_eq_some in Es by exact W. discriminate.
      * cbn [rbind]. apply (G (String "-" (String b' s)) eq_refl). intros k W E. injection E as E. rewrite E in Es. change "=" with (String "=" "") in Es. rewrite split_eq_some in Es by exact W. discriminate.
  - assert (L : parse_long (String "-" (String b s)) = None).
    { unfold parse_long. destruct b as [[] [] [] [] [] [] [] []]; try reflexivity. congruence. }
    rewrite L. cbn [parse_short]. destruct (Ascii.eqb b "-") eqn:Eb; [apply Ascii.eqb_eq in Eb; contradiction|].
    destruct (group_total s ("-" ++ String b "")) as (ts & -> & _). cbn [rbind].
    apply (G (String b s) eq_refl). intros k W E. cbn [String.append] in E. injection E as E _. contradiction.
Qed.

(** ** finish_option *)
Lemma finish_sound k vals next t took : finish_option (k, vals) next = Ret (t, took) ->
  exists n, names k n /\
  ((with_value n false /\ vals = [] /\ t = (n, []) /\ took = false) \/
   (with_value n true /\ vals <> [] /\ t = (n, vals) /\ took = false) \/
   (with_value n true /\ vals = [] /\ exists v, next = Some v /\ separable v /\ t = (n, [v]) /\ took = true)).
Proof.
  cbn [finish_option]. destruct (find_option k true) as [[d|]|x|u|] eqn:F; try discriminate. cbn [rbind].
  apply find_names in F. destruct F as [Hd Hn]. intros H. exists (o_long d). split; [exact Hn|].
  destruct (takes_value (o_type d)) eqn:T.
  - assert (W : with_value (o_long d) true) by (apply with_value_opt; eauto). destruct vals as [|v0 vs].
    + right. right. split; [exact W|]. split; [reflexivity|]. destruct next as [v|]; [|discriminate]. exists v. split; [reflexivity|].
      fold (looks_like v) in H. destruct (takes_next_spec v) as [[Sp E]|[Ns (m & E)]]; unfold takes_next in E.
      * split; [exact Sp|]. destruct (looks_like v) as [l|x|u|]; try discriminate E. cbn [rbind] in E, H. destruct l; [|injection H as <- <-; auto].
        destruct (find_option v true) as [[d'|]|x|u|]; try discriminate E. cbn [rbind] in H. injection H as <- <-. auto.
      * exfalso. destruct (looks_like v) as [l|x|u|]; try discriminate E; cbn [rbind] in E, H; try discriminate H. destruct l; [|discriminate E].
        destruct (find_option v true) as [[d'|]|x|u|]; try discriminate E; cbn [rbind] in H; discriminate H.
    + right. left. injection H as <- <-. split; [exact W|]. split; [discriminate|auto].
  - left. split; [apply with_value_opt; eauto|]. destruct vals; [|discriminate]. injection H as <- <-. auto.
Qed.

Lemma finish_switch k n next : names k n -> with_value n false -> finish_option (k, []) next = Ret ((n, []), false).
Proof.
  intros Hn Hv. destruct (names_known k n Hn) as (d & Hd & E & F). cbn [finish_option]. rewrite F. cbn [rbind].
  rewrite <- E in Hv. rewrite (value_type d false Hd Hv), E. reflexivity.
Qed.

Lemma finish_joined k n v vs next : names k n -> with_value n true -> finish_option (k, v :: vs) next = Ret ((n, v :: vs), false).
Proof.
  intros Hn Hv. destruct (names_known k n Hn) as (d & Hd & E & F). cbn [finish_option]. rewrite F. cbn [rbind].
  rewrite <- E in Hv. rewrite (value_type d true Hd Hv), E. reflexivity.
Qed.

Lemma finish_next k n v : names k n -> with_value n true -> separable v -> finish_option (k, []) (Some v) = Ret ((n, [v]), true).
Proof.
  intros Hn Hv Sp. destruct (names_known k n Hn) as (d & Hd & E & F). cbn [finish_option]. rewrite F. cbn [rbind].
  rewrite <- E in Hv. rewrite (value_type d true Hd Hv), E. fold (looks_like v).
  destruct (takes_next_spec v) as [[_ T]|[Ns _]]; [|contradiction]. unfold takes_next in T.
  destruct (looks_like v) as [l|x|u|]; try discriminate T. cbn [rbind] in T |- *. destruct l; [|reflexivity].
  destruct (find_option v true) as [[d'|]|x|u|]; try discriminate T. reflexivity.
Qed.

(** ** Groups of letters *)
Definition view (t : token) : item := (fst t, text_of (snd t)).
Definition grp (c : ascii) (rest : string) (next : option string) : result (list token * bool) :=
  letr ts := short_group ("-" ++ String c "") rest in finish_group ts next.

Lemma find_letter n c : has_letter n c -> exists d, In d all_opts /\ o_long d = n /\ find_option (String "-" (String c "")) false = Ret (Some d).
Proof.
  intros H. destruct (names_known (String "-" (String c "")) n) as (d & Hd & E & F); [right; eauto|]. exists d. split; [exact Hd|]. split; [exact E|].
  apply has_letter_opt in H. destruct H as (d' & Hd' & E' & Es).
  assert (d' = d) by (apply long_unique; congruence || assumption). subst d'.
  unfold find_option. destruct (filter_one (full_match (String "-" (String c ""))) all_opts nodup_opts (fun x y => full_unique _ x y)) as [[Ef Nf]|(d1 & Ef & I1 & F1)]; rewrite Ef.
  - exfalso. specialize (Nf d Hd). rewrite (proj2 (full_spec (String "-" (String c "")) d Hd)) in Nf; [discriminate|]. right. eauto.
  - do 2 f_equal. apply (full_unique (String "-" (String c ""))); [exact I1|exact Hd|exact F1|]. apply full_spec; [exact Hd|]. right. eauto.
Qed.

Lemma finish_group_cons t ts next : ts <> [] -> finish_group (t :: ts) next =
  letr (t', _) := finish_option t None in letr (ts'', took) := finish_group ts next in Ret (t' :: ts'', took).
Proof. destruct ts; [congruence|reflexivity]. Qed.

Lemma grp_more n c c' rest next : has_letter n c -> with_value n false ->
  grp c (String c' rest) next = letr (ts, took) := grp c' rest next in Ret ((n, []) :: ts, took).
Proof.
  intros Hc Hv. unfold grp. cbn [short_group]. change ("-" ++ String c "") with (String "-" (String c "")).
  destruct (find_letter n c Hc) as (d & Hd & E & ->). cbn [rbind]. rewrite <- E in Hv. rewrite (value_type d false Hd Hv). rewrite E in Hv.
  destruct (group_total rest ("-" ++ String c' "")) as (ts & -> & N). cbn [rbind]. rewrite finish_group_cons by exact N.
  rewrite (finish_switch _ n) by (try exact Hv; right; eauto). cbn [rbind]. reflexivity.
Qed.

Lemma letters_complete its toks : letters its toks -> exists c rest tl, toks = (String "-" (String c rest)) :: tl /\ c <> "-"%char /\
  ((tl = [] /\ forall next, exists dn, grp c rest next = Ret (dn, false) /\ map view dn = its) \/
   (exists v dn, tl = [v] /\ grp c rest (Some v) = Ret (dn, true) /\ map view dn = its)).
Proof.
  intros L. induction L as [n c Hc Hv|n c v Hc Hv Nv|n c v Hc Hv Sp|n c t toks its Hc Hv L IH].
  - exists c, "", []. split; [reflexivity|]. split; [exact (letter_not_dash _ _ Hc)|]. left. split; [reflexivity|]. intros next. exists [(n, [])].
    split; [|reflexivity]. unfold grp. cbn [short_group rbind finish_group]. rewrite (finish_switch _ n) by (try exact Hv; right; eauto). reflexivity.
  - exists c, v, []. split; [reflexivity|]. split; [exact (letter_not_dash _ _ Hc)|]. left. split; [reflexivity|]. intros next. exists [(n, [v])].
    split; [|reflexivity]. unfold grp. destruct v as [|c' v]; [congruence|]. cbn [short_group].
    change ("-" ++ String c "") with (String "-" (String c "")). destruct (find_letter n c Hc) as (d & Hd & E & ->). cbn [rbind].
    pose proof Hv as Hv'. rewrite <- E in Hv'. rewrite (value_type d true Hd Hv'). cbn [rbind finish_group]. rewrite (finish_joined _ n) by (try exact Hv; right; eauto). reflexivity.
  - exists c, "", [v]. split; [reflexivity|]. split; [exact (letter_not_dash _ _ Hc)|]. right. exists v, [(n, [v])]. split; [reflexivity|]. split; [|reflexivity].
    unfold grp. cbn [short_group rbind finish_group]. rewrite (finish_next _ n) by (try exact Hv; try exact Sp; right; eauto). reflexivity.
  - destruct IH as (c' & rest & tl & E & Nc & IH). cbn [String.append] in E. injection E as E1 E2. subst t toks.
    exists c, (String c' rest), tl. split; [reflexivity|]. split; [exact (letter_not_dash _ _ Hc)|]. destruct IH as [[-> IH]|(v & dn & -> & G & V)].
    + left. split; [reflexivity|]. intros next. destruct (IH next) as (dn & G & V). exists ((n, []) :: dn). rewrite (grp_more n) by assumption. rewrite G. cbn [rbind].
      split; [reflexivity|]. cbn [map view fst snd text_of]. rewrite V. reflexivity.
    + right. exists v, ((n, []) :: dn). split; [reflexivity|]. rewrite (grp_more n) by assumption. rewrite G. cbn [rbind].
      split; [reflexivity|]. cbn [map view fst snd text_of]. rewrite V. reflexivity.
Qed.

Lemma grp_sound rest : forall c next dn took, grp c rest next = Ret (dn, took) ->
  if took : bool then exists v, next = Some v /\ letters (map view dn) [String "-" (String c rest); v]
  else letters (map view dn) [String "-" (String c rest)].
Proof.
  assert (J : forall c r v next dn took, r = String c v -> v <> "" -> finish_group [("-" ++ String c "", [v])] next = Ret (dn, took) ->
    if took : bool then exists v, next = Some v /\ letters (map view dn) [String "-" r; v] else letters (map view dn) [String "-" r]).
  { intros c r v next dn took -> Nv H. cbn [finish_group] in H. destruct (finish_option ("-" ++ String c "", [v]) next) as [[t k]|x|u|] eqn:F; try discriminate H.
    cbn [rbind] in H. injection H as <- <-. apply finish_sound in F. destruct F as (n & Hn & F). apply names_dash in Hn.
    destruct F as [(_ & F & _)|[(Hv & _ & -> & ->)|(_ & F & _)]]; try discriminate F. apply (l_joined n c v Hn Hv Nv). }
  induction rest as [|c' rest IH]; intros c next dn took H.
  - unfold grp in H. cbn [short_group rbind finish_group] in H. destruct (finish_option ("-" ++ String c "", []) next) as [[t k]|x|u|] eqn:F; try discriminate H.
    cbn [rbind] in H. injection H as <- <-. apply finish_sound in F. destruct F as (n & Hn & F). apply names_dash in Hn.
    destruct F as [(Hv & _ & -> & ->)|[(_ & F & _)|(Hv & _ & v & -> & Sp & -> & ->)]].
    + apply (l_switch n c Hn Hv).
    + congruence.
    + exists v. split; [reflexivity|]. apply (l_next n c v Hn Hv Sp).
  - destruct (find_short_false (String "-" (String c ""))) as [o E]. destruct o as [d|].
    + destruct (takes_value (o_type d)) eqn:T.
      * unfold grp in H. cbn [short_group] in H. change ("-" ++ String c "") with (String "-" (String c "")) in H. rewrite E in H. cbn [rbind] in H. rewrite T in H. cbn [rbind] in H.
        apply (J c (String c (String c' rest)) (String c' rest)); [reflexivity|discriminate|exact H].
      * assert (Hd : In d all_opts /\ full_match (String "-" (String c "")) d = true).
        { revert E. unfold find_option. destruct (filter_one (full_match (String "-" (String c ""))) all_opts nodup_opts (fun x y => full_unique _ x y)) as [[Ef Nf]|(d1 & Ef & I1 & F1)]; rewrite Ef; [discriminate|].
          intros E. injection E as <-. auto. }
        destruct Hd as [Hd Fd]. apply full_spec in Fd; [|exact Hd]. destruct Fd as [Fd|(c0 & Es & Ek)].
        { exfalso. apply (proj1 (option_not_dash (o_long d) (String c "") ltac:(apply is_option_opt; eauto)) Fd). }
        injection Ek as <-. assert (Hc : has_letter (o_long d) c) by (apply has_letter_opt; eauto).
        assert (Hv : with_value (o_long d) false) by (apply with_value_opt; eauto).
        rewrite (grp_more (o_long d)) in H by assumption. destruct (grp c' rest next) as [[ts k]|x|u|] eqn:G; try discriminate H. cbn [rbind] in H. injection H as <- <-.
        apply IH in G. destruct k.
        { destruct G as (v & -> & G). exists v. split; [reflexivity|]. apply (l_more (o_long d) c (String c' rest) [v] _ Hc Hv G). }
        { apply (l_more (o_long d) c (String c' rest) [] _ Hc Hv G). }
    + unfold grp in H. cbn [short_group] in H. change ("-" ++ String c "") with (String "-" (String c "")) in H. rewrite E in H. cbn [rbind] in H.
      apply (J c (String c (String c' rest)) (String c' rest)); [reflexivity|discriminate|exact H].
Qed.

(** ** The loop over the arguments *)
Definition goon (r : result (list token * bool)) (rest : list string) : result (list token) :=
  letr (dn, took) := r in
  letr more := match rest with _ :: rest' => if (took : bool) then lex rest' else lex rest | [] => Ret [] end in
  Ret (dn ++ more)%list.

Lemma lex_short c s rest : c <> "-"%char -> lex (String "-" (String c s) :: rest) = goon (grp c s (hd_error rest)) rest.
Proof.
  intros N. cbn [lex]. assert (L : parse_long (String "-" (String c s)) = None).
  { unfold parse_long. destruct c as [[] [] [] [] [] [] [] []]; try reflexivity. congruence. }
  rewrite L. cbn [parse_short]. destruct (Ascii.eqb c "-") eqn:Ec; [apply Ascii.eqb_eq in Ec; contradiction|].
  unfold goon, grp. destruct (short_group ("-" ++ String c "") s); reflexivity.
Qed.

Lemma lex_long s rest : s <> "" -> lex (String "-" (String "-" s) :: rest) =
  match split_eq s with
  | (name, Some "") => Throw (PoError "the argument for option should follow immediately after the equal sign")
  | (name, Some v) => goon (finish_group [(name, [v])] (hd_error rest)) rest
  | (name, None) => goon (finish_group [(name, [])] (hd_error rest)) rest
  end.
Proof.
  intros N. destruct s as [|b s]; [congruence|]. cbn [lex parse_long]. destruct (split_eq (String b s)) as [n [[|v0 v]|]]; cbn [rbind]; unfold goon; reflexivity.
Qed.

Lemma lex_end rest : lex ("--" :: rest) = Ret (map (fun v => ("", [v])) rest).
Proof. reflexivity. Qed.

Definition wordy (v : string) : Prop := v = "" \/ v = "-" \/ exists c v', v = String c v' /\ c <> "-"%char.
Lemma lex_word v rest : wordy v -> lex (v :: rest) = letr more := lex rest in Ret (("", [v]) :: more).
Proof.
  intros [->|[->|(c & v' & -> & N)]]; try reflexivity. cbn [lex].
  assert (L : parse_long (String c v') = None /\ parse_short (String c v') = None).
  { destruct c as [[] [] [] [] [] [] [] []]; try (split; reflexivity). congruence. }
  destruct L as [-> ->]. destruct (String.eqb (String c v') "--") eqn:E; [|reflexivity]. apply String.eqb_eq in E. injection E as E _. contradiction.
Qed.

Lemma argument_cases a : wordy a \/ a = "--" \/ (exists s, s <> "" /\ a = String "-" (String "-" s)) \/ (exists c s, c <> "-"%char /\ a = String "-" (String c s)).
Proof.
  destruct a as [|c a]; [left; left; reflexivity|]. destruct (Ascii.ascii_dec c "-") as [->|N]; [|left; right; right; eauto].
  destruct a as [|c a]; [left; right; left; reflexivity|]. destruct (Ascii.ascii_dec c "-") as [->|N]; [|right; right; right; eauto].
  destruct a as [|c a]; [right; left; reflexivity|]. right. right. left. exists (String c a). split; [discriminate|reflexivity].
Qed.

Lemma goon_inv r rest ts : goon r rest = Ret ts -> exists dn took more, r = Ret (dn, took) /\ ts = (dn ++ more)%list /\
  ((took = true /\ rest = [] /\ more = []) \/ (took = true /\ exists v rest', rest = v :: rest' /\ lex rest' = Ret more) \/ (took = false /\ lex rest = Ret more)).
Proof.
  unfold goon. destruct r as [[dn took]|x|u|]; try discriminate. cbn [rbind]. intros H.
  destruct rest as [|v rest].
  - cbn [rbind] in H. injection H as <-. exists dn, took, []. split; [reflexivity|]. split; [reflexivity|]. destruct took; [left|right; right]; auto.
  - destruct took.
    + destruct (lex rest) as [more|x|u|] eqn:E; try discriminate H. injection H as <-. exists dn, true, more. split; [reflexivity|]. split; [reflexivity|]. right. left. eauto.
    + destruct (lex (v :: rest)) as [more|x|u|] eqn:E; try discriminate H. injection H as <-. exists dn, false, more. auto 8.
Qed.

Lemma goon_took dn v rest more : lex rest = Ret more -> goon (Ret (dn, true)) (v :: rest) = Ret (dn ++ more)%list.
Proof. intros E. unfold goon. cbn [rbind]. rewrite E. reflexivity. Qed.
Lemma goon_left dn rest more : lex rest = Ret more -> goon (Ret (dn, false)) rest = Ret (dn ++ more)%list.
Proof. intros E. unfold goon. cbn [rbind]. destruct rest as [|v rest]; [cbn in E; injection E as <-; reflexivity|]. rewrite E. reflexivity. Qed.

Lemma lex_sound m : forall args ts, (length args <= m)%nat -> lex args = Ret ts -> written (map view ts) args.
Proof.
  induction m as [|m IH]; intros args ts L H.
  - destruct args; [|cbn in L; lia]. cbn in H. injection H as <-. constructor.
  - destruct args as [|a rest]; [cbn in H; injection H as <-; constructor|]. cbn [length] in L.
    assert (K : forall dn toks more, spells (map view dn) toks -> written (map view more) (skipn (length toks) (a :: rest)) -> firstn (length toks) (a :: rest) = toks ->
      written (map view (dn ++ more)) (a :: rest)).
    { intros dn toks more Sp W F. rewrite map_app. rewrite <- (firstn_skipn (length toks) (a :: rest)). rewrite F. apply w_more; assumption. }
    destruct (argument_cases a) as [Wd|[->|[(s & Ns & ->)|(c & s & Nc & ->)]]].
    + rewrite lex_word in H by exact Wd. destruct (lex rest) as [more|x|u|] eqn:E; try discriminate H. injection H as <-.
      apply (K [("", [a])] [a] more); [apply s_word, Wd|apply IH; [cbn; lia|exact E]|reflexivity].
    + rewrite lex_end in H. injection H as <-. rewrite map_map. cbn [view fst snd text_of]. apply w_words.
    + rewrite lex_long in H by exact Ns. pose proof (split_eq_spec s) as Sp. destruct (split_eq s) as [k o].
      assert (G : forall vals, goon (finish_group [(k, vals)] (hd_error rest)) rest = Ret ts ->
        (vals = [] /\ s = k \/ exists v, v <> "" /\ vals = [v] /\ s = k ++ "=" ++ v) -> without_eq k -> written (map view ts) (String "-" (String "-" s) :: rest)).
      { intros vals Hg Hs We. apply goon_inv in Hg. destruct Hg as (dn & took & more & Hg & -> & Hm). cbn [finish_group] in Hg.
        destruct (finish_option (k, vals) (hd_error rest)) as [[t k']|x|u|] eqn:F; try discriminate Hg. cbn [rbind] in Hg. injection Hg as <- <-.
        apply finish_sound in F. destruct F as (n & Hn & [(Hv & -> & -> & ->)|[(Hv & Nv & -> & ->)|(Hv & -> & v & Hnx & Sv & -> & ->)]]).
        - destruct Hs as [[_ ->]|(v & _ & F & _)]; [|discriminate F]. destruct Hm as [[F _]|[[F _]|[_ Hm]]]; try discriminate F.
          apply (K [(n, [])] ["--" ++ k] more); [apply (s_switch k n Hn We Hv)|apply IH; [cbn; lia|exact Hm]|reflexivity].
        - destruct Hs as [[F _]|(v & Nv' & -> & ->)]; [contradiction|]. destruct Hm as [[F _]|[[F _]|[_ Hm]]]; try discriminate F.
          apply (K [(n, [v])] ["--" ++ k ++ "=" ++ v] more); [apply (s_equals k n v Hn We Hv Nv')|apply IH; [cbn; lia|exact Hm]|reflexivity].
        - destruct Hs as [[_ ->]|(v' & _ & F & _)]; [|discriminate F]. destruct Hm as [(_ & -> & _)|[(_ & v' & rest' & -> & Hm)|[F _]]]; [discriminate Hnx| |discriminate F].
          cbn [hd_error] in Hnx. injection Hnx as ->.
          apply (K [(n, [v])] ["--" ++ k; v] more); [apply (s_next k n v Hn We Hv Sv)|apply IH; [cbn in *; lia|exact Hm]|reflexivity]. }
      destruct o as [[|v0 v]|]; [discriminate H| |]; destruct Sp as [Es We].
      * apply (G [String v0 v] H); [right; exists (String v0 v); split; [discriminate|]; split; [reflexivity|exact Es]|exact We].
      * apply (G [] H); [left; auto|exact We].
    + rewrite lex_short in H by exact Nc. apply goon_inv in H. destruct H as (dn & took & more & Hg & -> & Hm). apply grp_sound in Hg. destruct took.
      * destruct Hg as (v & Hnx & Hl). destruct Hm as [(_ & -> & _)|[(_ & v' & rest' & -> & Hm)|[F _]]]; [discriminate Hnx| |discriminate F].
        cbn [hd_error] in Hnx. injection Hnx as ->. apply (K dn [String "-" (String c s); v] more); [apply s_letters, Hl|apply IH; [cbn in *; lia|exact Hm]|reflexivity].
      * destruct Hm as [[F _]|[[F _]|[_ Hm]]]; try discriminate F.
        apply (K dn [String "-" (String c s)] more); [apply s_letters, Hg|apply IH; [cbn; lia|exact Hm]|reflexivity].
Qed.

Lemma lex_complete its args : written its args -> exists ts, lex args = Ret ts /\ map view ts = its.
Proof.
  intros W. induction W as [|its toks rest args Sp W (ts & E & V)|vs].
  - exists []. split; reflexivity.
  - assert (K : forall dn, lex (toks ++ args) = Ret (dn ++ ts)%list -> map view dn = its -> exists ts', lex (toks ++ args) = Ret ts' /\ map view ts' = (its ++ rest)%list).
    { intros dn H1 H2. exists (dn ++ ts)%list. split; [exact H1|]. rewrite map_app, H2, V. reflexivity. }
    destruct Sp as [v Hw|k n Hn We Hv|k n v Hn We Hv Nv|k n v Hn We Hv Sv|its toks L]; cbn [app] in *.
    + apply (K [("", [v])]); [|reflexivity]. rewrite lex_word by exact Hw. rewrite E. reflexivity.
    + apply (K [(n, [])]); [|reflexivity]. cbn [String.append]. rewrite lex_long by exact (names_nonempty k n Hn). rewrite split_eq_none by exact We.
      cbn [finish_group]. rewrite (finish_switch k n) by assumption. cbn [rbind]. apply goon_left, E.
    + apply (K [(n, [v])]); [|reflexivity]. cbn [String.append]. rewrite lex_long by (intros F; destruct k; discriminate). rewrite split_eq_some by exact We.
      destruct v as [|v0 v]; [congruence|]. cbn [finish_group]. rewrite (finish_joined k n) by assumption. cbn [rbind]. apply goon_left, E.
    + apply (K [(n, [v])]); [|reflexivity]. cbn [String.append]. rewrite lex_long by exact (names_nonempty k n Hn). rewrite split_eq_none by exact We.
      cbn [finish_group hd_error]. rewrite (finish_next k n) by assumption. cbn [rbind]. apply goon_took, E.
    + destruct (letters_complete its toks L) as (c & s & tl & -> & Nc & [[-> G]|(v & dn & -> & G & Vd)]); cbn [app].
      * destruct (G (hd_error args)) as (dn & G' & Vd). apply (K dn); [|exact Vd]. cbn [app]. rewrite lex_short by exact Nc. rewrite G'. apply goon_left, E.
      * apply (K dn); [|exact Vd]. cbn [app]. rewrite lex_short by exact Nc. cbn [hd_error]. rewrite G. apply goon_took, E.
  - exists (map (fun v => ("", [v])) vs). split; [reflexivity|]. rewrite map_map. reflexivity.
Qed.

(** ** Words *)
Lemma settled_sound ts : forall names ts', name_positional names ts = Ret ts' -> settled names (map view ts) (map view ts').
Proof.
  induction ts as [|[n vals] ts IH]; intros names ts' H; cbn [name_positional] in H.
  - injection H as <-. constructor.
  - destruct (String.eqb n "") eqn:En.
    + apply String.eqb_eq in En. subst n. destruct names as [|m names]; [discriminate|]. destruct (name_positional names ts) as [more|x|u|] eqn:E; try discriminate H.
      injection H as <-. apply t_word. apply IH, E.
    + apply String.eqb_neq in En. destruct (name_positional names ts) as [more|x|u|] eqn:E; try discriminate H.
      injection H as <-. apply t_option; [exact En|]. apply IH, E.
Qed.

Lemma settled_complete names its out : settled names its out -> forall ts, map view ts = its -> exists ts', name_positional names ts = Ret ts' /\ map view ts' = out.
Proof.
  intros S. induction S as [names|n names v its out S IH|names n v its out Nn S IH]; intros ts E.
  - destruct ts; [|discriminate]. exists []. split; reflexivity.
  - destruct ts as [|[n' vals] ts]; [discriminate|]. cbn [map view fst snd] in E. injection E as -> Ev E. destruct (IH ts E) as (ts' & H & V).
    exists ((n, vals) :: ts'). cbn [name_positional String.eqb]. rewrite H. split; [reflexivity|]. cbn [map view fst snd]. rewrite V. unfold view. cbn. rewrite Ev. reflexivity.
  - destruct ts as [|[n' vals] ts]; [discriminate|]. cbn [map view fst snd] in E. injection E as -> Ev E. destruct (IH ts E) as (ts' & H & V).
    exists ((n, vals) :: ts'). cbn [name_positional]. apply String.eqb_neq in Nn. rewrite Nn, H. split; [reflexivity|]. cbn [map]. rewrite V. unfold view. cbn [fst snd]. rewrite Ev. reflexivity.
Qed.

Lemma texts_view n ts : texts_of n ts = given_to n (map view ts).
Proof.
  unfold texts_of. induction ts as [|[n' vals] ts IH]; [reflexivity|]. cbn [map filter view given_to fst snd]. destruct (String.eqb n n'); cbn [map]; rewrite IH; reflexivity.
Qed.
