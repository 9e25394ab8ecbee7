(** Two runs with the same output directory at the same time. *)
From Coq Require Import Ascii.
From Verif.Base Require Import Result Arith Rng.
From Verif.Model Require Import Random Config Nucleon Nucleus Event Text Files CrossSection CacheSteps Output Collider RunSteps.
From Verif.Spec Require Import FileTree Cache Killed Parallel.
From Verif.Proof Require Import Basics FsP FsTree Writers CacheRun Ctor OutputP KilledP ParallelP ParallelQ ParallelW.
Local Open Scope string_scope.

Section Replay.
Context {A : Arith} (R : Rng A).

Lemma alone_replays {X} (m : todo R X) : forall m0 f0 f r p f', replays R m0 f0 m f -> alone m f = (r, p, f') -> replays R m0 f0 (Ended r p) f'.
Proof.
  induction m as [r0 p0|next IH effect]; cbn [alone]; intros m0 f0 f r p f' H E.
  - injection E as <- <- <-. exact H.
  - apply (IH f m0 f0 (effect f)); [apply rp_call, H|exact E].
Qed.
Lemma replays_andthen {X Y} (m : todo R X) (c : X -> own R -> todo R Y) : forall m0 f0 f x p f', replays R m0 f0 (andthen m c) f ->
  alone m f = (Ret x, p, f') -> replays R m0 f0 (c x p) f'.
Proof.
  induction m as [r0 p0|next IH effect]; cbn [alone andthen]; intros m0 f0 f x p f' H E.
  - injection E as -> -> ->. exact H.
  - apply (IH f m0 f0 (effect f)); [|exact E]. apply (rp_call R m0 f0 (fun f => andthen (next f) c) effect f), H.
Qed.
Lemma alone_bind_inv {X Y} (q : P R X) (c : X -> P R Y) p f y p' f' : alone (pbind R q c p) f = (Ret y, p', f') ->
  exists x p1 f1, alone (q p) f = (Ret x, p1, f1) /\ alone (c x p1) f1 = (Ret y, p', f').
Proof.
  unfold pbind. rewrite alone_andthen. destruct (alone (q p) f) as [[[x|x|u|] p1] f1]; try discriminate. intros H. exists x, p1, f1. auto.
Qed.

Lemma first_moves m1 m2 f m g : replays R m1 f m g -> schedule R ([m1; m2], f) ([m; m2], g).
Proof.
  induction 1 as [|next effect g H IH]; [apply sch_none|]. eapply sch_more; [exact IH|]. exact (a_call R [Call next effect; m2] g 0 next effect eq_refl).
Qed.
Lemma second_moves m1 m2 f m g : replays R m2 f m g -> schedule R ([m1; m2], f) ([m1; m], g).
Proof.
  induction 1 as [|next effect g H IH]; [apply sch_none|]. eapply sch_more; [exact IH|]. exact (a_call R [m1; Call next effect] g 1 next effect eq_refl).
Qed.
End Replay.

Section Over.
Context {A : Arith} (R : Rng A) (bd : build) (path : string).
Hypothesis Np : path <> "".

(** The output directory, with nothing but files in it. *)
Definition flat (f : fs A) : Prop := fs_get f (norm path) = Some Dir /\ forall k, below path k -> fs_get f k <> Some Dir.
Definition keeps_flat (f f' : fs A) : Prop := flat f -> flat f'.
(** [f] is [g] written over [b]. *)
Definition over (b f g : fs A) : Prop := flat f /\ flat g /\
  forall k, below path k -> fs_get f k = match fs_get g k with Some n => Some n | None => fs_get b k end.

Lemma flat_put f width n t : (0 <= n)%Z -> flat f ->
  write_file (event_file path width n) t f = (Ret tt, fs_put f (event_file path width n) (File t)) /\ flat (fs_put f (event_file path width n) (File t)).
Proof.
  intros Hn [D N]. destruct (file_key width path Np n Hn) as (K1 & K2 & K3 & K4).
  destruct (write_file (event_file path width n) t f) as [r f'] eqn:E.
  assert (r = Ret tt) by (unfold write_file in E; destruct (fs_lookup _ _) as [[]|]; try destruct (parent_ok _ _); congruence). subst r.
  rewrite (write_event width path Np f n t (Ret tt) f' Hn D (N _ K2) E). split; [reflexivity|]. split.
  - rewrite fs_get_put_neq by exact K4. exact D.
  - intros k B. destruct (string_dec k (event_file path width n)) as [->|Nk]; [rewrite fs_get_put_eq; discriminate|]. rewrite fs_get_put_neq by exact Nk. apply N, B.
Qed.

Lemma over_writer b w n bb nc ev p : (exists width header, w = WText path width header) \/ (exists width, w = WStdout width) -> (0 <= n)%Z ->
  fine R (over b) keeps_flat anything (writer_steps R w n bb nc ev p).
Proof.
  intros [(width & header & ->)|(width & ->)] Hn; [|intros x _; exact I]. apply fine_calls; [| |intros; exact I].
  - intros f g (Ff & Fg & O). unfold write_text_file, bind, lift. destruct (event_text n bb nc ev header) as [t|x|u|]; cbn [fst snd]; try (split; [reflexivity|split; [exact Ff|split; [exact Fg|exact O]]]).
    destruct (flat_put f width n t Hn Ff) as [E1 F1]. destruct (flat_put g width n t Hn Fg) as [E2 F2]. unfold event_file in *. rewrite E1, E2. cbn [fst snd].
    split; [reflexivity|]. split; [exact F1|]. split; [exact F2|]. intros k B.
    destruct (string_dec k (path_join path (text_file_name width n))) as [->|Nk]; [rewrite !fs_get_put_eq; reflexivity|]. rewrite !fs_get_put_neq by exact Nk. apply O, B.
  - intros f Ff. unfold write_text_file, bind, lift. destruct (event_text n bb nc ev header) as [t|x|u|]; cbn [fst snd]; try exact Ff.
    destruct (flat_put f width n t Hn Ff) as [E1 F1]. unfold event_file in *. rewrite E1. exact F1.
Qed.

(** The second half of a run: seeding and the events. *)
Definition writing (fuel sfuel : nat) (cfg : config A) (nA nB : nucleus A) (sp : num A) (ev : event A) (ws : list writer) : P R unit :=
  let nc := nucleon_common_of cfg sp in
  let co := {| co_nc := nc; co_nevents := number_events cfg; co_calc_ncoll := ncoll cfg;
               co_bmin := b_min cfg; co_bmax := determine_bmax cfg nA nB nc;
               co_asym := determine_asym nA nB; co_writers := ws |} in
  pbind R (fun p => Ended (Ret tt)
    (if (0 <? random_seed cfg)%Z then Own (eng_seed R (random_seed cfg)) (w_out p) (w_err p) else p)) (fun _ : unit =>
  pbind R (pfold R (event_steps R bd fuel sfuel co) (zupto (number_events cfg))
              (nA, nB, ev, normal_init R nc, gamma_init R cfg)) (fun _ =>
  yields R (Ret tt))).

Lemma over_writing b fuel sfuel cfg nA nB sp ev ws p :
  (forall w, In w ws -> (exists width header, w = WText path width header) \/ (exists width, w = WStdout width)) ->
  fine R (over b) keeps_flat anything (writing fuel sfuel cfg nA nB sp ev ws p).
Proof.
  intros Hw. unfold writing. cbv zeta. eapply fine_bind with (Q := anything); [intros x _; exact I|]. intros _ p1 _.
  eapply fine_bind with (Q := anything); [|intros x1 p2 _ x _; exact I]. apply fine_fold. intros n st p2 Hn. apply in_zupto in Hn.
  destruct st as [[[[nA1 nB1] ev1] nst] gst]. unfold event_steps. destruct (sample_collision _ _ _ _ _ _ _) as [r rs].
  apply fine_andthen with (Q := anything); [intros x _; exact I|]. intros [[[bb nc] nA'] nB'] p3 _.
  eapply fine_bind with (Q := anything); [intros x _; exact I|]. intros ev' p4 _.
  eapply fine_bind with (Q := anything); [|intros u p5 _ x _; exact I].
  apply fine_fold. intros w y p5 Hi. apply over_writer; [apply Hw, Hi|lia].
Qed.
End Over.

(** A run that ends well and whose parameter is in the cache: its two halves. *)
Section Halves.
Context {A : Arith} (R : Rng A) (sv : Solver A) (bd : build) (cfuel fuel sfuel : nat) (e : env).

Lemma halves (l : launch R) (f : fs A) sp p g : in_cache cfuel e (l_cfg l) f sp ->
  alone (start R sv bd cfuel fuel sfuel e l) f = (Ret tt, p, g) ->
  exists nA nB ev ws p1 f1,
    create_nucleus bd f (l_cfg l) 0 = Ret nA /\ create_nucleus bd f (l_cfg l) 1 = Ret nB /\ event_new (l_cfg l) = Ret ev /\
    alone (output_steps R bd (l_cfg l) (l_own l)) f = (Ret ws, p1, f1) /\
    alone (writing R bd fuel sfuel (l_cfg l) nA nB sp ev ws p1) f1 = (Ret tt, p, g).
Proof.
  intros (dh & t & D & L1 & L2 & L3) H.
  assert (ED : get_data_home e = Ret dh).
  { revert D. unfold data_dir, get_data_home. destruct (xdg_data_home e); [congruence|]. destruct (home e); cbn; congruence. }
  unfold start, stage0, run_steps in H. apply alone_bind_inv in H. destruct H as (nA & p1 & f1 & E1 & H). injection E1 as EA <- <-.
  apply alone_bind_inv in H. destruct H as (nB & p1 & f1 & E1 & H). injection E1 as EB <- <-.
  apply alone_bind_inv in H. destruct H as (sp' & p1 & f1 & E1 & H).
  assert (X : sp' = sp /\ p1 = l_own l /\ f1 = f).
  { unfold partonic_steps in E1. rewrite ED in E1. apply alone_bind_inv in E1. destruct E1 as (dh' & p2 & f2 & E0 & E1). injection E0 as <- <- <-.
    apply alone_bind_inv in E1. destruct E1 as ([] & p2 & f2 & E0 & E1). unfold calls in E0. cbn [alone] in E0. change (path_join dh "trento") with (cache_dir dh) in E0. rewrite (mkdir_done _ _ L1) in E0. injection E0 as <- <-.
    apply alone_bind_inv in E1. destruct E1 as (hit & p2 & f2 & E0 & E1). unfold asks, calls in E0. cbn [alone fst snd] in E0. change (cache_path dh) with (cache_file dh) in E0. rewrite L2 in E0. cbn [file_text] in E0. rewrite L3 in E0.
    injection E0 as <- <- <-. cbn in E1. injection E1 as <- <- <-. auto. }
  destruct X as (-> & -> & ->). apply alone_bind_inv in H. destruct H as (ev & p1 & f1 & E1' & H). injection E1' as Ev <- <-.
  apply alone_bind_inv in H. destruct H as (ws & p1 & f1 & Eo & H). exists nA, nB, ev, ws, p1, f1. auto 6.
Qed.

Lemma halves_back (l : launch R) (f : fs A) sp nA nB ev ws p1 f1 : in_cache cfuel e (l_cfg l) f sp ->
  create_nucleus bd f (l_cfg l) 0 = Ret nA -> create_nucleus bd f (l_cfg l) 1 = Ret nB -> event_new (l_cfg l) = Ret ev ->
  alone (output_steps R bd (l_cfg l) (l_own l)) f = (Ret ws, p1, f1) ->
  replays R (start R sv bd cfuel fuel sfuel e l) f (writing R bd fuel sfuel (l_cfg l) nA nB sp ev ws p1) f1.
Proof.
  intros (dh & t & D & L1 & L2 & L3) EA EB Ev Eo.
  assert (ED : get_data_home e = Ret dh).
  { revert D. unfold data_dir, get_data_home. destruct (xdg_data_home e); [congruence|]. destruct (home e); cbn; congruence. }
  pose proof (rp_start R (start R sv bd cfuel fuel sfuel e l) f) as H. unfold start at 2, stage0, run_steps in H.
  assert (H1 := replays_andthen R _ _ _ _ _ nA (l_own l) f H). cbn [asks calls alone fst snd] in H1. rewrite EA in H1. specialize (H1 eq_refl). clear H.
  assert (H2 := replays_andthen R _ _ _ _ _ nB (l_own l) f H1). cbn [asks calls alone fst snd] in H2. rewrite EB in H2. specialize (H2 eq_refl). clear H1.
  assert (EP : alone (partonic_steps R sv cfuel e (l_cfg l) (l_own l)) f = (Ret sp, l_own l, f)).
  { unfold partonic_steps. rewrite ED. unfold pbind. rewrite alone_andthen. cbn [yields alone]. rewrite alone_andthen. unfold calls at 1. cbn [alone].
    change (path_join dh "trento") with (cache_dir dh). rewrite (mkdir_done _ _ L1). cbn [fst snd]. rewrite alone_andthen. cbn [asks calls alone fst snd].
    change (cache_path dh) with (cache_file dh). rewrite L2. cbn [file_text]. rewrite L3. reflexivity. }
  assert (H3 := replays_andthen R _ _ _ _ _ sp (l_own l) f H2 EP). clear H2.
  assert (H4 := replays_andthen R _ _ _ _ _ ev (l_own l) f H3). cbn [yields alone] in H4. rewrite Ev in H4. specialize (H4 eq_refl). clear H3.
  exact (replays_andthen R _ _ _ _ _ ws p1 f1 H4 Eo).
Qed.

Lemma dirs_own l : forall (p : own R) (f : fs A) r p1 f1, alone (pfold R (fun _ d => calls R (make_dir d)) l tt p) f = (r, p1, f1) -> p1 = p.
Proof.
  induction l as [|d l IH]; intros p f r p1 f1; cbn [pfold]; [cbn; intros E; congruence|]. unfold pbind. rewrite alone_andthen. unfold calls at 1. cbn [alone].
  destruct (fst (make_dir d f)) as [[]|x|u|]; try (intros E; congruence). apply IH.
Qed.

(** The constructor of the output, for a directory. *)
Lemma makes_output cfg path (p : own R) f ws p1 f1 : tree f -> output cfg = Some path -> filename_is_hdf5 path = false ->
  fs_get f (norm path) = None \/ fs_get f (norm path) = Some Dir ->
  alone (output_steps R bd cfg p) f = (Ret ws, p1, f1) ->
  path <> "" /\ p1 = p /\ fs_get f1 (norm path) = Some Dir /\ (forall k, below path k -> fs_get f1 k = None) /\
  (forall w, In w ws -> (exists width header, w = WText path width header) \/ (exists width, w = WStdout width)) /\
  forall f2, fs_get f2 (norm path) = Some Dir -> (forall k, below path k -> fs_get f2 k = None) -> alone (output_steps R bd cfg p) f2 = (Ret ws, p, f2).
Proof.
  intros T E Hh Fr H. pose proof (does_output R bd cfg (sys_of p f)) as Do. rewrite own_sys in Do. change (s_fs (sys_of p f)) with f in Do. rewrite H in Do.
  destruct (output_new R bd cfg (sys_of p f)) as [r s1] eqn:En. unfold split in Do. cbn [fst snd] in Do.
  injection Do as <- Ep Ef. destruct (output_new_ok R bd cfg (sys_of p f) _ s1 T En) as (_ & width & Hw & Hws & Op).
  assert (X : path <> "" /\ fs_get f1 (norm path) = Some Dir /\ forall k, below path k -> fs_get f1 k = None).
  { rewrite Ef. destruct Op as [E1 _|q E1 E2|q E1 E2 NE E3 E4 E5|q E1 E2 NE N0 E3 _]; try congruence.
    - assert (q = path) by congruence. subst q. auto.
    - assert (q = path) by congruence. subst q. cbn [sys_of s_fs] in E3. destruct Fr; congruence. }
  destruct X as (Np & D & N). split; [exact Np|]. split; [|split; [exact D|split; [exact N|split]]].
  - clear Op Ep Ef En. unfold output_steps, pbind in H. rewrite alone_andthen in H. cbn [yields alone] in H. rewrite Hw in H.
    rewrite alone_andthen, E, Hh in H. rewrite alone_andthen in H. cbn [asks calls alone fst snd] in H. rewrite alone_andthen in H.
    destruct (fs_exists f path).
    + rewrite alone_andthen in H. cbn [asks calls alone fst snd] in H. destruct (fs_is_empty f path); cbn in H; congruence.
    + destruct (String.eqb_spec path ""); [contradiction|].
      destruct (alone (pfold R (fun _ d => calls R (make_dir d)) (prefixes "" (norm path)) tt p) f) as [[[x|x|u|] p2] f2] eqn:Ed; try discriminate H.
      apply dirs_own in Ed. cbn in H. congruence.
  - intros w Hi. rewrite Hws in Hi. unfold writers_of in Hi. rewrite E, Hh in Hi. apply in_app_or in Hi. destruct Hi as [Hi|[<-|[]]]; [|left; eauto].
    destruct (quiet cfg); [destruct Hi|]. destruct Hi as [<-|[]]. right. eauto.
  - intros f2 D2 N2. unfold output_steps, pbind. rewrite alone_andthen. cbn [yields alone]. rewrite Hw.
    rewrite alone_andthen, E, Hh. rewrite alone_andthen. cbn [asks calls alone fst snd]. rewrite alone_andthen.
    unfold fs_exists, fs_is_empty. rewrite lookup_ne, D2 by exact Np. rewrite alone_andthen. cbn [asks calls alone fst snd]. rewrite lookup_ne, D2 by exact Np.
    rewrite (proj2 (empty_dir_iff f2 path) N2). cbn. rewrite Hws. unfold writers_of. rewrite E, Hh. reflexivity.
Qed.
End Halves.

(** The race. *)
Lemma race {A : Arith} (R : Rng A) sv bd cfuel fuel sfuel e (f0 : fs A) (l1 l2 : launch R) path sp1 sp2 q1 g1 q2 g2 :
  tree f0 -> output (l_cfg l1) = Some path -> output (l_cfg l2) = Some path -> filename_is_hdf5 path = false ->
  fs_get f0 (norm path) = None \/ fs_get f0 (norm path) = Some Dir ->
  (forall dh, data_dir e = Some dh -> apart path (cache_dir dh)) -> (forall q, reads_file (l_cfg l2) q -> apart q path) ->
  in_cache cfuel e (l_cfg l1) f0 sp1 -> in_cache cfuel e (l_cfg l2) f0 sp2 ->
  alone (start R sv bd cfuel fuel sfuel e l1) f0 = (Ret tt, q1, g1) -> alone (start R sv bd cfuel fuel sfuel e l2) f0 = (Ret tt, q2, g2) ->
  exists g, schedule R ([start R sv bd cfuel fuel sfuel e l1; start R sv bd cfuel fuel sfuel e l2], f0) ([Ended (Ret tt) q1; Ended (Ret tt) q2], g) /\
    forall k, below path k -> fs_get g k = match fs_get g2 k with Some n => Some n | None => fs_get g1 k end.
Proof.
  intros T E1 E2 Hh Fr Ap In_ C1 C2 H1 H2.
  destruct (halves R sv bd cfuel fuel sfuel e l1 f0 sp1 q1 g1 C1 H1) as (nA1 & nB1 & ev1 & ws1 & p1 & f1 & EA1 & EB1 & Ev1 & Eo1 & Ew1).
  destruct (halves R sv bd cfuel fuel sfuel e l2 f0 sp2 q2 g2 C2 H2) as (nA2 & nB2 & ev2 & ws2 & p2 & f2 & EA2 & EB2 & Ev2 & Eo2 & Ew2).
  destruct (makes_output R bd (l_cfg l1) path (l_own l1) f0 ws1 p1 f1 T E1 Hh Fr Eo1) as (Np & -> & D1 & N1 & W1 & _).
  destruct (makes_output R bd (l_cfg l2) path (l_own l2) f0 ws2 p2 f2 T E2 Hh Fr Eo2) as (_ & -> & D2 & N2 & W2 & O2).
  (* what the first one did so far *)
  assert (G1 : out_change (l_cfg l1) f0 f1).
  { eapply (alone_change R (rel (l_cfg l1)) (out_change (l_cfg l1))); [apply out_same| |apply fine_output|exact Eo1].
    intros a b c X Y k. destruct (Y k) as [Ek|Yk].
    - destruct (X k) as [Ek'|(pa & Pa & [B|(q & Q1 & Q2 & Q3 & Q4)])]; [left; congruence|right; exists pa; auto|right; exists pa; split; [exact Pa|right; exists q; split; [exact Q1|split; [exact Q2|split; congruence]]]].
    - destruct Yk as (pa & Pa & [B|(q & Q1 & Q2 & Q3 & Q4)]); [right; exists pa; auto|].
      destruct (X k) as [Ek'|(pb & Pb & [B|(q' & Q1' & Q2' & Q3' & Q4')])]; [|right; exists pb; auto|congruence].
      right. exists pa. split; [exact Pa|right; exists q; split; [exact Q1|split; [exact Q2|split; congruence]]]. }
  assert (Keep : forall q, apart q path -> q <> "" -> fs_get f0 (norm q) <> None -> fs_lookup f1 q = fs_lookup f0 q).
  { intros q Aq Nq Ne. rewrite !lookup_ne by exact Nq. destruct (G1 (norm q)) as [->|(pa & Pa & [B|(q' & _ & _ & X & _)])]; [reflexivity| |contradiction].
    assert (pa = path) by congruence. subst pa. exfalso. revert Aq. apply (at_or_below_apart q path (norm q)); [left; reflexivity|exact B]. }
  assert (In1 : forall q, reads_file (l_cfg l2) q -> fs_lookup f1 q = fs_lookup f0 q).
  { intros q Hr. specialize (In_ q Hr). destruct (string_dec q "") as [->|Nq]; [reflexivity|]. rewrite !lookup_ne by exact Nq.
    destruct (G1 (norm q)) as [->|(pa & Pa & B)]; [reflexivity|]. assert (pa = path) by congruence. subst pa. exfalso. destruct B as [B|(q' & Eq & B & _)].
    - revert In_. apply (at_or_below_apart q path (norm q)); [left; reflexivity|exact B].
    - destruct In_ as (_ & X & _). apply X. unfold below in *. rewrite Eq. exact B. }
  assert (C2' : in_cache cfuel e (l_cfg l2) f1 sp2).
  { destruct C2 as (dh & t & D & L1 & L2 & L3). exists dh, t. split; [exact D|]. pose proof (apart_sym _ _ (Ap dh D)) as Ad.
    assert (Ncd : cache_dir dh <> "") by (apply join_not_empty; discriminate). assert (Ncf : cache_file dh <> "") by (apply join_not_empty; discriminate).
    split; [|split; [|exact L3]].
    - rewrite Keep; [exact L1|exact Ad|exact Ncd|]. rewrite lookup_ne in L1 by exact Ncd. congruence.
    - rewrite lookup_ne in * by exact Ncf. destruct (G1 (norm (cache_file dh))) as [->|(pa & Pa & [B|(q' & _ & _ & X & _)])]; [exact L2| |congruence].
      assert (pa = path) by congruence. subst pa. exfalso. revert Ad. apply (at_or_below_apart (cache_dir dh) path (norm (cache_file dh))); [apply cache_file_in|exact B]. }
  pose proof (halves_back R sv bd cfuel fuel sfuel e l1 f0 sp1 nA1 nB1 ev1 ws1 (l_own l1) f1 C1 EA1 EB1 Ev1 Eo1) as S1.
  rewrite <- (create_nucleus_same bd (l_cfg l2) f0 f1 0 In1) in EA2. rewrite <- (create_nucleus_same bd (l_cfg l2) f0 f1 1 In1) in EB2.
  pose proof (halves_back R sv bd cfuel fuel sfuel e l2 f1 sp2 nA2 nB2 ev2 ws2 (l_own l2) f1 C2' EA2 EB2 Ev2 (O2 f1 D1 N1)) as S2.
  pose proof (alone_replays R _ _ _ _ _ _ _ (rp_start R _ f1) Ew1) as S3.
  assert (Fl : flat path f1) by (split; [exact D1|intros k B; rewrite N1 by exact B; discriminate]).
  assert (Fl2 : flat path f2) by (split; [exact D2|intros k B; rewrite N2 by exact B; discriminate]).
  assert (Fg : flat path g1).
  { refine (alone_change R (over path f1) (keeps_flat path) anything _ _ _ (over_writing R bd path Np f1 fuel sfuel _ nA1 nB1 sp1 ev1 ws1 _ W1) _ _ _ _ Ew1 Fl); unfold keeps_flat; auto. }
  assert (Ov : over path g1 g1 f2) by (split; [exact Fg|split; [exact Fl2|intros k B; rewrite N2 by exact B; reflexivity]]).
  assert (Al : exists g, alone (writing R bd fuel sfuel (l_cfg l2) nA2 nB2 sp2 ev2 ws2 (l_own l2)) g1 = (Ret tt, q2, g) /\ over path g1 g g2).
  { destruct (alone (writing R bd fuel sfuel (l_cfg l2) nA2 nB2 sp2 ev2 ws2 (l_own l2)) g1) as [[r q] g] eqn:Eg.
    destruct (alone_alike R (over path g1) (keeps_flat path) anything _ (over_writing R bd path Np g1 fuel sfuel _ nA2 nB2 sp2 ev2 ws2 _ W2) _ _ _ _ _ Ov Eg) as (g' & Eg' & Ov').
    rewrite Ew2 in Eg'. injection Eg' as <- <- <-. exists g. auto. }
  destruct Al as (g & Eg & Og). pose proof (alone_replays R _ _ _ _ _ _ _ (rp_start R _ g1) Eg) as S4.
  exists g. split; [|apply Og].
  eapply sched_trans; [apply first_moves, S1|]. eapply sched_trans; [apply second_moves, S2|].
  eapply sched_trans; [apply first_moves, S3|]. apply second_moves, S4.
Qed.
