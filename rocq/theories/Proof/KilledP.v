(** Killed runs. *)
From Coq Require Import Ascii.
From Verif.Base Require Import Result Arith Rng.
From Verif.Model Require Import FastExp Config Nucleon Nucleus Event Text Files CrossSection CacheSteps Output Collider Killed.
From Verif.Spec Require Import History Collision FileTree Cache Killed.
From Verif.Proof Require Import Basics Sampling Ctor Collision Writers FsP FsTree OutputP.
Local Open Scope string_scope.

Lemma starts_refl t : starts t t. Proof. exists "". symmetry. apply append_nil_r. Qed.
Lemma starts_trans t u v : starts t u -> starts u v -> starts t v.
Proof. intros (a & ->) (b & ->). exists (a ++ b). apply append_assoc. Qed.
Lemma starts_app t u v : starts u v -> starts (t ++ u) (t ++ v).
Proof. intros (a & ->). exists a. symmetry. apply append_assoc. Qed.
Lemma starts_here t u : starts t (t ++ u). Proof. exists u. reflexivity. Qed.

(** Making directories only adds directories. *)
Definition mkdirs {A : Arith} (ds : list string) : M (fs A) unit :=
  mfold (fun _ d => fun f : fs A =>
      match fs_lookup f d with
      | Some Dir => (Ret tt, f)
      | Some _ => (Throw (FilesystemError d), f)
      | None => (Ret tt, fs_set f d Dir)
      end) ds tt.

Lemma mkdirs_grow {A : Arith} ds : forall (f : fs A) r f', mkdirs ds f = (r, f') -> fs_get f "" = Some Dir ->
  forall k, fs_get f' k = fs_get f k \/ (fs_get f k = None /\ fs_get f' k = Some Dir).
Proof.
  induction ds as [|d ds IH]; intros f r f' H T k; unfold mkdirs in H; cbn [mfold] in H.
  - unfold ret in H. injection H as <- <-. left. reflexivity.
  - unfold bind in H. destruct (fs_lookup f d) as [[]|] eqn:E.
    + exact (IH f r f' H T k).
    + injection H as <- <-. left. reflexivity.
    + injection H as <- <-. left. reflexivity.
    + assert (X : forall k, fs_get (fs_set f d Dir) k = fs_get f k \/ (fs_get f k = None /\ fs_get (fs_set f d Dir) k = Some Dir)).
      { intros k0. unfold fs_set. destruct (string_dec k0 (norm d)) as [->|N]; [|left; apply fs_get_put_neq, N].
        rewrite fs_get_put_eq. destruct (string_dec d "") as [->|ND]; [change (norm "") with ""; left; congruence|].
        rewrite lookup_ne in E by exact ND. right. auto. }
      assert (T' : fs_get (fs_set f d Dir) "" = Some Dir) by (destruct (X "") as [->|[_ ->]]; [exact T|reflexivity]).
      destruct (IH _ r f' H T' k) as [E1|[E1 E2]]; destruct (X k) as [E3|[E3 E4]].
      * left. congruence.
      * right. split; congruence.
      * right. split; congruence.
      * congruence.
Qed.

(** ** The event loop with text output *)
Section Loop.
Context {A : Arith} (R : Rng A) (bd : build) (cfg : config A) (width : Z) (path : string).
Hypothesis Hout : output cfg = Some path.
Hypothesis Htext : filename_is_hdf5 path = false.
Hypothesis Hpath : path <> "".
Let file (i : Z) : string := event_file path width i.

Lemma file_key i : (0 <= i)%Z -> norm (file i) = file i /\ below path (file i) /\ file i <> "" /\ norm path <> file i.
Proof.
  intros Hi. destruct (join_key path _ (text_file_name_plain width _ Hi) Hpath) as [K1 K2].
  split; [exact K1|]. split; [exact K2|]. split.
  - apply join_not_empty. apply text_file_name_plain, Hi.
  - intros X. unfold file, event_file in X. rewrite <- X in K2. exact (below_not_self _ K2).
Qed.
Lemma file_inj i j : (0 <= i)%Z -> (0 <= j)%Z -> file i = file j -> i = j.
Proof. intros Hi Hj X. apply join_inj in X. apply text_file_name_inj in X; assumption. Qed.

(** Writing the file of event [i] into an existing directory. *)
Lemma write_event (f : fs A) i t r f' : (0 <= i)%Z -> fs_get f (norm path) = Some Dir -> fs_get f (file i) <> Some Dir ->
  write_file (file i) t f = (r, f') -> f' = fs_put f (file i) (File t).
Proof.
  intros Hi D ND H. destruct (file_key i Hi) as (K1 & K2 & K3 & _). unfold write_file in H.
  rewrite lookup_ne, K1 in H by exact K3.
  assert (PO : parent_ok f (file i) = true).
  { apply parent_ok_join; [apply text_file_name_plain, Hi|exact Hpath|rewrite lookup_ne by exact Hpath; exact D]. }
  rewrite PO in H. unfold fs_set in H. rewrite K1 in H.
  destruct (fs_get f (file i)) as [[]|]; try congruence.
Qed.

Definition line (n : Z) (b : num A) (nc : Z) (ev : event A) : string :=
  if quiet cfg then "" else stream_line width n b nc ev.

(** The writers of one event. *)
Lemma run_output_text n b nc ev (s s' : sys R) : (0 <= n)%Z ->
  fs_get (s_fs s) (norm path) = Some Dir -> fs_get (s_fs s) (file n) <> Some Dir ->
  run_output R (writers_of cfg width) n b nc ev s = (Ret tt, s') ->
  s_out s' = s_out s ++ line n b nc ev /\
  exists t, event_text n b nc ev (negb (no_header cfg)) = Ret t /\ s_fs s' = fs_put (s_fs s) (file n) (File t).
Proof.
  intros Hn D ND H.
  apply (run_output_effect R cfg width (Delivery n b nc ev [] [])) in H.
  destruct H as (H1 & _ & _ & H4). split; [exact H1|].
  unfold file_effect in H4. rewrite Hout, Htext in H4. unfold write_text_file, bind, lift in H4. cbn [d_num d_b d_ncoll d_event] in H4.
  destruct (event_text n b nc ev (negb (no_header cfg))) as [t| | |]; try discriminate H4.
  exists t. split; [reflexivity|]. exact (write_event _ _ _ _ _ Hn D ND H4).
Qed.

Lemma killed_output_text n b nc ev (s s' : sys R) : (0 <= n)%Z ->
  fs_get (s_fs s) (norm path) = Some Dir -> fs_get (s_fs s) (file n) <> Some Dir ->
  killed_output R n b nc ev (writers_of cfg width) s s' ->
  (exists o, s_out s' = s_out s ++ o /\ starts o (line n b nc ev)) /\
  (s_fs s' = s_fs s \/
   exists t1 t2, event_text n b nc ev (negb (no_header cfg)) = Ret (t1 ++ t2) /\ s_fs s' = fs_put (s_fs s) (file n) (File t1)).
Proof.
  intros Hn D ND H. unfold writers_of in H. rewrite Hout, Htext in H. unfold line.
  assert (T : forall s0, fs_get (s_fs s0) (norm path) = Some Dir -> fs_get (s_fs s0) (file n) <> Some Dir ->
    killed_output R n b nc ev [WText path width (negb (no_header cfg))] s0 s' ->
    s_out s' = s_out s0 /\
    (s_fs s' = s_fs s0 \/
     exists t1 t2, event_text n b nc ev (negb (no_header cfg)) = Ret (t1 ++ t2) /\ s_fs s' = fs_put (s_fs s0) (file n) (File t1))).
  { clear H D ND s. intros s D ND H. inversion H as [ws s0|w ws s0 s1 HI|w ws s0 s1 s2 HR HL]; subst.
    - auto.
    - inversion HI as [|dir wd hd s0 t1 t2 f' Et Ew|]; subst. cbn [with_fs s_out s_fs]. split; [reflexivity|].
      right. exists t1, t2. split; [exact Et|]. exact (write_event _ _ _ _ _ Hn D ND Ew).
    - inversion HL; subst. cbn [run_writer] in HR. apply in_fs_frame in HR. destruct HR as (_ & E2 & _ & E4).
      split; [exact E2|]. right. unfold write_text_file, bind, lift in E4.
      destruct (event_text n b nc ev (negb (no_header cfg))) as [t| | |]; try discriminate E4.
      exists t, "". rewrite append_nil_r. split; [reflexivity|]. symmetry in E4. exact (write_event _ _ _ _ _ Hn D ND E4). }
  destruct (quiet cfg); cbn [app] in H.
  - destruct (T s D ND H) as [T1 T2]. split; [|exact T2]. exists "". split; [rewrite append_nil_r; exact T1|apply starts_refl].
  - inversion H as [ws s0|w ws s0 s1 HI|w ws s0 s1 s2 HR HL]; subst.
    + split; [|left; reflexivity]. exists "". rewrite append_nil_r. split; [reflexivity|]. exists (stream_line width n b nc ev). reflexivity.
    + inversion HI as [wd s0 t1 t2 Et| |]; subst. cbn [s_out s_fs]. split; [|left; reflexivity].
      exists t1. split; [reflexivity|]. rewrite Et. apply starts_here.
    + cbn [run_writer] in HR. unfold write_stdout in HR. injection HR as <-.
      match type of HL with killed_output _ _ _ _ _ _ ?x _ => destruct (T x D ND HL) as [T1 T2] end. cbn [s_out s_fs] in T1, T2.
      split; [|exact T2]. exists (stream_line width n b nc ev). split; [exact T1|apply starts_refl].
Qed.

Lemma in_rstate_frame {X} (m : M (rstate R) X) s r s' : in_rstate R m s = (r, s') ->
  s_fs (ru_sys s') = s_fs (ru_sys s) /\ s_out (ru_sys s') = s_out (ru_sys s).
Proof. unfold in_rstate. destruct (m _). intros H. injection H as <- <-. auto. Qed.

Variable co : collider A.
Hypothesis Hws : co_writers co = writers_of cfg width.
Variables fuel sfuel : nat.

(** One whole event. *)
Lemma one_event_text st n (s : run R) st' s' : (0 <= n)%Z ->
  fs_get (s_fs (ru_sys s)) (norm path) = Some Dir -> fs_get (s_fs (ru_sys s)) (file n) <> Some Dir ->
  one_event R bd fuel sfuel co st n s = (Ret st', s') ->
  exists o t, s_out (ru_sys s') = s_out (ru_sys s) ++ o /\ s_fs (ru_sys s') = fs_put (s_fs (ru_sys s)) (file n) (File t).
Proof.
  intros Hn D ND H. destruct st as [[nA nB] ev]. unfold one_event in H. apply bind_Ret_inv in H.
  destruct H as ([[[b nc] nA'] nB'] & s1 & E1 & H). apply bind_Ret_inv in H. destruct H as (ev' & s2 & E2 & H).
  unfold lift in E2. assert (s2 = s1) by congruence. subst s2.
  apply bind_Ret_inv in H. destruct H as ([] & s2 & E3 & H). unfold ret in H. injection H as _ <-.
  apply in_rstate_frame in E1. destruct E1 as [F O]. unfold in_sys in E3.
  destruct (run_output R (co_writers co) n b nc ev' (ru_sys s1)) as [r3 sy] eqn:ER. injection E3 as -> <-. cbn [ru_sys].
  rewrite Hws in ER. apply run_output_text in ER; [|exact Hn|rewrite F; exact D|rewrite F; exact ND].
  destruct ER as (X1 & t & _ & X2). exists (line n b nc ev'), t. rewrite X1, X2, F, O. auto.
Qed.

(** All events: every file of the list is written, nothing else changes. *)
Lemma events_text l : forall st (s : run R) st' s', (forall i, In i l -> (0 <= i)%Z) -> NoDup l ->
  fs_get (s_fs (ru_sys s)) (norm path) = Some Dir -> (forall i, In i l -> fs_get (s_fs (ru_sys s)) (file i) <> Some Dir) ->
  mfold (one_event R bd fuel sfuel co) l st s = (Ret st', s') ->
  starts (s_out (ru_sys s)) (s_out (ru_sys s')) /\
  (forall i, In i l -> exists t, fs_get (s_fs (ru_sys s')) (file i) = Some (File t)) /\
  (forall k, (forall i, In i l -> k <> file i) -> fs_get (s_fs (ru_sys s')) k = fs_get (s_fs (ru_sys s)) k).
Proof.
  induction l as [|n l IH]; intros st s st' s' Hp ND D NDir H.
  - cbn [mfold] in H. unfold ret in H. injection H as _ <-. split; [apply starts_refl|]. split; [intros i []|reflexivity].
  - cbn [mfold] in H. apply bind_Ret_inv in H. destruct H as (st1 & s1 & E1 & H).
    inversion ND as [|? ? ND1 ND2]; subst. assert (Hn : (0 <= n)%Z) by (apply Hp; left; reflexivity).
    destruct (one_event_text _ _ _ _ _ Hn D (NDir n (or_introl eq_refl)) E1) as (o & t & O1 & F1).
    destruct (file_key n Hn) as (_ & _ & _ & NP).
    assert (NI : forall i, In i l -> file i <> file n).
    { intros i Hi X. apply file_inj in X; [subst i; contradiction|apply Hp; right; exact Hi|exact Hn]. }
    destruct (IH st1 s1 st' s') as (I1 & I2 & I3).
    + intros i Hi. apply Hp. right. exact Hi.
    + exact ND2.
    + rewrite F1, fs_get_put_neq by exact NP. exact D.
    + intros i Hi. rewrite F1, fs_get_put_neq by (apply NI, Hi). apply NDir. right. exact Hi.
    + exact H.
    + split; [|split].
      * eapply starts_trans; [|exact I1]. rewrite O1. apply starts_here.
      * intros i [<-|Hi]; [|apply I2, Hi]. exists t. rewrite I3 by (intros j Hj X; exact (NI j Hj (eq_sym X))). rewrite F1. apply fs_get_put_eq.
      * intros k Hk. rewrite I3 by (intros j Hj; apply Hk; right; exact Hj). rewrite F1. apply fs_get_put_neq. apply Hk. left. reflexivity.
Qed.

(** The same loop killed. *)
Lemma killed_events_text l : forall st (s : run R) st' s' sk, (forall i, In i l -> (0 <= i)%Z) -> NoDup l ->
  fs_get (s_fs (ru_sys s)) (norm path) = Some Dir -> (forall i, In i l -> fs_get (s_fs (ru_sys s)) (file i) = None) ->
  mfold (one_event R bd fuel sfuel co) l st s = (Ret st', s') ->
  killed_events R bd fuel sfuel co l st s sk ->
  exists l1 l2, l = (l1 ++ l2)%list /\
    starts (s_out sk) (s_out (ru_sys s')) /\
    (forall i, In i l1 -> exists t, fs_get (s_fs sk) (file i) = Some (File t) /\ fs_get (s_fs (ru_sys s')) (file i) = Some (File t)) /\
    match l2 with
    | [] => True
    | n :: l3 =>
        (fs_get (s_fs sk) (file n) = None \/
         exists t u, fs_get (s_fs sk) (file n) = Some (File t) /\ fs_get (s_fs (ru_sys s')) (file n) = Some (File u) /\ starts t u) /\
        forall i, In i l3 -> fs_get (s_fs sk) (file i) = None
    end /\
    (forall k, (forall i, In i l -> k <> file i) -> fs_get (s_fs sk) k = fs_get (s_fs (ru_sys s)) k).
Proof.
  induction l as [|n l IH]; intros st s st' s' sk Hp ND D NF H K.
  - inversion K as [l0 st0 s0| |]; subst. cbn [mfold] in H. unfold ret in H. injection H as _ <-. exists [], [].
    split; [reflexivity|]. split; [apply starts_refl|]. split; [intros i []|]. split; [exact I|reflexivity].
  - assert (NDir : forall i, In i (n :: l) -> fs_get (s_fs (ru_sys s)) (file i) <> Some Dir) by (intros i Hi; rewrite NF by exact Hi; discriminate).
    pose proof (events_text (n :: l) st s st' s' Hp ND D NDir H) as (W1 & W2 & W3).
    inversion ND as [|? ? ND1 ND2]; subst. assert (Hn : (0 <= n)%Z) by (apply Hp; left; reflexivity).
    destruct (file_key n Hn) as (_ & _ & _ & NP).
    assert (NI : forall i, In i l -> file i <> file n).
    { intros i Hi X. apply file_inj in X; [subst i; contradiction|apply Hp; right; exact Hi|exact Hn]. }
    cbn [mfold] in H. apply bind_Ret_inv in H. destruct H as (st1 & s1 & E1 & H).
    inversion K as [l0 st0 s0|n0 l0 nA nB ev s0 b nc nA' nB' sc ev' s2 ES EC KO|n0 l0 st0 s0 st2 s2 s3 EO KE]; subst.
    + exists [], (n :: l). split; [reflexivity|]. split; [exact W1|]. split; [intros i []|]. split; [|reflexivity].
      split; [left; apply NF; left; reflexivity|]. intros i Hi. apply NF. right. exact Hi.
    + (* killed while event n is written *)
      unfold one_event in E1. unfold bind in E1. rewrite ES in E1. unfold lift in E1. rewrite EC in E1.
      destruct (in_sys R (run_output R (co_writers co) n b nc ev') sc) as [[[]| | |] sd] eqn:EI; try discriminate E1.
      unfold ret in E1. injection E1 as _ <-.
      unfold in_sys in EI. destruct (run_output R (co_writers co) n b nc ev' (ru_sys sc)) as [r3 sy] eqn:ER. injection EI as -> <-.
      apply in_rstate_frame in ES. destruct ES as [F O]. rewrite Hws in ER, KO.
      assert (D' : fs_get (s_fs (ru_sys sc)) (norm path) = Some Dir) by (rewrite F; exact D).
      assert (N' : fs_get (s_fs (ru_sys sc)) (file n) <> Some Dir) by (rewrite F; apply NDir; left; reflexivity).
      destruct (run_output_text _ _ _ _ _ _ Hn D' N' ER) as (X1 & t & Et & X2).
      destruct (killed_output_text _ _ _ _ _ _ Hn D' N' KO) as ((o & Y1 & Y2) & Y3).
      assert (Wl : starts (s_out sy) (s_out (ru_sys s')) /\ fs_get (s_fs (ru_sys s')) (file n) = Some (File t)).
      { destruct (events_text l st1 (Run sy (ru_norm sc) (ru_gamma sc)) st' s') as (V1 & _ & V3); cbn [ru_sys].
        - intros i Hi. apply Hp. right. exact Hi.
        - exact ND2.
        - rewrite X2, fs_get_put_neq by exact NP. exact D'.
        - intros i Hi. rewrite X2, fs_get_put_neq by (apply NI, Hi). rewrite F. apply NDir. right. exact Hi.
        - exact H.
        - cbn [ru_sys] in V1, V3. split; [exact V1|]. rewrite V3 by (intros j Hj X; exact (NI j Hj (eq_sym X))). rewrite X2. apply fs_get_put_eq. }
      destruct Wl as [V1 V2].
      exists [], (n :: l). split; [reflexivity|]. split; [|split; [intros i []|split]].
      * eapply starts_trans; [|exact V1]. rewrite X1, Y1. apply starts_app, Y2.
      * destruct Y3 as [Y3|(t1 & t2 & Y3 & Y4)].
        -- rewrite Y3, F. split; [left; apply NF; left; reflexivity|]. intros i Hi. apply NF. right. exact Hi.
        -- rewrite Y4. split.
           ++ right. exists t1, (t1 ++ t2). rewrite fs_get_put_eq. assert (t = t1 ++ t2) by congruence. subst t.
              split; [reflexivity|]. split; [exact V2|apply starts_here].
           ++ intros i Hi. rewrite fs_get_put_neq by (apply NI, Hi). rewrite F. apply NF. right. exact Hi.
      * intros k Hk. destruct Y3 as [Y3|(t1 & t2 & Y3 & Y4)]; [rewrite Y3, F; reflexivity|].
        rewrite Y4, fs_get_put_neq by (apply Hk; left; reflexivity). rewrite F. reflexivity.
    + rewrite EO in E1. injection E1 as -> ->.
      destruct (one_event_text _ _ _ _ _ Hn D (NDir n (or_introl eq_refl)) EO) as (o & t & O1 & F1).
      destruct (IH st1 s1 st' s' sk) as (l1 & l2 & EL & I1 & I2 & I3 & I4).
      * intros i Hi. apply Hp. right. exact Hi.
      * exact ND2.
      * rewrite F1, fs_get_put_neq by exact NP. exact D.
      * intros i Hi. rewrite F1, fs_get_put_neq by (apply NI, Hi). apply NF. right. exact Hi.
      * exact H.
      * exact KE.
      * exists (n :: l1), l2. split; [rewrite EL; reflexivity|]. split; [exact I1|]. split; [|split; [exact I3|]].
        -- intros i [<-|Hi]; [|apply I2, Hi]. exists t.
           assert (Hk : forall j, In j l -> file n <> file j) by (intros j Hj X; exact (NI j Hj (eq_sym X))).
           rewrite (I4 _ Hk), F1. split; [apply fs_get_put_eq|].
           destruct (events_text l st1 s1 st' s') as (_ & _ & V3).
           { intros j Hj. apply Hp. right. exact Hj. }
           { exact ND2. }
           { rewrite F1, fs_get_put_neq by exact NP. exact D. }
           { intros j Hj. rewrite F1, fs_get_put_neq by (apply NI, Hj). apply NDir. right. exact Hj. }
           { exact H. }
           rewrite (V3 _ Hk), F1. apply fs_get_put_eq.
        -- intros k Hk. rewrite I4 by (intros j Hj; apply Hk; right; exact Hj). rewrite F1. apply fs_get_put_neq. apply Hk. left. reflexivity.
Qed.
End Loop.

(** ** The event loop with no file or with an HDF5 file *)
Section Other.
Context {A : Arith} (R : Rng A) (bd : build) (cfg : config A) (width : Z).
(** The only entry that may be written. *)
Definition h5_entry (key : string) : Prop := exists path, output cfg = Some path /\ key = norm path.
Hypothesis Hkind : forall path, output cfg = Some path -> filename_is_hdf5 path = true.
Let line (n : Z) (b : num A) (nc : Z) (ev : event A) : string := if quiet cfg then "" else stream_line width n b nc ev.

Lemma hdf5_write_other path n b nc ev (f f' : fs A) r key : key <> norm path ->
  hdf5_write path n b nc ev f = (r, f') -> fs_get f' key = fs_get f key.
Proof.
  intros N H. unfold hdf5_write in H.
  destruct (fs_lookup f path) as [[]|]; try (injection H as _ <-; reflexivity).
  destruct (_ <=? _)%Z; [injection H as _ <-; reflexivity|].
  destruct (existsb _ _); injection H as _ <-; [reflexivity|]. unfold fs_set. apply fs_get_put_neq. exact N.
Qed.

Lemma run_output_other n b nc ev (s s' : sys R) :
  run_output R (writers_of cfg width) n b nc ev s = (Ret tt, s') ->
  s_out s' = s_out s ++ line n b nc ev /\ forall key, ~ h5_entry key -> fs_get (s_fs s') key = fs_get (s_fs s) key.
Proof.
  intros H. apply (run_output_effect R cfg width (Delivery n b nc ev [] [])) in H.
  destruct H as (H1 & _ & _ & H4). split; [exact H1|]. intros key N. unfold file_effect in H4.
  destruct (output cfg) as [path|] eqn:Eo; [|rewrite H4; reflexivity].
  rewrite (Hkind path eq_refl) in H4. cbn [d_num d_b d_ncoll d_event] in H4.
  refine (hdf5_write_other _ _ _ _ _ _ _ _ key _ H4). intros X. apply N. exists path. rewrite Eo. auto.
Qed.

Lemma killed_output_other n b nc ev (s s' : sys R) : killed_output R n b nc ev (writers_of cfg width) s s' ->
  (exists o, s_out s' = s_out s ++ o /\ starts o (line n b nc ev)) /\
  forall key, ~ h5_entry key -> fs_get (s_fs s') key = fs_get (s_fs s) key.
Proof.
  intros H. unfold writers_of in H. unfold line.
  set (rest := match output cfg with None => [] | Some path => if filename_is_hdf5 path then [WHdf5 path] else [WText path width (negb (no_header cfg))] end) in *.
  assert (T : forall s0, killed_output R n b nc ev rest s0 s' ->
    s_out s' = s_out s0 /\ forall key, ~ h5_entry key -> fs_get (s_fs s') key = fs_get (s_fs s0) key).
  { clear H s. intros s H. unfold rest in H. destruct (output cfg) as [path|] eqn:Eo.
    - rewrite (Hkind path eq_refl) in H.
      assert (NK : forall key, ~ h5_entry key -> key <> norm path) by (intros key N X; apply N; exists path; split; [exact Eo|exact X]).
      inversion H as [ws s0|w ws s0 s1 HI|w ws s0 s1 s2 HR HL]; subst.
      + auto.
      + inversion HI as [| |p s0 node ND]; subst. cbn [with_fs s_out s_fs]. split; [reflexivity|]. intros key N.
        unfold fs_set. apply fs_get_put_neq. apply NK, N.
      + inversion HL; subst. cbn [run_writer] in HR. apply in_fs_frame in HR. destruct HR as (_ & E2 & _ & E4).
        split; [exact E2|]. intros key N. symmetry in E4. exact (hdf5_write_other _ _ _ _ _ _ _ _ _ (NK _ N) E4).
    - inversion H; subst. auto. }
  destruct (quiet cfg); cbn [app] in H.
  - destruct (T s H) as [T1 T2]. split; [|exact T2]. exists "". split; [rewrite append_nil_r; exact T1|apply starts_refl].
  - inversion H as [ws s0|w ws s0 s1 HI|w ws s0 s1 s2 HR HL]; subst.
    + split; [|reflexivity]. exists "". rewrite append_nil_r. split; [reflexivity|]. exists (stream_line width n b nc ev). reflexivity.
    + inversion HI as [wd s0 t1 t2 Et| |]; subst. cbn [s_out s_fs]. split; [|reflexivity].
      exists t1. split; [reflexivity|]. rewrite Et. apply starts_here.
    + cbn [run_writer] in HR. unfold write_stdout in HR. injection HR as <-.
      destruct (T _ HL) as [T1 T2]. cbn [s_out s_fs] in T1, T2.
      split; [|exact T2]. exists (stream_line width n b nc ev). split; [exact T1|apply starts_refl].
Qed.

Variable co : collider A.
Hypothesis Hws : co_writers co = writers_of cfg width.
Variables fuel sfuel : nat.

Lemma one_event_other st n (s : run R) st' s' : one_event R bd fuel sfuel co st n s = (Ret st', s') ->
  starts (s_out (ru_sys s)) (s_out (ru_sys s')) /\ forall key, ~ h5_entry key -> fs_get (s_fs (ru_sys s')) key = fs_get (s_fs (ru_sys s)) key.
Proof.
  intros H. destruct st as [[nA nB] ev]. unfold one_event in H. apply bind_Ret_inv in H.
  destruct H as ([[[b nc] nA'] nB'] & s1 & E1 & H). apply bind_Ret_inv in H. destruct H as (ev' & s2 & E2 & H).
  unfold lift in E2. assert (s2 = s1) by congruence. subst s2.
  apply bind_Ret_inv in H. destruct H as ([] & s2 & E3 & H). unfold ret in H. injection H as _ <-.
  apply in_rstate_frame in E1. destruct E1 as [F O]. unfold in_sys in E3.
  destruct (run_output R (co_writers co) n b nc ev' (ru_sys s1)) as [r3 sy] eqn:ER. injection E3 as -> <-. cbn [ru_sys].
  rewrite Hws in ER. apply run_output_other in ER. destruct ER as [X1 X2]. split.
  - rewrite X1, O. apply starts_here.
  - intros key N. rewrite X2, F by exact N. reflexivity.
Qed.

Lemma events_other l : forall st (s : run R) st' s', mfold (one_event R bd fuel sfuel co) l st s = (Ret st', s') ->
  starts (s_out (ru_sys s)) (s_out (ru_sys s')) /\ forall key, ~ h5_entry key -> fs_get (s_fs (ru_sys s')) key = fs_get (s_fs (ru_sys s)) key.
Proof.
  induction l as [|n l IH]; intros st s st' s' H; cbn [mfold] in H.
  - unfold ret in H. injection H as _ <-. split; [apply starts_refl|reflexivity].
  - apply bind_Ret_inv in H. destruct H as (st1 & s1 & E1 & H). apply one_event_other in E1. destruct E1 as [O1 F1].
    destruct (IH _ _ _ _ H) as [O2 F2]. split; [eapply starts_trans; eassumption|].
    intros key N. rewrite F2, F1 by exact N. reflexivity.
Qed.

Lemma killed_events_other l : forall st (s : run R) st' s' sk, mfold (one_event R bd fuel sfuel co) l st s = (Ret st', s') ->
  killed_events R bd fuel sfuel co l st s sk ->
  starts (s_out (ru_sys s)) (s_out sk) /\ starts (s_out sk) (s_out (ru_sys s')) /\
  forall key, ~ h5_entry key -> fs_get (s_fs sk) key = fs_get (s_fs (ru_sys s)) key.
Proof.
  induction l as [|n l IH]; intros st s st' s' sk H K; pose proof (events_other _ _ _ _ _ H) as [W1 W2].
  - inversion K; subst. split; [apply starts_refl|]. split; [exact W1|reflexivity].
  - cbn [mfold] in H. apply bind_Ret_inv in H. destruct H as (st1 & s1 & E1 & H).
    inversion K as [l0 st0 s0|n0 l0 nA nB ev s0 b nc nA' nB' sc ev' s2 ES EC KO|n0 l0 st0 s0 st2 s2 s3 EO KE]; subst.
    + split; [apply starts_refl|]. split; [exact W1|reflexivity].
    + unfold one_event in E1. unfold bind in E1. rewrite ES in E1. unfold lift in E1. rewrite EC in E1.
      destruct (in_sys R (run_output R (co_writers co) n b nc ev') sc) as [[[]| | |] sd] eqn:EI; try discriminate E1.
      unfold ret in E1. injection E1 as _ <-.
      unfold in_sys in EI. destruct (run_output R (co_writers co) n b nc ev' (ru_sys sc)) as [r3 sy] eqn:ER. injection EI as -> <-.
      apply in_rstate_frame in ES. destruct ES as [F O]. rewrite Hws in ER, KO.
      apply run_output_other in ER. destruct ER as [X1 X2]. apply killed_output_other in KO. destruct KO as [(o & Y1 & Y2) Y3].
      destruct (events_other _ _ _ _ _ H) as [V1 _]. cbn [ru_sys] in V1. split; [|split].
      * rewrite Y1, O. apply starts_here.
      * eapply starts_trans; [|exact V1]. rewrite X1, Y1. apply starts_app, Y2.
      * intros key N. rewrite Y3, F by exact N. reflexivity.
    + rewrite EO in E1. injection E1 as -> ->. destruct (one_event_other _ _ _ _ _ EO) as [O1 F1].
      destruct (IH _ _ _ _ _ H KE) as (I1 & I2 & I3). split; [eapply starts_trans; eassumption|]. split; [exact I2|].
      intros key N. rewrite I3, F1 by exact N. reflexivity.
Qed.
End Other.
