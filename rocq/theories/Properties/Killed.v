(** C55: what a run leaves behind when it is killed. *)
From Coq Require Import Ascii.
From Verif.Base Require Import Result Arith Rng.
From Verif.Model Require Import Config Nucleon Nucleus Event Text Files CrossSection CacheSteps Output Collider Killed.
From Verif.Spec Require Import Cache FileTree History Collision Runs Killed.
From Verif.Proof Require Import Basics FsP FsTree Ctor Writers CacheRun OutputP EveryEvent KilledP.
From Verif.Properties Require Import Overwrite OutputRuns.
Local Open Scope string_scope.

Section Helpers.
Context {A : Arith} (R : Rng A) (sv : Solver A) (bd : build).

Lemma output_new_out cfg (s : sys R) r s1 : output_new R bd cfg s = (r, s1) -> s_out s1 = s_out s.
Proof.
  unfold output_new. unfold bind at 1, lift. destruct (output_width (number_events cfg)) as [w| | |]; try (intros H; injection H as _ <-; reflexivity).
  destruct (output cfg) as [path|]; [|unfold bind, ret; intros H; injection H as _ <-; reflexivity].
  unfold bind at 1. unfold bind at 1, get. destruct (filename_is_hdf5 path).
  - destruct (with_hdf5 bd); [|unfold throw; intros H; injection H as _ <-; reflexivity].
    destruct (_ && _); [unfold throw; intros H; injection H as _ <-; reflexivity|].
    unfold bind, in_fs. destruct (hdf5_open path (s_fs s)) as [[[]| | |] f1]; unfold ret; intros H; injection H as _ <-; reflexivity.
  - destruct (fs_exists (s_fs s) path); [destruct (negb _)|].
    + unfold bind, throw; intros H; injection H as _ <-; reflexivity.
    + unfold bind, ret; intros H; injection H as _ <-; reflexivity.
    + unfold bind, in_fs. destruct (create_directories path (s_fs s)) as [[[]| | |] f1]; unfold ret; intros H; injection H as _ <-; reflexivity.
Qed.

Lemma not_cache_parts e k : ~ cache_entry e k -> ~ is_cache e k /\ (forall dh, data_dir e = Some dh -> k <> norm (cache_dir dh)).
Proof.
  intros H. split.
  - intros (dh & E & K). apply H. exists dh. auto.
  - intros dh E K. apply H. exists dh. auto.
Qed.

Lemma create_cache_dir_other e dh (f f' : fs A) r k : get_data_home e = Ret dh -> ~ cache_entry e k ->
  create_directory (path_join dh "trento") f = (r, f') -> fs_get f' k = fs_get f k.
Proof.
  intros E N H. apply home_data_dir in E. destruct (not_cache_parts _ _ N) as [_ ND]. specialize (ND dh E). unfold cache_dir in ND.
  unfold create_directory in H. destruct (fs_lookup f _) as [[]|]; [| | |destruct (parent_ok f _)]; injection H as _ <-; try reflexivity.
  unfold fs_set. apply fs_get_put_neq. exact ND.
Qed.
Lemma append_cache_other e dh (f f' : fs A) r c k : get_data_home e = Ret dh -> ~ cache_entry e k ->
  append_file (cache_path dh) c f = (r, f') -> fs_get f' k = fs_get f k.
Proof.
  intros E N H. apply home_data_dir in E. destruct (not_cache_parts _ _ N) as [NC _].
  assert (NK : k <> norm (cache_path dh)) by (intros X; apply NC; exists dh; split; [exact E|exact X]).
  unfold append_file in H. destruct (fs_lookup f _) as [[]|]; [| | |destruct (parent_ok f _)]; injection H as _ <-; try reflexivity;
    unfold fs_set; apply fs_get_put_neq; exact NK.
Qed.

(** A finished run, step by step. *)
Lemma finished_steps cfuel fuel sfuel e cfg (s s' : sys R) :
  collide R sv bd cfuel fuel sfuel e cfg s = (Ret tt, s') -> tree (s_fs s) ->
  exists co nA nB ev nst gst s1 st' ru spp sp so width,
    collider_new R sv bd cfuel e cfg s = (Ret (co, nA, nB, ev, nst, gst), s1) /\
    mfold (one_event R bd fuel sfuel co) (zupto (co_nevents co)) (nA, nB, ev) (Run s1 nst gst) = (Ret st', ru) /\ s' = ru_sys ru /\
    partonic_cross_section R sv cfuel e cfg s = (Ret spp, sp) /\ output_new R bd cfg sp = (Ret (co_writers co), so) /\
    s_fs s1 = s_fs so /\ s_out s1 = s_out s /\ co_nevents co = number_events cfg /\
    output_width (A:=A) (number_events cfg) = Ret width /\ co_writers co = writers_of cfg width /\
    tree (s_fs sp) /\ opened cfg (s_fs sp) (s_fs so).
Proof.
  intros H T. unfold collide in H. apply bind_Ret_inv in H.
  destruct H as ([[[[[co nA] nB] ev] nst] gst] & s1 & Hn & H).
  destruct (run_events R bd fuel sfuel co nA nB ev (Run s1 nst gst)) as [[st'| | |] ru] eqn:Er; try discriminate H.
  injection H as <-.
  pose proof (collider_new_inv _ _ _ _ _ _ _ _ _ _ _ _ _ _ Hn) as Hk.
  pose proof Hn as Hn'. apply collider_new_steps in Hn. destruct Hn as [[_ []]|(rp & sp & Ep & Hn)].
  destruct Hn as [[_ []]|(spp & ro & so & -> & Eo & Ef & Eu & Hn)]. destruct Hn as [[_ []]|(ws & co' & nA' & nB' & ev' & nst' & gst' & -> & Ec & Ew)].
  injection Ec as <- <- <- <- <- <-.
  pose proof (partonic_keeps_tree R sv cfuel e cfg _ _ _ Ep T) as Tp.
  destruct (output_new_ok R bd cfg sp _ so Tp Eo) as (To & width & Hw & Hws & Op).
  exists co, nA, nB, ev, nst, gst, s1, st', ru, spp, sp, so, width.
  split; [exact Hn'|]. split; [exact Er|]. split; [reflexivity|]. split; [exact Ep|]. split; [rewrite Ew; exact Eo|]. split; [exact Ef|].
  split; [|split; [|split; [exact Hw|split; [rewrite Ew; exact Hws|split; [exact Tp|exact Op]]]]].
  - rewrite Eu, (output_new_out _ _ _ _ Eo). apply (partonic_cross_section_frame _ _ _ _ _ _ _ _ Ep).
  - apply Hk.
Qed.
End Helpers.

Lemma left_behind_start {A : Arith} path width N (fk fc : fs A) : path <> "" -> (0 <= N)%Z ->
  (forall key, below path key -> fs_get fk key = None) -> left_behind path width N 0 fk fc.
Proof.
  intros NE HN H. split; [lia|]. split; [intros i Hi; lia|]. split.
  - left. apply H. apply join_key; [apply text_file_name_plain; lia|exact NE].
  - intros key B X. rewrite H in X by exact B. congruence.
Qed.

Lemma zupto_split N l1 l2 : (0 <= N)%Z -> zupto N = (l1 ++ l2)%list ->
  let k := Z.of_nat (length l1) in
  (k <= N)%Z /\ (forall i, In i l1 <-> (0 <= i < k)%Z) /\ (forall i, In i l2 <-> (k <= i < N)%Z) /\
  (forall n l3, l2 = n :: l3 -> n = k /\ forall i, In i l3 <-> (k < i < N)%Z).
Proof.
  intros HN E k.
  assert (L : (length l1 + length l2)%nat = Z.to_nat N) by (rewrite <- app_length, <- E; apply zupto_length).
  assert (KN : (k <= N)%Z) by (unfold k; lia).
  assert (P1 : forall j, (j < length l1)%nat -> nth_error l1 j = Some (Z.of_nat j)).
  { intros j Hj. rewrite <- (nth_error_app1 l1 l2) by exact Hj. rewrite <- E. apply zupto_nth. lia. }
  assert (P2 : forall j, (j < length l2)%nat -> nth_error l2 j = Some (k + Z.of_nat j)%Z).
  { intros j Hj. replace (nth_error l2 j) with (nth_error (l1 ++ l2)%list (length l1 + j)).
    - rewrite <- E, zupto_nth by lia. f_equal. unfold k. lia.
    - rewrite nth_error_app2 by lia. f_equal. lia. }
  assert (I2 : forall i, In i l2 <-> (k <= i < N)%Z).
  { intros i. split.
    - intros H. apply In_nth_error in H. destruct H as (j & Hj). assert (Hl : (j < length l2)%nat) by (apply nth_error_Some; congruence).
      rewrite P2 in Hj by exact Hl. injection Hj as <-. unfold k. lia.
    - intros H. apply nth_error_In with (Z.to_nat (i - k)). rewrite P2 by (unfold k in *; lia). f_equal. lia. }
  split; [exact KN|]. split; [|split; [exact I2|]].
  - intros i. split.
    + intros H. apply In_nth_error in H. destruct H as (j & Hj). assert (Hl : (j < length l1)%nat) by (apply nth_error_Some; congruence).
      rewrite P1 in Hj by exact Hl. injection Hj as <-. unfold k. lia.
    + intros H. apply nth_error_In with (Z.to_nat i). rewrite P1 by (unfold k in *; lia). f_equal. lia.
  - intros n l3 ->. pose proof (P2 0%nat ltac:(cbn; lia)) as X. cbn [nth_error] in X. assert (n = k) by (assert (Y : n = (k + Z.of_nat 0)%Z) by congruence; clear X; lia). clear X. subst n.
    split; [reflexivity|]. intros i. split.
    + intros H. apply In_nth_error in H. destruct H as (j & Hj). assert (Hl : (j < length l3)%nat) by (apply nth_error_Some; congruence).
      specialize (P2 (S j) ltac:(cbn; lia)). cbn [nth_error] in P2. rewrite Hj in P2. injection P2 as P2. cbn [length] in L. unfold k in *. lia.
    + intros H. destruct (proj2 (I2 i)) as [Hi|Hi]; [lia|lia|exact Hi].
Qed.

(** Any arithmetic, generator and root finder.  Let a run with text output to a
    missing path or an (empty) directory finish when left alone.  If the same run is
    instead killed at any point of its construction, of its sampling or of its
    writing, there is a [k] such that the directory holds the complete files of
    events 0..k-1, at most an initial part of the file of event [k], and nothing
    else; nothing changed elsewhere (but for the cache, C54, and directories on the
    way to the path); and what it had printed is an initial part of what the
    complete run prints. *)
Theorem C55_text : forall (A : Arith) (R : Rng A) sv bd cfuel fuel sfuel e cfg (s s' sk : sys R) path,
  collide R sv bd cfuel fuel sfuel e cfg s = (Ret tt, s') -> tree (s_fs s) -> (0 <= number_events cfg)%Z ->
  output cfg = Some path -> filename_is_hdf5 path = false ->
  fs_get (s_fs s) (norm path) = None \/ fs_get (s_fs s) (norm path) = Some Dir ->
  (forall key, cache_entry e key -> ~ below path key /\ key <> norm path) ->
  killed_run R sv bd cfuel fuel sfuel e cfg s sk ->
  exists width k, output_width (A:=A) (number_events cfg) = Ret width /\
    left_behind path width (number_events cfg) k (s_fs sk) (s_fs s') /\
    elsewhere_unchanged e path (s_fs s) (s_fs sk) (s_fs s') /\
    starts (s_out sk) (s_out s').
Proof.
  intros A R sv bd cfuel fuel sfuel e cfg s s' sk path H T HN Eo Eh St NC K.
  destruct (finished_steps R sv bd cfuel fuel sfuel e cfg s s' H T)
    as (co & nA & nB & ev & nst & gst & s1 & st' & ru & spp & sp & so & width & Hn & Hr & -> & Ep & Eon & Ef & Eu & En & Ew & Ews & Tp & Op).
  assert (NF : forall c, fs_get (s_fs sp) (norm path) <> Some (File c)).
  { assert (NIC : ~ is_cache e (norm path)).
    { intros (dh & E1 & E2). destruct (NC (norm path)) as [_ X]; [exists dh; auto|]. congruence. }
    apply (partonic_no_new_file R sv cfuel e cfg _ NIC _ _ _ Ep). intros c X. destruct St; congruence. }
  destruct Op as [E1 _|p E1 E2|p E1 E2 NE E3 E4 E5|p E1 E2 NE N0 E3 _]; [congruence|congruence| |].
  2:{ assert (p = path) by congruence. subst p. destruct (NF "" E3). }
  assert (p = path) by congruence. subst p.
  exists width.
  assert (SP : forall key, ~ cache_entry e key -> fs_get (s_fs sp) key = fs_get (s_fs s) key).
  { intros key N. destruct (not_cache_parts _ _ N) as [N1 N2]. exact (partonic_other R sv cfuel e cfg (s_fs s) key N1 N2 _ _ _ Ep eq_refl). }
  assert (NB : forall key, below path key -> ~ cache_entry e key) by (intros key B X; exact (proj1 (NC key X) B)).
  assert (B0 : forall key, below path key -> fs_get (s_fs sp) key = None).
  { intros key B. destruct (E5 key) as [X|(X & _)]; [rewrite <- X; apply E4, B|exact X]. }
  assert (Bs : forall key, below path key -> fs_get (s_fs s) key = None).
  { intros key B. rewrite <- SP by (apply NB, B). apply B0, B. }
  (* the complete run *)
  rewrite En in Hr.
  assert (Hp : forall i, In i (zupto (number_events cfg)) -> (0 <= i)%Z) by (intros i Hi; apply in_zupto in Hi; lia).
  assert (D1 : fs_get (s_fs (ru_sys (Run s1 nst gst))) (norm path) = Some Dir) by (cbn [ru_sys]; rewrite Ef; exact E3).
  assert (F1 : forall i, In i (zupto (number_events cfg)) -> fs_get (s_fs (ru_sys (Run s1 nst gst))) (event_file path width i) = None).
  { intros i Hi. cbn [ru_sys]. rewrite Ef. apply E4. apply join_key; [apply text_file_name_plain, Hp, Hi|exact NE]. }
  destruct (events_text R bd cfg width path Eo Eh NE co Ews fuel sfuel (zupto (number_events cfg)) (nA, nB, ev) (Run s1 nst gst) st' ru Hp (zupto_nodup _) D1) as (W1 & W2 & W3).
  { intros i Hi. rewrite F1 by exact Hi. discriminate. }
  { exact Hr. }
  cbn [ru_sys] in W1, W3. rewrite Eu in W1.
  assert (W4 : forall key, ~ below path key -> fs_get (s_fs (ru_sys ru)) key = fs_get (s_fs so) key).
  { intros key B. rewrite W3, Ef; [reflexivity|]. intros i Hi ->. apply B. apply join_key; [apply text_file_name_plain, Hp, Hi|exact NE]. }
  (* killed in the constructor before the outputs are opened *)
  assert (Early : forall f, (forall key, ~ cache_entry e key -> fs_get f key = fs_get (s_fs s) key) -> s_out sk = s_out s -> s_fs sk = f ->
    exists k, output_width (A:=A) (number_events cfg) = Ret width /\ left_behind path width (number_events cfg) k (s_fs sk) (s_fs (ru_sys ru)) /\
      elsewhere_unchanged e path (s_fs s) (s_fs sk) (s_fs (ru_sys ru)) /\ starts (s_out sk) (s_out (ru_sys ru))).
  { intros f Hf Ho Hs. exists 0%Z. split; [exact Ew|]. rewrite Hs, Ho. split; [|split; [|exact W1]].
    - apply left_behind_start; [exact NE|exact HN|]. intros key B. rewrite Hf by (apply NB, B). apply Bs, B.
    - intros key _ N. left. apply Hf, N. }
  destruct K as [sk KN|co2 nA2 nB2 ev2 nst2 gst2 s2 sk Hn2 KE|co2 nA2 nB2 ev2 nst2 gst2 s2 sk p node Hn2 KE E6 E7 _].
  - destruct KN as [|dh f' G1 G2|dh f1 f2 spx t1 t2 G1 G2 G3 G4|spp2 sp2 sk Ep2 KO].
    + apply (Early (s_fs s)); reflexivity.
    + apply (Early f'); [|reflexivity..]. intros key N. exact (create_cache_dir_other e dh _ _ _ key G1 N G2).
    + apply (Early f2); [|reflexivity..]. intros key N. rewrite (append_cache_other e dh _ _ _ _ key G1 N G4). exact (create_cache_dir_other e dh _ _ _ key G1 N G2).
    + rewrite Ep in Ep2. injection Ep2 as <- <-.
      assert (Osp : s_out sp = s_out s) by apply (partonic_cross_section_frame _ _ _ _ _ _ _ _ Ep).
      destruct KO as [|p j f' E6 E7 E8 E9 EM|p ws s2 node E6 E7].
      * apply (Early (s_fs sp)); [exact SP|exact Osp|reflexivity].
      * (* some of the directories *)
        assert (p = path) by congruence. subst p.
        assert (CD : create_directories path (s_fs sp) = (Ret tt, s_fs so)).
        { unfold output_new in Eon. unfold bind at 1, lift in Eon. rewrite Ew in Eon. unfold bind at 1 in Eon. rewrite Eo in Eon.
          unfold bind at 1, get in Eon. rewrite Eh, E8 in Eon. unfold bind, in_fs in Eon.
          destruct (create_directories path (s_fs sp)) as [[[]| | |] f1]; unfold ret in Eon; try discriminate Eon. injection Eon as _ <-. reflexivity. }
        unfold create_directories in CD. destruct (String.eqb_spec path ""); [congruence|].
        change (mkdirs (prefixes "" (norm path)) (s_fs sp) = (Ret tt, s_fs so)) in CD.
        assert (GR : fs_get (s_fs sp) "" = Some Dir) by apply Tp.
        pose proof (mkdirs_grow _ _ _ _ EM GR) as M1.
        assert (GR' : fs_get f' "" = Some Dir) by (destruct (M1 "") as [->|[_ ->]]; [exact GR|reflexivity]).
        assert (CD2 : mkdirs (skipn j (prefixes "" (norm path))) f' = (Ret tt, s_fs so)).
        { rewrite <- (firstn_skipn j (prefixes "" (norm path))) in CD. unfold mkdirs in CD. rewrite mfold_app in CD. unfold bind in CD.
          rewrite EM in CD. exact CD. }
        pose proof (mkdirs_grow _ _ _ _ CD2 GR') as M2.
        exists 0%Z. split; [exact Ew|]. cbn [with_fs s_fs s_out]. rewrite Osp. split; [|split; [|exact W1]].
        -- apply left_behind_start; [exact NE|exact HN|]. intros key B.
           destruct (M2 key) as [X|[X _]]; [rewrite <- X; apply E4, B|exact X].
        -- intros key B N. destruct (M1 key) as [X|[X Y]]; [left; rewrite X; apply SP, N|].
           right. rewrite <- SP by exact N. split; [exact X|]. split; [exact Y|]. rewrite W4 by exact B.
           destruct (M2 key) as [Z|[Z _]]; congruence.
      * congruence.
  - (* killed in the event loop *)
    rewrite Hn in Hn2. injection Hn2 as <- <- <- <- <- <- <-. rewrite En in KE.
    destruct (killed_events_text R bd cfg width path Eo Eh NE co Ews fuel sfuel (zupto (number_events cfg)) (nA, nB, ev) (Run s1 nst gst) st' ru sk Hp (zupto_nodup _) D1 F1 Hr KE)
      as (l1 & l2 & EL & K1 & K2 & K3 & K4). cbn [ru_sys] in K4.
    destruct (zupto_split _ _ _ HN EL) as (Z1 & Z2 & Z3 & Z4). set (k := Z.of_nat (length l1)) in *.
    assert (BK : forall key, below path key -> (forall i, (0 <= i < number_events cfg)%Z -> key <> event_file path width i) -> fs_get (s_fs sk) key = None).
    { intros key B X. rewrite K4; [rewrite Ef; apply E4, B|]. intros i Hi. apply X. apply in_zupto in Hi. exact Hi. }
    assert (DK : fs_get (s_fs sk) (norm path) = Some Dir).
    { rewrite K4; [rewrite Ef; exact E3|]. intros i Hi. apply (file_key width path NE i). apply Hp, Hi. }
    exists k. split; [exact Ew|]. split; [|split; [|exact K1]].
    + split; [unfold k in *; lia|]. split; [|split].
      * intros i Hi. apply K2. apply Z2. exact Hi.
      * destruct l2 as [|n l3].
        -- left. apply BK; [apply join_key; [apply text_file_name_plain; unfold k; lia|exact NE]|].
           intros i Hi X. apply (file_inj width path) in X; [|unfold k; lia|lia].
           assert (~ In i []) as Q by (intros []). apply Q. apply Z3. lia.
        -- destruct (Z4 n l3 eq_refl) as [-> _]. destruct K3 as [[K3|(t & u & K3)] _]; [left; exact K3|].
           right. exists t, u. split; [|exact K3]. apply (Z3 k). left. reflexivity.
      * intros key B X.
        destruct (in_dec string_dec key (map (event_file path width) (zupto (number_events cfg)))) as [I|NI].
        -- apply in_map_iff in I. destruct I as (i & <- & Hi). split; [exact DK|]. exists i. pose proof Hi as Hi'. apply in_zupto in Hi'. split; [|split; [lia|reflexivity]].
           split; [lia|]. destruct (Z.le_gt_cases i k) as [L|G]; [exact L|exfalso]. apply X.
           destruct l2 as [|n l3]; [assert (~ In i []) as Q by (intros []); exfalso; apply Q; apply Z3; lia|].
           destruct (Z4 n l3 eq_refl) as [-> Z5]. apply (proj2 K3). apply Z5. lia.
        -- exfalso. apply X. apply BK; [exact B|]. intros i Hi Y. apply NI. rewrite Y. apply in_map. apply in_zupto. exact Hi.
    + intros key B N.
      assert (X : fs_get (s_fs sk) key = fs_get (s_fs so) key).
      { rewrite K4, Ef; [reflexivity|]. intros i Hi ->. apply B. apply join_key; [apply text_file_name_plain, Hp, Hi|exact NE]. }
      rewrite X, W4 by exact B. rewrite <- SP by exact N. destruct (E5 key) as [Y|(Y1 & Y2 & _)]; [left; exact Y|right; auto].
  - congruence.
Qed.

(** The same for a run with no output file or with an HDF5 file: nothing changed
    but the HDF5 file (which may hold anything) and the cache, and what was printed
    is an initial part of what the complete run prints. *)
Theorem C55_other : forall (A : Arith) (R : Rng A) sv bd cfuel fuel sfuel e cfg (s s' sk : sys R),
  collide R sv bd cfuel fuel sfuel e cfg s = (Ret tt, s') -> tree (s_fs s) ->
  (forall path, output cfg = Some path -> filename_is_hdf5 path = true) ->
  killed_run R sv bd cfuel fuel sfuel e cfg s sk ->
  (forall key, ~ cache_entry e key -> (forall path, output cfg = Some path -> key <> norm path) ->
     fs_get (s_fs sk) key = fs_get (s_fs s) key) /\
  starts (s_out s) (s_out sk) /\ starts (s_out sk) (s_out s').
Proof.
  intros A R sv bd cfuel fuel sfuel e cfg s s' sk H T Hk K.
  destruct (finished_steps R sv bd cfuel fuel sfuel e cfg s s' H T)
    as (co & nA & nB & ev & nst & gst & s1 & st' & ru & spp & sp & so & width & Hn & Hr & -> & Ep & Eon & Ef & Eu & En & Ew & Ews & Tp & Op).
  assert (SP : forall key, ~ cache_entry e key -> fs_get (s_fs sp) key = fs_get (s_fs s) key).
  { intros key N. destruct (not_cache_parts _ _ N) as [N1 N2]. exact (partonic_other R sv cfuel e cfg (s_fs s) key N1 N2 _ _ _ Ep eq_refl). }
  assert (NH : forall key, (forall path, output cfg = Some path -> key <> norm path) -> ~ h5_entry cfg key).
  { intros key N (path & X & Y). exact (N path X Y). }
  assert (SO : forall key, ~ cache_entry e key -> (forall path, output cfg = Some path -> key <> norm path) -> fs_get (s_fs s1) key = fs_get (s_fs s) key).
  { intros key N NP. rewrite Ef. rewrite <- SP by exact N. destruct Op as [E1 E2|p E1 E2 NE E3 ES|p E1 E2|p E1 E2].
    - rewrite E2. reflexivity.
    - rewrite ES. apply fs_get_put_neq. apply NP, E1.
    - rewrite (Hk p E1) in E2. discriminate E2.
    - rewrite (Hk p E1) in E2. discriminate E2. }
  destruct (events_other R bd cfg width Hk co Ews fuel sfuel _ _ _ _ _ Hr) as [W1 _]. cbn [ru_sys] in W1. rewrite Eu in W1.
  assert (Early : s_out sk = s_out s -> starts (s_out s) (s_out sk) /\ starts (s_out sk) (s_out (ru_sys ru))).
  { intros ->. split; [apply starts_refl|exact W1]. }
  destruct K as [sk KN|co2 nA2 nB2 ev2 nst2 gst2 s2 sk Hn2 KE|co2 nA2 nB2 ev2 nst2 gst2 s2 sk p node Hn2 KE E6 E7 _].
  - destruct KN as [|dh f' G1 G2|dh f1 f2 spx t1 t2 G1 G2 G3 G4|spp2 sp2 sk Ep2 KO].
    + split; [reflexivity|apply Early; reflexivity].
    + split; [|apply Early; reflexivity]. intros key N _. exact (create_cache_dir_other e dh _ _ _ key G1 N G2).
    + split; [|apply Early; reflexivity]. intros key N _. cbn [with_fs s_fs].
      rewrite (append_cache_other e dh _ _ _ _ key G1 N G4). exact (create_cache_dir_other e dh _ _ _ key G1 N G2).
    + rewrite Ep in Ep2. injection Ep2 as <- <-.
      assert (Osp : s_out sp = s_out s) by apply (partonic_cross_section_frame _ _ _ _ _ _ _ _ Ep).
      destruct KO as [|p j f' E6 E7 E8 E9 EM|p ws s2 node E6 E7].
      * split; [|apply Early; exact Osp]. intros key N _. apply SP, N.
      * rewrite (Hk p E6) in E7. discriminate E7.
      * split; [|apply Early; exact Osp]. intros key N NP. cbn [with_fs s_fs]. unfold fs_set. rewrite fs_get_put_neq by (apply NP, E6). apply SP, N.
  - rewrite Hn in Hn2. injection Hn2 as <- <- <- <- <- <- <-.
    destruct (killed_events_other R bd cfg width Hk co Ews fuel sfuel _ _ _ _ _ _ Hr KE) as (I1 & I2 & I3). cbn [ru_sys] in I1, I3. rewrite Eu in I1.
    split; [|split; assumption]. intros key N NP. rewrite I3 by (apply NH, NP). apply SO; assumption.
  - rewrite Hn in Hn2. injection Hn2 as <- <- <- <- <- <- <-.
    destruct (killed_events_other R bd cfg width Hk co Ews fuel sfuel _ _ _ _ _ _ Hr KE) as (I1 & I2 & I3). cbn [ru_sys] in I1, I3. rewrite Eu in I1.
    cbn [with_fs s_fs s_out]. split; [|split; assumption]. intros key N NP. unfold fs_set. rewrite fs_get_put_neq by (apply NP, E6).
    rewrite I3 by (apply NH, NP). apply SO; assumption.
Qed.

(** A refused run changes nothing but the cache. *)
Lemma refused_unchanged {A : Arith} (R : Rng A) sv bd cfuel fuel sfuel e cfg (s s' : sys R) r path :
  collide R sv bd cfuel fuel sfuel e cfg s = (r, s') -> output cfg = Some path -> in_use (s_fs s) path ->
  forall key, ~ cache_entry e key -> fs_get (s_fs s') key = fs_get (s_fs s) key.
Proof.
  intros H Eo U key N. destruct (C45_refuses_run A R sv bd cfuel fuel sfuel e cfg s s' r path H Eo U) as (_ & _ & r0 & Hn & Hf).
  apply collider_new_steps in Hn. destruct Hn as [[-> _]|(rp & sp & Ep & Hn)]; [reflexivity|].
  assert (SP : fs_get (s_fs sp) key = fs_get (s_fs s) key).
  { destruct (not_cache_parts _ _ N) as [N1 N2]. exact (partonic_other R sv cfuel e cfg (s_fs s) key N1 N2 _ _ _ Ep eq_refl). }
  destruct Hn as [[-> _]|(spp & ro & so & _ & En & Ef & _ & _)]; [exact SP|]. rewrite Ef, <- SP.
  assert (Up : in_use (s_fs sp) path).
  { apply (in_use_grown (s_fs s)); [|exact U]. apply (partonic_grows R sv (s_fs s) cfuel e cfg _ _ _ Ep). intros k' n' K'. exists n'. split; [exact K'|left; reflexivity]. }
  destruct (output_width (A:=A) (number_events cfg)) as [width| | |] eqn:Ew.
  - destruct (C45_refuses A R bd cfg sp path width Eo Up Ew) as (msg & X). rewrite X in En. injection En as _ <-. reflexivity.
  - unfold output_new, bind, lift in En. rewrite Ew in En. injection En as _ <-. reflexivity.
  - unfold output_new, bind, lift in En. rewrite Ew in En. injection En as _ <-. reflexivity.
  - unfold output_new, bind, lift in En. rewrite Ew in En. injection En as _ <-. reflexivity.
Qed.

(** A killed run is not resumed.  If it left anything in the output directory, any
    later run with that output directory (whatever its other options, its
    generator's state and the cache) fails, prints nothing and leaves the directory
    as it was; if it left an empty directory, the directory is accepted. *)
Theorem C55_rerun : forall (A : Arith) (R : Rng A) sv bd cfuel fuel sfuel e cfg (s s' sk : sys R) path,
  collide R sv bd cfuel fuel sfuel e cfg s = (Ret tt, s') -> tree (s_fs s) -> (0 <= number_events cfg)%Z ->
  output cfg = Some path -> filename_is_hdf5 path = false ->
  fs_get (s_fs s) (norm path) = None \/ fs_get (s_fs s) (norm path) = Some Dir ->
  (forall key, cache_entry e key -> ~ below path key /\ key <> norm path) ->
  killed_run R sv bd cfuel fuel sfuel e cfg s sk ->
  forall (R2 : Rng A) (s2 : sys R2) cfg2, s_fs s2 = s_fs sk -> output cfg2 = Some path ->
  ((exists key, below path key /\ fs_get (s_fs sk) key <> None) ->
     forall sv2 bd2 cfuel2 fuel2 sfuel2 r s2', collide R2 sv2 bd2 cfuel2 fuel2 sfuel2 e cfg2 s2 = (r, s2') ->
     fails r /\ s_out s2' = s_out s2 /\ forall key, below path key -> fs_get (s_fs s2') key = fs_get (s_fs sk) key) /\
  (fs_get (s_fs sk) (norm path) = Some Dir -> (forall key, below path key -> fs_get (s_fs sk) key = None) ->
     forall bd2 width, output_width (A:=A) (number_events cfg2) = Ret width -> exists ws, output_new R2 bd2 cfg2 s2 = (Ret ws, s2)).
Proof.
  intros A R sv bd cfuel fuel sfuel e cfg s s' sk path H T HN Eo Eh St NC K R2 s2 cfg2 E2 Eo2.
  destruct (C55_text A R sv bd cfuel fuel sfuel e cfg s s' sk path H T HN Eo Eh St NC K) as (width & k & Ew & LB & _ & _).
  assert (NE : path <> "").
  { destruct (finished_steps R sv bd cfuel fuel sfuel e cfg s s' H T)
      as (co & nA & nB & ev & nst & gst & s1 & st' & ru & spp & sp & so & width2 & _ & _ & _ & _ & _ & _ & _ & _ & _ & _ & _ & Op).
    destruct Op as [E1 _|p E1|p E1|p E1]; congruence. }
  destruct LB as (_ & _ & _ & LB). split.
  - intros (key & B & X) sv2 bd2 cfuel2 fuel2 sfuel2 r s2' H2.
    assert (U : in_use (s_fs s2) path).
    { split; [exact NE|]. right. rewrite E2. destruct (LB key B X) as [D _]. split; [exact D|].
      destruct (fs_get (s_fs sk) key) as [n|] eqn:G; [|congruence]. exists key, n. auto. }
    destruct (C45_refuses_run A R2 sv2 bd2 cfuel2 fuel2 sfuel2 e cfg2 s2 s2' r path H2 Eo2 U) as (F & O & _).
    split; [exact F|]. split; [exact O|]. intros key' B'. rewrite <- E2.
    apply (refused_unchanged R2 sv2 bd2 cfuel2 fuel2 sfuel2 e cfg2 s2 s2' r path H2 Eo2 U). intros C. exact (proj1 (NC key' C) B').
  - intros D Z bd2 w2 Ew2. unfold output_new. unfold bind at 1, lift. rewrite Ew2. unfold bind at 1. rewrite Eo2.
    unfold bind at 1, get. rewrite Eh. unfold fs_exists, fs_is_empty. rewrite E2, lookup_ne by exact NE. rewrite D.
    rewrite (proj2 (empty_dir_iff (s_fs sk) path) Z). cbn [negb]. unfold bind, ret. eexists. reflexivity.
Qed.
