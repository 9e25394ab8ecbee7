(** Effects of the output code on the file system. *)
From Coq Require Import Ascii.
From Verif.Base Require Import Result Arith Rng.
From Verif.Model Require Import Config Nucleon Nucleus Event Text Files CrossSection Output Collider.
From Verif.Spec Require Import Decimal FileTree Collision.
From Verif.Proof Require Import Basics TextP FsP FsTree Ctor Writers.
Local Open Scope string_scope.

Lemma app_cancel_r s t u : s ++ u = t ++ u -> s = t.
Proof.
  assert (L : forall a b, String.length (a ++ b) = (String.length a + String.length b)%nat) by (intros a b; induction a; cbn; congruence).
  revert t. induction s as [|c s IH]; intros [|c' t] H; try reflexivity.
  - apply (f_equal String.length) in H. rewrite !L in H. cbn in H. lia.
  - apply (f_equal String.length) in H. rewrite !L in H. cbn in H. lia.
  - cbn [append] in H. injection H as -> H. f_equal. apply IH, H.
Qed.

Lemma text_file_name_inj w i j : (0 <= i)%Z -> (0 <= j)%Z -> text_file_name w i = text_file_name w j -> i = j.
Proof.
  intros Hi Hj E. unfold text_file_name in E. apply app_cancel_r in E. unfold pad_left, print_Z in E.
  destruct (Z.ltb_spec i 0); [lia|]. destruct (Z.ltb_spec j 0); [lia|].
  apply (f_equal dval) in E. rewrite !dval_zeros in E.
  destruct (print_N_spec i Hi) as (_ & _ & -> & _) in E. destruct (print_N_spec j Hj) as (_ & _ & -> & _) in E. exact E.
Qed.

Lemma digits_no_slash s : every digit s = true -> existsb is_slash (list_ascii_of_string s) = false.
Proof.
  induction s as [|c s IH]; [reflexivity|]. cbn [every list_ascii_of_string existsb]. intros H. apply andb_prop in H. destruct H as [H1 H2].
  rewrite IH by exact H2. unfold is_slash. destruct (Ascii.eqb_spec c "/") as [->|]; [discriminate H1|reflexivity].
Qed.
Lemma existsb_app_s p s t : existsb p (list_ascii_of_string (s ++ t)) = existsb p (list_ascii_of_string s) || existsb p (list_ascii_of_string t).
Proof. induction s as [|c s IH]; [reflexivity|]. cbn [append list_ascii_of_string existsb]. rewrite IH, orb_assoc. reflexivity. Qed.
Lemma text_file_name_plain w i : (0 <= i)%Z -> plain (text_file_name w i).
Proof.
  intros Hi. unfold text_file_name, pad_left, print_Z. destruct (Z.ltb_spec i 0); [lia|]. destruct (print_N_spec i Hi) as (P & _).
  split.
  - intros E. apply (f_equal String.length) in E. 
    assert (L : forall a b, String.length (a ++ b) = (String.length a + String.length b)%nat) by (intros a b; induction a; cbn; congruence). rewrite !L in E. cbn in E. lia.
  - rewrite !existsb_app_s. rewrite (digits_no_slash (print_N i) P). rewrite (digits_no_slash (repeat_char _ _)) by (rewrite repeat_char_every; reflexivity). reflexivity.
Qed.

(** The key of a file in a directory. *)
Lemma join_key p q : plain q -> p <> "" -> norm (path_join p q) = path_join p q /\ below p (path_join p q).
Proof.
  intros Q P. destruct (join_plain p q Q P) as (p' & E1 & E2 & E3 & _). split; [exact E3|]. apply below_iff. rewrite E2, <- E1.
  destruct (norm_rest p') as (k & E). exists (srun k ++ q). assert (X : "/" ++ srun k = srun k ++ "/") by (rewrite iter_slash_end; reflexivity).
  rewrite <- (append_assoc "/"), X, <- !append_assoc, <- E. reflexivity.
Qed.
Lemma join_inj p q q' : path_join p q = path_join p q' -> q = q'.
Proof.
  assert (C : forall a, a ++ q = a ++ q' -> q = q') by (intros a; induction a; cbn; intros H; [exact H|injection H; auto]).
  unfold path_join. destruct p as [|c p]; [auto|]. destruct (ends_with_slash (String c p)); intros H.
  - exact (C _ H).
  - apply (C (String c p ++ "/")). rewrite !append_assoc. exact H.
Qed.

Section Text.
Context {A : Arith} (cfg : config A) (width : Z) (path : string).
Hypothesis Hout : output cfg = Some path.
Hypothesis Htext : filename_is_hdf5 path = false.
Hypothesis Hpath : path <> "".

Definition file_of (d : delivery A) : string := path_join path (text_file_name width (d_num d)).
Definition text_of (d : delivery A) : result string := event_text (d_num d) (d_b d) (d_ncoll d) (d_event d) (negb (no_header cfg)).

Lemma text_effects ds : forall f f', file_effects cfg width ds f f' ->
  (forall d, In d ds -> 0 <= d_num d)%Z -> NoDup (map d_num ds) ->
  fs_get f (norm path) = Some Dir -> (forall k, below path k -> fs_get f k = None) ->
  (forall d, In d ds -> exists t, text_of d = Ret t /\ fs_get f' (file_of d) = Some (File t)) /\
  (forall k, (forall d, In d ds -> k <> file_of d) -> fs_get f' k = fs_get f k).
Proof.
  intros f f' H NN ND D E.
  assert (E' : forall d, In d ds -> fs_get f (file_of d) = None).
  { intros d Hd. apply E. apply join_key; [apply text_file_name_plain, NN, Hd|exact Hpath]. }
  clear E. revert f f' H NN ND D E'. induction ds as [|d ds IH]; intros f f' H NN ND D E'.
  - inversion H; subst. split; [intros d []|reflexivity].
  - inversion H as [|d0 ds0 g g1 g' Hd Hds]; subst. inversion ND as [|? ? ND1 ND2]; subst.
    assert (N0 : (0 <= d_num d)%Z) by (apply NN; left; reflexivity).
    destruct (join_key path _ (text_file_name_plain width _ N0) Hpath) as [K1 K2]. fold (file_of d) in K1, K2.
    unfold file_effect in Hd. rewrite Hout, Htext in Hd. unfold write_text_file in Hd. unfold bind, lift in Hd.
    fold (text_of d) in Hd. destruct (text_of d) as [t| | |] eqn:Et; try discriminate Hd.
    fold (file_of d) in Hd. unfold write_file in Hd.
    assert (NE : file_of d <> "") by (apply join_not_empty; apply text_file_name_plain, N0).
    rewrite lookup_ne, K1, (E' d) in Hd by (first [exact NE|left; reflexivity]).
    unfold file_of in Hd at 1. rewrite parent_ok_join in Hd; [|apply text_file_name_plain, N0|exact Hpath|rewrite lookup_ne by exact Hpath; exact D].
    injection Hd as <-. unfold fs_set in Hds. rewrite K1 in Hds.
    assert (NI : forall d', In d' ds -> file_of d' <> file_of d).
    { intros d' Hd' X. apply ND1. apply join_inj in X. apply text_file_name_inj in X; [|apply NN; right; exact Hd'|exact N0]. rewrite <- X. apply in_map, Hd'. }
    assert (NP : norm path <> file_of d).
    { intros X. rewrite <- X in K2. exact (below_not_self _ K2). }
    destruct (IH _ _ Hds) as [I1 I2].
    + intros x Hx. apply NN. right. exact Hx.
    + exact ND2.
    + rewrite fs_get_put_neq by exact NP. exact D.
    + intros d' Hd'. rewrite fs_get_put_neq by (apply NI, Hd'). apply E'. right. exact Hd'.
    + split.
      * intros d' [<-|Hd']; [|apply I1, Hd']. exists t. split; [exact Et|]. rewrite I2 by (intros d' Hd' X; exact (NI d' Hd' (eq_sym X))). apply fs_get_put_eq.
      * intros k Hk. rewrite I2 by (intros d' Hd'; apply Hk; right; exact Hd'). apply fs_get_put_neq. apply Hk. left. reflexivity.
Qed.

(** If the path is a file, nothing is written. *)
Lemma text_effects_file ds : forall f f' c, file_effects cfg width ds f f' -> (forall d, In d ds -> 0 <= d_num d)%Z ->
  norm path <> "" -> fs_get f (norm path) = Some (File c) -> f' = f.
Proof.
  induction ds as [|d ds IH]; intros f f' c H NN N0 D.
  - inversion H; subst. reflexivity.
  - inversion H as [|d0 ds0 g g1 g' Hd Hds]; subst.
    assert (Nd : (0 <= d_num d)%Z) by (apply NN; left; reflexivity).
    unfold file_effect in Hd. rewrite Hout, Htext in Hd. unfold write_text_file in Hd. unfold bind, lift in Hd.
    fold (text_of d) in Hd. destruct (text_of d) as [t| | |] eqn:Et; try discriminate Hd.
    assert (PO : parent_ok f (path_join path (text_file_name width (d_num d))) = false).
    { destruct (join_plain path _ (text_file_name_plain width _ Nd) Hpath) as (p' & E1 & _ & _ & E2).
      unfold parent_ok. rewrite E2, E1. destruct (norm path) as [|x y]; [congruence|]. rewrite D. reflexivity. }
    assert (f = g1).
    { unfold write_file in Hd. rewrite PO in Hd. destruct (fs_lookup f _) as [[]|]; injection Hd as <-; reflexivity. }
    subst g1. apply (IH _ _ c Hds); [intros x Hx; apply NN; right; exact Hx|exact N0|exact D].
Qed.
End Text.

(** ** HDF5 *)
Section Hdf5.
Context {A : Arith} (cfg : config A) (width : Z) (path : string).
Hypothesis Hout : output cfg = Some path.
Hypothesis Hh5 : filename_is_hdf5 path = true.

Lemma h5_path_ne : path <> "".
Proof. intros E. rewrite E in Hh5. discriminate Hh5. Qed.

Definition object_of (d : delivery A) : string * h5obj A :=
  (dataset_name (d_num d), ODataset (event_dataset (d_b d) (d_ncoll d) (d_event d))).

Lemma h5_effects ds : forall f f' objs, file_effects cfg width ds f f' -> fs_get f (norm path) = Some (H5File objs) ->
  fs_get f' (norm path) = Some (H5File (objs ++ map object_of ds)) /\ (forall k, k <> norm path -> fs_get f' k = fs_get f k) /\
  (forall d, In d ds -> 0 < ev_nsteps (d_event d))%Z.
Proof.
  induction ds as [|d ds IH]; intros f f' objs H O.
  - inversion H; subst. cbn [map]. rewrite app_nil_r. split; [exact O|]. split; [reflexivity|intros d []].
  - inversion H as [|d0 ds0 g g1 g' Hd Hds]; subst. unfold file_effect in Hd. rewrite Hout, Hh5 in Hd. unfold hdf5_write in Hd.
    rewrite lookup_ne, O in Hd by apply h5_path_ne. destruct (Z.leb_spec (ev_nsteps (d_event d)) 0) as [|NP]; [discriminate Hd|].
    destruct (existsb _ objs); [discriminate Hd|]. injection Hd as <-.
    destruct (IH _ _ _ Hds (fs_get_put_eq _ _ _)) as (I1 & I2 & I3). split; [|split].
    + rewrite I1. cbn [map]. rewrite <- app_assoc. reflexivity.
    + intros k Hk. rewrite I2 by exact Hk. apply fs_get_put_neq, Hk.
    + intros d' [<-|Hd']; [exact NP|apply I3, Hd'].
Qed.
End Hdf5.

(** ** Frames: a property of the file system that stays true whatever the outcome *)
Section Frame.
Context {A : Arith} (R : Rng A) (P : fs A -> Prop).

Definition keeps {X} (m : M (sys R) X) : Prop := forall s r s', m s = (r, s') -> P (s_fs s) -> P (s_fs s').
Definition keeps_fs {X} (m : M (fs A) X) : Prop := forall f r f', m f = (r, f') -> P f -> P f'.

Lemma keeps_bind {X Y} (m : M (sys R) X) (g : X -> M (sys R) Y) : keeps m -> (forall x, keeps (g x)) -> keeps (bind m g).
Proof.
  intros H1 H2 s r s' H K. unfold bind in H. destruct (m s) as [[x|x|x|] s1] eqn:E; try (injection H as <- <-; exact (H1 _ _ _ E K)).
  apply (H2 x _ _ _ H). exact (H1 _ _ _ E K).
Qed.
Lemma keeps_bind_lift {X Y} (r0 : result X) (g : X -> M (sys R) Y) : (forall x, r0 = Ret x -> keeps (g x)) -> keeps (bind (lift r0) g).
Proof.
  intros H2 s r s' H K. unfold bind, lift in H. destruct r0 as [x|x|x|]; try (injection H as <- <-; exact K). exact (H2 x eq_refl _ _ _ H K).
Qed.
Lemma keeps_lift {X} (r : result X) : keeps (lift r).
Proof. intros s r' s' H K. unfold lift in H. injection H as <- <-. exact K. Qed.
Lemma keeps_ret {X} (x : X) : keeps (ret x).
Proof. intros s r' s' H K. unfold ret in H. injection H as <- <-. exact K. Qed.
Lemma keeps_throw {X} e : keeps (throw (X:=X) e).
Proof. intros s r' s' H K. unfold throw in H. injection H as <- <-. exact K. Qed.
Lemma keeps_get : keeps get.
Proof. intros s r' s' H K. unfold get in H. injection H as <- <-. exact K. Qed.
Lemma keeps_in_fs {X} (m : M (fs A) X) : keeps_fs m -> keeps (in_fs R m).
Proof. intros H s r s' E K. unfold in_fs in E. destruct (m (s_fs s)) as [r1 f1] eqn:Em. injection E as <- <-. exact (H _ _ _ Em K). Qed.
Lemma keeps_in_eng {X} (m : M (engine R) X) : keeps (in_eng R m).
Proof. intros s r s' E K. unfold in_eng in E. destruct (m (s_eng s)) as [r1 e1] eqn:Em. injection E as <- <-. exact K. Qed.
Lemma keeps_mfold {X Y} (g : Y -> X -> M (sys R) Y) l : (forall y x, In x l -> keeps (g y x)) -> forall y, keeps (mfold g l y).
Proof.
  induction l as [|x l IH]; intros H y; cbn [mfold]; [apply keeps_ret|].
  apply keeps_bind; [apply H; left; reflexivity|]. intros y'. apply IH. intros y0 x0 Hx. apply H. right. exact Hx.
Qed.

Lemma keeps_partonic sv fuel e cfg :
  (forall dh, get_data_home e = Ret dh -> keeps_fs (create_directory (path_join dh "trento")) /\ forall c, keeps_fs (append_file (cache_path dh) c)) ->
  keeps (partonic_cross_section R sv fuel e cfg).
Proof.
  intros H. unfold partonic_cross_section. apply keeps_bind_lift. intros dh ED. destruct (H dh ED) as [H1 H2].
  apply keeps_bind; [apply keeps_in_fs, H1|].
  intros _. apply keeps_bind; [apply keeps_get|]. intros s0.
  apply keeps_bind. { destruct (fs_lookup (s_fs s0) (cache_path dh)); [apply keeps_lift|apply keeps_ret]. }
  intros [sp|]; [apply keeps_ret|]. apply keeps_bind; [apply keeps_in_fs, H2|]. intros _.
  apply keeps_bind; [apply keeps_in_eng|]. intros sp. apply keeps_bind; [apply keeps_in_fs, H2|]. intros _. apply keeps_ret.
Qed.

Lemma keeps_run_writer w evnum b nc ev :
  match w with
  | WStdout _ => True
  | WText dir width header => forall c, keeps_fs (write_file (path_join dir (text_file_name width evnum)) c)
  | WHdf5 path => keeps_fs (hdf5_write path evnum b nc ev)
  end -> keeps (run_writer R w evnum b nc ev).
Proof.
  destruct w as [w|dir w h|path]; cbn [run_writer]; intros H.
  - intros s r s' E K. unfold write_stdout in E. injection E as <- <-. exact K.
  - intros s r s' E K. unfold in_fs, write_text_file, bind, lift in E.
    destruct (event_text evnum b nc ev h) as [t| | |]; try (injection E as <- <-; exact K).
    destruct (write_file _ t (s_fs s)) as [r1 f1] eqn:W. injection E as <- <-. exact (H t _ _ _ W K).
  - apply keeps_in_fs, H.
Qed.

(** The event loop, for writers that keep [P] for events numbered >= 0. *)
Lemma keeps_events bd fuel sfuel (co : collider A) nA nB ev nst gst s r s' :
  (forall w evnum b nc ev, In w (co_writers co) -> (0 <= evnum)%Z -> keeps (run_writer R w evnum b nc ev)) ->
  run_events R bd fuel sfuel co nA nB ev (Run s nst gst) = (r, s') -> P (s_fs s) -> P (s_fs (ru_sys s')).
Proof.
  intros W. unfold run_events.
  assert (G : forall l st ru r s', Forall (fun i => 0 <= i)%Z l -> mfold (one_event R bd fuel sfuel co) l st ru = (r, s') -> P (s_fs (ru_sys ru)) -> P (s_fs (ru_sys s'))).
  { clear s nst gst r s' nA nB ev. induction l as [|i l IH]; intros st ru r s' Hl H K; cbn [mfold] in H.
    - unfold ret in H. injection H as <- <-. exact K.
    - inversion Hl as [|? ? Hi Hl']; subst. unfold bind in H.
      destruct (one_event R bd fuel sfuel co st i ru) as [r1 ru1] eqn:E.
      assert (K1 : P (s_fs (ru_sys ru1))).
      { clear H. destruct st as [[nA nB] ev]. unfold one_event in E. unfold bind at 1 in E.
        unfold in_rstate in E. destruct (sample_collision R fuel sfuel co nA nB _) as [r2 rs2]. cbn beta iota in E.
        destruct r2 as [[[[b nc] nA'] nB']| | |]; try (injection E as <- <-; exact K).
        unfold bind at 1, lift in E. destruct (event_compute _ _ _ _ _) as [ev'| | |]; try (injection E as <- <-; exact K).
        unfold bind, in_sys in E. cbn [ru_sys] in E.
        destruct (run_output R (co_writers co) i b nc ev' _) as [r3 sy] eqn:O.
        assert (KO : P (s_fs sy)).
        { unfold run_output in O. refine (keeps_mfold _ _ _ _ _ _ _ O _); [|exact K]. intros [] w Hw. apply W; assumption. }
        destruct r3; unfold ret in E; injection E as <- <-; exact KO. }
      destruct r1; try (injection H as <- <-; exact K1). exact (IH _ _ _ _ Hl' H K1). }
  intros H K. apply (G _ _ _ _ _ ltac:(apply Forall_forall; intros i Hi; apply in_zupto in Hi; lia) H K).
Qed.
End Frame.

(** Frames for one entry. *)
Section Entry.
Context {A : Arith} (k : string) (n : node A).
Definition entry_is (f : fs A) : Prop := fs_get f k = Some n.

Lemma keeps_create_directory p : p <> "" -> keeps_fs entry_is (create_directory p).
Proof.
  intros NE f r f' H K. unfold create_directory in H. destruct (fs_lookup f p) as [[]|] eqn:E; [| | |destruct (parent_ok f p)]; injection H as <- <-; try exact K.
  rewrite lookup_ne in E by exact NE. unfold fs_set, entry_is in *. rewrite fs_get_put_neq; [exact K|congruence].
Qed.
Lemma keeps_append_file p c : k <> norm p -> keeps_fs entry_is (append_file p c).
Proof.
  intros NE f r f' H K. unfold append_file in H. destruct (fs_lookup f p) as [[]|] eqn:E; [| | |destruct (parent_ok f p)]; injection H as <- <-; try exact K;
    unfold fs_set, entry_is; rewrite fs_get_put_neq; assumption.
Qed.
Lemma keeps_write_file p c : k <> norm p -> keeps_fs entry_is (write_file p c).
Proof.
  intros NE f r f' H K. unfold write_file in H.
  assert (X : fs_get (fs_set f p (File c)) k = Some n) by (unfold fs_set; rewrite fs_get_put_neq; assumption).
  destruct (fs_lookup f p) as [[]|] eqn:E; [|destruct (parent_ok f p)|destruct (parent_ok f p)|destruct (parent_ok f p)]; injection H as <- <-; assumption.
Qed.
Lemma keeps_hdf5_write p evnum b nc ev : k <> norm p -> keeps_fs entry_is (hdf5_write p evnum b nc ev).
Proof.
  intros NE f r f' H K. unfold hdf5_write in H.
  destruct (fs_lookup f p) as [[]|]; try (injection H as <- <-; exact K).
  destruct (_ <=? _)%Z; [injection H as <- <-; exact K|]. destruct (existsb _ _); injection H as <- <-; [exact K|].
  unfold fs_set, entry_is. rewrite fs_get_put_neq; assumption.
Qed.
End Entry.

(** ** The constructor *)
Section New.
Context {A : Arith} (R : Rng A) (bd : build).

(** What is at the output path after a successful construction. *)
Inductive opened (cfg : config A) (f f' : fs A) : Prop :=
| opened_none : output cfg = None -> f' = f -> opened cfg f f'
| opened_h5 path : output cfg = Some path -> filename_is_hdf5 path = true -> path <> "" ->
    (fs_get f (norm path) = None \/ fs_get f (norm path) = Some (File "")) ->
    f' = fs_put f (norm path) (H5File []) -> opened cfg f f'
| opened_dir path : output cfg = Some path -> filename_is_hdf5 path = false -> path <> "" ->
    fs_get f' (norm path) = Some Dir -> (forall k, below path k -> fs_get f' k = None) -> only_new_dirs f f' (norm path) -> opened cfg f f'
| opened_file path : output cfg = Some path -> filename_is_hdf5 path = false -> path <> "" ->
    norm path <> "" -> fs_get f (norm path) = Some (File "") -> f' = f -> opened cfg f f'.

Lemma empty_dir_iff (f : fs A) p : existsb (fun e => is_child p (fst e)) f = false <-> forall k, below p k -> fs_get f k = None.
Proof.
  split.
  - intros H k B. destruct (fs_get f k) as [n|] eqn:G; [|reflexivity]. exfalso. apply in_get in G.
    assert (X : existsb (fun e => is_child p (fst e)) f = true) by (apply existsb_exists; exists (k, n); split; [exact G|exact B]). congruence.
  - intros H. destruct (existsb _ f) eqn:E; [|reflexivity]. exfalso. apply existsb_exists in E. destruct E as ([k n] & I & B).
    apply (get_in f k n I). apply H. exact B.
Qed.

Lemma output_new_ok cfg (s : sys R) r s1 : tree (s_fs s) -> output_new R bd cfg s = (r, s1) ->
  tree (s_fs s1) /\ match r with
  | Ret ws => exists width, output_width (A:=A) (number_events cfg) = Ret width /\ ws = writers_of cfg width /\ opened cfg (s_fs s) (s_fs s1)
  | _ => forall k n, fs_get (s_fs s) k = Some n -> fs_get (s_fs s1) k = Some n
  end.
Proof.
  intros T H. unfold output_new in H. unfold bind at 1, lift in H.
  destruct (output_width (number_events cfg)) as [width| | |] eqn:Ew; try (injection H as <- <-; auto).
  unfold writers_of. destruct (output cfg) as [path|] eqn:Eo.
  2:{ unfold bind, ret in H. injection H as <- <-. split; [exact T|]. exists width. split; [reflexivity|]. split; [reflexivity|]. apply opened_none; auto. }
  unfold bind at 1 in H. unfold bind at 1, get in H.
  destruct (filename_is_hdf5 path) eqn:Eh.
  - assert (NE : path <> "") by (intros X; rewrite X in Eh; discriminate Eh).
    destruct (with_hdf5 bd); [|unfold throw in H; injection H as <- <-; auto].
    destruct (fs_exists (s_fs s) path && negb (fs_is_empty (s_fs s) path)) eqn:C; [unfold throw in H; injection H as <- <-; auto|].
    unfold bind, in_fs in H. destruct (hdf5_open path (s_fs s)) as [r1 f1] eqn:O. unfold hdf5_open in O.
    unfold fs_exists, fs_is_empty in C. rewrite lookup_ne in C, O by exact NE.
    assert (TS : parent_ok (s_fs s) path = true -> fs_get (s_fs s) (norm path) <> Some Dir -> tree (fs_set (s_fs s) path (H5File []))).
    { intros X1 X2. apply tree_set; [exact T|left; exact X1|exact NE|left; rewrite lookup_ne by exact NE; exact X2]. }
    destruct (fs_get (s_fs s) (norm path)) as [[|c|objs]|] eqn:G.
    + injection O as <- <-. unfold ret in H. injection H as <- <-. cbn [s_fs]. auto.
    + destruct c; [|cbn in C; discriminate C]. destruct (parent_ok (s_fs s) path) eqn:PO; injection O as <- <-; unfold ret in H; injection H as <- <-; cbn [s_fs].
      * split; [apply TS; congruence|]. exists width. split; [reflexivity|]. split; [destruct (quiet cfg); reflexivity|]. apply opened_h5 with path; auto.
      * auto.
    + cbn in C. discriminate C.
    + destruct (parent_ok (s_fs s) path) eqn:PO; injection O as <- <-; unfold ret in H; injection H as <- <-; cbn [s_fs].
      * split; [apply TS; congruence|]. exists width. split; [reflexivity|]. split; [destruct (quiet cfg); reflexivity|]. apply opened_h5 with path; auto.
      * auto.
  - unfold fs_exists, fs_is_empty in H. destruct (string_dec path "") as [->|NE].
    { unfold bind, in_fs, create_directories in H. cbn in H. injection H as <- <-. cbn [s_fs]. auto. }
    rewrite lookup_ne in H by exact NE. destruct (fs_get (s_fs s) (norm path)) as [[|c|objs]|] eqn:G.
    + destruct (existsb (fun e => is_child path (fst e)) (s_fs s)) eqn:Ex; cbn [negb] in H; unfold bind, throw, ret in H; injection H as <- <-; [auto|].
      split; [exact T|]. exists width. split; [reflexivity|]. split; [destruct (quiet cfg); reflexivity|].
      apply opened_dir with path; auto. { apply empty_dir_iff, Ex. } { apply only_new_refl. }
    + destruct c as [|c0 c]; cbn [negb] in H; unfold bind, throw, ret in H; injection H as <- <-; [|auto].
      split; [exact T|]. exists width. split; [reflexivity|]. split; [destruct (quiet cfg); reflexivity|].
      apply opened_file with path; auto. intros X. rewrite X in G. destruct T as [T _]. congruence.
    + cbn [negb] in H. unfold bind, throw, ret in H. injection H as <- <-. auto.
    + unfold bind, in_fs in H. destruct (create_directories path (s_fs s)) as [r1 f1] eqn:O. destruct (create_directories_ok _ _ _ _ O T) as (T1 & N1 & D1).
      assert (KK : forall k n, fs_get (s_fs s) k = Some n -> fs_get f1 k = Some n) by (intros k n Gk; destruct (N1 k) as [->|(X & _)]; congruence).
      destruct r1 as [[]| | |]; unfold ret in H; injection H as <- <-; cbn [s_fs]; auto.
      split; [exact T1|]. exists width. split; [reflexivity|]. split; [destruct (quiet cfg); reflexivity|].
      specialize (D1 eq_refl). rewrite lookup_ne in D1 by exact NE. apply opened_dir with path; auto.
      intros k B. destruct (N1 k) as [->|(_ & _ & X)].
      * destruct (fs_get (s_fs s) k) eqn:Gk; [|reflexivity]. exfalso.
        assert (fs_get (s_fs s) (norm path) = Some Dir) by (apply (tree_above _ path k T B); congruence). congruence.
      * exfalso. destruct X as [X|X].
        -- rewrite norm_idem in X. subst k. exact (below_not_self _ B).
        -- (* path below k below path *)
           apply below_iff in B, X. destruct B as (b1 & B1). destruct X as (b2 & X1).
           destruct (norm_rest k) as (j & Ej). rewrite B1 in Ej at 1. rewrite X1 in Ej. rewrite !append_assoc in Ej.
           assert (C : forall a u v, a ++ u = a ++ v -> u = v) by (intros a u v; induction a; cbn; intros Q; [exact Q|injection Q; auto]).
           apply C in Ej. assert (Ej' : srun j = ("/" ++ b2) ++ ("/" ++ b1)) by (rewrite append_assoc; symmetry; exact Ej).
           destruct (iter_slash_split _ _ _ Ej') as (i & Ei). rewrite Ei in X1. pose proof (norm_ends_slash _ _ _ X1) as X2.
           rewrite X2 in X1. rewrite <- (append_nil_r (norm k)) in X1 at 1. apply C in X1. rewrite <- X1 in Ei. discriminate Ei.
Qed.
End New.
