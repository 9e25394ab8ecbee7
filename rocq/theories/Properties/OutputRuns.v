(** C43, C45, C47: the files left by a finished run. *)
From Coq Require Import Reals Ascii.
From Flocq Require Import Core BinarySingleNaN.
From Verif.Base Require Import Result Arith RArith FArith Rng.
From Verif.Model Require Import Config Nucleon Nucleus Event Text Files CrossSection Output Collider.
From Verif.Spec Require Import Decimal Table Grid Cache FileTree History Collision Runs.
From Verif.Proof Require Import Basics TextP TableP FsP FsTree Ctor Writers CacheRun OutputP EventP EveryEvent.
From Verif.Properties Require Import Stdout TextFiles Overwrite.
Local Open Scope string_scope.

(** The records of a finished run are those of its events: numbered 0..N-1, each
    on an n x n grid with eccentricities 2..5. *)
Record records {A : Arith} (cfg : config A) (n : Z) (ds : list (delivery A)) : Prop := {
  rec_count : length ds = Z.to_nat (number_events cfg);
  rec_number : forall i d, nth_error ds i = Some d -> d_num d = Z.of_nat i;
  rec_grid : forall d, In d ds -> ev_nsteps (d_event d) = n /\ square n (ev_TR (d_event d));
  rec_ecc : forall d, In d ds -> map fst (ev_ecc (d_event d)) = [2; 3; 4; 5]%Z
}.

Lemma finished_run {A : Arith} (R : Rng A) sv bd cfuel fuel sfuel e cfg (s s' : sys R) :
  collide R sv bd cfuel fuel sfuel e cfg s = (Ret tt, s') -> tree (s_fs s) ->
  exists ev0 ds width (sp so : sys R) spp, event_new cfg = Ret ev0 /\ records cfg (ev_nsteps ev0) ds /\
    partonic_cross_section R sv cfuel e cfg s = (Ret spp, sp) /\
    tree (s_fs sp) /\ output_width (A:=A) (number_events cfg) = Ret width /\
    opened cfg (s_fs sp) (s_fs so) /\ file_effects cfg width ds (s_fs so) (s_fs s').
Proof.
  intros H T.
  assert (E : every_event (fun _ _ _ _ _ _ _ _ _ _ => True)) by (apply every_event_intro; intros; exact I).
  destruct (E A R sv bd cfuel fuel sfuel e cfg s s' H) as (co & nA & nB & ev0 & nst & gst & s1 & ds & Hn & Hl & Hi & Hd & Hc & _).
  pose proof (collider_new_inv _ _ _ _ _ _ _ _ _ _ _ _ _ _ Hn) as Hk.
  apply collider_new_steps in Hn. destruct Hn as [[_ []]|(rp & sp & Ep & Hn)].
  destruct Hn as [[_ []]|(spp & ro & so & -> & Eo & Ef & _ & Hn)]. destruct Hn as [[_ []]|(ws & co' & nA' & nB' & ev' & nst' & gst' & -> & Ec & Ew)].
  injection Ec as <- <- <- <- <- <-.
  pose proof (partonic_keeps_tree R sv cfuel e cfg _ _ _ Ep T) as Tp.
  destruct (output_new_ok R bd cfg sp _ so Tp Eo) as (To & width & Hw & -> & Op).
  exists ev0, ds, width, sp, so, spp. split; [apply Hk|]. split; [|repeat (split; [assumption|])].
  - pose proof (event_new_ready cfg ev0 (ct_event _ _ _ _ _ _ _ _ _ _ _ Hk)) as Rd.
    assert (Q : forall d, In d ds -> (ev_nsteps (d_event d) = ev_nsteps ev0 /\ square (ev_nsteps ev0) (ev_TR (d_event d))) /\ map fst (ev_ecc (d_event d)) = [2; 3; 4; 5]%Z).
    { intros d Hd'. specialize (Hc d Hd'). destruct (event_compute_inv _ _ _ _ _ _ Rd Hc) as (SP & _ & _ & _ & SQ & _ & _ & _ & _ & EC).
      split; [split; [symmetry; apply (proj1 (proj2 (proj2 (proj2 SP))))|exact SQ]|]. destruct (fold_left _ _ _) as [[[a2 a3] a4] a5] in EC. rewrite EC. reflexivity. }
    constructor; [exact Hl|exact Hi|intros d Hd'; apply Q, Hd'|intros d Hd'; apply Q, Hd'].
  - rewrite Ew in Hd. apply delivered_effects in Hd. rewrite <- Ef. apply Hd.
Qed.

(** ** Frames for the cross section step *)
Lemma partonic_other {A : Arith} (R : Rng A) sv fuel e cfg (f0 : fs A) k : ~ is_cache e k -> (forall dh, data_dir e = Some dh -> k <> norm (cache_dir dh)) ->
  keeps R (fun f => fs_get f k = fs_get f0 k) (partonic_cross_section R sv fuel e cfg).
Proof.
  intros NC ND. apply keeps_partonic. intros dh ED. apply home_data_dir in ED. split.
  - intros f r f' H K. specialize (ND dh ED). unfold cache_dir in ND. unfold create_directory in H.
    destruct (fs_lookup f _) as [[]|]; [| | |destruct (parent_ok f _)]; injection H as <- <-; try exact K. unfold fs_set. rewrite fs_get_put_neq by exact ND. exact K.
  - intros c f r f' H K. assert (NK : k <> norm (cache_path dh)) by (intros E; apply NC; exists dh; split; [exact ED|exact E]).
    unfold append_file in H. destruct (fs_lookup f _) as [[]|]; [| | |destruct (parent_ok f _)]; injection H as <- <-; try exact K;
      unfold fs_set; rewrite fs_get_put_neq by exact NK; exact K.
Qed.
Lemma partonic_no_new_file {A : Arith} (R : Rng A) sv fuel e cfg k : ~ is_cache e k ->
  keeps R (fun f => forall c, fs_get f k <> Some (File c)) (partonic_cross_section R sv fuel e cfg).
Proof.
  intros NC. apply keeps_partonic. intros dh ED. apply home_data_dir in ED. split.
  - intros f r f' H K. unfold create_directory in H.
    destruct (fs_lookup f _) as [[]|]; [| | |destruct (parent_ok f _)]; injection H as <- <-; try exact K. intros c. unfold fs_set.
    destruct (string_dec k (norm (path_join dh "trento"))) as [->|NK]; [rewrite fs_get_put_eq; discriminate|rewrite fs_get_put_neq by exact NK; apply K].
  - intros c f r f' H K c'. assert (NK : k <> norm (cache_path dh)) by (intros E; apply NC; exists dh; split; [exact ED|exact E]).
    unfold append_file in H. destruct (fs_lookup f _) as [[]|]; [| | |destruct (parent_ok f _)]; injection H as <- <-; try apply K;
      unfold fs_set; rewrite fs_get_put_neq by exact NK; apply K.
Qed.

Lemma records_numbers {A : Arith} (cfg : config A) n ds : records cfg n ds ->
  (forall d, In d ds -> 0 <= d_num d)%Z /\ NoDup (map d_num ds).
Proof.
  intros [L N _ _]. split.
  - intros d Hd. apply In_nth_error in Hd. destruct Hd as (i & E). rewrite (N i d E). lia.
  - apply NoDup_nth_error. intros i j Hi E. rewrite map_length in Hi.
    rewrite !nth_error_map in E. destruct (nth_error ds i) as [d|] eqn:Ei; [|apply nth_error_None in Ei; lia].
    destruct (nth_error ds j) as [d'|] eqn:Ej; [|discriminate E]. cbn in E. injection E as E. rewrite (N i d Ei), (N j d' Ej) in E. lia.
Qed.

(** ** Text output *)
(** The file of record [d] in directory [path]. *)
Definition event_path (path : string) (width : Z) {A : Arith} (d : delivery A) : string := path_join path (text_file_name width (d_num d)).

(** A finished run with text output to a path that was missing or an (empty)
    directory leaves that directory with exactly one file per event, holding the
    text of its record. *)
Lemma text_run {A : Arith} (R : Rng A) sv bd cfuel fuel sfuel e cfg (s s' : sys R) path :
  collide R sv bd cfuel fuel sfuel e cfg s = (Ret tt, s') -> tree (s_fs s) ->
  output cfg = Some path -> filename_is_hdf5 path = false -> ~ is_cache e (norm path) ->
  fs_get (s_fs s) (norm path) = None \/ fs_get (s_fs s) (norm path) = Some Dir ->
  exists ev0 ds width, event_new cfg = Ret ev0 /\ records cfg (ev_nsteps ev0) ds /\ output_width (A:=A) (number_events cfg) = Ret width /\
    fs_get (s_fs s') (norm path) = Some Dir /\
    (forall d, In d ds -> exists t, event_text (d_num d) (d_b d) (d_ncoll d) (d_event d) (negb (no_header cfg)) = Ret t /\
       fs_get (s_fs s') (event_path path width d) = Some (File t)) /\
    (forall k, below path k -> fs_get (s_fs s') k <> None -> exists d, In d ds /\ k = event_path path width d).
Proof.
  intros H T Eo Eh NC St. destruct (finished_run R sv bd cfuel fuel sfuel e cfg s s' H T) as (ev0 & ds & width & sp & so & spp & En & Rc & Ep & Tp & Ew & Op & FE).
  exists ev0, ds, width. split; [exact En|]. split; [exact Rc|]. split; [exact Ew|].
  assert (NF : forall c, fs_get (s_fs sp) (norm path) <> Some (File c)).
  { apply (partonic_no_new_file R sv cfuel e cfg _ NC _ _ _ Ep). intros c E. destruct St; congruence. }
  destruct Op as [E1 _|p E1 E2|p E1 E2 NE E3 E4 E5|p E1 E2 NE N0 E3 _]; [congruence|congruence| |].
  2:{ assert (p = path) by congruence. subst p. destruct (NF "" E3). }
  assert (p = path) by congruence. subst p. destruct (records_numbers cfg _ ds Rc) as [NN ND].
  destruct (text_effects cfg width path Eo Eh NE ds _ _ FE NN ND E3 E4) as [F1 F2]. split; [|split].
  - rewrite F2; [exact E3|]. intros d Hd X. destruct (join_key path _ (text_file_name_plain width _ (NN d Hd)) NE) as [_ B].
    unfold file_of in X. rewrite <- X in B. exact (below_not_self _ B).
  - exact F1.
  - intros k B Ne. destruct (in_dec string_dec k (map (event_path path width) ds)) as [I|NI].
    + apply in_map_iff in I. destruct I as (d & <- & Hd). exists d. auto.
    + exfalso. apply Ne. rewrite F2; [apply E4, B|]. intros d Hd ->. apply NI. apply in_map, Hd.
Qed.

Theorem C43_run_real : forall (rg : Rng RA) sv bd cfuel fuel sfuel e cfg (s s' : sys rg) path ev0,
  collide rg sv bd cfuel fuel sfuel e cfg s = (Ret tt, s') -> tree (s_fs s) ->
  output cfg = Some path -> filename_is_hdf5 path = false -> ~ is_cache e (norm path) ->
  fs_get (s_fs s) (norm path) = None \/ fs_get (s_fs s) (norm path) = Some Dir ->
  event_new cfg = Ret ev0 -> (2 <= ev_nsteps ev0)%Z ->
  exists ds width, records cfg (ev_nsteps ev0) ds /\ output_width (A:=RA) (number_events cfg) = Ret width /\
    fs_get (s_fs s') (norm path) = Some Dir /\
    (forall d, In d ds -> exists t, fs_get (s_fs s') (event_path path width d) = Some (File t) /\ event_file (A:=RA) (fun x => x) (negb (no_header cfg)) d t) /\
    (forall k, below path k -> fs_get (s_fs s') k <> None -> exists d, In d ds /\ k = event_path path width d).
Proof.
  intros rg sv bd cfuel fuel sfuel e cfg s s' path ev0 H T Eo Eh NC St En N2.
  destruct (text_run rg sv bd cfuel fuel sfuel e cfg s s' path H T Eo Eh NC St) as (ev1 & ds & width & En' & Rc & Ew & D & F1 & F2).
  assert (ev1 = ev0) by congruence. subst ev1. exists ds, width. split; [exact Rc|]. split; [exact Ew|]. split; [exact D|]. split; [|exact F2].
  intros d Hd. destruct (F1 d Hd) as (t & Et & Ft). exists t. split; [exact Ft|].
  destruct (C43_real (negb (no_header cfg)) d (ev_nsteps ev0) N2 ltac:(apply Rc, Hd)) as (t' & Et' & P). rewrite Et in Et'. injection Et' as <-. exact P.
Qed.

Theorem C43_run_ieee : forall L (rg : Rng (FA L)) sv bd cfuel fuel sfuel e cfg (s s' : sys rg) path ev0,
  collide rg sv bd cfuel fuel sfuel e cfg s = (Ret tt, s') -> tree (s_fs s) ->
  output cfg = Some path -> filename_is_hdf5 path = false -> ~ is_cache e (norm path) ->
  fs_get (s_fs s) (norm path) = None \/ fs_get (s_fs s) (norm path) = Some Dir ->
  event_new cfg = Ret ev0 -> (2 <= ev_nsteps ev0)%Z ->
  exists ds width, records cfg (ev_nsteps ev0) ds /\ output_width (A:=FA L) (number_events cfg) = Ret width /\
    fs_get (s_fs s') (norm path) = Some Dir /\
    (forall d, In d ds -> exists t, fs_get (s_fs s') (event_path path width d) = Some (File t) /\
       (finite_record d -> finite_grid d -> event_file (A:=FA L) valF (negb (no_header cfg)) d t)) /\
    (forall k, below path k -> fs_get (s_fs s') k <> None -> exists d, In d ds /\ k = event_path path width d).
Proof.
  intros L rg sv bd cfuel fuel sfuel e cfg s s' path ev0 H T Eo Eh NC St En N2.
  destruct (text_run rg sv bd cfuel fuel sfuel e cfg s s' path H T Eo Eh NC St) as (ev1 & ds & width & En' & Rc & Ew & D & F1 & F2).
  assert (ev1 = ev0) by congruence. subst ev1. exists ds, width. split; [exact Rc|]. split; [exact Ew|]. split; [exact D|]. split; [|exact F2].
  intros d Hd. destruct (F1 d Hd) as (t & Et & Ft). exists t. split; [exact Ft|]. intros Fr Fg.
  destruct (C43_ieee L (negb (no_header cfg)) d (ev_nsteps ev0) N2 ltac:(apply Rc, Hd) Fr Fg) as (t' & Et' & P). rewrite Et in Et'. injection Et' as <-. exact P.
Qed.

(** ** An empty regular file in place of the directory *)
Theorem C45_empty_file : forall (A : Arith) (R : Rng A) sv bd cfuel fuel sfuel e cfg (s s' : sys R) path,
  collide R sv bd cfuel fuel sfuel e cfg s = (Ret tt, s') -> tree (s_fs s) ->
  output cfg = Some path -> filename_is_hdf5 path = false -> ~ is_cache e (norm path) ->
  fs_get (s_fs s) (norm path) = Some (File "") ->
  forall k, ~ is_cache e k -> (forall dh, data_dir e = Some dh -> k <> norm (cache_dir dh)) -> fs_get (s_fs s') k = fs_get (s_fs s) k.
Proof.
  intros A R sv bd cfuel fuel sfuel e cfg s s' path H T Eo Eh NC St k NK ND.
  destruct (finished_run R sv bd cfuel fuel sfuel e cfg s s' H T) as (ev0 & ds & width & sp & so & spp & En & Rc & Ep & Tp & Ew & Op & FE).
  pose proof (partonic_keeps_entry R sv (norm path) (File "") cfuel e cfg NC _ _ _ Ep St) as Kp. unfold entry_is in Kp.
  pose proof (partonic_other R sv cfuel e cfg (s_fs s) k NK ND _ _ _ Ep eq_refl) as Kk.
  destruct (records_numbers cfg _ ds Rc) as [NN _].
  destruct Op as [E1 _|p E1 E2|p E1 E2 NE E3 E4 E5|p E1 E2 NE N0 E3 ES]; [congruence|congruence| |].
  - exfalso. assert (p = path) by congruence. subst p. destruct (E5 (norm path)) as [X|(X & _)]; congruence.
  - assert (p = path) by congruence. subst p. rewrite ES in FE.
    rewrite (text_effects_file cfg width path Eo Eh NE ds _ _ "" FE NN N0 E3). exact Kk.
Qed.

(** ** C47: HDF5 output *)
(** The object written for the record [d] of a run on an n x n grid. *)
Definition dataset_for {A : Arith} (n : Z) (d : delivery A) (o : string * h5obj A) : Prop :=
  exists tn data e2 e3 e4 e5,
    shows_int (d_num d) tn /\ fst o = "event_" ++ tn /\
    ev_ecc (d_event d) = [(2, e2); (3, e3); (4, e4); (5, e5)]%Z /\
    snd o = ODataset (H5Dataset [n; n] data
      ([("b", VDouble (d_b d)); ("npart", VInt (ev_npart (d_event d)))]
       ++ (if (0 <? d_ncoll d)%Z then [("ncoll", VInt (d_ncoll d))] else [])
       ++ [("mult", VDouble (ev_mult (d_event d))); ("e2", VDouble e2); ("e3", VDouble e3); ("e4", VDouble e4); ("e5", VDouble e5)])) /\
    length data = Z.to_nat (n * n) /\
    (forall iy ix, inside n iy ix -> nth_error data (Z.to_nat (iy * n + ix)) = Some (cell (ev_TR (d_event d)) iy ix)).

Lemma concat_square {A : Arith} (g : grid A) n m : length g = m -> Forall (fun row => length row = n) g ->
  length (concat g) = (m * n)%nat /\
  (forall iy ix, (iy < m)%nat -> (ix < n)%nat -> nth_error (concat g) (iy * n + ix) = nth_error (nth iy g []) ix).
Proof.
  revert m. induction g as [|row g IH]; intros m L F.
  - cbn in L. subst m. split; [reflexivity|]. intros iy ix H. lia.
  - cbn in L. destruct m as [|m]; [discriminate L|]. injection L as L. inversion F as [|? ? F1 F2]; subst. destruct (IH _ eq_refl F2) as [I1 I2].
    split; [cbn [concat]; rewrite app_length, I1; lia|]. intros iy ix H1 H2. cbn [concat]. destruct iy as [|iy].
    + cbn [nth]. rewrite nth_error_app1 by lia. reflexivity.
    + cbn [nth]. rewrite nth_error_app2 by lia. rewrite <- I2 by lia. f_equal. lia.
Qed.

Lemma object_spec {A : Arith} (cfg : config A) n ds d : records cfg n ds -> In d ds -> (0 < n)%Z -> dataset_for n d (object_of d).
Proof.
  intros Rc Hd Hn. destruct (rec_grid _ _ _ Rc d Hd) as [En [L F]]. pose proof (rec_ecc _ _ _ Rc d Hd) as EC.
  destruct (ev_ecc (d_event d)) as [|[k2 e2] [|[k3 e3] [|[k4 e4] [|[k5 e5] [|]]]]] eqn:EE; try discriminate EC. injection EC as -> -> -> ->.
  exists (print_Z (d_num d)), (concat (ev_TR (d_event d))), e2, e3, e4, e5.
  split; [apply print_Z_shows|]. split; [reflexivity|]. split; [exact EE|].
  destruct (concat_square _ _ _ L F) as [C1 C2]. split; [|split].
  - cbn [snd object_of]. unfold event_dataset. rewrite En, EE. reflexivity.
  - rewrite C1. lia.
  - intros iy ix [Hy Hx]. replace (Z.to_nat (iy * n + ix)) with (Z.to_nat iy * Z.to_nat n + Z.to_nat ix)%nat by nia.
    rewrite C2 by lia. unfold cell. destruct (Z.ltb_spec iy 0); [lia|]. destruct (Z.ltb_spec ix 0); [lia|]. cbn [orb].
    apply nth_error_nth'. rewrite Forall_forall in F. rewrite F; [lia|]. apply nth_In. lia.
Qed.

Lemma dataset_name_inj i j : (0 <= i)%Z -> (0 <= j)%Z -> dataset_name i = dataset_name j -> i = j.
Proof.
  intros Hi Hj E. unfold dataset_name in E. injection E as E. unfold print_Z in E.
  destruct (Z.ltb_spec i 0); [lia|]. destruct (Z.ltb_spec j 0); [lia|].
  apply (f_equal dval) in E. destruct (print_N_spec i Hi) as (_ & _ & -> & _) in E. destruct (print_N_spec j Hj) as (_ & _ & -> & _) in E. exact E.
Qed.

(** A finished run with HDF5 output leaves at the path an HDF5 file with exactly
    one dataset per event, in order, with distinct names. *)
Theorem C47_hdf5 : forall (A : Arith) (R : Rng A) sv bd cfuel fuel sfuel e cfg (s s' : sys R) path ev0,
  collide R sv bd cfuel fuel sfuel e cfg s = (Ret tt, s') -> tree (s_fs s) ->
  output cfg = Some path -> filename_is_hdf5 path = true -> event_new cfg = Ret ev0 ->
  exists ds objs, records cfg (ev_nsteps ev0) ds /\ fs_get (s_fs s') (norm path) = Some (H5File objs) /\
    Forall2 (dataset_for (ev_nsteps ev0)) ds objs /\ NoDup (map fst objs).
Proof.
  intros A R sv bd cfuel fuel sfuel e cfg s s' path ev0 H T Eo Eh En.
  destruct (finished_run R sv bd cfuel fuel sfuel e cfg s s' H T) as (ev1 & ds & width & sp & so & spp & En' & Rc & Ep & Tp & Ew & Op & FE).
  assert (ev1 = ev0) by congruence. subst ev1.
  destruct Op as [E1 _|p E1 E2 NE E3 ES|p E1 E2|p E1 E2]; try congruence.
  assert (p = path) by congruence. subst p.
  assert (O : fs_get (s_fs so) (norm path) = Some (H5File [])) by (rewrite ES; apply fs_get_put_eq).
  destruct (h5_effects cfg width path Eo Eh ds _ _ _ FE O) as (F1 & _ & F3). cbn [app] in F1.
  exists ds, (map object_of ds). split; [exact Rc|]. split; [exact F1|].
  assert (FD : forall d, In d ds -> dataset_for (ev_nsteps ev0) d (object_of d)).
  { intros d Hd. apply (object_spec cfg (ev_nsteps ev0) ds d Rc Hd). destruct (rec_grid _ _ _ Rc d Hd) as [<- _]. apply F3, Hd. }
  split.
  - clear - FD. induction ds as [|d ds IH]; [constructor|]. cbn [map]. constructor; [apply FD; left; reflexivity|apply IH; intros d' Hd'; apply FD; right; exact Hd'].
  - destruct (records_numbers cfg _ ds Rc) as [NN ND]. clear - NN ND. rewrite map_map. cbn [fst object_of].
    induction ds as [|d ds IH]; [constructor|]. inversion ND as [|? ? N1 N2]; subst. cbn [map]. constructor.
    + intros I. apply in_map_iff in I. destruct I as (d' & E & Hd'). apply N1. apply dataset_name_inj in E; [|apply NN; right; exact Hd'|apply NN; left; reflexivity].
      rewrite <- E. apply in_map, Hd'.
    + apply IH; [intros d' Hd'; apply NN; right; exact Hd'|exact N2].
Qed.

(** Nothing else changes but the cache and its directory. *)
Theorem C47_only_file : forall (A : Arith) (R : Rng A) sv bd cfuel fuel sfuel e cfg (s s' : sys R) path,
  collide R sv bd cfuel fuel sfuel e cfg s = (Ret tt, s') -> tree (s_fs s) ->
  output cfg = Some path -> filename_is_hdf5 path = true ->
  forall k, k <> norm path -> ~ is_cache e k -> (forall dh, data_dir e = Some dh -> k <> norm (cache_dir dh)) -> fs_get (s_fs s') k = fs_get (s_fs s) k.
Proof.
  intros A R sv bd cfuel fuel sfuel e cfg s s' path H T Eo Eh k NP NK ND.
  destruct (finished_run R sv bd cfuel fuel sfuel e cfg s s' H T) as (ev1 & ds & width & sp & so & spp & En' & Rc & Ep & Tp & Ew & Op & FE).
  pose proof (partonic_other R sv cfuel e cfg (s_fs s) k NK ND _ _ _ Ep eq_refl) as Kk.
  destruct Op as [E1 _|p E1 E2 NE E3 ES|p E1 E2|p E1 E2]; try congruence.
  assert (p = path) by congruence. subst p.
  assert (O : fs_get (s_fs so) (norm path) = Some (H5File [])) by (rewrite ES; apply fs_get_put_eq).
  destruct (h5_effects cfg width path Eo Eh ds _ _ _ FE O) as (_ & F2 & _). rewrite F2 by exact NP. rewrite ES, fs_get_put_neq by exact NP. exact Kk.
Qed.
