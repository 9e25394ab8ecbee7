(** What the Collider constructor establishes. *)
From Verif.Base Require Import Result Arith Rng.
From Verif.Model Require Import FastExp Config Nucleon Nucleus Event Text Files CrossSection Output Collider.
From Verif.Proof Require Import Basics Sampling.

Section Ctor.
Context {A : Arith} (R : Rng A) (sv : Solver A) (bd : build).

(** Every created nucleus has the number of nucleons its type requires, all
    freshly zeroed. *)
Lemma nucleus_new_nucleons (k : nkind A) n :
  nu_nucleons (nucleus_new k n) = repeat nucleon_zero n.
Proof. reflexivity. Qed.

Lemma manual_create_inv f path nu :
  manual_create f path = Ret nu ->
  exists name ds nconf nnuc rsq,
    try_open_file f path = Ret [(name, ODataset ds)] /\
    ds_dims ds = [nconf; nnuc; 3%Z] /\ nnuc <> 0%Z /\
    max_rsq (ds_data ds) (Z.min (500 / nnuc + 1) nconf * nnuc) = Ret rsq /\
    nu = nucleus_new (A:=A) (KManual nconf nnuc (ds_data ds) (nsqrt A rsq)) (Z.to_nat nnuc).
Proof.
  unfold manual_create. intros H. mstep H.
  destruct x as [|[name o] [|? ?]]; try discriminate.
  destruct o as [ds|]; [|discriminate].
  destruct (3 <? Z.of_nat (length (ds_dims ds)))%Z; [discriminate|].
  destruct (ds_dims ds) as [|nconf [|nnuc [|col [|? ?]]]] eqn:Ed; try discriminate.
  destruct (col =? 3)%Z eqn:E3; [|discriminate]. apply Z.eqb_eq in E3. subst col. simpl in H.
  destruct (nnuc =? 0)%Z eqn:E0; [discriminate|]. apply Z.eqb_neq in E0.
  mstep H. mstep H. exists name, ds, nconf, nnuc, x. auto.
Qed.

Lemma nucleus_create_fresh f sp dmin nu :
  nucleus_create (A:=A) bd f sp dmin = Ret nu ->
  nucleus_wf nu /\ exists n, nu = nucleus_new (nu_kind nu) n.
Proof.
  unfold nucleus_create. intros H.
  repeat match type of H with
  | (if String.eqb ?a ?b then _ else _) = _ =>
      destruct (String.eqb a b);
      [mstep H; split; [try reflexivity; exact I|eexists; reflexivity]|]
  end.
  destruct (filename_is_hdf5 sp); [|discriminate]. destruct (with_hdf5 bd); [|discriminate].
  apply manual_create_inv in H. destruct H as (nm & ds & nc & nn & rsq & _ & _ & _ & _ & ->).
  split; [|eexists; reflexivity]. unfold nucleus_wf. simpl. apply repeat_length.
Qed.

(** The writers installed. *)
Definition writers_of (cfg : config A) (width : Z) : list writer :=
  (if quiet cfg then [] else [WStdout width]) ++
  match output cfg with
  | None => []
  | Some path => if filename_is_hdf5 path then [WHdf5 path]
                 else [WText path width (negb (no_header cfg))]
  end.

Lemma in_fs_frame {X} (m : M (fs A) X) s r s' :
  in_fs R m s = (r, s') -> s_eng s' = s_eng s /\ s_out s' = s_out s /\ s_err s' = s_err s /\ (r, s_fs s') = m (s_fs s).
Proof. unfold in_fs. destruct (m (s_fs s)). intros H. inversion H; subst; auto. Qed.

Lemma in_eng_frame {X} (m : M (engine R) X) s r s' :
  in_eng R m s = (r, s') -> s_fs s' = s_fs s /\ s_out s' = s_out s /\ s_err s' = s_err s /\ (r, s_eng s') = m (s_eng s).
Proof. unfold in_eng. destruct (m (s_eng s)). intros H. inversion H; subst; auto. Qed.

Lemma output_new_inv cfg s ws s' :
  output_new R bd cfg s = (Ret ws, s') ->
  exists width, output_width (A:=A) (number_events cfg) = Ret width /\ ws = writers_of cfg width /\
    s_eng s' = s_eng s /\ s_out s' = s_out s /\ s_err s' = s_err s.
Proof.
  unfold output_new, writers_of. intros H. mstep H. mstep E.
  mstep H. mstep H. exists x. split; [assumption|].
  destruct (output cfg) as [path|].
  - mstep E0. unfold get in E1. apply pair_Ret_inj in E1; destruct E1 as [<- <-].
    destruct (filename_is_hdf5 path).
    + destruct (with_hdf5 bd); [|discriminate].
      destruct (fs_exists (s_fs s) path && negb (fs_is_empty (s_fs s) path)); [discriminate|].
      mstep E0. mstep E0. apply in_fs_frame in E1. intuition.
    + mstep E0. mstep E0. split; [reflexivity|].
      destruct (fs_exists (s_fs s) path).
      * destruct (negb (fs_is_empty (s_fs s) path)); [discriminate|]. mstep E1. auto.
      * apply in_fs_frame in E1. intuition.
  - mstep E0. auto.
Qed.

Lemma partonic_cross_section_frame fuel e cfg s r s' :
  partonic_cross_section R sv fuel e cfg s = (r, s') -> s_out s' = s_out s /\ s_err s' = s_err s.
Proof.
  unfold partonic_cross_section. intros H.
  assert (G : forall X Y (m : M (sys R) X) (k : X -> M (sys R) Y) s r s',
    bind m k s = (r, s') ->
    (forall r1 s1, m s = (r1, s1) -> s_out s1 = s_out s /\ s_err s1 = s_err s) ->
    (forall x s1, m s = (Ret x, s1) -> k x s1 = (r, s') -> s_out s' = s_out s1 /\ s_err s' = s_err s1) ->
    s_out s' = s_out s /\ s_err s' = s_err s).
  { clear. intros X Y m k s r s' H H1 H2. unfold bind in H. destruct (m s) as [[x|x|x|] s1] eqn:E.
    - destruct (H1 _ _ eq_refl). destruct (H2 _ _ eq_refl H). split; congruence.
    - inversion H; subst. eapply H1; eauto.
    - inversion H; subst. eapply H1; eauto.
    - inversion H; subst. eapply H1; eauto. }
  assert (F : forall X (m : M (fs A) X) s r s', in_fs R m s = (r, s') -> s_out s' = s_out s /\ s_err s' = s_err s).
  { intros X m s1 r1 s1' H1. apply in_fs_frame in H1. intuition. }
  eapply G; [exact H| |]; clear H.
  - intros r1 s1 H. unfold lift in H. inversion H; subst; auto.
  - intros dh s1 H1 H. eapply G; [exact H| |]; clear H.
    + eauto.
    + intros u s2 H2 H. eapply G; [exact H| |]; clear H.
      * intros r3 s3 H. unfold get in H. inversion H; auto.
      * intros s3 s3' H3 H. eapply G; [exact H| |]; clear H.
        -- intros r4 s4 H. destruct (fs_lookup (s_fs s3) _); unfold lift, ret in H; inversion H; auto.
        -- intros hit s4 H4 H. destruct hit; [unfold ret in H; inversion H; auto|].
           eapply G; [exact H| |]; clear H; [eauto|].
           intros u5 s5 H5 H. eapply G; [exact H| |]; clear H.
           ++ intros r6 s6 H. apply in_eng_frame in H. intuition.
           ++ intros sp s6 H6 H. eapply G; [exact H| |]; clear H; [eauto|].
              intros u7 s7 H7 H. unfold ret in H. inversion H; auto.
Qed.

(** The members of the constructed object. *)
Record constructed (cfg : config A) (co : collider A) (nA nB : nucleus A) (ev : event A)
    (nst : nstate R) (gst : gstate R) (s s1 : sys R) : Prop := Constructed {
  ct_A : create_nucleus bd (s_fs s) cfg 0 = Ret nA;
  ct_B : create_nucleus bd (s_fs s) cfg 1 = Ret nB;
  ct_nc : exists sp, co_nc co = nucleon_common_of cfg sp;
  ct_event : event_new cfg = Ret ev;
  ct_nevents : co_nevents co = number_events cfg;
  ct_ncoll : co_calc_ncoll co = ncoll cfg;
  ct_bmin : co_bmin co = b_min cfg;
  ct_bmax : co_bmax co = determine_bmax cfg nA nB (co_nc co);
  ct_asym : co_asym co = determine_asym nA nB;
  ct_writers : exists width, output_width (A:=A) (number_events cfg) = Ret width /\
                 co_writers co = writers_of cfg width;
  ct_norm : nst = normal_init R (co_nc co);
  ct_gamma : gst = gamma_init R cfg;
  ct_out : s_out s1 = s_out s;
  ct_err : s_err s1 = s_err s;
  ct_seed : (0 < random_seed cfg)%Z -> s_eng s1 = eng_seed R (random_seed cfg)
}.

Lemma collider_new_inv fuel e cfg s co nA nB ev nst gst s1 :
  collider_new R sv bd fuel e cfg s = (Ret (co, nA, nB, ev, nst, gst), s1) ->
  constructed cfg co nA nB ev nst gst s s1.
Proof.
  unfold collider_new. intros H. mstep H. unfold get in E.
  apply pair_Ret_inj in E. destruct E as [<- <-].
  mstep H. mstep E. mstep H. mstep E0. mstep H. mstep H. mstep E2. mstep H. mstep H.
  apply partonic_cross_section_frame in E1. destruct E1 as [F1 F2].
  apply output_new_inv in E3. destruct E3 as (width & Hw & Hws & G1 & G2 & G3).
  assert (B : s_out s3 = s_out s2 /\ s_err s3 = s_err s2 /\
              ((0 < random_seed cfg)%Z -> s_eng s3 = eng_seed R (random_seed cfg))).
  { destruct (Z.ltb_spec 0 (random_seed cfg)).
    - inversion E4; subst; simpl; auto.
    - mstep E4. repeat split; auto. intros; lia. }
  destruct B as (B1 & B2 & B3).
  mstep H. constructor; simpl; auto; try congruence; eauto.
Qed.

Lemma collide_inv cfuel fuel sfuel e cfg s s' :
  collide R sv bd cfuel fuel sfuel e cfg s = (Ret tt, s') ->
  exists co nA nB ev nst gst s1 r s2,
    collider_new R sv bd cfuel e cfg s = (Ret (co, nA, nB, ev, nst, gst), s1) /\
    run_events R bd fuel sfuel co nA nB ev (Run s1 nst gst) = (Ret r, s2) /\
    s' = ru_sys s2.
Proof.
  unfold collide. intros H. mstep H. destruct x as [[[[[co nA] nB] ev] nst] gst].
  destruct (run_events R bd fuel sfuel co nA nB ev (Run s0 nst gst)) as [r s2] eqn:Er.
  destruct r as [r|r|r|]; inversion H; subst.
  exists co, nA, nB, ev, nst, gst, s0, r, s2. auto.
Qed.

Lemma create_nucleus_wf f cfg i nu : create_nucleus (A:=A) bd f cfg i = Ret nu -> nucleus_wf nu.
Proof.
  unfold create_nucleus. destruct (nth_error (projectile cfg) i); [|discriminate].
  intros H. eapply nucleus_create_fresh; eauto.
Qed.

End Ctor.
