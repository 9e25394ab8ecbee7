(** C34, C35: files of pre-generated configurations. *)
From Coq Require Import Reals Lra.
From Verif.Base Require Import Result Arith RArith Rng.
From Verif.Model Require Import Random Config Nucleon Text Files Nucleus.
From Verif.Spec Require Import Geometry.
From Verif.Proof Require Import Basics RBasics ManualP.

Section Any.
Context {A : Arith}.

(** The first [k] positions can be read. *)
Lemma at_index_ok (data : list (num A)) i : (0 <= i < Z.of_nat (length data))%Z -> exists x, at_index data i = Ret x.
Proof.
  intros H. unfold at_index. destruct (Z.ltb_spec i 0); [lia|].
  destruct (nth_error data (Z.to_nat i)) eqn:E; [eauto|]. apply nth_error_None in E. lia.
Qed.
Lemma max_rsq_ok (data : list (num A)) k : (3 * k <= Z.of_nat (length data))%Z -> exists m, max_rsq data k = Ret m.
Proof.
  intros H. unfold max_rsq.
  assert (G : forall l a, (forall i, In i l -> (0 <= i < k)%Z) -> exists m,
    rfold (fun rmax_sq i => rbind (position_at data i)
           (fun p => let r_sq := rsq32 p in Ret (if nltb A rmax_sq r_sq then r_sq else rmax_sq))) l a = Ret m).
  { induction l as [|i l IH]; intros a Hl; [simpl; eauto|]. cbn [rfold].
    assert (Hi : (0 <= i < k)%Z) by (apply Hl; left; reflexivity).
    unfold position_at. destruct (at_index_ok data (3 * i)) as [x ->]; [lia|]. cbn [rbind].
    destruct (at_index_ok data (3 * i + 1)) as [y ->]; [lia|]. cbn [rbind].
    destruct (at_index_ok data (3 * i + 2)) as [z ->]; [lia|]. cbn [rbind].
    apply IH. intros j Hj. apply Hl. right. exact Hj. }
  apply G. intros i Hi. apply in_zupto in Hi. exact Hi.
Qed.

(** How many positions the constructor looks at: all those of the first
    floor(500/A)+1 configurations, or of all configurations if there are fewer. *)
Definition looked_at (n a : Z) : Z := Z.min (500 / a + 1) n * a.

Variables (f : fs A) (path : string).

(** A file with one dataset of shape (n, a, 3), n >= 1, a >= 1 is accepted. *)
Theorem C34_accepts : forall name ds n a,
  fs_lookup f path = Some (H5File [(name, ODataset ds)]) -> ds_dims ds = [n; a; 3]%Z ->
  (1 <= n)%Z -> (1 <= a)%Z -> Z.of_nat (length (ds_data ds)) = (n * a * 3)%Z ->
  exists rmax, manual_create f path = Ret (nucleus_new (KManual n a (ds_data ds) rmax) (Z.to_nat a)).
Proof.
  intros name ds n a HF HD Hn Ha HL. unfold manual_create, try_open_file. rewrite HF. cbn [rbind]. rewrite HD.
  cbn [length]. destruct (Z.ltb_spec 3 (Z.of_nat 3)); [lia|]. rewrite Z.eqb_refl. cbn [negb].
  destruct (Z.eqb_spec a 0); [lia|].
  destruct (max_rsq_ok (ds_data ds) (Z.min (500 / a + 1) n * a)) as [m ->].
  { assert (Z.min (500 / a + 1) n * a <= n * a)%Z by (apply Z.mul_le_mono_nonneg_r; lia). lia. }
  cbn [rbind]. eauto.
Qed.

(** The errors it reports. *)
Theorem C34_rejects :
  (fs_lookup f path = None \/
   (exists t, fs_lookup f path = Some (File t)) \/ fs_lookup f path = Some Dir \/
   (exists objs, fs_lookup f path = Some (H5File objs) /\ length objs <> 1%nat) \/
   (exists name, fs_lookup f path = Some (H5File [(name, OOther)])) \/
   (exists name ds, fs_lookup f path = Some (H5File [(name, ODataset ds)]) /\ (length (ds_dims ds) < 3)%nat) \/
   (exists name ds n a c, fs_lookup f path = Some (H5File [(name, ODataset ds)]) /\ ds_dims ds = [n; a; c] /\ c <> 3%Z)) ->
  exists msg, manual_create f path = Throw (InvalidArgument msg).
Proof.
  intros H. unfold manual_create, try_open_file.
  destruct H as [H|[(t & H)|[H|[(objs & H & HL)|[(name & H)|[(name & ds & H & HD)|(name & ds & n & a & c & H & HD & Hc)]]]]]];
    rewrite H; cbn [rbind]; eauto.
  - destruct objs as [|[nm o] [|o2 objs]]; eauto. simpl in HL. congruence.
  - destruct (ds_dims ds) as [|d1 [|d2 [|d3 l]]]; simpl in HD; try lia; cbn -[append]; eauto.
  - rewrite HD. cbn [length]. destruct (Z.ltb_spec 3 (Z.of_nat 3)); [lia|]. destruct (Z.eqb_spec c 3); [congruence|]. cbn [negb]. eauto.
Qed.

(** Problems it does not report: too many dimensions (the extents are written
    past the end of an array of three), no nucleons (integer division by zero). *)
Theorem C34_overrun : forall name ds,
  fs_lookup f path = Some (H5File [(name, ODataset ds)]) -> (3 < length (ds_dims ds))%nat ->
  manual_create f path = UB UbIndex.
Proof.
  intros name ds H HD. unfold manual_create, try_open_file. rewrite H. cbn [rbind]. destruct (Z.ltb_spec 3 (Z.of_nat (length (ds_dims ds)))); [reflexivity|lia].
Qed.
Theorem C34_no_nucleons : forall name ds n,
  fs_lookup f path = Some (H5File [(name, ODataset ds)]) -> ds_dims ds = [n; 0; 3]%Z -> manual_create f path = UB UbDivZero.
Proof. intros name ds n H HD. unfold manual_create, try_open_file. rewrite H. cbn [rbind]. rewrite HD. reflexivity. Qed.

(** A file with no configuration at all is accepted, and then sampling ends in an
    H5::Exception for every draw of an index in the requested range. *)
Theorem C34_no_configurations : forall name ds a, (1 <= a)%Z ->
  fs_lookup f path = Some (H5File [(name, ODataset ds)]) -> ds_dims ds = [0; a; 3]%Z ->
  exists rmax, manual_create f path = Ret (nucleus_new (KManual 0 a (ds_data ds) rmax) (Z.to_nat a)) /\
    forall (R : Rng A) fuel offset e, (forall lo hi e, (lo <= hi)%Z -> (lo <= fst (unif_int R lo hi e) <= hi)%Z) ->
      exists msg e', sample_nucleons R fuel (nucleus_new (KManual 0 a (ds_data ds) rmax) (Z.to_nat a)) offset e = (Throw (H5Exception msg), e').
Proof.
  intros name ds a Ha H HD. unfold manual_create, try_open_file. rewrite H. cbn [rbind]. rewrite HD. cbn [length].
  destruct (Z.ltb_spec 3 (Z.of_nat 3)); [lia|]. rewrite Z.eqb_refl. cbn [negb]. destruct (Z.eqb_spec a 0); [lia|].
  replace (Z.min (500 / a + 1) 0) with 0%Z by (pose proof (Z.div_pos 500 a); lia).
  cbn [Z.mul]. cbv beta. unfold max_rsq. change (zupto 0) with (@nil Z). cbn [rfold rbind].
  eexists. split; [reflexivity|]. intros R fuel offset e HU.
  cbv beta iota zeta delta [sample_nucleons nucleus_new nu_kind nu_nucleons sample_manual cos_theta phi draw_canonical act bind ret throw].
  destruct (canonical R e) as [u1 e1]. cbv beta iota zeta. destruct (canonical R e1) as [u2 e2]. cbv beta iota zeta.
  destruct (canonical R e2) as [u3 e3]. cbv beta iota zeta.
  pose proof (HU 0%Z (to_size (0 - 1)) e3 ltac:(unfold to_size; vm_compute; discriminate)) as HI.
  destruct (unif_int R 0 (to_size (0 - 1)) e3) as [i e4]. cbn [fst] in HI. cbv beta iota zeta.
  destruct (Z.leb_spec 0 i); [|lia]. eauto.
Qed.
End Any.

(** ** The radius, in real arithmetic *)
Local Open Scope R_scope.

Theorem C35_radius : forall (f : fs RA) path name ds n a nu,
  fs_lookup f path = Some (H5File [(name, ODataset ds)]) -> ds_dims ds = [n; a; 3]%Z -> (1 <= n)%Z -> (1 <= a)%Z ->
  manual_create (A:=RA) f path = Ret nu ->
  (* at least 500 positions, or all of them *)
  ((500 < looked_at n a <= 500 + a)%Z \/ looked_at n a = (n * a)%Z) /\
  (forall i, (0 <= i < looked_at n a)%Z -> exists p, file_row (ds_data ds) (Z.to_nat i) = Some p /\ vnorm p <= radius nu) /\
  (exists i p, (0 <= i < looked_at n a)%Z /\ file_row (ds_data ds) (Z.to_nat i) = Some p /\ radius nu = vnorm p).
Proof.
  intros f path name ds n a nu HF HD Hn Ha H.
  unfold manual_create, try_open_file in H. rewrite HF in H. cbn [rbind] in H. rewrite HD in H.
  cbn [length] in H. destruct (Z.ltb_spec 3 (Z.of_nat 3)); [lia|]. rewrite Z.eqb_refl in H. cbn [negb] in H.
  destruct (Z.eqb_spec a 0); [lia|].
  apply rbind_Ret_inv in H. destruct H as (m & Hm & H).
  assert (Rd : radius nu = sqrt m) by (injection H as <-; reflexivity).
  fold (looked_at n a) in Hm. apply max_rsq_R in Hm. destruct Hm as (M0 & M1 & M2).
  assert (LP : (1 <= looked_at n a)%Z).
  { unfold looked_at. assert (1 <= Z.min (500 / a + 1) n)%Z by (pose proof (Z.div_pos 500 a); lia). nia. }
  split; [|split].
  - unfold looked_at. destruct (Z.min_spec (500 / a + 1) n) as [[C ->]|[C ->]]; [left|right; reflexivity].
    pose proof (Z.div_mod 500 a ltac:(lia)). pose proof (Z.mod_pos_bound 500 a ltac:(lia)). nia.
  - intros i Hi. destruct (M1 i Hi) as (p & Ep & Hp). exists p. split; [exact Ep|]. rewrite Rd. unfold vnorm. apply sqrt_le_1_alt. exact Hp.
  - destruct M2 as [->|(i & p & Hi & Ep & ->)].
    + destruct (M1 0%Z ltac:(lia)) as (p & Ep & Hp). exists 0%Z, p. split; [lia|]. split; [exact Ep|]. rewrite Rd. unfold vnorm. f_equal.
      assert (0 <= vdot p p) by (destruct p as [[x y] z]; unfold vdot; nra). lra.
    + exists i, p. split; [exact Hi|]. split; [exact Ep|exact Rd].
Qed.

(** A file that is accepted: two configurations of 501 nucleons each, all at the
    origin except for one in the second configuration, which is 9 fm away.  The
    first configuration alone is looked at, so the radius is 0. *)
Definition origin_then_far : list R := repeat 0 (Z.to_nat 1503) ++ [9] ++ repeat 0 (Z.to_nat 1502).
Definition far_file : fs RA := [("x.h5"%string, H5File [("u"%string, ODataset (@H5Dataset RA [2; 501; 3]%Z origin_then_far []))])].

Lemma nth_origin i : (i < Z.to_nat 1503)%nat -> nth_error origin_then_far i = Some 0.
Proof.
  intros H. unfold origin_then_far. rewrite nth_error_app1 by (rewrite repeat_length; exact H).
  rewrite nth_error_repeat by exact H. reflexivity.
Qed.

Example C34_instance : exists nu, manual_create (A:=RA) far_file "x.h5" = Ret nu /\ length (nu_nucleons nu) = Z.to_nat 501.
Proof.
  destruct (C34_accepts (A:=RA) far_file "x.h5" "u" (@H5Dataset RA [2; 501; 3]%Z origin_then_far []) 2 501) as [r E].
  - reflexivity.
  - reflexivity.
  - lia.
  - lia.
  - cbn [ds_data]. unfold origin_then_far. rewrite !app_length, !repeat_length. cbn [length]. lia.
  - eexists. split; [exact E|]. cbn [nu_nucleons nucleus_new]. apply repeat_length.
Qed.

Example C35_instance : exists nu p, manual_create (A:=RA) far_file "x.h5" = Ret nu /\ radius nu = 0 /\
  file_row origin_then_far (Z.to_nat 501) = Some p /\ vnorm p = 9.
Proof.
  destruct C34_instance as (nu & E & _). exists nu, (9, 0, 0). split; [exact E|].
  destruct (C35_radius far_file "x.h5" "u" (@H5Dataset RA [2; 501; 3]%Z origin_then_far []) 2 501 nu) as (_ & _ & i & p & Hi & Ep & ->);
    [reflexivity|reflexivity|lia|lia|exact E|].
  change (looked_at 2 501) with 501%Z in Hi. cbn [ds_data] in Ep. unfold file_row in Ep.
  assert (I1 : forall k, (k <= 2)%nat -> (3 * Z.to_nat i + k < Z.to_nat 1503)%nat) by (intros; lia).
  pose proof (nth_origin (3 * Z.to_nat i) ltac:(specialize (I1 0%nat); lia)) as N0.
  pose proof (nth_origin (3 * Z.to_nat i + 1) (I1 1%nat ltac:(lia))) as N1.
  pose proof (nth_origin (3 * Z.to_nat i + 2) (I1 2%nat ltac:(lia))) as N2.
  rewrite N0, N1, N2 in Ep. assert (Ep' : p = (0, 0, 0)) by congruence. subst p. split; [|split].
  - unfold vnorm, vdot, vx, vy, vz; cbn [fst snd]. replace (0 * 0 + 0 * 0 + 0 * 0) with 0 by ring. apply sqrt_0.
  - unfold file_row, origin_then_far.
    assert (L : length (repeat 0 (Z.to_nat 1503)) = Z.to_nat 1503) by apply repeat_length.
    rewrite !nth_error_app2 by (rewrite L; lia). rewrite !L.
    replace (3 * Z.to_nat 501 - Z.to_nat 1503)%nat with 0%nat by lia.
    replace (3 * Z.to_nat 501 + 1 - Z.to_nat 1503)%nat with 1%nat by lia.
    replace (3 * Z.to_nat 501 + 2 - Z.to_nat 1503)%nat with 2%nat by lia.
    replace (Z.to_nat 1502) with (S (S (Z.to_nat 1500))) by lia. reflexivity.
  - unfold vnorm, vdot, vx, vy, vz; cbn [fst snd]. replace (9 * 9 + 0 * 0 + 0 * 0) with (9 * 9) by ring. apply sqrt_square. lra.
Qed.
