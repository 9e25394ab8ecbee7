(** No undefined behaviour in the events of a run, in binary64. *)
From Coq Require Import ZArith Reals Lra Lia Bool List Psatz String.
From Flocq Require Import Core BinarySingleNaN.
From Verif.Base Require Import Result Arith FArith Rng.
From Verif.Model Require Import Config Nucleon Nucleus Event Files CrossSection Output Collider.
From Verif.Spec Require Import Finite Distributions Safe Evolved Grid.
From Verif.Proof Require Import Basics Ieee IeeeInt GridP EventP DepositR SafeP SafeNuclei.
From Verif.Properties Require Import ImpactIeee ThicknessIeee GridIeee FiniteRun.
Import ListNotations.
Local Open Scope R_scope.

Section Run.
Context {L : Libm} (TL : tame_libm L) (rg : Rng (FA L)) (TR : tame_rng rg) (Ex : exn -> Prop).
Context (cfg : config (FA L)) (Ed : everyday cfg) (NC : near_constituents rg cfg).
Notation A := (FA L).

Definition sw : num A := calc_sampling_width (nucleon_width cfg) (constit_width cfg) (constit_number cfg).
Definition J (s : rstate rg) : Prop := normal_object rg (nofZ A 0) sw (rs_norm s).

Lemma safe_on_eng {X} (m : M (engine rg) X) (Q : X -> Prop) : safe (fun _ => True) Ex m Q -> safe J Ex (on_eng m) Q.
Proof.
  intros H s Hs. destruct (H (rs_eng s) Logic.I) as [O _]. unfold on_eng. destruct (m (rs_eng s)). split; [exact O|exact Hs].
Qed.
Lemma safe_normal : safe J Ex (draw_normal rg) (fun x => sized x 8192).
Proof.
  intros s Hs. unfold draw_normal. pose proof (NC (fst (fst (ndraw rg (rs_norm s) (rs_eng s))))) as H.
  pose proof (normal_used rg _ _ (rs_norm s) (rs_eng s) Hs) as H2.
  assert (H1 : sized (fst (fst (ndraw rg (rs_norm s) (rs_eng s)))) 8192) by (apply H; exists (rs_norm s), (rs_eng s); split; [exact Hs|reflexivity]).
  destruct (ndraw rg (rs_norm s) (rs_eng s)) as [[x n] e]. split; [exact H1|exact H2].
Qed.
Lemma safe_gamma : safe J Ex (draw_gamma rg) (fun _ => True).
Proof. intros s Hs. unfold draw_gamma. destruct (gdraw rg (rs_gamma s) (rs_eng s)) as [[x g] e]. split; [exact Logic.I|exact Hs]. Qed.

Lemma safe_local k : forall j (xc yc : f64), (0 <= j)%Z -> (j + Z.of_nat k <= 2 ^ 26)%Z ->
  sized xc (IZR (8192 * j)) -> sized yc (IZR (8192 * j)) ->
  safe J Ex (sample_local rg k xc yc) (fun r => let '(qs, xs, ys) := r in
    length qs = k /\ Forall (fun q : constituent A => sized (q_x q) 8192 /\ sized (q_y q) 8192) qs /\
    sized xs (IZR (8192 * (j + Z.of_nat k))) /\ sized ys (IZR (8192 * (j + Z.of_nat k)))).
Proof.
  induction k as [|k IH]; intros j xc yc Hj Hk Hx Hy; cbn [sample_local].
  - apply safe_ret. rewrite Z.add_0_r. auto.
  - eapply safe_bind; [apply safe_normal|]. intros xl Hxl. eapply safe_bind; [apply safe_normal|]. intros yl Hyl.
    eapply safe_bind; [apply safe_gamma|]. intros f _.
    assert (Hadd : forall a b : f64, sized a (IZR (8192 * j)) -> sized b 8192 -> sized (f64_add a b) (IZR (8192 * (j + 1)))).
    { intros a b Ha Hb. apply (sized_add a b (IZR (8192 * j)) 8192); [exact Ha|exact Hb| |apply rep_Z; lia|apply SafeP.big_1000; lia].
      rewrite <- plus_IZR. apply IZR_le. lia. }
    eapply safe_bind.
    + apply (IH (j + 1)%Z); [lia|lia|apply Hadd; assumption|apply Hadd; assumption].
    + intros [[qs xs] ys] (H1 & H2 & H3 & H4). apply safe_ret. replace (j + Z.of_nat (S k))%Z with (j + 1 + Z.of_nat k)%Z by lia.
      split; [simpl; lia|]. split; [constructor; [split; assumption|exact H2]|]. split; assumption.
Qed.

Definition alive (n : nucleon A) : Prop :=
  sized (n_x n) 32768 /\ sized (n_y n) 32768 /\ (n_part n = true -> n_cexist n = true) /\
  (n_cexist n = true -> n_cons n <> [] /\ forall q, In q (n_cons n) -> sized (q_x q) 131072 /\ sized (q_y q) 131072).
Lemma seated_alive n : seated n -> alive n.
Proof. intros (Hx & Hy & Hp & Hc). split; [exact Hx|]. split; [exact Hy|]. rewrite Hp, Hc. split; discriminate. Qed.

Lemma number_ok : (1 <= to_size (constit_number cfg) <= 2 ^ 26)%Z /\ to_size (constit_number cfg) = constit_number cfg.
Proof. pose proof (or_number _ (ed_ordinary _ Ed)) as H. unfold to_size. rewrite Z.mod_small by lia. auto. Qed.

Lemma safe_constituents sp n : alive n ->
  safe J Ex (sample_constituent_positions rg (nucleon_common_of cfg sp) n) (fun n' => alive n' /\ n_cexist n' = true).
Proof.
  intros (Hx & Hy & Hp & Hc). unfold sample_constituent_positions. destruct (n_cexist n) eqn:Ec.
  - apply safe_ret. split; [|exact Ec]. split; [exact Hx|]. split; [exact Hy|]. rewrite Ec. auto.
  - destruct number_ok as [Hm _]. change (nc_number (nucleon_common_of cfg sp)) with (to_size (constit_number cfg)).
    set (m := to_size (constit_number cfg)) in *. clearbody m.
    destruct (Z.ltb_spec cons_max_size m) as [Hl|_]; [unfold cons_max_size in Hl; lia|].
    assert (Z0 : sized (f64_lit 0 0) (IZR (8192 * 0))) by (apply sized_zero; simpl; lra).
    eapply safe_bind; [apply (safe_local (Z.to_nat m) 0); [lia|lia|exact Z0|exact Z0]|].
    intros [[qs xs] ys] (H1 & H2 & H3 & H4). rewrite Z.add_0_l, Z2Nat.id in H3, H4 by lia.
    destruct (ofZ_ok m ltac:(lia)) as [Fm Vm].
    assert (Hdiv : forall s : f64, sized s (IZR (8192 * m)) -> sized (f64_div s (f64_ofZ m)) 8192).
    { intros s Hs. apply (sized_div s _ (IZR (8192 * m)) (IZR m)); [exact Hs| | | |okc|okc].
      - apply IZR_lt. lia.
      - rewrite Vm, Rabs_pos_eq; [lra|]. apply IZR_le. lia.
      - rewrite mult_IZR. lra. }
    assert (Hpl : forall l c q : f64, sized l 32768 -> sized c 8192 -> sized q 8192 -> sized (f64_add q (f64_sub l c)) 131072).
    { intros l c q Hl Hcc Hq. apply (sized_add q _ 8192 40960); [exact Hq| |lra|okc|okc].
      apply (sized_sub l c 32768 8192); auto; okc. }
    apply safe_ret. split; [|reflexivity]. split; [exact Hx|]. split; [exact Hy|]. split; [reflexivity|]. intros _. cbn [n_cons]. split.
    + intros E. apply (f_equal (@length _)) in E. rewrite map_length, H1 in E. cbn [length] in E. lia.
    + intros q Hq. apply in_map_iff in Hq. destruct Hq as (q0 & <- & Hq0). rewrite Forall_forall in H2. destruct (H2 _ Hq0) as [Q1 Q2].
      cbn [q_x q_y]. split; apply Hpl; auto.
Qed.

Lemma alive_part n : alive n -> n_cexist n = true -> alive (set_participant n).
Proof.
  intros (Hx & Hy & Hp & Hc) E. unfold set_participant. destruct (n_part n) eqn:P.
  - split; [exact Hx|]. split; [exact Hy|]. rewrite P. auto.
  - split; [exact Hx|]. split; [exact Hy|]. cbn [n_part n_cexist n_cons]. auto.
Qed.

Lemma safe_participate sp nA nB : alive nA -> alive nB ->
  safe J Ex (participate rg (nucleon_common_of cfg sp) nA nB) (fun r => let '(_, a, b) := r in alive a /\ alive b).
Proof.
  intros HA HB. unfold participate. destruct (n_part nA && n_part nB && negb _); [apply safe_ret; auto|].
  destruct (nltb A _ _); [apply safe_ret; auto|].
  eapply safe_bind; [apply safe_constituents; exact HA|]. intros a [Ha Ea].
  eapply safe_bind; [apply safe_constituents; exact HB|]. intros b [Hb Eb].
  eapply safe_bind; [apply safe_on_eng; apply (safe_canonical rg TR Ex)|]. intros u _.
  destruct (nltb A _ _); apply safe_ret; [split; apply alive_part; auto|auto].
Qed.

Lemma safe_row co sp : co_nc co = nucleon_common_of cfg sp -> forall bs a nc c, alive a -> Forall alive bs ->
  safe J Ex (pair_row rg co a bs nc c) (fun r => let '(a', bs', _, _) := r in alive a' /\ Forall alive bs' /\ length bs' = length bs).
Proof.
  intros E. induction bs as [|b bs IH]; intros a nc c Ha Hb; cbn [pair_row]; [apply safe_ret; auto|].
  inversion Hb as [|? ? Hb1 Hb2]; subst. rewrite E. eapply safe_bind; [apply safe_participate; [exact Ha|exact Hb1]|].
  intros [[hit a1] b1] [Ha1 Hb3]. eapply safe_bind; [apply IH; [exact Ha1|exact Hb2]|].
  intros [[[a2 bs2] n2] c2] (H1 & H2 & H3). apply safe_ret. split; [exact H1|]. split; [constructor; auto|simpl; lia].
Qed.
Lemma safe_loop co sp : co_nc co = nucleon_common_of cfg sp -> forall As bs nc c, Forall alive As -> Forall alive bs ->
  safe J Ex (pair_loop rg co As bs nc c) (fun r => let '(As', bs', _, _) := r in
    Forall alive As' /\ Forall alive bs' /\ length As' = length As /\ length bs' = length bs).
Proof.
  intros E. induction As as [|a As IH]; intros bs nc c Ha Hb; cbn [pair_loop]; [apply safe_ret; auto|].
  inversion Ha as [|? ? Ha1 Ha2]; subst. eapply safe_bind; [apply (safe_row co sp E); [exact Ha1|exact Hb]|].
  intros [[[a1 bs1] n1] c1] (H1 & H2 & H3). eapply safe_bind; [apply IH; [exact Ha2|exact H2]|].
  intros [[[As2 bs2] n2] c2] (H4 & H5 & H6 & H7). apply safe_ret. split; [constructor; auto|]. split; [exact H5|]. split; simpl; lia.
Qed.

Lemma modest_with nu ns : modest rg Ex nu -> length ns = length (nu_nucleons nu) -> modest rg Ex (with_nucleons nu ns).
Proof.
  intros [H1 H2] E. split; [exact H1|]. unfold with_nucleons. cbn [nu_kind nu_nucleons]. rewrite E. exact H2.
Qed.

(** What the event loop needs of the collider. *)
Definition steady (co : collider A) : Prop :=
  (exists sp, co_nc co = nucleon_common_of cfg sp) /\
  moderate (co_bmin co) /\ moderate (co_bmax co) /\ B2R (co_bmin co : f64) <= B2R (co_bmax co : f64) <= 16384 /\
  finite_upto (co_asym co) 1.

Lemma safe_collisions sfuel co : steady co -> forall fuel nA nB nc, modest rg Ex nA -> modest rg Ex nB ->
  safe J Ex (collision_loop rg fuel sfuel co nA nB nc) (fun r => let '(_, _, nA', nB') := r in
    modest rg Ex nA' /\ modest rg Ex nB' /\ Forall alive (nu_nucleons nA') /\ Forall alive (nu_nucleons nB')).
Proof.
  intros ((sp & E) & Mn & Mx & Hb & Fa & Ba). induction fuel as [|fuel IH]; intros nA nB nc HA HB; cbn [collision_loop]; [apply safe_fuel|].
  eapply safe_bind; [apply safe_on_eng; apply (safe_canonical rg TR Ex)|]. intros u [[Fu Bu] _].
  destruct (sample_b_ieee L (co_bmin co) (co_bmax co) u Mn Mx (proj1 Hb) Fu Bu) as (Fb & Sb & Bb & _).
  pose proof (sign_nonneg _ (proj1 Mn) (proj1 (proj2 Mn))) as P0.
  set (b := sample_b (A:=A) (co_bmin co) (co_bmax co) u) in *.
  assert (Hbs : sized b 16384) by (split; [exact Fb|]; rewrite Rabs_pos_eq; lra).
  assert (OA : sized (nmul A (co_asym co) b) 16384).
  { apply (sized_mul _ _ 1 16384); [split; [exact Fa|rewrite Rabs_pos_eq; lra]|exact Hbs|lra|okc|okc]. }
  assert (OB : sized (nmul A (nsub A (co_asym co) (nlit A 1 0)) b) 16384).
  { apply (sized_mul _ _ 1 16384); [|exact Hbs|lra|okc|okc].
    destruct (sub_ok (co_asym co) (f64_lit 1 0) Fa) as (S1 & S2 & _); [vm_compute; reflexivity| |].
    - rewrite B2R_one. apply Rle_trans with 1; [apply Rabs_le; lra|okc].
    - split; [exact S2|]. change (Rabs (B2R (f64_sub (co_asym co) (f64_lit 1 0))) <= 1). rewrite S1, B2R_one. apply rnd_abs_le; [okc|apply Rabs_le; lra]. }
  eapply safe_bind; [apply safe_on_eng; apply (safe_sample TL rg TR Ex); [exact HA|exact OA]|].
  intros nA1 (MA & KA & LA & SA).
  eapply safe_bind; [apply safe_on_eng; apply (safe_sample TL rg TR Ex); [exact HB|exact OB]|].
  intros nB1 (MB & KB & LB & SB).
  eapply safe_bind; [apply (safe_loop co sp E); eapply Forall_impl; [intros ? X; apply seated_alive; exact X|exact SA|intros ? X; apply seated_alive; exact X|exact SB]|].
  intros [[[As Bs] nc'] hit] (H1 & H2 & H3 & H4).
  pose proof (modest_with nA1 As MA H3) as MA2. pose proof (modest_with nB1 Bs MB H4) as MB2.
  destruct hit; [apply safe_ret; auto|]. apply IH; assumption.
Qed.

(** Events. *)
Lemma grid_two ev : evolved cfg ev -> (2 <= ev_nsteps ev)%Z /\ square (ev_nsteps ev) (ev_TR ev).
Proof.
  intros He. split; [|apply (evolved_ready _ _ He)].
  destruct (evolved_params _ _ He) as (ev0 & E0 & (_ & _ & _ & P & _)). rewrite <- P.
  pose proof (ordinary_grid L cfg (ed_ordinary _ Ed)) as UG.
  destruct (event_new_ieee L cfg UG) as (ev1 & E1 & N1 & _). assert (ev1 = ev0) by congruence. subst ev1. rewrite N1.
  destruct (ed_step _ Ed) as [S1 S2]. set (st := B2R (grid_step cfg : f64)) in *. set (mx := B2R (grid_max cfg : f64)) in *.
  assert (Q : 2 <= 2 * mx / st) by (apply Rmult_le_reg_r with st; [lra|]; unfold Rdiv; rewrite Rmult_assoc, Rinv_l by lra; lra).
  apply le_IZR. eapply Rle_trans; [|apply Zceil_ub].
  assert (R2 : rep 2) by okc. rewrite <- (rnd_id 2 R2) at 1. apply rnd_le. exact Q.
Qed.

Lemma row_text_ok prec (row : list (num A)) : (2 <= length row)%nat -> exists t, row_text prec row = Ret t.
Proof.
  induction row as [|x row IH]; intros H; [cbn in H; lia|]. destruct row as [|y [|z row]]; [cbn in H; lia| |].
  - eexists. reflexivity.
  - destruct IH as [t E]; [cbn [length] in *; lia|]. cbn [row_text] in *. rewrite E. eexists. reflexivity.
Qed.
Lemma grid_text_ok prec (g : grid A) : Forall (fun row => (2 <= length row)%nat) g -> exists t, grid_text prec g = Ret t.
Proof.
  induction g as [|row g IH]; intros H; [eexists; reflexivity|]. inversion H as [|? ? H1 H2]; subst.
  destruct (row_text_ok prec row H1) as [t Et]. destruct (IH H2) as [t2 E2]. cbn [grid_text]. rewrite Et, E2. eexists. reflexivity.
Qed.

Lemma safe_true_fs {X} (m : M (fs A) X) (Q : X -> Prop) : safe (fun _ => True) Ex m Q -> safe (fun _ => True) Ex (in_fs rg m) Q.
Proof. intros H s _. destruct (H (s_fs s) Logic.I) as [O _]. unfold in_fs. destruct (m (s_fs s)). split; [exact O|exact Logic.I]. Qed.

(** Writers that may only throw what Ex allows. *)
Definition quiet_writer (w : writer) : Prop := match w with WHdf5 _ => forall m, Ex (H5Exception m) | _ => True end.

Lemma safe_writer w n (b : num A) nc ev : quiet_writer w -> evolved cfg ev ->
  safe (fun _ => True) Ex (run_writer rg w n b nc ev) (fun _ => True).
Proof.
  intros Hw He. destruct (grid_two ev He) as [N2 [S1 S2]]. destruct w as [width|dir width header|path]; cbn [run_writer].
  - intros s _. split; exact Logic.I.
  - apply safe_true_fs. unfold write_text_file. eapply safe_bind.
    + apply (safe_lift _ _ (fun _ => True)). unfold event_text.
      destruct (grid_text_ok (if header then 10 else 6) (ev_TR ev)) as [t E].
      { eapply Forall_impl; [|exact S2]. cbn beta. intros row Hr. rewrite Hr. lia. }
      rewrite E. exact Logic.I.
    + intros t _. intros f _. unfold write_file. destruct (fs_lookup f _) as [[| |]|]; try (destruct (parent_ok f _)); split; exact Logic.I.
  - apply safe_true_fs. intros f _. unfold hdf5_write. destruct (fs_lookup f path) as [[| |objs]|]; try (split; [apply Hw|exact Logic.I]).
    destruct (ev_nsteps ev <=? 0)%Z; [split; [apply Hw|exact Logic.I]|].
    destruct (existsb _ objs); [split; [apply Hw|exact Logic.I]|]. split; exact Logic.I.
Qed.

Definition JR (s : run rg) : Prop := normal_object rg (nofZ A 0) sw (ru_norm s).
Lemma safe_rstate {X} (m : M (rstate rg) X) (Q : X -> Prop) : safe J Ex m Q -> safe JR Ex (in_rstate rg m) Q.
Proof.
  intros H s Hs. unfold in_rstate. destruct (H (MkRstate (s_eng (ru_sys s)) (ru_norm s) (ru_gamma s)) Hs) as [O K].
  destruct (m _). split; [exact O|exact K].
Qed.
Lemma safe_sys {X} (m : M (sys rg) X) (Q : X -> Prop) : safe (fun _ => True) Ex m Q -> safe JR Ex (in_sys rg m) Q.
Proof. intros H s Hs. unfold in_sys. destruct (H (ru_sys s) Logic.I) as [O _]. destruct (m (ru_sys s)). split; [exact O|exact Hs]. Qed.

Context (bd : build) (OB : debug bd = true -> forall m, Ex (OutOfRange m)).

Lemma compute_ok ev sp nA nB : evolved cfg ev -> Forall alive nA -> Forall alive nB ->
  outcome Ex (evolved cfg) (event_compute (debug bd) ev nA nB (nucleon_common_of cfg sp)).
Proof.
  intros He HA HB. pose proof (ed_ordinary _ Ed) as Ho. destruct (or_width _ Ho) as [Fw Bw].
  destruct (ed_step _ Ed) as [S1 S2]. destruct (or_grid _ Ho) as (_ & _ & _ & _ & G4). pose proof (ed_constit _ Ed) as C5.
  assert (P20 : 0 < bpow radix2 (-20)) by apply bpow_gt_0.
  destruct (C13_ieee L cfg sp ev nA nB 131072) as [(ev1 & R1) R2].
  - apply ordinary_grid. exact Ho.
  - split; [exact Fw|]. right. rewrite Rabs_pos_eq by lra. split.
    + apply Rle_trans with (bpow radix2 (-20)); [apply bpow_le; lia|lra].
    + eapply Rle_trans; [apply Bw|]. apply bpow_le. lia.
  - exact He.
  - rewrite (Rabs_pos_eq (B2R (constit_width cfg : f64))) by lra. rewrite p30. lra.
  - intros n Hn Hp. assert (Hal : alive n) by (rewrite Forall_forall in HA, HB; destruct Hn; auto).
    destruct Hal as (_ & _ & H1 & H2). apply (H2 (H1 Hp)).
  - destruct (debug bd) eqn:D.
    + destruct R2 as [(ev2 & R2)|(m & R2)]; rewrite R2; cbn [outcome]; [|apply OB; reflexivity].
      eapply evolved_compute; [exact He|exact R2].
    + rewrite R1. cbn [outcome]. eapply evolved_compute; [exact He|exact R1].
Qed.

Lemma safe_events fuel sfuel co nA nB ev : steady co -> Forall quiet_writer (co_writers co) ->
  modest rg Ex nA -> modest rg Ex nB -> evolved cfg ev ->
  safe JR Ex (run_events rg bd fuel sfuel co nA nB ev) (fun _ => True).
Proof.
  intros Hc Hw HA HB He. unfold run_events.
  eapply safe_weaken; [apply (safe_mfold _ _ _ (fun st => let '(a, b, v) := st in modest rg Ex a /\ modest rg Ex b /\ evolved cfg v))|auto]; [|auto].
  intros [[a b] v] n _ (Ha & Hb & Hv). unfold one_event.
  eapply safe_bind; [apply safe_rstate; apply (safe_collisions sfuel co Hc); [exact Ha|exact Hb]|].
  intros [[[bb nc] nA'] nB'] (H1 & H2 & H3 & H4). destruct (proj1 Hc) as [sp Esp]. rewrite Esp.
  eapply safe_bind; [apply safe_lift; apply compute_ok; [exact Hv|exact H3|exact H4]|]. intros ev' Hev.
  eapply safe_bind.
  - apply safe_sys. unfold run_output. apply (safe_mfold _ _ _ (fun _ => True)); [|exact Logic.I].
    intros _ w Hin _. apply safe_writer; [|exact Hev]. rewrite Forall_forall in Hw. apply Hw. exact Hin.
  - intros _ _. apply safe_ret. auto.
Qed.
End Run.
