(** C01-C04, C22, C24: which records are written, participants and binary
    collisions, constituents, the collision decision. *)
From Coq Require Import Reals Lra.
From Verif.Base Require Import Result Arith RArith FArith Rng.
From Verif.Model Require Import FastExp Config Nucleon Nucleus Event Text Files CrossSection Output Collider.
From Verif.Spec Require Import History Collision Runs Contract Demo Profile.
From Verif.Proof Require Import Basics RBasics Pairs Sampling Ctor Collision Writers EveryEvent.
Local Open Scope string_scope.

(** ** C01 *)

(** A finished run hands its outputs exactly N records numbered 0..N-1.  For
    stdout, the text is exactly the concatenation of the N lines (nothing with
    --quiet); stderr is untouched; all file changes after construction are those
    of the deliveries ([delivered]). *)
Theorem C01_exactly_N_records :
  forall (A : Arith) (R : Rng A) sv bd cfuel fuel sfuel e (cfg : config A) (s s' : sys R),
  collide R sv bd cfuel fuel sfuel e cfg s = (Ret tt, s') ->
  exists co nA nB ev0 nst gst s1 width ds,
    collider_new R sv bd cfuel e cfg s = (Ret (co, nA, nB, ev0, nst, gst), s1) /\
    length ds = Z.to_nat (number_events cfg) /\
    (forall i d, nth_error ds i = Some d -> d_num d = Z.of_nat i) /\
    delivered R (co_writers co) ds s1 s' /\
    s_out s' = s_out s ++
      (if quiet cfg then ""
       else sconcat (map (fun d => stream_line width (d_num d) (d_b d) (d_ncoll d) (d_event d)) ds)) /\
    s_err s' = s_err s /\
    output_width (A:=A) (number_events cfg) = Ret width.
Proof.
  intros A R sv bd cfuel fuel sfuel e cfg s s' H.
  assert (E : every_event (fun _ _ _ _ _ _ _ _ _ _ => True)) by (apply every_event_intro; intros; exact I).
  destruct (E A R sv bd cfuel fuel sfuel e cfg s s' H) as (co & nA & nB & ev0 & nst & gst & s1 & ds & Hn & Hl & Hi & Hd & _ & _).
  pose proof (collider_new_inv _ _ _ _ _ _ _ _ _ _ _ _ _ _ Hn) as Hc.
  destruct (ct_writers _ _ _ _ _ _ _ _ _ _ _ Hc) as (width & Hw & Ews).
  exists co, nA, nB, ev0, nst, gst, s1, width, ds.
  pose proof Hd as Hd'. rewrite Ews in Hd'. apply delivered_effects in Hd'. destruct Hd' as (D1 & D2 & D3).
  repeat (split; [assumption|]). rewrite D1, D2, (ct_out _ _ _ _ _ _ _ _ _ _ _ Hc), (ct_err _ _ _ _ _ _ _ _ _ _ _ Hc).
  auto.
Qed.

(** Non-vacuity: the demonstration run finishes (with two records). *)
Definition finished (r : result unit) : bool := match r with Ret tt => true | _ => false end.
Strategy expand [demo_run].
Lemma demo_finishes : exists s', demo_run = (Ret tt, s').
Proof.
  assert (H : finished (fst demo_run) = true) by (vm_cast_no_check (eq_refl true)).
  destruct demo_run as [[[]| | |] s']; simpl in H; try discriminate. eauto.
Qed.

(** The theorem applied to it: the hypotheses of C01 (and of the other theorems
    about [every_event]) are met by a run that delivers two records. *)
Example C01_instance : exists s' co nA nB ev0 nst gst s1 ds,
  collider_new demo_rng demo_solver demo_build 10 demo_env demo_config demo_sys
    = (Ret (co, nA, nB, ev0, nst, gst), s1) /\
  length ds = 2%nat /\ delivered demo_rng (co_writers co) ds s1 s'.
Proof.
  destruct demo_finishes as [s' H]. unfold demo_run in H.
  apply C01_exactly_N_records in H.
  destruct H as (co & nA & nB & ev0 & nst & gst & s1 & w & ds & H1 & H2 & _ & H3 & _).
  exists s', co, nA, nB, ev0, nst, gst, s1, ds.
  split; [exact H1|]. split; [exact H2|exact H3].
Qed.

(** ** C02 *)

Theorem C02_npart :
  every_event (fun A R bd sfuel cfg co nA nB ev0 d =>
    ev_npart (d_event d) =
      (Z.of_nat (length (filter n_part (d_A d))) + Z.of_nat (length (filter n_part (d_B d))))%Z /\
    (exists a, In a (d_A d) /\ n_part a = true) /\
    (exists b, In b (d_B d) /\ n_part b = true) /\
    (2 <= ev_npart (d_event d)
       <= Z.of_nat (length (nu_nucleons nA)) + Z.of_nat (length (nu_nucleons nB)))%Z).
Proof.
  apply every_event_intro. intros A R sv bd cfuel sfuel e cfg s co nA nB ev0 nst gst s1 d _ _ WA WB G.
  pose proof (genuine_history _ _ _ _ _ _ _ _ _ _ G) as (As & Bs & s0 & hs & s2 & LA & LB & FA & FB & HH & Ht & _).
  destruct G as (sa & _ & _ & _ & _ & He). apply event_compute_npart in He. unfold npart_of in He.
  rewrite <- LA, <- LB in *.
  destruct (pass_hit R _ _ _ _ _ _ _ _ FA FB HH Ht) as (i & j & a & b & _ & Ha & Hb & Pa & Pb).
  pose proof (history_length _ _ _ _ _ _ _ _ _ _ HH) as (_ & L1 & L2).
  apply nth_error_In in Ha. apply nth_error_In in Hb.
  split; [exact He|]. split; [eauto|]. split; [eauto|].
  pose proof (npart_pos _ _ Ha Pa). pose proof (npart_pos _ _ Hb Pb).
  pose proof (npart_le_length (d_A d)). pose proof (npart_le_length (d_B d)).
  unfold npart_of in *. rewrite L1, L2 in *. lia.
Qed.

(** ** C03 *)

(** [fresh]: just placed: not a participant, no constituents. *)
Definition fresh {A} (n : nucleon A) : Prop := n_part n = false /\ n_cexist n = false.

Theorem C03_participants :
  every_event (fun A R bd sfuel cfg co nA nB ev0 d =>
    exists As Bs st hs st',
      (* one pass of participate() over all pairs, from freshly placed nucleons *)
      length As = length (nu_nucleons nA) /\ length Bs = length (nu_nucleons nB) /\
      Forall fresh As /\ Forall fresh Bs /\
      history R (co_nc co) (all_pairs (length As) (length Bs)) As Bs st hs (d_A d) (d_B d) st' /\
      (* participant iff some call with it returned true *)
      (forall i a, nth_error (d_A d) i = Some a ->
         (n_part a = true <-> exists j, hit (all_pairs (length As) (length Bs)) hs (i, j))) /\
      (forall j b, nth_error (d_B d) j = Some b ->
         (n_part b = true <-> exists i, hit (all_pairs (length As) (length Bs)) hs (i, j))) /\
      (* every participant has a participating partner in range *)
      (forall a, In a (d_A d) -> n_part a = true ->
         exists b, In b (d_B d) /\ n_part b = true /\ in_range (co_nc co) a b) /\
      (forall b, In b (d_B d) -> n_part b = true ->
         exists a, In a (d_A d) /\ n_part a = true /\ in_range (co_nc co) a b) /\
      (* no partner in range: not a participant *)
      (forall a, In a (d_A d) -> (forall b, In b (d_B d) -> ~ in_range (co_nc co) a b) -> n_part a = false) /\
      (forall b, In b (d_B d) -> (forall a, In a (d_A d) -> ~ in_range (co_nc co) a b) -> n_part b = false)).
Proof.
  apply every_event_intro. intros A R sv bd cfuel sfuel e cfg s co nA nB ev0 nst gst s1 d _ _ WA WB G.
  pose proof (genuine_history _ _ _ _ _ _ _ _ _ _ G) as (As & Bs & s0 & hs & s2 & LA & LB & FA & FB & HH & Ht & _).
  rewrite <- LA, <- LB in *. exists As, Bs, s0, hs, s2.
  pose proof (pass_partnered R _ _ _ _ _ _ _ _ FA FB HH) as [PA PB].
  repeat (split; [first [reflexivity|assumption|
     apply (pass_part_A R _ _ _ _ _ _ _ _ FA HH)|
     apply (pass_part_B R _ _ _ _ _ _ _ _ FB HH)]|]).
  split; intros x Hx Hno; destruct (n_part x) eqn:E; auto.
  - destruct (PA x Hx E) as (y & Hy & _ & Hr). exfalso. exact (Hno y Hy Hr).
  - destruct (PB x Hx E) as (y & Hy & _ & Hr). exfalso. exact (Hno y Hy Hr).
Qed.

(** In real arithmetic [in_range] is: transverse distance at most max_impact(). *)
Lemma sq_le_sqrt (d2 m : R) : (0 <= d2)%R -> (0 <= m)%R -> (d2 <= m * m <-> sqrt d2 <= m)%R.
Proof.
  intros Hd Hm. split; intros H.
  - rewrite <- (sqrt_square m) by assumption. apply sqrt_le_1_alt. lra.
  - rewrite <- (sqrt_sqrt d2) by assumption. apply Rmult_le_compat; auto using sqrt_pos.
Qed.

Lemma in_range_is_distance : forall (cfg : config RA) sp (a b : nucleon RA), (0 <= nucleon_width cfg)%R ->
  (in_range (nucleon_common_of cfg sp) a b <->
   (sqrt ((n_x a - n_x b) ^ 2 + (n_y a - n_y b) ^ 2) <= max_impact (nucleon_common_of cfg sp))%R) /\
  max_impact (nucleon_common_of cfg sp) = (6 * nucleon_width cfg)%R.
Proof.
  intros cfg sp [ax ay az pa ca la] [bx b_y bz pb cb lb] Hw.
  unfold in_range, max_impact, nucleon_common_of, sqr, max_impact_widths; simpl.
  unfold Rlit; simpl. revert Hw. generalize (nucleon_width cfg). simpl. intros w Hw.
  assert (E : (R_sqrt.sqrt (6 * w * (6 * w)) = 6 * w)%R) by (apply sqrt_square; lra).
  rewrite E. split; [|reflexivity]. rewrite Rltb_false, sq_le_sqrt.
  - rewrite !Rmult_1_r. reflexivity.
  - pose proof (Rle_0_sqr (ax - bx)); pose proof (Rle_0_sqr (ay - b_y)); unfold Rsqr in *; simpl in *; lra.
  - lra.
Qed.

(** ** C04 *)

Theorem C04_ncoll :
  every_event (fun A R bd sfuel cfg co nA nB ev0 d =>
    exists As Bs st hs st',
      length As = length (nu_nucleons nA) /\ length Bs = length (nu_nucleons nB) /\
      Forall fresh As /\ Forall fresh Bs /\
      history R (co_nc co) (all_pairs (length As) (length Bs)) As Bs st hs (d_A d) (d_B d) st' /\
      (ncoll cfg = false -> d_ncoll d = 0%Z) /\
      (ncoll cfg = true ->
         (* the number of [true] answers, each of an in-range pair *)
         d_ncoll d = Z.of_nat (length (filter (fun h : bool => h) hs)) /\
         (forall i j, hit (all_pairs (length As) (length Bs)) hs (i, j) ->
            exists a b, nth_error As i = Some a /\ nth_error Bs j = Some b /\ in_range (co_nc co) a b) /\
         (Z.max (Z.of_nat (length (filter n_part (d_A d)))) (Z.of_nat (length (filter n_part (d_B d))))
            <= d_ncoll d)%Z /\
         (1 <= d_ncoll d <= Z.of_nat (length (nu_nucleons nA)) * Z.of_nat (length (nu_nucleons nB)))%Z)).
Proof.
  apply every_event_intro. intros A R sv bd cfuel sfuel e cfg s co nA nB ev0 nst gst s1 d _ Hc WA WB G.
  pose proof (genuine_history _ _ _ _ _ _ _ _ _ _ G) as (As & Bs & s0 & hs & s2 & LA & LB & FA & FB & HH & Ht & Hn).
  rewrite <- LA, <- LB in *. exists As, Bs, s0, hs, s2.
  repeat (split; [first [reflexivity|assumption]|]).
  rewrite (ct_ncoll _ _ _ _ _ _ _ _ _ _ _ Hc) in Hn.
  split; intros Hnc; rewrite Hnc in Hn; [exact Hn|].
  pose proof (pass_npart_A R _ _ _ _ _ _ _ _ FA HH). pose proof (pass_npart_B R _ _ _ _ _ _ _ _ FB HH).
  pose proof (pass_count R _ _ _ _ _ _ _ _ HH).
  destruct (pass_hit R _ _ _ _ _ _ _ _ FA FB HH Ht) as (i & j & a & b & _ & Ha & Hb & Pa & Pb).
  apply nth_error_In in Ha. pose proof (npart_pos _ _ Ha Pa).
  split; [exact Hn|]. split.
  - intros i' j' Hh. eapply history_hit_in_range; eauto.
    destruct (ct_nc _ _ _ _ _ _ _ _ _ _ _ Hc) as (sp & Enc). rewrite Enc. exact Hnc.
  - unfold npart_of in *. lia.
Qed.

(** ** C22 *)

Theorem C22_constituents_once :
  every_event (fun A R bd sfuel cfg co nA nB ev0 d =>
    exists As Bs st hs st',
      Forall fresh As /\ Forall fresh Bs /\
      history R (co_nc co) (all_pairs (length As) (length Bs)) As Bs st hs (d_A d) (d_B d) st' /\
      (* a participant's constituents exist, are as many as configured, and are
         exactly those of one sampling made for it after its placement *)
      (forall l0 l, (l0, l) = (As, d_A d) \/ (l0, l) = (Bs, d_B d) ->
       forall i n, nth_error l i = Some n -> n_part n = true ->
         n_cexist n = true /\ length (n_cons n) = Z.to_nat (to_size (constit_number cfg)) /\
         exists n0 s1 n1 s2, nth_error l0 i = Some n0 /\ same_pos n0 n /\
           sample_constituent_positions R (co_nc co) n0 s1 = (Ret n1, s2) /\ n_cons n = n_cons n1) /\
      (* between any two moments of the pass, existing constituents do not change *)
      (forall ps1 ps2 ps3 h1 A1 B1 s1 h2 A2 B2 s2,
         all_pairs (length As) (length Bs) = (ps1 ++ ps2 ++ ps3)%list ->
         history R (co_nc co) ps1 As Bs st h1 A1 B1 s1 ->
         history R (co_nc co) ps2 A1 B1 s1 h2 A2 B2 s2 ->
         forall l1 l2, (l1, l2) = (A1, A2) \/ (l1, l2) = (B1, B2) ->
         forall i n n', nth_error l1 i = Some n -> nth_error l2 i = Some n' -> n_cexist n = true ->
           n_cexist n' = true /\ n_cons n' = n_cons n)).
Proof.
  apply every_event_intro. intros A R sv bd cfuel sfuel e cfg s co nA nB ev0 nst gst s1 d _ Hc WA WB G.
  pose proof (genuine_history _ _ _ _ _ _ _ _ _ _ G) as (As & Bs & s0 & hs & s2 & LA & LB & FA & FB & HH & Ht & Hn).
  rewrite <- LA, <- LB in HH. exists As, Bs, s0, hs, s2.
  split; [exact FA|]. split; [exact FB|]. split; [exact HH|].
  destruct (pass_came_from R _ _ _ _ _ _ _ _ FA FB HH) as [CA CB].
  destruct (pass_cons_ok R _ _ _ _ _ _ _ _ FA FB HH) as [OA OB].
  destruct (ct_nc _ _ _ _ _ _ _ _ _ _ _ Hc) as (sp & Enc).
  split.
  - intros l0 l Hl i n Hi Hp.
    assert (CF : Forall2 (came_from R (co_nc co)) l0 l /\ Forall (cons_ok (co_nc co)) l).
    { destruct Hl as [E|E]; inversion E; subst; auto. }
    destruct CF as [CF OK]. rewrite Forall_forall in OK.
    destruct (OK n (nth_error_In _ _ Hi)) as [O1 O2]. specialize (O1 Hp). specialize (O2 O1).
    split; [exact O1|]. split; [rewrite O2, Enc; reflexivity|].
    destruct (Forall2_nth_l _ _ _ _ _ CF Hi) as (n0 & Hn0 & (P & [(Q & _)|(_ & sa & sb & n1 & E1 & E2)])); [congruence|].
    exists n0, sa, n1, sb. auto.
  - intros ps1 ps2 ps3 h1 A1 B1 t1 h2 A2 B2 t2 _ _ H2 l1 l2 Hl i n n' Hi Hi' Hx.
    apply history_kept in H2. destruct H2 as [KA KB].
    assert (K : Forall2 kept l1 l2) by (destruct Hl as [E|E]; inversion E; subst; auto).
    exact (Forall2_nth _ _ _ _ _ _ K Hi Hi' Hx).
Qed.

(** ** C24 *)

(** The three possible courses of one call, in any arithmetic. *)
Theorem C24_participate :
  forall (A : Arith) (R : Rng A) (nc : nucleon_common A) a b s h a' b' s',
  participate R nc a b s = (Ret (h, a', b'), s') ->
  (* the decision *)
  (if n_part a && n_part b && negb (nc_calc_ncoll nc)
   then (* both already participate and collisions are not counted: no draw *)
        h = true /\ a' = a /\ b' = b /\ s' = s
   else
     (~ in_range nc a b /\ h = false /\ a' = a /\ b' = b /\ s' = s) \/
     (in_range nc a b /\
      exists a1 s1 b1 s2 u e,
        (* constituents of both are sampled if necessary, then one uniform number is drawn *)
        sample_constituent_positions R nc a s = (Ret a1, s1) /\
        sample_constituent_positions R nc b s1 = (Ret b1, s2) /\
        canonical R (rs_eng s2) = (u, e) /\ s' = MkRstate e (rs_norm s2) (rs_gamma s2) /\
        n_cexist a' = true /\ n_cexist b' = true /\ n_cons a' = n_cons a1 /\ n_cons b' = n_cons b1 /\
        h = nltb A (one_minus_prob nc (n_cons a') (n_cons b')) u)) /\
  (* a hit makes both participants, a miss changes no flag *)
  n_part a' = n_part a || h /\ n_part b' = n_part b || h /\
  (* nobody moves *)
  same_pos a a' /\ same_pos b b'.
Proof.
  intros A R nc a b s h a' b' s' H.
  pose proof (participate_effects _ _ _ _ _ _ _ _ _ H) as (Pa & Pb & Fa & Fb & _).
  split; [|auto].
  apply participate_inv in H. destruct H as [Ha Hb Hn|Hn Hr|a1 b1 s1 s2 u e Hn Hr H1 H2 Hu h].
  - rewrite Ha, Hb, Hn. simpl. auto 6.
  - rewrite Hn. left. auto 6.
  - rewrite Hn. right. split; [exact Hr|].
    pose proof (sample_cons_spec _ _ _ _ _ _ H1) as (_ & _ & C1 & _).
    pose proof (sample_cons_spec _ _ _ _ _ _ H2) as (_ & _ & C2 & _).
    exists a1, s1, b1, s2, u, e.
    destruct h eqn:Eh; rewrite ?set_participant_cexist, ?set_participant_cons; repeat split; auto.
Qed.

(** It always returns (so the hypothesis above is met), unless the number of
    constituents exceeds what a vector can hold. *)
Theorem C24_returns :
  forall (A : Arith) (R : Rng A) (nc : nucleon_common A) a b s,
  (0 <= nc_number nc <= cons_max_size)%Z ->
  exists h a' b' s', participate R nc a b s = (Ret (h, a', b'), s').
Proof. intros. apply participate_returns; lia. Qed.

(** The probability, in real arithmetic: exp(-sigma T_AB) with T_AB the overlap
    of two sums of m normalised two-dimensional Gaussians of width v, each of
    weight 1/m.  [gauss2 s2 dx dy] (Spec/Profile.v) is the normalised isotropic
    Gaussian of variance s2; the convolution of two of variance v^2 has variance 2 v^2. *)
Definition T_AB (m v : R) (qa qb : list (constituent RA)) : R :=
  Rsum (fun p : constituent RA => Rsum (fun q : constituent RA => / m * / m * gauss2 (2 * v ^ 2) (q_x p - q_x q) (q_y p - q_y q))%R qb) qa.

Theorem C24_probability :
  forall (cfg : config RA) (sp : R) (qa qb : list (constituent RA)),
  (0 < constit_width cfg)%R -> (0 < constit_number cfg <= 2147483647)%Z ->
  one_minus_prob (nucleon_common_of cfg sp) qa qb
  = exp (- (sp * T_AB (IZR (constit_number cfg)) (constit_width cfg) qa qb)).
Proof.
  intros cfg sp qa qb Hv Hm.
  unfold one_minus_prob, nucleon_common_of, overlap, pair_overlap, sqr; simpl.
  unfold to_size. rewrite Z.mod_small by lia.
  revert Hv. generalize (constit_width cfg). simpl. intros v Hv. set (m := IZR (constit_number cfg)).
  assert (Hm' : (0 < m)%R) by (apply IZR_lt; lia).
  f_equal.
  set (g := fun p q : constituent RA =>
     exp (- Rlit 25 (-2) * ((q_x p - q_x q) * (q_x p - q_x q) + (q_y p - q_y q) * (q_y p - q_y q)) / (v * v))%R).
  rewrite (fold_left_Rsum2 g).
  assert (E : T_AB m v qa qb = (/ m * / m * / (2 * PI * (2 * v ^ 2)) * Rsum (fun p => Rsum (g p) qb) qa)%R).
  { unfold T_AB. rewrite <- Rsum_scale. apply Rsum_ext. intros p _. rewrite <- Rsum_scale. apply Rsum_ext. intros q _.
    unfold gauss2, g. rlits. simpl.
    replace (- ((q_x p - q_x q) * ((q_x p - q_x q) * 1) + (q_y p - q_y q) * ((q_y p - q_y q) * 1)) / (2 * (2 * (v * (v * 1)))))%R
      with (- (25 / 100) * ((q_x p - q_x q) * (q_x p - q_x q) + (q_y p - q_y q) * (q_y p - q_y q)) / (v * v))%R
      by (field; lra).
    field. pose proof PI_RGT_0. repeat split; lra. }
  rewrite E. rlits. simpl. pose proof PI_RGT_0. field. repeat split; lra.
Qed.
