(** C58: events are independent samples of the collisions that happen. *)
From Coq Require Import Reals Lra.
From Verif.Base Require Import Result Arith Rng.
From Verif.Model Require Import Config Random Nucleon Nucleus Event Files CrossSection Output Collider.
From Verif.Spec Require Import History Geometry Collision Replay Law Attempts.
From Verif.Proof Require Import Basics Sampling Ctor EventP ShiftP FreshP LawP GlauberP AttemptsP.
From Verif.Properties Require Import Events Ncoll Replay.
Local Open Scope R_scope.

(** Nuclei and event object of a run. *)
Record stage {A : Arith} (bd : build) (nA nB : nucleus A) (ev0 : event A) : Prop := Stage {
  st_A : exists f, in_use bd f nA;
  st_B : exists f, in_use bd f nB;
  st_event : exists cfg, event_new cfg = Ret ev0
}.
Lemma stage_wf {A} bd nA nB (ev0 : event A) : stage bd nA nB ev0 -> nucleus_wf nA /\ nucleus_wf nB /\ ready ev0.
Proof.
  intros [(f & IA) (f' & IB) (cfg & IE)]. split; [eapply in_use_wf; eassumption|]. split; [eapply in_use_wf; eassumption|].
  eapply event_new_ready; eassumption.
Qed.

Section Props.
Context (A : Arith) (D : shapes A) (seed : Z -> tape A) (U : (num A -> R) -> R) (HU : averages U) (HL : linear U).
Local Notation G := (ideal D seed).

Lemma mean_of_plan {X} ns gs (m : M (rstate G) X) p f v : rplans D seed ns gs m p ->
  mean_of U (on_tape ns gs m) f v <-> mean U f p = v.
Proof.
  intros H. split.
  - intros (q & Hq & <-). apply (mean_unique U HU). intros t. rewrite <- Hq, (rplans_on_tape _ _ _ _ _ _ H). reflexivity.
  - intros <-. exists p. split; [apply (rplans_on_tape _ _ _ _ _ _ H)|reflexivity].
Qed.
End Props.

(** Every observable has a mean, over attempts, searches and runs. *)
Theorem C58_exist : forall (A : Arith) (D : shapes A) seed (U : (num A -> R) -> R) ns gs dbg sfuel fuel n co nA nB ev0,
  (forall f, exists v, mean_of U (on_tape ns gs (attempt (ideal D seed) sfuel co nA nB)) f v) /\
  (forall f, exists v, mean_of U (on_tape ns gs (sample_collision (ideal D seed) fuel sfuel co nA nB)) f v) /\
  (forall f, exists v, mean_of U (on_tape ns gs (events_of (ideal D seed) dbg sfuel co fuel n nA nB ev0)) f v).
Proof.
  intros A D seed U ns gs dbg sfuel fuel n co nA nB ev0. split; [|split]; intros f; eexists; eexists; (split; [|reflexivity]); apply rplans_on_tape;
    [apply p_attempt_ok|apply p_search_ok|apply p_events_ok].
Qed.

(** A search that gives up after n attempts: attempt k is reached with probability
    q^k and then counts like the first. *)
Theorem C58_search : forall (A : Arith) (D : shapes A) seed (U : (num A -> R) -> R), averages U -> linear U ->
  forall bd nA nB ev0, stage bd nA nB ev0 -> forall sfuel co ns gs obs v q,
  mean_of U (on_tape ns gs (attempt (ideal D seed) sfuel co nA nB)) (if_collided (debug bd) co ev0 obs) v ->
  mean_of U (on_tape ns gs (attempt (ideal D seed) sfuel co nA nB)) no_collision q ->
  forall n, mean_of U (on_tape ns gs (sample_collision (ideal D seed) n sfuel co nA nB)) (if_found (debug bd) co ev0 obs) (v * geometric q n).
Proof.
  intros A D seed U HU HL bd nA nB ev0 ST sfuel co ns gs obs v q Hv Hq n. destruct (stage_wf _ _ _ _ ST) as (WA & WB & _).
  apply (mean_of_plan A D seed U HU _ _ _ _ _ _ (p_attempt_ok D seed ns gs sfuel co nA nB)) in Hv, Hq.
  apply (mean_of_plan A D seed U HU _ _ _ _ _ _ (p_search_ok D seed ns gs n sfuel co nA nB 0)).
  apply (search_mean U HU HL D seed ns gs (debug bd) sfuel co nA nB ev0 WA WB obs v q Hv Hq n); split; reflexivity.
Qed.

(** Given that it finds a collision, what it finds has the law of an attempt that
    collides, whatever the number of attempts. *)
Theorem C58_conditional : forall (A : Arith) (D : shapes A) seed (U : (num A -> R) -> R), averages U -> linear U ->
  forall bd nA nB ev0, stage bd nA nB ev0 -> forall sfuel co ns gs obs n v w x y,
  mean_of U (on_tape ns gs (attempt (ideal D seed) sfuel co nA nB)) (if_collided (debug bd) co ev0 obs) v ->
  mean_of U (on_tape ns gs (attempt (ideal D seed) sfuel co nA nB)) (if_collided (debug bd) co ev0 (fun _ _ _ => 1)) w ->
  mean_of U (on_tape ns gs (sample_collision (ideal D seed) n sfuel co nA nB)) (if_found (debug bd) co ev0 obs) x ->
  mean_of U (on_tape ns gs (sample_collision (ideal D seed) n sfuel co nA nB)) (if_found (debug bd) co ev0 (fun _ _ _ => 1)) y ->
  x * w = v * y.
Proof.
  intros A D seed U HU HL bd nA nB ev0 ST sfuel co ns gs obs n v w x y Hv Hw Hx Hy.
  destruct (C58_exist A D seed U ns gs (debug bd) sfuel n O co nA nB ev0) as (E & _ & _). destruct (E no_collision) as (q & Hq).
  pose proof (C58_search A D seed U HU HL bd nA nB ev0 ST sfuel co ns gs obs v q Hv Hq n) as Hx'.
  pose proof (C58_search A D seed U HU HL bd nA nB ev0 ST sfuel co ns gs (fun _ _ _ => 1) w q Hw Hq n) as Hy'.
  rewrite (C56_mean_unique A _ U HU _ _ _ _ Hx Hx'), (C56_mean_unique A _ U HU _ _ _ _ Hy Hy'). ring.
Qed.

Lemma geometric_closed q n : (1 - q) * geometric q n = 1 - q ^ n.
Proof. induction n as [|n IH]; [unfold geometric; cbn; ring|]. rewrite geometric_S. cbn [pow]. replace ((1 - q) * (1 + q * geometric q n)) with ((1 - q) + q * ((1 - q) * geometric q n)) by ring. rewrite IH. ring. Qed.

(** As the program searches on (the loop has no bound), the mean tends to v/(1-q);
    so if an attempt ends in an event or without a collision, to the mean over
    attempts that collide. *)
Theorem C58_limit : forall (A : Arith) (D : shapes A) seed (U : (num A -> R) -> R), averages U -> linear U ->
  forall bd nA nB ev0, stage bd nA nB ev0 -> forall sfuel co ns gs obs v w q,
  mean_of U (on_tape ns gs (attempt (ideal D seed) sfuel co nA nB)) (if_collided (debug bd) co ev0 obs) v ->
  mean_of U (on_tape ns gs (attempt (ideal D seed) sfuel co nA nB)) (if_collided (debug bd) co ev0 (fun _ _ _ => 1)) w ->
  mean_of U (on_tape ns gs (attempt (ideal D seed) sfuel co nA nB)) no_collision q ->
  0 <= q -> 0 < w -> w + q = 1 ->
  forall eps, 0 < eps -> exists N, forall n x, (N <= n)%nat ->
  mean_of U (on_tape ns gs (sample_collision (ideal D seed) n sfuel co nA nB)) (if_found (debug bd) co ev0 obs) x ->
  Rabs (x - v / w) < eps.
Proof.
  intros A D seed U HU HL bd nA nB ev0 ST sfuel co ns gs obs v w q Hv _ Hq Q0 W0 WQ eps He.
  assert (Q1 : Rabs q < 1) by (rewrite Rabs_right; lra).
  assert (K : 0 < Rabs v / w + 1) by (apply Rplus_le_lt_0_compat; [apply Rmult_le_pos; [apply Rabs_pos|apply Rlt_le, Rinv_0_lt_compat, W0]|lra]).
  destruct (pow_lt_1_zero q Q1 (eps / (Rabs v / w + 1))) as (N & HN); [apply Rdiv_lt_0_compat; assumption|].
  exists N. intros n x Hn Hx.
  rewrite (C56_mean_unique A _ U HU _ _ _ _ Hx (C58_search A D seed U HU HL bd nA nB ev0 ST sfuel co ns gs obs v q Hv Hq n)).
  assert (E : v * geometric q n - v / w = - (v / w) * q ^ n).
  { pose proof (geometric_closed q n) as E. replace (1 - q) with w in E by lra.
    replace (geometric q n) with ((1 - q ^ n) / w) by (rewrite <- E; field; lra). field. lra. }
  rewrite E, Rabs_mult, Rabs_Ropp. unfold Rdiv at 1. rewrite Rabs_mult, (Rabs_right (/ w)) by (apply Rle_ge, Rlt_le, Rinv_0_lt_compat, W0).
  specialize (HN n Hn). apply Rle_lt_trans with ((Rabs v / w + 1) * Rabs (q ^ n)).
  - apply Rmult_le_compat_r; [apply Rabs_pos|]. unfold Rdiv. lra.
  - apply Rmult_lt_reg_l with (/ (Rabs v / w + 1)); [apply Rinv_0_lt_compat, K|].
    rewrite <- Rmult_assoc, Rinv_l, Rmult_1_l by lra. rewrite Rmult_comm. exact HN.
Qed.

(** Events of a run are independent: the mean of a product is the product of the
    means over single searches. *)
Theorem C58_independent : forall (A : Arith) (D : shapes A) seed (U : (num A -> R) -> R), averages U -> linear U ->
  forall bd nA nB ev0, stage bd nA nB ev0 -> forall fuel sfuel co ns gs obs vs,
  Forall2 (fun f v => mean_of U (on_tape ns gs (sample_collision (ideal D seed) fuel sfuel co nA nB)) (if_found (debug bd) co ev0 f) v) obs vs ->
  mean_of U (on_tape ns gs (events_of (ideal D seed) (debug bd) sfuel co fuel (length obs) nA nB ev0)) (if_finished (product obs)) (fold_right Rmult 1 vs).
Proof.
  intros A D seed U HU HL bd nA nB ev0 ST fuel sfuel co ns gs obs vs H. destruct (stage_wf _ _ _ _ ST) as (WA & WB & RV).
  apply (mean_of_plan A D seed U HU _ _ _ _ _ _ (p_events_ok D seed ns gs (debug bd) sfuel fuel co (length obs) nA nB ev0)).
  induction H as [|f v obs vs Hf H IH]; [reflexivity|]. cbn [length fold_right].
  rewrite (events_mean U HU HL D seed ns gs (debug bd) sfuel fuel co nA nB ev0 WA WB RV f (product (f :: obs)) (product obs)) by reflexivity.
  rewrite IH. f_equal. apply (mean_of_plan A D seed U HU _ _ _ _ _ _ (p_search_ok D seed ns gs fuel sfuel co nA nB 0)). exact Hf.
Qed.

Section Error.
Context {A : Arith} (D : shapes A) (seed : Z -> tape A) (U : (num A -> R) -> R) (HU : averages U) (HL : linear U).
Context (bd : build) (nA nB : nucleus A) (ev0 : event A) (WA : nucleus_wf nA) (WB : nucleus_wf nB) (RV : ready ev0).
Context (fuel sfuel : nat) (co : collider A) (ns gs : num A * num A).
Local Notation Es f := (mean U (if_found (debug bd) co ev0 f) (p_search D seed ns gs fuel sfuel co nA nB 0)).
Local Notation Er n F := (mean U (if_finished F) (p_events D seed ns gs (debug bd) sfuel fuel co n nA nB ev0)).

Lemma Er_linear n F F' c : Er n (fun l => F l + c * F' l) = Er n F + c * Er n F'.
Proof.
  rewrite <- (mean_linear U HU HL). apply (mean_unique2 U HU). intros t. destruct (fst (follow _ t)); cbn; ring.
Qed.
Lemma Er_step n f F : Er (S n) (fun l => match l with (b, k, ev) :: l' => f b k ev * F l' | [] => 0 end) = Es f * Er n F.
Proof. apply (events_mean U HU HL D seed ns gs (debug bd) sfuel fuel co nA nB ev0 WA WB RV). reflexivity. Qed.
Lemma Er_ext n F F' : (forall l, length l = n -> F l = F' l) -> Er n F = Er n F'.
Proof.
  intros H. apply (mean_unique2 U HU). intros t.
  assert (L : forall l, fst (follow (p_events D seed ns gs (debug bd) sfuel fuel co n nA nB ev0) t) = Ret l -> length l = n).
  { clear H. intros l Hl. pose proof (p_events_ok D seed ns gs (debug bd) sfuel fuel co n nA nB ev0 t) as H. rewrite Hl in H.
    remember (snd _) as t' eqn:Et in H. clear Et Hl WA WB RV. revert nA nB ev0 l t t' H.
    assert (Gn : forall n nA nB ev0 l (s s' : rstate (ideal D seed)), events_of (ideal D seed) (debug bd) sfuel co fuel n nA nB ev0 s = (Ret l, s') -> length l = n).
    { clear. induction n as [|n IH]; intros nA nB ev0 l s s' H; cbn [events_of] in H.
      - unfold ret in H. inversion H. reflexivity.
      - mstep H. destruct x as [[[b k] a1] b1]. mstep H. mstep H. unfold ret in H. inversion H; subst. cbn. f_equal. eapply IH. eassumption. }
    intros nA0 nB0 ev1 l t0 t' H. eapply Gn. exact H. }
  destruct (fst (follow _ t)); try reflexivity. cbn. apply H, L. reflexivity.
Qed.
Lemma Er_one n : Er n (fun _ => 1) = Es (fun _ _ _ => 1) ^ n.
Proof.
  induction n as [|n IH]; [reflexivity|]. cbn [pow]. rewrite <- IH, <- Er_step. apply Er_ext. intros [|[[b k] ev] l] L; [discriminate L|ring].
Qed.
Variable g : num A -> Z -> event A -> R.
Hypothesis centred : Es g = 0.
Lemma Er_total n : Er n (total g) = 0.
Proof.
  induction n as [|n IH]; [reflexivity|].
  rewrite (Er_ext (S n) _ (fun l => (match l with (b, k, ev) :: l' => g b k ev * 1 | [] => 0 end) + 1 * (match l with (b, k, ev) :: l' => 1 * total g l' | [] => 0 end))).
  - rewrite Er_linear, (Er_step n g (fun _ => 1)), (Er_step n (fun _ _ _ => 1) (total g)), centred, IH. ring.
  - intros [|[[b k] ev] l] L; [discriminate L|]. cbn. unfold total. ring.
Qed.
Lemma Er_square n : Er n (fun l => total g l ^ 2) = INR n * Es (fun b k ev => g b k ev ^ 2) * Es (fun _ _ _ => 1) ^ (n - 1).
Proof.
  induction n as [|n IH]; [cbn; ring|].
  rewrite (Er_ext (S n) _ (fun l => ((match l with (b, k, ev) :: l' => g b k ev ^ 2 * 1 | [] => 0 end) + 2 * (match l with (b, k, ev) :: l' => g b k ev * total g l' | [] => 0 end))
     + 1 * (match l with (b, k, ev) :: l' => 1 * total g l' ^ 2 | [] => 0 end))).
  - rewrite Er_linear, Er_linear, (Er_step n (fun b k ev => g b k ev ^ 2) (fun _ => 1)), (Er_step n g (total g)), (Er_step n (fun _ _ _ => 1) (fun l => total g l ^ 2)), centred, IH, Er_one.
    rewrite S_INR. replace (S n - 1)%nat with n by lia.
    destruct n as [|n]; [cbn; ring|]. replace (S n - 1)%nat with n by lia. cbn [pow]. ring.
  - intros [|[[b k] ev] l] L; [discriminate L|]. change (total g ((b, k, ev) :: l)) with (g b k ev + total g l). ring.
Qed.
End Error.

(** The average over n events: among runs that finish, its mean squared deviation
    from the mean is the variance over n.  P is the probability that a search
    finishes (it tends to 1 as the search goes on). *)
Theorem C58_error : forall (A : Arith) (D : shapes A) seed (U : (num A -> R) -> R), averages U -> linear U ->
  forall bd nA nB ev0, stage bd nA nB ev0 -> forall fuel sfuel co ns gs f P mu var n,
  mean_of U (on_tape ns gs (sample_collision (ideal D seed) fuel sfuel co nA nB)) (if_found (debug bd) co ev0 (fun _ _ _ => 1)) P ->
  mean_of U (on_tape ns gs (sample_collision (ideal D seed) fuel sfuel co nA nB)) (if_found (debug bd) co ev0 f) (P * mu) ->
  mean_of U (on_tape ns gs (sample_collision (ideal D seed) fuel sfuel co nA nB)) (if_found (debug bd) co ev0 (fun b k ev => (f b k ev - mu) ^ 2)) (P * var) ->
  (0 < n)%nat ->
  mean_of U (on_tape ns gs (events_of (ideal D seed) (debug bd) sfuel co fuel n nA nB ev0)) (if_finished (fun l => (total f l / INR n - mu) ^ 2)) (P ^ n * (var / INR n)).
Proof.
  intros A D seed U HU HL bd nA nB ev0 ST fuel sfuel co ns gs f P mu var n HP Hmu Hvar Hn. destruct (stage_wf _ _ _ _ ST) as (WA & WB & RV).
  pose proof (fun f v => proj1 (mean_of_plan A D seed U HU _ _ _ _ (if_found (debug bd) co ev0 f) v (p_search_ok D seed ns gs fuel sfuel co nA nB 0))) as K.
  apply K in HP, Hmu, Hvar. clear K.
  apply (mean_of_plan A D seed U HU _ _ _ _ _ _ (p_events_ok D seed ns gs (debug bd) sfuel fuel co n nA nB ev0)).
  pose (g := fun b k ev => f b k ev + - mu * 1).
  assert (C : mean U (if_found (debug bd) co ev0 g) (p_search D seed ns gs fuel sfuel co nA nB 0) = 0).
  { transitivity (mean U (fun r => if_found (debug bd) co ev0 f r + - mu * if_found (debug bd) co ev0 (fun _ _ _ => 1) r) (p_search D seed ns gs fuel sfuel co nA nB 0)).
    - apply (mean_unique2 U HU). intros t. destruct (fst (follow _ t)) as [[[[b k] a1] b1]| | |]; cbn; try ring. unfold observed, g. destruct (event_compute _ _ _ _ _); ring.
    - rewrite (mean_linear U HU HL), HP, Hmu. ring. }
  assert (V : mean U (if_found (debug bd) co ev0 (fun b k ev => g b k ev ^ 2)) (p_search D seed ns gs fuel sfuel co nA nB 0) = P * var).
  { rewrite <- Hvar. apply (mean_unique2 U HU). intros t. destruct (fst (follow _ t)) as [[[[b k] a1] b1]| | |]; cbn; try ring. unfold observed, g. destruct (event_compute _ _ _ _ _); ring. }
  assert (N0 : 0 < INR n) by (apply lt_0_INR; exact Hn).
  transitivity ((/ INR n) ^ 2 * mean U (if_finished (fun l => total g l ^ 2)) (p_events D seed ns gs (debug bd) sfuel fuel co n nA nB ev0)).
  - rewrite <- (mean_scale U HU HL).
    transitivity (mean U (if_finished (fun l => (/ INR n) ^ 2 * total g l ^ 2)) (p_events D seed ns gs (debug bd) sfuel fuel co n nA nB ev0)).
    + apply (Er_ext D seed U HU bd nA nB ev0 fuel sfuel co ns gs). intros l L.
      assert (T : total g l = total f l - INR n * mu).
      { rewrite <- L. clear. induction l as [|[[b k] ev] l IH]; [cbn; ring|]. change (length ((b, k, ev) :: l)) with (S (length l)). rewrite S_INR.
        change (total g ((b, k, ev) :: l)) with (g b k ev + total g l). change (total f ((b, k, ev) :: l)) with (f b k ev + total f l). rewrite IH. unfold g. ring. }
      rewrite T. field. lra.
    + apply (mean_unique2 U HU). intros t. destruct (fst (follow _ t)); cbn; ring.
  - rewrite (Er_square D seed U HU HL bd nA nB ev0 WA WB RV fuel sfuel co ns gs g C n), V, HP.
    destruct n as [|n]; [lia|]. replace (S n - 1)%nat with n by lia. cbn [pow]. field. lra.
Qed.

(** ** The events of a run are these samples *)
Definition handed {A} (d : delivery A) : num A * Z * event A := (d_b d, d_ncoll d, d_event d).
Lemma events_from_of {A} (G : Rng A) bd fuel sfuel co nA nB ev0 : nucleus_wf nA -> nucleus_wf nB -> ready ev0 ->
  forall l rs ds rs', events_from G bd fuel sfuel co nA nB ev0 l rs ds rs' ->
  events_of G (debug bd) sfuel co fuel (length l) nA nB ev0 rs = (Ret (map handed ds), rs').
Proof.
  intros WA WB RV l rs ds rs' H. induction H as [rs|n l rs d rs1 ds rs' (_ & a1 & b1 & ES & EA & EB & EV) H IH]; [reflexivity|].
  cbn [length events_of]. unfold bind at 1. rewrite ES. rewrite <- EA, <- EB. unfold bind at 1, lift. rewrite EV.
  destruct (search_twin G sfuel co _ _ _ _ _ _ _ _ _ _ WA WB ES) as [T1 T2].
  destruct (event_compute_ready _ _ _ _ _ _ RV EV) as [R2 SP].
  destruct (events_of_same G (debug bd) sfuel co fuel (length l) nA nB a1 b1 ev0 (d_event d) rs1 WA WB T1 T2 RV R2 SP) as [H1 H2].
  rewrite IH in H1, H2. cbn [fst snd] in H1, H2. unfold bind. destruct (events_of _ _ _ _ _ _ a1 b1 _ rs1) as [r s2]. cbn [fst snd] in *. subst s2.
  destruct r as [x| | |]; cbn in H1; try contradiction. subst x. reflexivity.
Qed.

Theorem C58_run : forall (A : Arith) (D : shapes A) seed sv bd cfuel fuel sfuel e cfg (s s' : sys (ideal D seed)),
  collide (ideal D seed) sv bd cfuel fuel sfuel e cfg s = (Ret tt, s') ->
  exists co nA nB ev0 ns gs s1 ds,
    stage bd nA nB ev0 /\
    collider_new (ideal D seed) sv bd cfuel e cfg s = (Ret (co, nA, nB, ev0, ns, gs), s1) /\
    delivered (ideal D seed) (co_writers co) ds s1 s' /\
    on_tape ns gs (events_of (ideal D seed) (debug bd) sfuel co fuel (Z.to_nat (number_events cfg)) nA nB ev0) (s_eng s1) = (Ret (map handed ds), s_eng s').
Proof.
  intros A D seed sv bd cfuel fuel sfuel e cfg s s' H. apply C51_replay in H.
  destruct H as (ds & co & nA & nB & ev0 & ns & gs & s1 & rs' & Hn & Hd & He & Hr).
  pose proof (collider_new_inv _ _ _ _ _ _ _ _ _ _ _ _ _ _ Hn) as Hc.
  assert (St : stage bd nA nB ev0).
  { split.
    - exists (s_fs s). pose proof (ct_A _ _ _ _ _ _ _ _ _ _ _ Hc) as K. unfold create_nucleus in K.
      destruct (nth_error (projectile cfg) 0); [eapply in_use_created; exact K|discriminate K].
    - exists (s_fs s). pose proof (ct_B _ _ _ _ _ _ _ _ _ _ _ Hc) as K. unfold create_nucleus in K.
      destruct (nth_error (projectile cfg) 1); [eapply in_use_created; exact K|discriminate K].
    - exists cfg. eapply ct_event; exact Hc. }
  destruct (stage_wf _ _ _ _ St) as (WA & WB & RV).
  exists co, nA, nB, ev0, ns, gs, s1, ds. split; [exact St|]. split; [exact Hn|]. split; [exact Hd|].
  apply (events_from_of _ _ _ _ _ _ _ _ WA WB RV) in He.
  unfold on_tape. replace (Z.to_nat (number_events cfg)) with (length (zupto (number_events cfg))) by (rewrite zupto_length; reflexivity).
  rewrite He, Hr. reflexivity.
Qed.
