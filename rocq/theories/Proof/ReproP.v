(** Actions that do not look at the random engine. *)
From Verif.Base Require Import Result Arith Rng.
From Verif.Model Require Import FastExp Config Nucleon Nucleus Event Text Files CrossSection Output Collider Main.
From Verif.Spec Require Import Repro.
From Verif.Proof Require Import Basics.

Section Oblivious.
Context {A : Arith} {R : Rng A}.

Definition oblivious {X} (m : M (sys R) X) : Prop :=
  forall s s', same_world s s' -> alike (m s) (m s').

Lemma same_refl (s : sys R) : same_world s s.
Proof. repeat split. Qed.

Lemma ob_ret X (x : X) : oblivious (ret x).
Proof. intros s s' H. split; [reflexivity|exact H]. Qed.
Lemma ob_lift X (r : result X) : oblivious (lift r).
Proof. intros s s' H. split; [reflexivity|exact H]. Qed.
Lemma ob_throw X e : oblivious (X:=X) (throw e).
Proof. intros s s' H. split; [reflexivity|exact H]. Qed.

Lemma ob_in_fs X (m : M (fs A) X) : oblivious (in_fs R m).
Proof.
  intros s s' (H1 & H2 & H3). unfold in_fs. rewrite H1. destruct (m (s_fs s)).
  split; [reflexivity|]. repeat split; simpl; assumption.
Qed.

(** Parts that read the state: only through the file system. *)
Lemma ob_get Y (k : sys R -> M (sys R) Y) :
  (forall s s', same_world s s' -> k s' = k s) -> (forall s, oblivious (k s)) -> oblivious (let* s := get in k s).
Proof. intros H1 H2 s s' Hs. unfold bind, get. rewrite (H1 s s' Hs). apply H2. exact Hs. Qed.

Lemma ob_bind_at X Y (m : M (sys R) X) (k : X -> M (sys R) Y) s s' :
  alike (m s) (m s') -> (forall x, oblivious (k x)) -> alike (bind m k s) (bind m k s').
Proof.
  intros [E1 E2] Hk. unfold bind. destruct (m s) as [r t], (m s') as [r' t']; cbn [fst snd] in *. subst r'.
  destruct r; try (split; [reflexivity|exact E2]). apply Hk. exact E2.
Qed.
Lemma ob_bind X Y (m : M (sys R) X) (k : X -> M (sys R) Y) :
  oblivious m -> (forall x, oblivious (k x)) -> oblivious (bind m k).
Proof. intros Hm Hk s s' H. apply ob_bind_at; auto. Qed.

Lemma ob_output_new bd cfg : oblivious (output_new R bd cfg).
Proof.
  unfold output_new. apply ob_bind; [apply ob_lift|]. intros w.
  apply ob_bind; [|intros; apply ob_ret]. destruct (output cfg); [|apply ob_ret].
  apply ob_get; [intros t t' (H & _); rewrite H; reflexivity|]. intros t.
  destruct (filename_is_hdf5 s).
  - destruct (with_hdf5 bd); [|apply ob_throw].
    destruct (_ && _); [apply ob_throw|].
    apply ob_bind; [apply ob_in_fs|]. intros; apply ob_ret.
  - apply ob_bind; [|intros; apply ob_ret].
    destruct (fs_exists (s_fs t) s); [destruct (negb _); [apply ob_throw|apply ob_ret]|apply ob_in_fs].
Qed.

(** A closed-form parameter. *)
Lemma compute_pure (sv : Solver A) cfg : solver_pure sv -> (constit_number cfg <= 1)%Z ->
  exists r, forall e, compute_partonic R sv cfg e = (r, e).
Proof.
  intros Hsv Hn. unfold compute_partonic. destruct (Z.ltb_spec 1 (constit_number cfg)); [lia|].
  unfold analytic_partonic_cross_section.
  match goal with |- context [toms748 sv ?S (fun x => ret (?g x)) ?lo ?hi ?b ?n] =>
    destruct (Hsv S (fun x => g x) lo hi b n) as [r Hr] end.
  destruct r as [[lo hi]|x|u|].
  - eexists. intros e. unfold rethrow_domain, bind. rewrite Hr. reflexivity.
  - exists (match x with DomainError _ => Throw (DomainError "unable to fit cross section -- nucleon width too small?") | _ => Throw x end).
    intros e. unfold rethrow_domain, bind. rewrite Hr. destruct x; reflexivity.
  - eexists. intros e. unfold rethrow_domain, bind. rewrite Hr. reflexivity.
  - eexists. intros e. unfold rethrow_domain, bind. rewrite Hr. reflexivity.
Qed.

Lemma ob_partonic (sv : Solver A) fuel e cfg : solver_pure sv -> (constit_number cfg <= 1)%Z ->
  oblivious (partonic_cross_section R sv fuel e cfg).
Proof.
  intros Hsv Hn. destruct (compute_pure sv cfg Hsv Hn) as [r Hr].
  unfold partonic_cross_section. apply ob_bind; [apply ob_lift|]. intros dh.
  apply ob_bind; [apply ob_in_fs|]. intros _.
  apply ob_get; [intros t t' (H & _); rewrite H; reflexivity|]. intros t.
  apply ob_bind; [destruct (fs_lookup (s_fs t) (cache_path dh)); [apply ob_lift|apply ob_ret]|]. intros [sp|]; [apply ob_ret|].
  apply ob_bind; [apply ob_in_fs|]. intros _.
  apply ob_bind.
  - intros s s' (H1 & H2 & H3). unfold in_eng. rewrite !Hr. split; [reflexivity|]. repeat split; simpl; assumption.
  - intros sp. apply ob_bind; [apply ob_in_fs|]. intros _. apply ob_ret.
Qed.

(** Alike, and when a value is returned the states are the same, engine included. *)
Definition good_at {X} (m : M (sys R) X) s s' : Prop :=
  alike (m s) (m s') /\ forall x, fst (m s) = Ret x -> snd (m s') = snd (m s).

Lemma good_first X Y (m : M (sys R) X) (k : X -> M (sys R) Y) s s' :
  alike (m s) (m s') -> (forall x t t', same_world t t' -> good_at (k x) t t') -> good_at (bind m k) s s'.
Proof.
  intros [E1 E2] Hk. unfold good_at, bind. destruct (m s) as [r t], (m s') as [r' t']; cbn [fst snd] in *. subst r'.
  destruct r; try (split; [split; [reflexivity|exact E2]|intros ? H; discriminate H]). apply Hk. exact E2.
Qed.
(** Once the states are the same everything after is. *)
Lemma good_then X Y (m : M (sys R) X) (k : X -> M (sys R) Y) s s' :
  good_at m s s' -> good_at (bind m k) s s'.
Proof.
  intros [[E1 E2] E3]. unfold good_at, bind. destruct (m s) as [r t], (m s') as [r' t']; cbn [fst snd] in *. subst r'.
  destruct r; try (split; [split; [reflexivity|exact E2]|intros ? H; discriminate H]).
  rewrite (E3 x eq_refl). split; [split; [reflexivity|apply same_refl]|reflexivity].
Qed.

Lemma good_get Y (k : sys R -> M (sys R) Y) s s' :
  k s' = k s -> good_at (k s) s s' -> good_at (let* s := get in k s) s s'.
Proof. intros E H. unfold good_at, bind, get in *. rewrite E. exact H. Qed.
Lemma good_lift X Y (r : result X) (k : X -> M (sys R) Y) s s' :
  same_world s s' -> (forall x, good_at (k x) s s') -> good_at (let* x := lift r in k x) s s'.
Proof.
  intros Hs H. unfold good_at, bind, lift in *. destruct r; try (split; [split; [reflexivity|exact Hs]|intros ? E; discriminate E]).
  apply H.
Qed.

Lemma ctor_good (sv : Solver A) bd fuel e cfg s s' :
  alike (partonic_cross_section R sv fuel e cfg s) (partonic_cross_section R sv fuel e cfg s') ->
  same_world s s' -> (0 < random_seed cfg)%Z ->
  good_at (collider_new R sv bd fuel e cfg) s s'.
Proof.
  intros HP Hs Hseed. unfold collider_new.
  apply good_get; [destruct Hs as (F & _); rewrite F; reflexivity|].
  apply good_lift; [exact Hs|]. intros nA. apply good_lift; [exact Hs|]. intros nB.
  apply good_first; [exact HP|]. clear HP Hs s s'. intros sp s s' Hs.
  apply good_lift; [exact Hs|]. intros ev.
  apply good_first; [apply ob_output_new; exact Hs|]. clear Hs s s'. intros ws s s' Hs.
  apply good_then. destruct (Z.ltb_spec 0 (random_seed cfg)); [|lia]. destruct Hs as (H1 & H2 & H3).
  split; cbn [fst snd]; [|intros x _; congruence]. split; [reflexivity|]. repeat split; simpl; assumption.
Qed.

Lemma collide_good (sv : Solver A) bd cfuel fuel sfuel e cfg s s' :
  alike (partonic_cross_section R sv cfuel e cfg s) (partonic_cross_section R sv cfuel e cfg s') ->
  same_world s s' -> (0 < random_seed cfg)%Z ->
  good_at (collide R sv bd cfuel fuel sfuel e cfg) s s'.
Proof. intros HP Hs Hseed. unfold collide. apply good_then. apply ctor_good; assumption. Qed.
End Oblivious.
