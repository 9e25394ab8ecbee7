(** Runs that share the files: what a run does to them, and what it depends on. *)
From Coq Require Import Ascii.
From Verif.Base Require Import Result Arith Rng.
From Verif.Model Require Import Random Config Nucleon Nucleus Event Text Files CrossSection CacheSteps Output Collider RunSteps.
From Verif.Spec Require Import FileTree Cache Parallel.
From Verif.Proof Require Import Basics FsP FsTree Writers CacheRun Ctor OutputP ParallelP.
Local Open Scope string_scope.

Section Rel.
Context {A : Arith} (R : Rng A) (sv : Solver A) (bd : build).

(** The files as they are among others ([f]) and in a run by itself ([g]), as far
    as the run with this output can tell: the same at and inside the output; the
    directories above it may have been made by others. *)
Definition like (path : string) (f g : fs A) : Prop :=
  (forall k, at_or_below path k -> fs_get f k = fs_get g k) /\
  (forall q, below q (norm path) ->
     fs_get f (norm q) = fs_get g (norm q) \/ (fs_get f (norm q) = Some Dir /\ fs_get g (norm q) = None)) /\
  (filename_is_hdf5 path = true -> parent_ok f path = true /\ parent_ok g path = true).
Definition rel (cfg : config A) (f g : fs A) : Prop := forall path, output cfg = Some path -> like path f g.

(** What others (or the run itself) may do to the files, seen from a run. *)
Definition hands_off (path : string) (f f' : fs A) : Prop :=
  (forall k, at_or_below path k -> fs_get f' k = fs_get f k) /\
  (forall q, below q (norm path) ->
     fs_get f' (norm q) = fs_get f (norm q) \/ (fs_get f' (norm q) = Some Dir /\ fs_get f (norm q) = None)).

Lemma parent_key path : match parent_of (norm path) with
  | None => True | Some d => norm d = "" \/ (below d (norm path) /\ norm d <> norm path) end.
Proof.
  pose proof (last_split (norm path)) as L. destruct (parent_of (norm path)) as [d|]; [|exact I]. destruct L as (last & E & _).
  destruct (string_dec (norm d) "") as [->|N]; [left; reflexivity|right]. split.
  - apply below_iff. destruct (norm_rest d) as (k & Ed). exists (srun k ++ last). rewrite E, Ed at 1. rewrite !append_assoc. f_equal.
    rewrite <- !append_assoc. f_equal. apply iter_slash_end.
  - intros X. rewrite E in X. apply (f_equal String.length) in X. destruct (norm_rest d) as (k & Ed). rewrite Ed in X at 2.
    assert (L : forall a b, String.length (a ++ b) = (String.length a + String.length b)%nat) by (induction a; cbn; congruence).
    rewrite !L in X. cbn in X. lia.
Qed.
(** The parent's being there depends on what is above the path only. *)
Lemma parent_stays path (f f' : fs A) :
  (forall q, below q (norm path) -> fs_get f (norm q) = Some Dir -> fs_get f' (norm q) = Some Dir) ->
  parent_ok f path = true -> parent_ok f' path = true.
Proof.
  intros H. unfold parent_ok. pose proof (parent_key path) as K. destruct (parent_of (norm path)) as [d|]; [|auto].
  destruct (norm d) as [|c s] eqn:E; [auto|]. destruct K as [K|[K _]]; [discriminate K|]. specialize (H d K). rewrite E in H.
  destruct (fs_get f (String c s)) as [[]|]; try discriminate. rewrite H by reflexivity. auto.
Qed.

Lemma like_refl path f : (filename_is_hdf5 path = true -> parent_ok f path = true) -> like path f f.
Proof. intros H. split; [auto|]. split; [auto|]. auto. Qed.
Lemma like_hands_off path f f' g : like path f g -> hands_off path f f' -> like path f' g.
Proof.
  intros (L1 & L2 & L3) (H1 & H2). split; [intros k K; rewrite H1 by exact K; auto|]. split.
  - intros q Q. destruct (H2 q Q) as [->|[E1 E2]]; [auto|]. destruct (L2 q Q) as [E|[E _]]; [right; split; congruence|congruence].
  - intros Hh. destruct (L3 Hh) as [P1 P2]. split; [|exact P2]. apply (parent_stays path f f'); [|exact P1].
    intros q Q D. destruct (H2 q Q) as [->|[E1 E2]]; [exact D|exact E1].
Qed.

(** A change at one place. *)
Lemma put_hands_off path (f : fs A) key n : ~ at_or_below path key -> (forall q, below q (norm path) -> key <> norm q) -> hands_off path f (fs_put f key n).
Proof.
  intros H1 H2. split; [intros k K|intros q Q; left]; apply fs_get_put_neq; [intros ->; contradiction|]. intros E. apply (H2 q Q). congruence.
Qed.
(** The same change at the output. *)
Lemma like_put path f g key n : like path f g -> at_or_below path key -> like path (fs_put f key n) (fs_put g key n).
Proof.
  intros (L1 & L2 & L3) K.
  assert (Up : forall q, below q (norm path) -> norm q <> key).
  { intros q Q E. subst key. destruct K as [K|K].
    - rewrite <- K in Q. apply (below_not_self q). exact Q.
    - assert (B : below path (norm path)) by (apply (below_under path q (norm path)); assumption). apply (below_not_self path B). }
  split; [|split].
  - intros k Hk. destruct (string_dec k key) as [->|N]; [rewrite !fs_get_put_eq; reflexivity|]. rewrite !fs_get_put_neq by exact N. auto.
  - intros q Q. rewrite !fs_get_put_neq by (apply Up, Q). auto.
  - intros Hh. destruct (L3 Hh) as [P1 P2]. split; [eapply parent_stays; [|exact P1]|eapply parent_stays; [|exact P2]]; (intros q Q D; rewrite fs_get_put_neq by (apply Up, Q); exact D).
Qed.

(** Each call on the files of the output. *)
Definition tracks (path : string) {X} (m : M (fs A) X) : Prop :=
  forall f g, like path f g -> fst (m f) = fst (m g) /\ like path (snd (m f)) (snd (m g)).

Lemma lookup_like path p f g : like path f g -> at_or_below path (norm p) -> fs_lookup f p = fs_lookup g p.
Proof. intros (L & _) K. unfold fs_lookup. destruct (String.eqb p ""); [reflexivity|]. apply L, K. Qed.
Lemma self path : at_or_below path (norm path). Proof. left. reflexivity. Qed.

Lemma tracks_exists path : tracks path (fun f => (Ret (fs_exists f path), f)).
Proof. intros f g L. cbn. split; [|exact L]. unfold fs_exists. rewrite (lookup_like path path f g L (self path)). reflexivity. Qed.
Lemma empty_like path f g : like path f g -> fs_is_empty f path = fs_is_empty g path.
Proof.
  intros L. unfold fs_is_empty. rewrite (lookup_like path path f g L (self path)). destruct (fs_lookup g path) as [[]|]; try reflexivity. f_equal.
  assert (E : forall f g, (forall k, at_or_below path k -> fs_get f k = fs_get g k) -> existsb (fun e : string * node A => is_child path (fst e)) f = false ->
    existsb (fun e : string * node A => is_child path (fst e)) g = false).
  { intros f1 g1 S. rewrite !empty_dir_iff. intros H k K. rewrite <- S by (right; exact K). auto. }
  destruct (existsb _ f) eqn:Ef.
  - destruct (existsb _ g) eqn:Eg; [reflexivity|]. apply (E g f) in Eg; [congruence|]. intros k K. symmetry. apply L, K.
  - symmetry. apply (E f g); [apply L|exact Ef].
Qed.
Lemma tracks_empty path : tracks path (fun f => (Ret (fs_is_empty f path), f)).
Proof. intros f g L. cbn. split; [|exact L]. rewrite (empty_like path f g L). reflexivity. Qed.
Lemma tracks_make_dir path d : In d (prefixes "" (norm path)) -> tracks path (make_dir d).
Proof.
  intros Hd f g L. unfold make_dir, fs_lookup. destruct (String.eqb_spec d "") as [->|Nd].
  - (* the empty string is no directory of a path *)
    destruct (dirs_of_path _ _ Hd) as [E|E]; cbn [fst snd]; unfold fs_set.
    + split; [reflexivity|apply like_put; [exact L|left; exact E]].
    + split; [reflexivity|]. destruct L as (L1 & L2 & L3). destruct (L2 "" E) as [S|[S1 S2]].
      * assert (Up : forall q, at_or_below path q -> q <> norm "").
        { intros q K ->. destruct K as [K|K].
          - rewrite <- K in E. exact (below_not_self "" E).
          - apply below_has_slash in K. discriminate K. }
        split; [|split].
        -- intros k K. rewrite !fs_get_put_neq by (apply Up, K). auto.
        -- intros q Q. destruct (string_dec (norm q) (norm "")) as [->|N]; [rewrite !fs_get_put_eq; left; reflexivity|]. rewrite !fs_get_put_neq by exact N. auto.
        -- intros Hh. destruct (L3 Hh) as [P1 P2].
           split; [eapply parent_stays; [|exact P1]|eapply parent_stays; [|exact P2]]; (intros q Q D; destruct (string_dec (norm q) (norm "")) as [->|N]; [apply fs_get_put_eq|rewrite fs_get_put_neq by exact N; exact D]).
      * rewrite fs_put_same by exact S1. split; [|split].
        -- intros k K. rewrite fs_get_put_neq; [auto|]. intros ->. destruct K as [K|K].
           ++ rewrite <- K in E. exact (below_not_self "" E).
           ++ apply below_has_slash in K. discriminate K.
        -- intros q Q. destruct (string_dec (norm q) (norm "")) as [->|N]; [rewrite fs_get_put_eq; left; exact S1|]. rewrite fs_get_put_neq by exact N. auto.
        -- intros Hh. destruct (L3 Hh) as [P1 P2]. split; [exact P1|]. eapply parent_stays; [|exact P2].
           intros q Q D. destruct (string_dec (norm q) (norm "")) as [->|N]; [apply fs_get_put_eq|rewrite fs_get_put_neq by exact N; exact D].
  - destruct (dirs_of_path _ _ Hd) as [E|E].
    + rewrite E. rewrite (proj1 L (norm path) (self path)). destruct (fs_get g (norm path)) as [[]|]; cbn [fst snd]; (split; [reflexivity|]); try exact L.
      unfold fs_set. rewrite E. apply like_put; [exact L|left; reflexivity].
    + pose proof (proj1 (proj2 L) d E) as K.
      destruct (fs_get g (norm d)) as [n|] eqn:G.
      * destruct K as [->|[_ K]]; [|discriminate K]. destruct n; cbn [fst snd]; (split; [reflexivity|exact L]).
      * assert (X : like path (fs_put f (norm d) Dir) (fs_set g d Dir)).
        { unfold fs_set. destruct L as (L1 & L2 & L3).
          assert (Up : forall q, at_or_below path q -> q <> norm d).
          { intros q Q ->. destruct Q as [Q|Q]; [|apply (below_not_self path), (below_under path d (norm path)); assumption].
            apply (below_not_self d). unfold below in *. rewrite Q at 2. exact E. }
          split; [|split].
          - intros k Hk. rewrite !fs_get_put_neq by (apply Up, Hk). auto.
          - intros q Q. destruct (string_dec (norm q) (norm d)) as [->|N]; [rewrite !fs_get_put_eq; left; reflexivity|]. rewrite !fs_get_put_neq by exact N. auto.
          - intros Hh. destruct (L3 Hh) as [P1 P2].
            split; [eapply parent_stays; [|exact P1]|eapply parent_stays; [|exact P2]]; (intros q Q D; destruct (string_dec (norm q) (norm d)) as [->|N]; [apply fs_get_put_eq|rewrite fs_get_put_neq by exact N; exact D]). }
        destruct K as [->|[K _]]; [cbn [fst snd]; split; [reflexivity|exact X]|]. rewrite K. cbn [fst snd]. split; [reflexivity|].
        rewrite fs_put_same in X by exact K. exact X.
Qed.
Lemma tracks_hdf5_open path : filename_is_hdf5 path = true -> tracks path (hdf5_open path).
Proof.
  intros Hh f g L. unfold hdf5_open. rewrite (lookup_like path path f g L (self path)). destruct L as (L1 & L2 & L3).
  destruct (L3 Hh) as [-> ->]. assert (L : like path f g) by (split; [exact L1|split; [exact L2|exact L3]]).
  destruct (fs_lookup g path) as [[]|]; cbn [fst snd]; (split; [reflexivity|]); try exact L; (apply like_put; [exact L|apply self]).
Qed.
Lemma tracks_hdf5_write path n b nc ev : tracks path (hdf5_write path n b nc ev).
Proof.
  intros f g L. unfold hdf5_write. rewrite (lookup_like path path f g L (self path)). destruct (fs_lookup g path) as [[| |objs]|]; cbn [fst snd]; (split; [try reflexivity|]); try exact L.
  - destruct (ev_nsteps ev <=? 0)%Z; [reflexivity|]. destruct (existsb _ objs); reflexivity.
  - destruct (ev_nsteps ev <=? 0)%Z; [exact L|]. destruct (existsb _ objs); [exact L|]. apply like_put; [exact L|apply self].
Qed.
Lemma write_key path width n : (0 <= n)%Z -> path <> "" -> at_or_below path (norm (path_join path (text_file_name width n))).
Proof. intros Hn Np. destruct (join_key path _ (text_file_name_plain width n Hn) Np) as [-> B]. right. exact B. Qed.
Lemma tracks_write_text path width n b nc ev header : (0 <= n)%Z -> path <> "" -> tracks path (write_text_file path width n b nc ev header).
Proof.
  intros Hn Np f g L. unfold write_text_file, bind, lift. destruct (event_text n b nc ev header) as [t|x|u|]; cbn [fst snd]; try (split; [reflexivity|exact L]).
  pose proof (write_key path width n Hn Np) as K. unfold write_file. rewrite (lookup_like path _ f g L K).
  assert (P : parent_ok f (path_join path (text_file_name width n)) = parent_ok g (path_join path (text_file_name width n))).
  { unfold parent_ok. destruct (join_plain path _ (text_file_name_plain width n Hn) Np) as (p' & E1 & _ & _ & E2). rewrite E2, E1.
    destruct (norm path) eqn:E; [reflexivity|]. rewrite (proj1 L (String a s)); [reflexivity|left; symmetry; exact E]. }
  rewrite P. destruct (fs_lookup g (path_join path (text_file_name width n))) as [[]|]; cbn [fst snd]; try (split; [reflexivity|exact L]);
    (destruct (parent_ok g (path_join path (text_file_name width n))); cbn [fst snd]; (split; [reflexivity|]); [apply like_put; [exact L|exact K]|exact L]).
Qed.
End Rel.

Lemma prefixes_not_empty s : forall acc, In "" (prefixes acc s) -> acc = "" /\ s = "".
Proof.
  induction s as [|c s IH]; intros acc H; cbn [prefixes] in H.
  - destruct H as [->|[]]. auto.
  - assert (X : In "" (prefixes (acc ++ String c "") s) -> acc = "" /\ String c s = "").
    { intros K. destruct (IH _ K) as [E _]. destruct acc; discriminate E. }
    destruct (is_slash c); [|auto]. apply in_app_or in H. destruct H as [H|H]; [|auto]. destruct acc; [destruct H|destruct H as [H|[]]; discriminate H].
Qed.

(** ** Everything a run does after it has read the cache *)
Section Fine.
Context {A : Arith} (R : Rng A) (sv : Solver A) (bd : build).

(** Every call depends on related files in the same way and keeps them related,
    and changes the files as [G] allows; a result satisfies [Q]. *)
Fixpoint fine {X} (rl G : fs A -> fs A -> Prop) (Q : X -> Prop) (m : todo R X) : Prop :=
  match m with
  | Ended r _ => forall x, r = Ret x -> Q x
  | Call next effect =>
      (forall f g, rl f g -> next f = next g /\ rl (effect f) (effect g)) /\
      (forall f, G f (effect f)) /\ (forall f, fine rl G Q (next f))
  end.

Definition anything {X} (_ : X) : Prop := True.

Lemma fine_andthen {X Y} rl G Q Q' (m : todo R X) (c : X -> own R -> todo R Y) :
  fine rl G Q m -> (forall x p, Q x -> fine rl G Q' (c x p)) -> fine rl G Q' (andthen m c).
Proof.
  intros H K. revert H. induction m as [r p|next IH effect]; cbn [fine andthen]; intros H.
  - destruct r as [x|x|u|]; [apply K, H; reflexivity| | |]; cbn [fine]; intros y E; discriminate E.
  - destruct H as (H1 & H2 & H3). split; [|split].
    + intros f g Rl. destruct (H1 f g Rl) as [E1 E2]. split; [rewrite E1; reflexivity|exact E2].
    + exact H2.
    + intros f. apply IH, H3.
Qed.
Lemma fine_bind {X Y} rl G Q Q' (q : own R -> todo R X) (c : X -> own R -> todo R Y) p :
  fine rl G Q (q p) -> (forall x p, Q x -> fine rl G Q' (c x p)) -> fine rl G Q' (pbind R q c p).
Proof. apply fine_andthen. Qed.
Lemma fine_yields {X} rl G (Q : X -> Prop) r p : (forall x, r = Ret x -> Q x) -> fine rl G Q (yields R r p).
Proof. intros H. exact H. Qed.
Lemma fine_calls {X} (rl G : fs A -> fs A -> Prop) (Q : X -> Prop) m p :
  (forall f g, rl f g -> fst (m f) = fst (m g) /\ rl (snd (m f)) (snd (m g))) -> (forall f, G f (snd (m f))) ->
  (forall f x, fst (m f) = Ret x -> Q x) -> fine rl G Q (calls R m p).
Proof. intros H1 H2 H3. cbn [calls fine]. split; [|split; [exact H2|intros f x E; apply (H3 f x E)]]. intros f g Rl. destruct (H1 f g Rl) as [E1 E2]. split; [rewrite E1; reflexivity|exact E2]. Qed.
Lemma fine_fold {X Y} rl G (h : Y -> X -> own R -> todo R Y) l : (forall x y p, In x l -> fine rl G anything (h y x p)) ->
  forall y p, fine rl G anything (pfold R h l y p).
Proof.
  induction l as [|x l IH]; intros H y p; [intros z _; exact I|]. cbn [pfold]. eapply fine_bind; [apply H; left; reflexivity|].
  intros y' p' _. apply IH. intros x0 y0 p0 H0. apply H. right. exact H0.
Qed.
Lemma fine_mono {X} (rl G G' : fs A -> fs A -> Prop) (Q : X -> Prop) m : (forall f f', G f f' -> G' f f') -> fine rl G Q m -> fine rl G' Q m.
Proof.
  intros HG. induction m as [r p|next IH effect]; cbn [fine]; [auto|]. intros (H1 & H2 & H3). split; [exact H1|]. split; [intros f; apply HG, H2|intros f; apply IH, H3].
Qed.
Lemma fine_blind {X} (rl G : fs A -> fs A -> Prop) (Q : X -> Prop) m : fine rl G Q m -> fine (fun _ _ => False) G Q m.
Proof.
  induction m as [r p|next IH effect]; cbn [fine]; [auto|]. intros (H1 & H2 & H3). split; [intros f g []|]. split; [exact H2|intros f; apply IH, H3].
Qed.

(** Changes to the output, and directories made above it. *)
Definition out_change (cfg : config A) (f f' : fs A) : Prop :=
  forall k, fs_get f' k = fs_get f k \/ exists path, output cfg = Some path /\
    (at_or_below path k \/ exists q, k = norm q /\ below q (norm path) /\ fs_get f k = None /\ fs_get f' k = Some Dir).
(** Changes to the cache. *)
Definition cache_change (e : env) (f f' : fs A) : Prop :=
  forall k, fs_get f' k = fs_get f k \/ exists dh, data_dir e = Some dh /\
    ((k = norm (cache_dir dh) /\ fs_get f k = None /\ fs_get f' k = Some Dir) \/ k = norm (cache_file dh)).
Definition any_change (e : env) (cfg : config A) (f f' : fs A) : Prop := out_change cfg f f' \/ cache_change e f f'.

Lemma out_same cfg f : out_change cfg f f. Proof. intros k. left. reflexivity. Qed.
Lemma out_put cfg path f key n : output cfg = Some path -> at_or_below path key -> out_change cfg f (fs_put f key n).
Proof. intros E K k. destruct (string_dec k key) as [->|N]; [right; exists path; auto|left; apply fs_get_put_neq, N]. Qed.
Lemma out_make_dir cfg path d f : output cfg = Some path -> In d (prefixes "" (norm path)) -> out_change cfg f (snd (make_dir d f)).
Proof.
  intros E Hd. unfold make_dir. destruct (fs_lookup f d) as [[]|] eqn:L; try apply out_same. cbn [snd]. unfold fs_set.
  destruct (dirs_of_path _ _ Hd) as [K|K]; [apply (out_put cfg path); [exact E|left; exact K]|].
  intros k. destruct (string_dec k (norm d)) as [->|N]; [|left; apply fs_get_put_neq, N]. right. exists path. split; [exact E|]. right.
  exists d. split; [reflexivity|]. split; [exact K|]. split; [|apply fs_get_put_eq].
  unfold fs_lookup in L. destruct (String.eqb_spec d "") as [->|Nd]; [|exact L].
  destruct (prefixes_not_empty _ _ Hd) as [_ X]. rewrite X in K. apply below_has_slash in K. discriminate K.
Qed.

(** The writers. *)
Definition usable (cfg : config A) (ws : list writer) : Prop :=
  exists width, ws = writers_of cfg width /\ forall path, output cfg = Some path -> path <> "".

Lemma fine_writer cfg ws w n b nc ev p : usable cfg ws -> In w ws -> (0 <= n)%Z ->
  fine (rel cfg) (out_change cfg) anything (writer_steps R w n b nc ev p).
Proof.
  intros (width & -> & Np) Hw Hn. unfold writers_of in Hw. apply in_app_or in Hw. destruct Hw as [Hw|Hw].
  - destruct (quiet cfg); [destruct Hw|]. destruct Hw as [<-|[]]. intros x _. exact I.
  - destruct (output cfg) as [path|] eqn:E; [|destruct Hw]. specialize (Np path eq_refl). destruct (filename_is_hdf5 path) eqn:Hh; destruct Hw as [<-|[]]; apply fine_calls; try (intros; exact I).
    + intros f g L. destruct (tracks_hdf5_write path n b nc ev f g (L path E)) as [T1 T2]. split; [exact T1|].
      intros path' E'. assert (path' = path) by congruence. subst path'. exact T2.
    + intros f. unfold hdf5_write. destruct (fs_lookup f path) as [[| |objs]|]; try apply out_same.
      destruct (ev_nsteps ev <=? 0)%Z; [apply out_same|]. destruct (existsb _ objs); [apply out_same|]. apply (out_put cfg path); [exact E|apply self].
    + intros f g L. destruct (tracks_write_text path width n b nc ev (negb (no_header cfg)) Hn Np f g (L path E)) as [T1 T2]. split; [exact T1|].
      intros path' E'. assert (path' = path) by congruence. subst path'. exact T2.
    + intros f. unfold write_text_file, bind, lift. destruct (event_text n b nc ev (negb (no_header cfg))) as [t|x|u|]; try apply out_same.
      pose proof (write_key path width n Hn Np) as K. unfold write_file.
      destruct (fs_lookup f _) as [[]|]; try apply out_same; (destruct (parent_ok f _); [apply (out_put cfg path); [exact E|exact K]|apply out_same]).
Qed.

Lemma rel_of cfg path {X} (m : M (fs A) X) : output cfg = Some path -> tracks path m ->
  forall f g, rel cfg f g -> fst (m f) = fst (m g) /\ rel cfg (snd (m f)) (snd (m g)).
Proof.
  intros E T f g L. destruct (T f g (L path E)) as [T1 T2]. split; [exact T1|]. intros path' E'. assert (path' = path) by congruence. subst path'. exact T2.
Qed.

Lemma fine_asks {X} cfg path (q : fs A -> result X) (Q : X -> Prop) p : output cfg = Some path -> tracks path (fun f => (q f, f)) ->
  (forall f x, q f = Ret x -> Q x) -> fine (rel cfg) (out_change cfg) Q (asks R q p).
Proof. intros E T H. apply fine_calls; [apply (rel_of cfg path); assumption|intros f; apply out_same|exact H]. Qed.

Lemma fine_output cfg p : fine (rel cfg) (out_change cfg) (usable cfg) (output_steps R bd cfg p).
Proof.
  unfold output_steps. eapply fine_bind with (Q := anything); [intros x _; exact I|]. intros width p1 _.
  eapply fine_bind with (Q := fun fw => (forall path, output cfg = Some path -> path <> "") /\
     fw = match output cfg with None => [] | Some path => if filename_is_hdf5 path then [WHdf5 path] else [WText path width (negb (no_header cfg))] end).
  2:{ intros fw p2 [Np ->] ws Ew. injection Ew as <-. exists width. split; [reflexivity|exact Np]. }
  destruct (output cfg) as [path|] eqn:E; [|intros x Ex; injection Ex as <-; split; [discriminate|reflexivity]].
  destruct (filename_is_hdf5 path) eqn:Hh.
  - assert (Np : path <> "") by (intros ->; discriminate Hh).
    destruct (with_hdf5 bd); [|intros x Ex; discriminate Ex].
    eapply fine_bind with (Q := anything); [apply (fine_asks cfg path); [exact E|apply tracks_exists|intros; exact I]|]. intros there p2 _.
    eapply fine_bind with (Q := anything).
    { destruct there; [apply (fine_asks cfg path); [exact E|apply tracks_empty|intros; exact I]|intros x _; exact I]. }
    intros bare p3 _. destruct bare; [|intros x Ex; discriminate Ex].
    eapply fine_bind with (Q := anything).
    { apply fine_calls; [apply (rel_of cfg path); [exact E|apply tracks_hdf5_open, Hh]| |intros; exact I].
      intros f. unfold hdf5_open. destruct (fs_lookup f path) as [[]|]; try apply out_same;
        (destruct (parent_ok f path); [apply (out_put cfg path); [exact E|apply self]|apply out_same]). }
    intros _ p4 _ x Ex. injection Ex as <-. split; [|reflexivity]. intros path' E'. congruence.
  - eapply fine_bind with (Q := anything); [apply (fine_asks cfg path); [exact E|apply tracks_exists|intros; exact I]|]. intros there p2 _.
    destruct (string_dec path "") as [->|Np].
    + (* the empty path *)
      eapply fine_bind with (Q := fun _ => False).
      2:{ intros _ p3 []. }
      destruct there; [|intros x Ex; discriminate Ex].
      eapply fine_bind with (Q := fun b => b = false); [|intros bare p3 ->; intros x Ex; discriminate Ex].
      apply (fine_asks cfg ""); [exact E|apply tracks_empty|]. intros f x Ex. injection Ex as <-. reflexivity.
    + eapply fine_bind with (Q := anything).
      2:{ intros _ p3 _ x Ex. injection Ex as <-. split; [|reflexivity]. intros path' E'. congruence. }
      destruct there.
      * eapply fine_bind with (Q := anything); [apply (fine_asks cfg path); [exact E|apply tracks_empty|intros; exact I]|]. intros bare p3 _.
        destruct bare; [intros x _; exact I|intros x Ex; discriminate Ex].
      * destruct (String.eqb_spec path "") as [Ep|_]; [contradiction|]. apply fine_fold. intros d y p3 Hd.
        apply fine_calls; [apply (rel_of cfg path); [exact E|apply tracks_make_dir, Hd]| |intros; exact I].
        intros f. apply (out_make_dir cfg path); assumption.
Qed.

Lemma fine_events cfg fuel sfuel co ns st p : usable cfg (co_writers co) -> (forall n, In n ns -> (0 <= n)%Z) ->
  fine (rel cfg) (out_change cfg) anything (pfold R (event_steps R bd fuel sfuel co) ns st p).
Proof.
  intros U Hn. apply fine_fold. intros n st1 p1 Hi. specialize (Hn n Hi). destruct st1 as [[[[nA nB] ev] nst] gst]. unfold event_steps.
  destruct (sample_collision R fuel sfuel co nA nB (MkRstate (w_eng p1) nst gst)) as [r rs].
  apply fine_andthen with (Q := anything); [intros x _; exact I|]. intros [[[b nc] nA'] nB'] p2 _.
  eapply fine_bind with (Q := anything); [intros x _; exact I|]. intros ev' p3 _.
  eapply fine_bind with (Q := anything); [|intros u p4 _ x _; exact I].
  apply fine_fold. intros w y p4 Hw. apply (fine_writer cfg (co_writers co)); assumption.
Qed.

(** The run once its cross-section parameter is known. *)
Definition with_parameter (fuel sfuel : nat) (cfg : config A) (nA nB : nucleus A) (sp : num A) : P R unit :=
  pbind R (yields R (event_new cfg)) (fun ev =>
  pbind R (output_steps R bd cfg) (fun ws =>
  let nc := nucleon_common_of cfg sp in
  let co := {| co_nc := nc; co_nevents := number_events cfg; co_calc_ncoll := ncoll cfg;
               co_bmin := b_min cfg; co_bmax := determine_bmax cfg nA nB nc;
               co_asym := determine_asym nA nB; co_writers := ws |} in
  pbind R (fun p => Ended (Ret tt)
    (if (0 <? random_seed cfg)%Z then Own (eng_seed R (random_seed cfg)) (w_out p) (w_err p) else p)) (fun _ : unit =>
  pbind R (pfold R (event_steps R bd fuel sfuel co) (zupto (number_events cfg))
              (nA, nB, ev, normal_init R nc, gamma_init R cfg)) (fun _ =>
  yields R (Ret tt))))).

Lemma fine_with_parameter fuel sfuel cfg nA nB sp p : fine (rel cfg) (out_change cfg) anything (with_parameter fuel sfuel cfg nA nB sp p).
Proof.
  unfold with_parameter. eapply fine_bind with (Q := anything); [intros x _; exact I|]. intros ev p1 _.
  eapply fine_bind; [apply fine_output|]. intros ws p2 U. cbv zeta.
  eapply fine_bind with (Q := anything); [intros x _; exact I|]. intros _ p3 _.
  eapply fine_bind with (Q := anything); [|intros x4 p4 _ x _; exact I].
  apply fine_events; [exact U|]. intros n Hn. apply in_zupto in Hn. lia.
Qed.
End Fine.
