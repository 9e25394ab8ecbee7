(** The merged options are the effective ones. *)
From Verif.Base Require Import Result Arith Rng.
From Verif.Model Require Import Config Text Files CrossSection Collider Main.
From Verif.Spec Require Import Options.
From Verif.Proof Require Import Basics.

(** One option: after storing the sources [gs] in order. *)
Definition stored {S X} (def : option X) (f : S -> option X) (gs : list S) : entry X :=
  fold_left (fun e g => store1 def (f g) e) gs Absent.

Lemma explicit_stays {S X} (def : option X) (f : S -> option X) gs x :
  fold_left (fun e g => store1 def (f g) e) gs (Explicit x) = Explicit x.
Proof. induction gs as [|g gs IH]; simpl; [reflexivity|]. exact IH. Qed.

Lemma defaulted_then {S X} (def : X) (f : S -> option X) gs :
  fold_left (fun e g => store1 (Some def) (f g) e) gs (Defaulted def)
  = match first_opt f gs with Some x => Explicit x | None => Defaulted def end.
Proof.
  induction gs as [|g gs IH]; simpl; [reflexivity|]. destruct (f g) eqn:E; simpl; [apply explicit_stays|exact IH].
Qed.

Lemma stored_default {S X} (def : X) (f : S -> option X) g gs :
  stored (Some def) f (g :: gs) = match first_opt f (g :: gs) with Some x => Explicit x | None => Defaulted def end.
Proof.
  unfold stored. simpl. destruct (f g) eqn:E; simpl; [apply explicit_stays|apply defaulted_then].
Qed.
Lemma stored_plain {S X} (f : S -> option X) gs :
  stored None f gs = match first_opt f gs with Some x => Explicit x | None => Absent end.
Proof.
  unfold stored. induction gs as [|g gs IH]; simpl; [reflexivity|]. destruct (f g) eqn:E; simpl; [apply explicit_stays|exact IH].
Qed.
Lemma first_of_opt {S X} (f : S -> option X) gs d : first_of f gs d = match first_opt f gs with Some x => x | None => d end.
Proof. induction gs as [|g gs IH]; simpl; [reflexivity|]. destruct (f g); auto. Qed.

Lemma stored_value {S X} (def d : X) (f : S -> option X) g gs :
  value d (stored (Some def) f (g :: gs)) = first_of f (g :: gs) def.
Proof. rewrite stored_default, first_of_opt. destruct (first_opt f (g :: gs)); reflexivity. Qed.

Section Merge.
Context {A : Arith} (R : Rng A) (tx : texts (A:=A)).

Definition vmap (gs : list (given A)) : varmap A := fold_left (fun v g => store g v) gs varmap_empty.

(** [gs'] stored after [gs]. *)
Lemma vmap_fields gs : vmap gs =
  {| v_projectile := stored None projectiles_of gs;
     v_number_events := stored (Some 1%Z) g_number_events gs;
     v_quiet := stored (Some false) g_quiet gs;
     v_output := stored None g_output gs;
     v_no_header := stored (Some false) g_no_header gs;
     v_ncoll := stored (Some false) g_ncoll gs;
     v_reduced_thickness := stored (Some (nlit A 0 0)) g_reduced_thickness gs;
     v_fluctuation := stored (Some (nlit A 1 0)) g_fluctuation gs;
     v_nucleon_width := stored (Some (nlit A 5 (-1))) g_nucleon_width gs;
     v_constit_width := stored (Some (nlit A 5 (-1))) g_constit_width gs;
     v_constit_number := stored (Some 1%Z) g_constit_number gs;
     v_nucleon_min_dist := stored (Some (nlit A 0 0)) g_nucleon_min_dist gs;
     v_cross_section := stored (Some (nlit A 64 (-1))) g_cross_section gs;
     v_normalization := stored (Some (nlit A 1 0)) g_normalization gs;
     v_b_min := stored (Some (nlit A 0 0)) g_b_min gs;
     v_b_max := stored (Some (nneg A (nlit A 1 0))) g_b_max gs;
     v_random_seed := stored (Some (-1)%Z) g_random_seed gs;
     v_grid_max := stored (Some (nlit A 10 0)) g_grid_max gs;
     v_grid_step := stored (Some (nlit A 2 (-1))) g_grid_step gs |}.
Proof.
  unfold vmap. induction gs as [|g gs IH] using rev_ind; [reflexivity|].
  unfold stored. rewrite !fold_left_app. cbn [fold_left]. rewrite IH. unfold store.
  assert (N : nonempty (g_projectile g) = projectiles_of g) by (unfold nonempty, projectiles_of; destruct (g_projectile g); reflexivity).
  rewrite N. reflexivity.
Qed.

Lemma effective_config g gs : config_of (fix_constit_width (vmap (g :: gs))) = effective (g :: gs).
Proof.
  rewrite vmap_fields. unfold fix_constit_width.
  assert (D : is_defaulted (stored (Some (nlit A 5 (-1))) g_constit_width (g :: gs))
            = match first_opt g_constit_width (g :: gs) with Some _ => false | None => true end).
  { rewrite stored_default. destruct (first_opt g_constit_width (g :: gs)); reflexivity. }
  cbn [v_constit_width v_nucleon_width v_projectile v_number_events v_quiet v_output v_no_header v_ncoll
       v_reduced_thickness v_fluctuation v_constit_number v_nucleon_min_dist v_cross_section v_normalization
       v_b_min v_b_max v_random_seed v_grid_max v_grid_step].
  rewrite D.
  assert (P : value [] (stored None projectiles_of (g :: gs)) = match first_opt projectiles_of (g :: gs) with Some ps => ps | None => [] end).
  { rewrite stored_plain. destruct (first_opt projectiles_of (g :: gs)); reflexivity. }
  assert (O : match stored None g_output (g :: gs) with Explicit p | Defaulted p => Some p | Absent => None end = first_opt g_output (g :: gs)).
  { rewrite stored_plain. destruct (first_opt g_output (g :: gs)); reflexivity. }
  destruct (first_opt g_constit_width (g :: gs)) as [v|] eqn:F; unfold config_of;
    cbn [v_constit_width v_nucleon_width v_projectile v_number_events v_quiet v_output v_no_header v_ncoll
       v_reduced_thickness v_fluctuation v_constit_number v_nucleon_min_dist v_cross_section v_normalization
       v_b_min v_b_max v_random_seed v_grid_max v_grid_step];
    rewrite P, O, !stored_value; unfold effective.
  - rewrite (first_of_opt g_constit_width (g :: gs) (nlit A 5 (-1))), (first_of_opt g_constit_width (g :: gs) (first_of g_nucleon_width _ _)), F. reflexivity.
  - cbn [value]. rewrite (first_of_opt g_constit_width (g :: gs)), F. reflexivity.
Qed.

Lemma merge_ok gs paths g0s s : config_files tx (s_fs s) paths gs ->
  merge_config R tx (vmap g0s) paths s = (Ret (vmap (g0s ++ gs)), s).
Proof.
  unfold merge_config. intros H. revert g0s. induction H as [|p g paths gs (n & Hn & Hg) H IH]; intros g0s; simpl.
  - rewrite app_nil_r. reflexivity.
  - unfold bind at 1 2. unfold get. rewrite Hn. unfold bind at 1, lift. rewrite Hg. unfold ret.
    assert (E : store g (vmap g0s) = vmap (g0s ++ [g])) by (unfold vmap; rewrite fold_left_app; reflexivity).
    rewrite E. rewrite IH. rewrite <- app_assoc. reflexivity.
Qed.

(** Merging either succeeds, or throws, or ... without touching the world. *)
Lemma merge_cases paths v s : exists r, merge_config R tx v paths s = (r, s) /\
  (forall v', r = Ret v' -> exists gs, config_files tx (s_fs s) paths gs).
Proof.
  revert v. induction paths as [|p paths IH]; intros v; simpl.
  - exists (Ret v). split; [reflexivity|]. intros _ _. exists []. constructor.
  - unfold merge_config in *. simpl. unfold bind at 1 2, get.
    destruct (fs_lookup (s_fs s) p) as [n|] eqn:L.
    + unfold bind at 1, lift, ret. destruct (parse_config tx (file_text n)) as [g|x|x|] eqn:G;
        try (eexists; split; [reflexivity|intros ? E; discriminate E]).
      destruct (IH (store g v)) as (r & E & Hr). exists r. split; [exact E|].
      intros v' Hv. destruct (Hr v' Hv) as [gs Hgs]. exists (g :: gs). constructor; eauto.
    + eexists. split; [reflexivity|]. intros ? E; discriminate E.
Qed.

Lemma notify_effective g gs : notify (fix_constit_width (vmap (g :: gs)))
  = if Nat.eqb (length (projectile (effective (g :: gs)))) 2 then Ret tt else Throw RequiredOption.
Proof.
  assert (E : v_projectile (fix_constit_width (vmap (g :: gs))) = stored None projectiles_of (g :: gs)).
  { rewrite vmap_fields. unfold fix_constit_width. destruct (is_defaulted _); reflexivity. }
  unfold notify. rewrite E, stored_plain. unfold effective. cbn [projectile].
  destruct (first_opt projectiles_of (g :: gs)); reflexivity.
Qed.

Lemma validate_spec (cfg : config A) :
  (validate cfg = Ret tt /\ ~ widths_bad cfg) \/ (exists m, validate cfg = Throw (PoError m) /\ widths_bad cfg).
Proof.
  unfold validate, widths_bad, below.
  destruct (nltb A (nucleon_width cfg) (nofZ A 0)) eqn:E1; [right; eexists; split; [reflexivity|auto]|].
  destruct (nltb A (constit_width cfg) (nofZ A 0)) eqn:E2; [right; eexists; split; [reflexivity|auto]|]. cbn [orb].
  destruct (nltb A (nucleon_width cfg) (constit_width cfg)) eqn:E3; [right; eexists; split; [reflexivity|auto]|].
  destruct (nltb A (constit_width cfg) (nucleon_width cfg)) eqn:E4; cbn [andb].
  - destruct (Z.eqb_spec (constit_number cfg) 1); [right; eexists; split; [reflexivity|auto]|].
    left. split; [reflexivity|]. intros [H|[H|[H|[_ H]]]]; try discriminate H. contradiction.
  - left. split; [reflexivity|]. intros [H|[H|[H|[H _]]]]; discriminate H.
Qed.
End Merge.
