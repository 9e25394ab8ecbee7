(** Constituents as a function of the draws. *)
From Verif.Base Require Import Result Arith Rng.
From Verif.Model Require Import FastExp Config Nucleon.
From Verif.Spec Require Import Constituents.
From Verif.Proof Require Import Basics.

Section Any.
Context {A : Arith} (R : Rng A).

Definition total_from (a : num A) (l : list (num A)) : num A := fold_left (nadd A) l a.
Definition sum0 (l : list (num A)) : num A := total_from (nlit A 0 0) l.

Lemma sample_local_draws k : forall xc yc s,
  exists ds s', constituent_draws R k s = (Ret ds, s') /\ length ds = k /\
    sample_local R k xc yc s = (Ret (map (fun d => Constituent (d_x d) (d_y d) (d_f d)) ds,
      total_from xc (map d_x ds), total_from yc (map d_y ds)), s').
Proof.
  induction k as [|k IH]; intros xc yc s.
  - exists [], s. repeat split.
  - cbn [constituent_draws sample_local].
    destruct (ndraw R (rs_norm s) (rs_eng s)) as [[x n1] e1] eqn:E1.
    destruct (ndraw R n1 e1) as [[y n2] e2] eqn:E2.
    destruct (gdraw R (rs_gamma s) e2) as [[f g] e3] eqn:E3.
    assert (D1 : draw_normal R s = (Ret x, MkRstate e1 n1 (rs_gamma s))) by (unfold draw_normal; rewrite E1; reflexivity).
    assert (D2 : draw_normal R (MkRstate e1 n1 (rs_gamma s)) = (Ret y, MkRstate e2 n2 (rs_gamma s)))
      by (unfold draw_normal; cbn [rs_norm rs_eng rs_gamma]; rewrite E2; reflexivity).
    assert (D3 : draw_gamma R (MkRstate e2 n2 (rs_gamma s)) = (Ret f, MkRstate e3 n2 g))
      by (unfold draw_gamma; cbn [rs_norm rs_eng rs_gamma]; rewrite E3; reflexivity).
    rewrite !(bind_run _ _ _ _ _ D1), !(bind_run _ _ _ _ _ D2), !(bind_run _ _ _ _ _ D3).
    destruct (IH (nadd A xc x) (nadd A yc y) (MkRstate e3 n2 g)) as (ds & s' & D & L & S).
    exists ((x, y, f) :: ds), s'. rewrite (bind_run _ _ _ _ _ D), (bind_run _ _ _ _ _ S).
    split; [reflexivity|]. split; [simpl; congruence|]. reflexivity.
Qed.

Definition placed (n : nucleon A) (m : Z) (ds : list (num A * num A * num A)) : list (constituent A) :=
  map (fun d => Constituent
         (nadd A (d_x d) (nsub A (n_x n) (ndiv A (sum0 (map d_x ds)) (nofZ A m))))
         (nadd A (d_y d) (nsub A (n_y n) (ndiv A (sum0 (map d_y ds)) (nofZ A m)))) (d_f d)) ds.

Lemma sample_cons_draws nc n s : n_cexist n = false -> (nc_number nc <= cons_max_size)%Z ->
  exists ds s', constituent_draws R (Z.to_nat (nc_number nc)) s = (Ret ds, s') /\
    length ds = Z.to_nat (nc_number nc) /\
    sample_constituent_positions R nc n s
    = (Ret (Nucleon (n_x n) (n_y n) (n_z n) (n_part n) true (placed n (nc_number nc) ds)), s').
Proof.
  intros He Hm. unfold sample_constituent_positions. rewrite He.
  destruct (Z.ltb_spec cons_max_size (nc_number nc)) as [C|_]; [lia|].
  destruct (sample_local_draws (Z.to_nat (nc_number nc)) (nlit A 0 0) (nlit A 0 0) s) as (ds & s' & D & L & S).
  exists ds, s'. split; [exact D|]. split; [exact L|]. rewrite (bind_run _ _ _ _ _ S).
  cbv beta iota zeta. unfold ret. do 2 f_equal. f_equal. unfold placed. rewrite map_map. reflexivity.
Qed.
End Any.
