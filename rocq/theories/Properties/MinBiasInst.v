(** A concrete case of C66: minimum-bias p+p with the default widths and
    sigma_NN = 6.4 fm^2, the variate averaged by the Riemann integral, and a root
    finder that returns the root. *)
From Coq Require Import Reals Lra Lia.
From Coquelicot Require Import Coquelicot.
From Flocq Require Import Core.Raux.
From Verif.Base Require Import Result Arith RArith Rng.
From Verif.Model Require Import Config Random Nucleon Nucleus Event Files CrossSection Output Collider.
From Verif.Spec Require Import History Geometry Law Attempts CrossSection MinBias Cache.
From Verif.Proof Require Import Basics RBasics Sampling Ctor LawP MinBiasP.
From Verif.Properties Require Import CrossSection MinBias.
Local Open Scope R_scope.

Section Inst.
Variables Ei erfinv : R -> R.
Hypothesis HEi : is_Ei Ei.
Notation RX := (RA_with Ei erfinv).

Definition mb_shapes : shapes RX :=
  @Shapes RX (fun u => u) (fun mu sd u => mu + sd * u) (fun a b u => u) (fun _ lo hi _ u => lo + (hi - lo) * u) (fun a b u => a) (fun l u => l) (fun l => l) (fun l => l).
Definition mb_seed (z : Z) : tape RX := fun _ => 1 / 2.
Notation G := (ideal mb_shapes mb_seed).
Definition mb_config : config RX :=
  @Config RX ["p"; "p"]%string 1 true None false false 0 1 (1/2) (1/2) 1 0 (64/10) 1 0 (-1) 0 1 (1/2).
Definition mb_env : env := Env (Some "/data"%string) None.
Definition mb_sys : sys G := @Sys RX G (mb_seed 0) [("/data"%string, Dir); ("/data/trento"%string, Dir)] "" "".

Lemma mb_event : exists ev, event_new mb_config = Ret ev.
Proof.
  unfold event_new, to_int. cbn [nceil ntrunc nmul ndiv nlit RA_with grid_max grid_step mb_config]. rewrite Ztrunc_IZR.
  replace (Zceil (Rlit 2 0 * 1 / (1 / 2))) with 4%Z; [eexists; reflexivity|].
  replace (Rlit 2 0 * 1 / (1 / 2)) with (IZR 4) by (unfold Rlit; simpl; field). symmetry. apply Zceil_IZR.
Qed.
Lemma mb_width : output_width (A:=RX) 1 = Ret 0%Z.
Proof.
  unfold output_width, to_int. cbn [ntrunc nceil nlog10 nofZ RA_with].
  rewrite ln_1. unfold Rdiv. rewrite Rmult_0_l, Ztrunc_IZR, (Zceil_IZR 0). reflexivity.
Qed.

Theorem C66_instance : forall bd sfuel, exists x co nA nB ev ns gs s1 p,
  unit_average (fun g => RInt g 0 1) /\ pp_config Ei erfinv mb_config /\ world_no_cache mb_env (s_fs mb_sys) /\
  collider_new G (oracle_solver Ei erfinv x) bd 1 mb_env mb_config mb_sys = (Ret (co, nA, nB, ev, ns, gs), s1) /\
  protons Ei erfinv mb_shapes mb_config (nc_sigma_partonic (co_nc co)) co nA nB /\
  mean_of (A:=RX) (fun g => RInt g 0 1) (on_tape ns gs (attempt G sfuel co nA nB)) (by_impact (A:=RX) hit) p /\
  co_bmax co = 3 /\ PI * 3 ^ 2 * p = 64 / 10.
Proof.
  intros bd sfuel. pose proof PI_RGT_0 as P0. pose proof PI2_3_2 as P3. pose proof PI_4 as P4. unfold PI2 in P3.
  assert (E10 : exp (-10) < 1) by (rewrite <- exp_0; apply exp_increasing; lra). pose proof (exp_pos (-10)) as E0.
  destruct (C36_solvable Ei erfinv HEi (64/10) (1/2) ltac:(lra)) as (S & _).
  destruct S as (_ & x & (Hx & Hf) & _).
  { replace (4 * PI * (1/2) ^ 2) with PI by field. split; nra. }
  assert (PC : pp_config Ei erfinv mb_config).
  { constructor; cbn; try reflexivity; try lra. }
  assert (WC : world_no_cache mb_env (s_fs mb_sys)) by (exists "/data"%string; repeat split; reflexivity).
  destruct (C36_fit Ei erfinv HEi G (oracle_solver Ei erfinv x) mb_config (mb_seed 0) (mb_seed 0) x x) as (sp & Ec & Sp & _).
  - cbn. lra.
  - reflexivity.
  - reflexivity.
  - lra.
  - change (num RX) with R in *. cbn [nucleon_width cross_section mb_config]. rewrite Hf. lra.
  - destruct mb_event as (ev & Ev).
    assert (N : exists co ns gs s1, collider_new G (oracle_solver Ei erfinv x) bd 1 mb_env mb_config mb_sys
       = (Ret (co, proton (A:=RX), proton (A:=RX), ev, ns, gs), s1)).
    { assert (Pp : exists s', partonic_cross_section G (oracle_solver Ei erfinv x) 1 mb_env mb_config mb_sys = (Ret sp, s')).
      { destruct WC as (dh & D1 & D2 & D3). rewrite (CacheRun.partonic_no_file G _ 1 mb_env mb_config mb_sys dh D1 D2 D3).
        unfold CacheRun.computed. change (s_eng mb_sys) with (mb_seed 0). rewrite Ec. eexists. reflexivity. }
      destruct Pp as (s2 & Pp). do 4 eexists. unfold collider_new. erewrite bind_run by reflexivity.
      erewrite bind_run by reflexivity. erewrite bind_run by reflexivity.
      erewrite bind_run by exact Pp. cbv zeta. unfold lift at 1. rewrite Ev. erewrite bind_run by reflexivity.
      erewrite bind_run.
      2: { unfold output_new. cbn [number_events mb_config]. rewrite mb_width. unfold lift.
           erewrite bind_run by reflexivity. cbn [quiet output mb_config]. erewrite bind_run by reflexivity. reflexivity. }
      erewrite bind_run by reflexivity. reflexivity. }
    destruct N as (co & ns & gs & s1 & Hn).
    destruct (C66_calibrated Ei erfinv HEi _ riemann_average mb_shapes mb_seed (oracle_solver Ei erfinv x) bd 1 mb_env mb_config mb_sys
      co (proton (A:=RX)) (proton (A:=RX)) ev ns gs s1 (mb_seed 0) x x) with (sfuel := sfuel) as (p & K1 & K2).
    + reflexivity.
    + exact PC.
    + exact WC.
    + reflexivity.
    + lra.
    + change (num RX) with R in *. cbn [nucleon_width cross_section mb_config]. rewrite Hf. lra.
    + exact Hn.
    + pose proof (collider_new_inv _ _ _ _ _ _ _ _ _ _ _ _ _ _ Hn) as Hc.
      destruct (pp_bmax Ei erfinv bd G mb_config co _ _ ev _ _ mb_sys s1 PC Hc) as [_ EM].
      cbn [b_max nucleon_width mb_config] in EM. change (num RX) with R in *. destruct (Rlt_dec (-1) 0); [|lra].
      assert (B3 : co_bmax co = 3) by (etransitivity; [exact EM|]; change (@eq R (6 * (1 / 2)) 3); field).
      exists x, co, (proton (A:=RX)), (proton (A:=RX)), ev, ns, gs, s1, p.
      split; [exact riemann_average|]. split; [exact PC|]. split; [exact WC|]. split; [exact Hn|].
      split; [|split; [exact K1|split; [exact B3|]]].
      * constructor; try reflexivity; try (cbn; lra); try (split; reflexivity).
        -- assert (E : nc_sigma_partonic (co_nc co) = sp).
           { clear -Hn Ec WC. destruct WC as (dh & D1 & D2 & D3).
             pose proof (CacheRun.partonic_no_file G (oracle_solver Ei erfinv x) 1 mb_env mb_config mb_sys dh D1 D2 D3) as K. unfold CacheRun.computed in K.
             change (s_eng mb_sys) with (mb_seed 0) in K. rewrite Ec in K.
             unfold collider_new in Hn. mstep Hn. unfold get in E. apply pair_Ret_inj in E. destruct E as [<- <-].
             mstep Hn. mstep E. mstep Hn. mstep E0. unfold bind at 1 in Hn. rewrite K in Hn. mstep Hn. mstep E1. mstep Hn. mstep Hn. mstep Hn. reflexivity. }
           rewrite E. lra.
        -- destruct (ct_nc _ _ _ _ _ _ _ _ _ _ _ Hc) as (sp' & E). rewrite E. reflexivity.
        -- rewrite (ct_bmin _ _ _ _ _ _ _ _ _ _ _ Hc). cbn. lra.
        -- rewrite (ct_bmin _ _ _ _ _ _ _ _ _ _ _ Hc). change (num RX) with R in *. rewrite B3. cbn. lra.
      * rewrite B3 in K2. cbn [cross_section nucleon_width mb_config] in K2.
        replace (4 * PI * (1 / 2) ^ 2 * (x - x) / 2) with 0 in K2 by field.
        pose proof (Rabs_pos (PI * 3 ^ 2 * p - 64 / 10)).
        destruct (Req_dec (PI * 3 ^ 2 * p - 64/10) 0); [lra|]. exfalso. apply (Rabs_no_R0 _ H0). lra.
Qed.
End Inst.
