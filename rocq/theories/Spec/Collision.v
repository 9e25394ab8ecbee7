(** What the collider delivers to the outputs, and how an accepted collision
    came about. *)
From Verif.Base Require Import Result Arith Rng.
From Verif.Model Require Import Config Nucleon Nucleus Event Files CrossSection Output Collider.
From Verif.Spec Require Import History.

(** One call output_(n, b, ncoll, event), with the nucleons of the event. *)
Record delivery (A : Arith) : Type := Delivery {
  d_num : Z;
  d_b : num A;
  d_ncoll : Z;
  d_event : event A;
  d_A : list (nucleon A);
  d_B : list (nucleon A)
}.
Arguments Delivery {A}. Arguments d_num {A}. Arguments d_b {A}. Arguments d_ncoll {A}.
Arguments d_event {A}. Arguments d_A {A}. Arguments d_B {A}.

(** The outputs [ws] received exactly the deliveries [ds], in order, and the
    files, stdout and stderr changed accordingly and in no other way. *)
Inductive delivered {A} (R : Rng A) (ws : list writer) :
    list (delivery A) -> sys R -> sys R -> Prop :=
| delivered_nil : forall s s',
    s_fs s' = s_fs s -> s_out s' = s_out s -> s_err s' = s_err s ->
    delivered R ws [] s s'
| delivered_cons : forall d ds s s1 s2 s',
    s_fs s1 = s_fs s -> s_out s1 = s_out s -> s_err s1 = s_err s ->
    run_output R ws (d_num d) (d_b d) (d_ncoll d) (d_event d) s1 = (Ret tt, s2) ->
    delivered R ws ds s2 s' ->
    delivered R ws (d :: ds) s s'.

(** The accepted sample: impact parameter from one canonical draw [u], freshly
    sampled nuclei A1, B1 displaced by asym*b and (asym-1)*b, and one pass of
    participate() over all pairs, with answers [hs], giving As, Bs. *)
Record sample (A : Arith) (R : Rng A) : Type := Sample {
  sa_u : num A;
  sa_e1 : engine R;                    (* engine after drawing u *)
  sa_A0 : nucleus A;                   (* the nuclei before sampling *)
  sa_B0 : nucleus A;
  sa_A1 : nucleus A;                   (* and after *)
  sa_e2 : engine R;
  sa_B1 : nucleus A;
  sa_start : rstate R;                 (* generator before the pair loop *)
  sa_hits : list bool;                 (* answers of participate *)
  sa_end : rstate R
}.
Arguments Sample {A R}. Arguments sa_u {A R}. Arguments sa_e1 {A R}. Arguments sa_A0 {A R}.
Arguments sa_B0 {A R}. Arguments sa_A1 {A R}. Arguments sa_e2 {A R}. Arguments sa_B1 {A R}.
Arguments sa_start {A R}. Arguments sa_hits {A R}. Arguments sa_end {A R}.

Record sampled {A} {R : Rng A} (sfuel : nat) (co : collider A) (kA kB : nkind A) (lA lB : nat)
    (b : num A) (As Bs : list (nucleon A)) (sa : sample A R) : Prop := Sampled {
  sd_canonical : exists e, canonical R e = (sa_u sa, sa_e1 sa);
  sd_b : b = nsqrt A (nadd A (nmul A (co_bmin co) (co_bmin co))
                        (nmul A (nsub A (nmul A (co_bmax co) (co_bmax co))
                                        (nmul A (co_bmin co) (co_bmin co))) (sa_u sa)));
  sd_kindA : nu_kind (sa_A0 sa) = kA;
  sd_kindB : nu_kind (sa_B0 sa) = kB;
  sd_lenA : length (nu_nucleons (sa_A0 sa)) = lA;
  sd_lenB : length (nu_nucleons (sa_B0 sa)) = lB;
  sd_A : sample_nucleons R sfuel (sa_A0 sa) (nmul A (co_asym co) b) (sa_e1 sa) = (Ret (sa_A1 sa), sa_e2 sa);
  sd_B : sample_nucleons R sfuel (sa_B0 sa) (nmul A (nsub A (co_asym co) (nlit A 1 0)) b) (sa_e2 sa)
         = (Ret (sa_B1 sa), rs_eng (sa_start sa));
  sd_history : history R (co_nc co)
      (all_pairs (length (nu_nucleons (sa_A1 sa))) (length (nu_nucleons (sa_B1 sa))))
      (nu_nucleons (sa_A1 sa)) (nu_nucleons (sa_B1 sa)) (sa_start sa)
      (sa_hits sa) As Bs (sa_end sa);
  sd_hit : In true (sa_hits sa)
}.
