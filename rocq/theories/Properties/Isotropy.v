(** C77: no direction of the transverse plane is special for a sampled nucleus. *)
From Coq Require Import Reals Lra ZArith List.
From Verif.Base Require Import Result Arith RArith Rng.
From Verif.Model Require Import Random Config Nucleon Files Nucleus.
From Verif.Spec Require Import Geometry Law Attempts Positions Isotropy.
From Verif.Proof Require Import Basics RBasics Sampling LawP PositionsP ShiftP IsotropyP.
From Verif.Properties Require Import Positions.
Local Open Scope R_scope.

(** Any nucleus - of any species or from a file, with any minimum distance, used in
    any way before - rotated about the beam axis through its centre by an angle at
    which the azimuth can start as well as at 0: no mean changes. *)
Theorem C77_rotated :
  forall (D : shapes RA) seed (U : (R -> R) -> R) alpha, averages (A:=RA) U -> starts_anywhere (canonical_mean D U) alpha ->
  forall bd f (nu : nucleus RA), in_use bd f nu ->
  forall fuel (off : R) (F : list vec -> R), exists m,
    mean_of (A:=RA) U (sample_nucleons (ideal D seed) fuel nu off) (if_finished (fun nu' => F (positions off nu'))) m /\
    mean_of (A:=RA) U (sample_nucleons (ideal D seed) fuel nu off) (if_finished (fun nu' => F (map (spin alpha) (positions off nu')))) m.
Proof.
  intros D seed U alpha HU HA bd f nu I fuel off F.
  destruct (planned_sample_nucleons D seed fuel nu off) as [p P].
  exists (mean (A:=RA) U (if_finished (fun nu' => F (positions off nu'))) p). split; exists p; (split; [exact P|]); [reflexivity|].
  apply (sl_sample_nucleons U HU D seed alpha HA off fuel nu (in_use_wf _ _ _ I) p p P P).
  intros [x|e|u|] [y|e'|u'|] H; cbn in H |- *; try contradiction; try reflexivity. f_equal. symmetry. exact H.
Qed.

(** In particular the nucleons are nowhere off centre on average: a linear quantity of
    the transverse positions, such as the centre of mass, has mean 0. *)
Definition total (h : vec -> R) (l : list vec) : R := fold_right (fun p acc => h p + acc) 0 l.

Theorem C77_centred :
  forall (D : shapes RA) seed (U : (R -> R) -> R), averages (A:=RA) U -> linear (A:=RA) U -> starts_anywhere (canonical_mean D U) PI ->
  forall bd f (nu : nucleus RA), in_use bd f nu ->
  forall fuel (off : R) (a b : R),
    mean_of (A:=RA) U (sample_nucleons (ideal D seed) fuel nu off) (if_finished (fun nu' => total (fun p => a * vx p + b * vy p) (positions off nu'))) 0.
Proof.
  intros D seed U HU HL HA bd f nu I fuel off a b. set (h := fun p : vec => a * vx p + b * vy p).
  destruct (C77_rotated D seed U PI HU HA bd f nu I fuel off (total h)) as (m & (p & P & E1) & (q & Q & E2)).
  exists p. split; [exact P|].
  assert (S : forall l, total h (map (spin PI) l) = -1 * total h l).
  { induction l as [|v l IH]; cbn [map total fold_right]; [ring|]. unfold total in IH. rewrite IH. unfold h, spin, vx, vy. cbn [fst snd]. rewrite cos_PI, sin_PI. ring. }
  assert (E3 : mean (A:=RA) U (if_finished (fun nu' => total h (map (spin PI) (positions off nu')))) p = m).
  { rewrite <- E2. apply (mean_unique (A:=RA) U HU). intros t. rewrite <- P, <- Q. reflexivity. }
  assert (Lin : forall (r : plan RA (result (nucleus RA))), mean (A:=RA) U (if_finished (fun nu' => total h (map (spin PI) (positions off nu')))) r = -1 * mean (A:=RA) U (if_finished (fun nu' => total h (positions off nu'))) r).
  { induction r as [x|k IH]; cbn [mean]; [destruct x; cbn [if_finished]; try ring; apply S|].
    rewrite <- (li_scale _ HL). apply (av_ext _ HU). exact IH. }
  rewrite Lin, E1 in E3. rewrite E1. lra.
Qed.
