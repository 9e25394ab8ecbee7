(** Model of src/nucleon.h (and the NucleonCommon constructor's non-cache part,
    src/nucleon.cxx). *)
From Verif.Base Require Import Result Arith Rng.
From Verif.Model Require Import FastExp Config.

(** nucleon.h:67-70 [NucleonData::Constituent]. *)
Record constituent (A : Arith) : Type := Constituent {
  q_x : num A;
  q_y : num A;
  q_fluct : num A
}.
Arguments Constituent {A}. Arguments q_x {A}. Arguments q_y {A}. Arguments q_fluct {A}.

(** nucleon.h:26-74 [NucleonData]. *)
Record nucleon (A : Arith) : Type := Nucleon {
  n_x : num A;
  n_y : num A;
  n_z : num A;
  n_part : bool;                       (* is_participant_ *)
  n_cexist : bool;                     (* constituents_exist_ *)
  n_cons : list (constituent A)        (* constituents_ *)
}.
Arguments Nucleon {A}. Arguments n_x {A}. Arguments n_y {A}. Arguments n_z {A}.
Arguments n_part {A}. Arguments n_cexist {A}. Arguments n_cons {A}.

(** nucleon.h:82-145 [NucleonCommon], except the two distribution objects, which
    are mutable and live in [rstate]. *)
Record nucleon_common (A : Arith) : Type := NucleonCommon {
  nc_fast_exp : fast_exp A;
  nc_nucleon_width : num A;
  nc_constituent_width : num A;
  nc_number : Z;                       (* constituent_number_, size_t *)
  nc_sampling_width : num A;
  nc_max_impact_sq : num A;
  nc_constituent_width_sq : num A;
  nc_constituent_radius_sq : num A;
  nc_sigma_partonic : num A;
  nc_prefactor : num A;
  nc_calc_ncoll : bool
}.
Arguments NucleonCommon {A}. Arguments nc_fast_exp {A}. Arguments nc_nucleon_width {A}.
Arguments nc_constituent_width {A}. Arguments nc_number {A}. Arguments nc_sampling_width {A}.
Arguments nc_max_impact_sq {A}. Arguments nc_constituent_width_sq {A}.
Arguments nc_constituent_radius_sq {A}. Arguments nc_sigma_partonic {A}.
Arguments nc_prefactor {A}. Arguments nc_calc_ncoll {A}.

Section Nucleon.
Context {A : Arith}.
Local Open Scope num_scope.

(** A value-initialised NucleonData (nucleon.h:30, nucleus.cxx:87: the vector's
    elements are zero-initialised, then the default member initialisers run). *)
Definition nucleon_zero : nucleon A :=
  Nucleon (nofZ A 0) (nofZ A 0) (nofZ A 0) false false [].

(** nucleon.h:170-176 [set_position]; the constituents vector is left alone. *)
Definition set_position (n : nucleon A) (x y z : num A) : nucleon A :=
  Nucleon x y z false false (n_cons n).

(** nucleon.h:317-322 [set_participant]. *)
Definition set_participant (n : nucleon A) : nucleon A :=
  if n_part n then n
  else Nucleon (n_x n) (n_y n) (n_z n) true (n_cexist n) (n_cons n).

(** nucleon.cxx:35, 38. *)
Definition max_radius_widths : num A := nlit A 5 0.
Definition max_impact_widths : num A := nlit A 6 0.

(** nucleon.cxx:66-81 [calc_sampling_width]. *)
Definition calc_sampling_width (w v : num A) (m : Z) : num A :=
  let one_constituent := (m =? 1)%Z in
  let same_size := (w - v <? nlit A 1 (-6)) in
  if one_constituent || same_size then nlit A 0 0
  else
    let num := sqr w - sqr v in
    let denom := nlit A 1 0 - nlit A 1 0 / nofZ A m in
    nsqrt A (num / denom).

(** nucleon.cxx:248-262 [NucleonCommon::NucleonCommon], given the value
    [sigma_partonic] returned by [partonic_cross_section] (CrossSection.v). *)
Definition nucleon_common_of (cfg : config A) (sigma_partonic : num A) : nucleon_common A :=
  let w := nucleon_width cfg in
  let v := constit_width cfg in
  let m := to_size (constit_number cfg) in
  let vsq := sqr v in
  {| nc_fast_exp := fast_exp_new (- (nlit A 5 (-1)) * sqr max_radius_widths) (nlit A 0 0) 1000;
     nc_nucleon_width := w;
     nc_constituent_width := v;
     nc_number := m;
     nc_sampling_width := calc_sampling_width w v (constit_number cfg);
     nc_max_impact_sq := sqr (max_impact_widths * w);
     nc_constituent_width_sq := vsq;
     nc_constituent_radius_sq := sqr (max_radius_widths * v);
     nc_sigma_partonic := sigma_partonic;
     nc_prefactor := none_div_two_pi A / vsq / nofZ A m;
     nc_calc_ncoll := ncoll cfg |}.

(** nucleon.h:188-190 [max_impact]. *)
Definition max_impact (nc : nucleon_common A) : num A := nsqrt A (nc_max_impact_sq nc).

(** nucleon.h:199-215: one step of the boundary scan for one coordinate. *)
Definition scan (lo_hi : num A * num A) (x : num A) : num A * num A :=
  let (lo, hi) := lo_hi in
  if x <? lo then (x, hi)
  else if x >? hi then (lo, x)
  else (lo, hi).

(** nucleon.h:192-221 [boundary]: {xmin, xmax, ymin, ymax}. *)
Definition boundary (nc : nucleon_common A) (n : nucleon A)
  : result (num A * num A * num A * num A) :=
  match n_cons n with
  | [] => UB UbDerefEnd
  | q :: qs =>
      let '(xmin, xmax) := fold_left scan (map q_x qs) (q_x q, q_x q) in
      let '(ymin, ymax) := fold_left scan (map q_y qs) (q_y q, q_y q) in
      let r := nsqrt A (nc_constituent_radius_sq nc) in
      Ret (xmin - r, xmax + r, ymin - r, ymax + r)
  end.

(** nucleon.h:223-235 [thickness]. *)
Definition thickness_step (debug : bool) (nc : nucleon_common A) (x y : num A)
    (t : num A) (q : constituent A) : result (num A) :=
  let distance_sq := sqr (x - q_x q) + sqr (y - q_y q) in
  if distance_sq <? nc_constituent_radius_sq nc then
    letr e := fast_exp_eval debug (nc_fast_exp nc)
                (- (nlit A 5 (-1)) * distance_sq / nc_constituent_width_sq nc) in
    Ret (t + q_fluct q * e)
  else Ret t.

Definition thickness (debug : bool) (nc : nucleon_common A) (n : nucleon A) (x y : num A)
  : result (num A) :=
  letr t := rfold (thickness_step debug nc x y) (n_cons n) (nlit A 0 0) in
  Ret (nc_prefactor nc * t).

(** nucleon.h:251-257: the overlap sum of [participate]. *)
Definition pair_overlap (nc : nucleon_common A) (qA qB : constituent A) : num A :=
  let distance_sq := sqr (q_x qA - q_x qB) + sqr (q_y qA - q_y qB) in
  nexp A (- (nlit A 25 (-2)) * distance_sq / nc_constituent_width_sq nc).

Definition overlap (nc : nucleon_common A) (csA csB : list (constituent A)) : num A :=
  fold_left (fun acc qA => fold_left (fun acc' qB => acc' + pair_overlap nc qA qB) csB acc)
            csA (nlit A 0 0).

(** nucleon.h:269-271. *)
Definition one_minus_prob (nc : nucleon_common A) (csA csB : list (constituent A)) : num A :=
  nexp A (- nc_sigma_partonic nc * nc_prefactor nc
            / (nlit A 2 0 * nofZ A (nc_number nc)) * overlap nc csA csB).

(** PTRDIFF_MAX / sizeof(Constituent): the largest vector (libstdc++ max_size). *)
Definition cons_max_size : Z := 384307168202282325%Z.

Context (R : Rng A).

(** nucleon.h:292-303: the sampling loop; returns the constituents at their local
    positions and the sums xcom, ycom. *)
Fixpoint sample_local (k : nat) (xcom ycom : num A)
  : M (rstate R) (list (constituent A) * num A * num A) :=
  match k with
  | O => ret ([], xcom, ycom)
  | S k' =>
      let* xloc := draw_normal R in
      let* yloc := draw_normal R in
      let* f := draw_gamma R in
      let* (qs, xc, yc) := sample_local k' (xcom + xloc) (ycom + yloc) in
      ret (Constituent xloc yloc f :: qs, xc, yc)
  end.

(** nucleon.h:283-315 [sample_constituent_positions].  [resize] is to the same
    length every time and each element is overwritten, so the previous contents
    of the vector do not matter; a length above max_size throws length_error. *)
Definition sample_constituent_positions (nc : nucleon_common A) (n : nucleon A)
  : M (rstate R) (nucleon A) :=
  if n_cexist n then ret n
  else if (cons_max_size <? nc_number nc)%Z then throw LengthError
  else
    let* (qs, xsum, ysum) := sample_local (Z.to_nat (nc_number nc)) (nlit A 0 0) (nlit A 0 0) in
    let xcom := xsum / nofZ A (nc_number nc) in
    let ycom := ysum / nofZ A (nc_number nc) in
    let place q := Constituent (q_x q + (n_x n - xcom)) (q_y q + (n_y n - ycom)) (q_fluct q) in
    ret (Nucleon (n_x n) (n_y n) (n_z n) (n_part n) true (map place qs)).

(** nucleon.h:237-281 [participate].  A and B are references to nucleons of two
    different nuclei, so they never alias. *)
Definition participate (nc : nucleon_common A) (nA nB : nucleon A)
  : M (rstate R) (bool * nucleon A * nucleon A) :=
  if n_part nA && n_part nB && negb (nc_calc_ncoll nc) then ret (true, nA, nB)
  else
    let distance_sq := sqr (n_x nA - n_x nB) + sqr (n_y nA - n_y nB) in
    if distance_sq >? nc_max_impact_sq nc then ret (false, nA, nB)
    else
      let* nA' := sample_constituent_positions nc nA in
      let* nB' := sample_constituent_positions nc nB in
      let p := one_minus_prob nc (n_cons nA') (n_cons nB') in
      let* u := on_eng (draw_canonical R) in
      if p <? u then ret (true, set_participant nA', set_participant nB')
      else ret (false, nA', nB').

End Nucleon.
