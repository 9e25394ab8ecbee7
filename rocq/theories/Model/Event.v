(** Model of src/event.cxx and src/event.h. *)
From Verif.Base Require Import Result Arith.
From Verif.Model Require Import Config Nucleon Nucleus.

(** event.h:57 [Grid]: a two-dimensional array, row by row. *)
Definition grid (A : Arith) : Type := list (list (num A)).

(** The generalized mean selected by the constructor (event.cxx:61-75). *)
Inductive gmean (A : Arith) : Type :=
| GGeometric
| GPositive (p : num A)
| GNegative (p : num A).
Arguments GGeometric {A}. Arguments GPositive {A}. Arguments GNegative {A}.

(** event.h:101-131: data members of [Event].  The members after [ev_TR] are
    uninitialised until the first [compute]; the model gives them arbitrary
    initial values, which [compute] is proved to overwrite (C10). *)
Record event (A : Arith) : Type := Event {
  ev_mean : gmean A;
  ev_norm : num A;
  ev_dxy : num A;
  ev_nsteps : Z;
  ev_xymax : num A;
  ev_TA : grid A;
  ev_TB : grid A;
  ev_TR : grid A;
  ev_ixcm : num A;
  ev_iycm : num A;
  ev_npart : Z;
  ev_mult : num A;
  ev_ecc : list (Z * num A)           (* std::map<int, double>, sorted by key *)
}.
Arguments Event {A}. Arguments ev_mean {A}. Arguments ev_norm {A}. Arguments ev_dxy {A}.
Arguments ev_nsteps {A}. Arguments ev_xymax {A}. Arguments ev_TA {A}. Arguments ev_TB {A}.
Arguments ev_TR {A}. Arguments ev_ixcm {A}. Arguments ev_iycm {A}. Arguments ev_npart {A}.
Arguments ev_mult {A}. Arguments ev_ecc {A}.

Section Event.
Context {A : Arith}.
Local Open Scope num_scope.

(** event.cxx:18. *)
Definition tiny : num A := nlit A 1 (-12).

(** event.cxx:22-37. *)
Definition positive_pmean (p a b : num A) : num A :=
  npow A (nlit A 5 (-1) * (npow A a p + npow A b p)) (nlit A 1 0 / p).
Definition negative_pmean (p a b : num A) : num A :=
  if (a <? tiny) || (b <? tiny) then nlit A 0 0 else positive_pmean p a b.
Definition geometric_mean (a b : num A) : num A := nsqrt A (a * b).

Definition gen_mean (g : gmean A) (a b : num A) : num A :=
  match g with
  | GGeometric => geometric_mean a b
  | GPositive p => positive_pmean p a b
  | GNegative p => negative_pmean p a b
  end.

(** Conversion of a double to int: undefined behaviour if not representable. *)
Definition to_int (x : num A) : result Z :=
  match ntrunc A x with
  | Some z => if in_int z then Ret z else UB UbFloatToInt
  | None => UB UbFloatToInt
  end.

(** ** Grid access: every access is bounds-checked *)

Definition zeros (n : Z) : grid A := repeat (repeat (nlit A 0 0) (Z.to_nat n)) (Z.to_nat n).

(** TX[iy][ix] *)
Definition grid_get (g : grid A) (iy ix : Z) : result (num A) :=
  if ((iy <? 0) || (ix <? 0))%Z%bool then UB UbIndex
  else match nth_error g (Z.to_nat iy) with
       | None => UB UbIndex
       | Some row => match nth_error row (Z.to_nat ix) with
                     | None => UB UbIndex
                     | Some x => Ret x
                     end
       end.

Fixpoint list_set {X} (l : list X) (i : nat) (x : X) : list X :=
  match l, i with
  | [], _ => []
  | _ :: l', O => x :: l'
  | y :: l', S i' => y :: list_set l' i' x
  end.

(** TX[iy][ix] = x *)
Definition grid_set (g : grid A) (iy ix : Z) (x : num A) : result (grid A) :=
  letr _ := grid_get g iy ix in
  match nth_error g (Z.to_nat iy) with
  | None => UB UbIndex
  | Some row => Ret (list_set g (Z.to_nat iy) (list_set row (Z.to_nat ix) x))
  end.

(** event.cxx:48-76 [Event::Event]. *)
Definition choose_mean (p : num A) : gmean A :=
  if nabs A p <? tiny then GGeometric
  else if p >? nlit A 0 0 then GPositive p
  else GNegative p.

Definition event_new (cfg : config A) : result (event A) :=
  let dxy := grid_step cfg in
  letr nsteps := to_int (nceil A (nlit A 2 0 * grid_max cfg / dxy)) in
  let xymax := nlit A 5 (-1) * nofZ A nsteps * dxy in
  Ret {| ev_mean := choose_mean (reduced_thickness cfg);
         ev_norm := normalization cfg; ev_dxy := dxy; ev_nsteps := nsteps; ev_xymax := xymax;
         ev_TA := zeros nsteps; ev_TB := zeros nsteps; ev_TR := zeros nsteps;
         ev_ixcm := nlit A 0 0; ev_iycm := nlit A 0 0; ev_npart := 0;
         ev_mult := nlit A 0 0; ev_ecc := [] |}.

(** event.cxx:92-99 [clip]. *)
Definition clip (value min max : Z) : Z :=
  if (value <? min)%Z then min else if (max <? value)%Z then max else value.

(** event.cxx:126: clip(static_cast<int>((b+xymax_)/dxy_), 0, nsteps_-1). *)
Definition cell_index (dxy xymax : num A) (nsteps : Z) (b : num A) : result Z :=
  letr i := to_int ((b + xymax) / dxy) in
  Ret (clip i 0 (nsteps - 1)).

(** event.cxx:135: (ix+.5)*dxy_ - xymax_. *)
Definition cell_centre (dxy xymax : num A) (i : Z) : num A :=
  (nofZ A i + nlit A 5 (-1)) * dxy - xymax.

(** event.cxx:122-138: deposit one participant. *)
Definition deposit (dbg : bool) (nc : nucleon_common A) (dxy xymax : num A) (nsteps : Z)
    (n : nucleon A) (TX : grid A) : result (grid A) :=
  letr (b0, b1, b2, b3) := boundary nc n in
  letr ixmin := cell_index dxy xymax nsteps b0 in
  letr ixmax := cell_index dxy xymax nsteps b1 in
  letr iymin := cell_index dxy xymax nsteps b2 in
  letr iymax := cell_index dxy xymax nsteps b3 in
  rfold (fun g iy =>
    rfold (fun g' ix =>
      letr old := grid_get g' iy ix in
      letr t := thickness dbg nc n (cell_centre dxy xymax ix) (cell_centre dxy xymax iy) in
      grid_set g' iy ix (old + t))
      (zrange ixmin ixmax) g)
    (zrange iymin iymax) TX.

(** event.cxx:103-140 [compute_nuclear_thickness]: returns the grid and the
    number of participants counted (++npart_). *)
Definition compute_nuclear_thickness (dbg : bool) (nc : nucleon_common A) (dxy xymax : num A)
    (nsteps : Z) (ns : list (nucleon A)) (npart : Z) : result (grid A * Z) :=
  rfold (fun acc n =>
    let '(g, k) := acc in
    if n_part n then
      letr g' := deposit dbg nc dxy xymax nsteps n g in Ret (g', (k + 1)%Z)
    else Ret (g, k)) ns (zeros nsteps, npart).

(** All cells in the order of the nested loops: for iy, for ix (event.cxx:148-149, 177-178). *)
Definition cells (nsteps : Z) : list (Z * Z) :=
  flat_map (fun iy => map (fun ix => (iy, ix)) (zupto nsteps)) (zupto nsteps).

(** event.cxx:142-163 [compute_reduced_thickness]. *)
Record rsum : Type := Rsum { r_TR : grid A; r_sum : num A; r_ix : num A; r_iy : num A }.

Definition reduced_step (g : gmean A) (norm : num A) (TA TB : grid A) (acc : rsum) (c : Z * Z)
  : result rsum :=
  let '(iy, ix) := c in
  letr a := grid_get TA iy ix in
  letr b := grid_get TB iy ix in
  let t := norm * gen_mean g a b in
  letr TR' := grid_set (r_TR acc) iy ix t in
  Ret (Rsum TR' (r_sum acc + t) (r_ix acc + t * nofZ A ix) (r_iy acc + t * nofZ A iy)).

Definition compute_reduced_thickness (ev : event A) (TA TB : grid A) : result (grid A * num A * num A * num A) :=
  letr s := rfold (reduced_step (ev_mean ev) (ev_norm ev) TA TB) (cells (ev_nsteps ev))
              (Rsum (ev_TR ev) (nlit A 0 0) (nlit A 0 0) (nlit A 0 0)) in
  Ret (r_TR s, ev_dxy ev * ev_dxy ev * r_sum s, r_ix s / r_sum s, r_iy s / r_sum s).

(** event.cxx:169-175 [EccentricityAccumulator]. *)
Record ecc_acc : Type := EccAcc { e_re : num A; e_im : num A; e_wt : num A }.
Definition ecc_zero : ecc_acc := EccAcc (nlit A 0 0) (nlit A 0 0) (nlit A 0 0).
Definition ecc_finish (e : ecc_acc) : num A :=
  nsqrt A (e_re e * e_re e + e_im e * e_im e) / nfmax A (e_wt e) tiny.
Definition ecc_add (e : ecc_acc) (re im wt : num A) : ecc_acc :=
  EccAcc (e_re e + re) (e_im e + im) (e_wt e + wt).

(** event.cxx:183-241: the contributions of one cell. *)
Definition obs_cell (ixcm iycm t : num A) (iy ix : Z)
    (acc : ecc_acc * ecc_acc * ecc_acc * ecc_acc) : ecc_acc * ecc_acc * ecc_acc * ecc_acc :=
  let '(e2, e3, e4, e5) := acc in
  let x := nofZ A ix - ixcm in
  let x2 := x * x in
  let x3 := x2 * x in
  let x4 := x2 * x2 in
  let y := nofZ A iy - iycm in
  let y2 := y * y in
  let y3 := y2 * y in
  let y4 := y2 * y2 in
  let r2 := x2 + y2 in
  let r := nsqrt A r2 in
  let r4 := r2 * r2 in
  let xy := x * y in
  let x2y2 := x2 * y2 in
  let two := nlit A 2 0 in
  let three := nlit A 3 0 in
  let four := nlit A 4 0 in
  let five := nlit A 5 0 in
  let six := nlit A 6 0 in
  let ten := nlit A 10 0 in
  (ecc_add e2 (t * (y2 - x2)) (t * two * xy) (t * r2),
   ecc_add e3 (t * (y3 - three * y * x2)) (t * (three * x * y2 - x3)) (t * r2 * r),
   ecc_add e4 (t * (x4 + y4 - six * x2y2)) (t * four * xy * (y2 - x2)) (t * r4),
   ecc_add e5 (t * y * (five * x4 - ten * x2y2 + y4)) (t * x * (x4 - ten * x2y2 + five * y4)) (t * r4 * r)).

(** event.cxx:165-249 [compute_observables]. *)
Definition compute_observables (nsteps : Z) (TR : grid A) (ixcm iycm : num A)
  : result (num A * num A * num A * num A) :=
  letr (e2, e3, e4, e5) :=
    rfold (fun acc (c : Z * Z) =>
      let '(iy, ix) := c in
      letr t := grid_get TR iy ix in
      if t <? tiny then Ret acc else Ret (obs_cell ixcm iycm t iy ix acc))
      (cells nsteps) (ecc_zero, ecc_zero, ecc_zero, ecc_zero) in
  Ret (ecc_finish e2, ecc_finish e3, ecc_finish e4, ecc_finish e5).

(** eccentricity_[k] = v on the sorted map. *)
Fixpoint map_set (m : list (Z * num A)) (k : Z) (v : num A) : list (Z * num A) :=
  match m with
  | [] => [(k, v)]
  | (k', v') :: m' =>
      if (k <? k')%Z then (k, v) :: m
      else if (k =? k')%Z then (k, v) :: m'
      else (k', v') :: map_set m' k v
  end.

(** event.cxx:78-86 [Event::compute]. *)
Definition event_compute (dbg : bool) (ev : event A) (nA nB : list (nucleon A))
    (nc : nucleon_common A) : result (event A) :=
  letr (TA, k) := compute_nuclear_thickness dbg nc (ev_dxy ev) (ev_xymax ev) (ev_nsteps ev) nA 0 in
  letr (TB, k') := compute_nuclear_thickness dbg nc (ev_dxy ev) (ev_xymax ev) (ev_nsteps ev) nB k in
  letr (TR, mult, ixcm, iycm) := compute_reduced_thickness ev TA TB in
  letr (e2, e3, e4, e5) := compute_observables (ev_nsteps ev) TR ixcm iycm in
  Ret {| ev_mean := ev_mean ev; ev_norm := ev_norm ev; ev_dxy := ev_dxy ev;
         ev_nsteps := ev_nsteps ev; ev_xymax := ev_xymax ev;
         ev_TA := TA; ev_TB := TB; ev_TR := TR; ev_ixcm := ixcm; ev_iycm := iycm;
         ev_npart := k'; ev_mult := mult;
         ev_ecc := map_set (map_set (map_set (map_set (ev_ecc ev) 2 e2) 3 e3) 4 e4) 5 e5 |}.

End Event.
Arguments rsum : clear implicits. Arguments ecc_acc : clear implicits.
