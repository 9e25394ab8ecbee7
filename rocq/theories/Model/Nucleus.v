(** Model of src/nucleus.cxx and src/nucleus.h. *)
From Verif.Base Require Import Result Arith Rng.
From Verif.Model Require Import Random Config Nucleon Files.

(** The Nucleus subclasses with their data members (nucleus.h:137-317). *)
Inductive nkind (A : Arith) : Type :=
| KProton
| KDeuteron (a b : num A)                                   (* a_, b_ *)
| KWoodsSaxon (R a dminsq : num A)                          (* R_, a_, dminsq_ *)
| KDeformed (R a beta2 beta4 rmax dminsq : num A)
| KManual (nconfigs nnuc : Z) (data : list (num A)) (rmax : num A).
Arguments KProton {A}. Arguments KDeuteron {A}. Arguments KWoodsSaxon {A}.
Arguments KDeformed {A}. Arguments KManual {A}.

(** nucleus.h:121-126. *)
Record nucleus (A : Arith) : Type := Nucleus {
  nu_kind : nkind A;
  nu_nucleons : list (nucleon A);
  nu_offset : num A
}.
Arguments Nucleus {A}. Arguments nu_kind {A}. Arguments nu_nucleons {A}. Arguments nu_offset {A}.

Section Nucleus.
Context {A : Arith}.
Local Open Scope num_scope.

(** nucleus.cxx:87 [Nucleus::Nucleus(A)]: A zeroed nucleons, offset 0. *)
Definition nucleus_new (k : nkind A) (n : nat) : nucleus A :=
  Nucleus k (repeat nucleon_zero n) (nofZ A 0).

(** nucleus.cxx:99. *)
Definition proton : nucleus A := nucleus_new KProton 1.

(** nucleus.cxx:113-117, default arguments nucleus.h:164. *)
Definition deuteron_of (a b : num A) : nucleus A :=
  nucleus_new (KDeuteron (nfmin A a b) (nfmax A a b)) 2.
Definition deuteron : nucleus A := deuteron_of (nlit A 457 (-3)) (nlit A 235 (-2)).

(** nucleus.cxx:162-165, 182-189. *)
Definition woods_saxon (n : nat) (R a dmin : num A) : nucleus A :=
  nucleus_new (KWoodsSaxon R a (dmin * dmin)) n.

(** nucleus.cxx:251-259. *)
Definition deformed_rmax (R a beta2 beta4 : num A) : num A :=
  R * (nlit A 1 0 + nlit A 63 (-2) * nabs A beta2 + nlit A 85 (-2) * nabs A beta4)
    + nlit A 10 0 * a.
Definition deformed (n : nat) (R a beta2 beta4 dmin : num A) : nucleus A :=
  nucleus_new (KDeformed R a beta2 beta4 (deformed_rmax R a beta2 beta4) (dmin * dmin)) n.

(** radius(): nucleus.cxx:102-104, 119-123, 195-197, 265-267, 486-488. *)
Definition radius (nu : nucleus A) : num A :=
  match nu_kind nu with
  | KProton => nlit A 0 0
  | KDeuteron a _ => - nlog A (nlit A 1 (-2)) / (nofZ A 2 * a)
  | KWoodsSaxon R a _ => R + nlit A 3 0 * a
  | KDeformed _ a _ _ rmax _ => rmax - nlit A 7 0 * a
  | KManual _ _ _ rmax => rmax
  end.

(** ** ManualNucleus::create *)

(** Bounds-checked access to a flat buffer. *)
Definition at_index (l : list (num A)) (i : Z) : result (num A) :=
  if (i <? 0)%Z then UB UbIndex
  else match nth_error l (Z.to_nat i) with Some x => Ret x | None => UB UbIndex end.

(** The three (float) coordinates of position number [i] of a flat buffer. *)
Definition position_at (data : list (num A)) (i : Z) : result (num A * num A * num A) :=
  letr x := at_index data (3 * i) in
  letr y := at_index data (3 * i + 1) in
  letr z := at_index data (3 * i + 2) in
  Ret (nof32 A x, nof32 A y, nof32 A z).

(** hdf5_utils.cxx:34-42 [try_open_file]. *)
Definition try_open_file (f : fs A) (path : string) : result (list (string * h5obj A)) :=
  match fs_lookup f path with
  | None => Throw (InvalidArgument ("file '" ++ path ++ "' does not exist")%string)
  | Some (H5File objs) => Ret objs
  | Some _ => Throw (InvalidArgument ("'" ++ path ++ "' is not a valid HDF5 file")%string)
  end.

(** nucleus.cxx:460-467: the largest squared distance, computed in float. *)
Definition rsq32 (p : num A * num A * num A) : num A :=
  let '(x, y, z) := p in
  nadd32 A (nadd32 A (nmul32 A x x) (nmul32 A y y)) (nmul32 A z z).

Definition max_rsq (data : list (num A)) (npos : Z) : result (num A) :=
  rfold (fun rmax_sq i =>
           letr p := position_at data i in
           let r_sq := rsq32 p in
           Ret (if r_sq >? rmax_sq then r_sq else rmax_sq))
        (zupto npos) (nlit A 0 0).

(** nucleus.cxx:406-474 [ManualNucleus::create] and 476-482.  [shape] is a
    std::array of 3 on the stack: [getSimpleExtentDims] writes one element per
    dimension, so more than three dimensions overrun it.  [500/A] is an unsigned
    integer division. *)
Definition manual_create (f : fs A) (path : string) : result (nucleus A) :=
  letr objs := try_open_file f path in
  match objs with
  | [(name, o)] =>
      match o with
      | OOther =>
          Throw (InvalidArgument
            ("object '" ++ name ++ "' in file '" ++ path ++ "' is not a dataset")%string)
      | ODataset ds =>
          if (3 <? Z.of_nat (length (ds_dims ds)))%Z then UB UbIndex
          else
          match ds_dims ds with
          | [nconfigs; nnuc; columns] =>
              if negb (columns =? 3)%Z then
                Throw (InvalidArgument
                  ("dataset '" ++ name ++ "' in file '" ++ path ++ "' has wrong columns (need 3)")%string)
              else if (nnuc =? 0)%Z then UB UbDivZero
              else
                let n := Z.min (500 / nnuc + 1) nconfigs in
                letr rmax_sq := max_rsq (ds_data ds) (n * nnuc) in
                let rmax := nsqrt A rmax_sq in
                Ret (nucleus_new (KManual nconfigs nnuc (ds_data ds) rmax) (Z.to_nat nnuc))
          | _ =>
              Throw (InvalidArgument
                ("dataset '" ++ name ++ "' in file '" ++ path ++ "' has wrong dimensions (need 3)")%string)
          end
      end
  | _ => Throw (InvalidArgument ("file '" ++ path ++ "' must contain exactly one object")%string)
  end.

(** nucleus.cxx:28-85 [Nucleus::create]. *)
Definition nucleus_create (bd : build) (f : fs A) (species : string) (dmin : num A)
  : result (nucleus A) :=
  if String.eqb species "p" then Ret proton
  else if String.eqb species "d" then Ret deuteron
  else if String.eqb species "Cu" then
    Ret (woods_saxon 63 (nlit A 420 (-2)) (nlit A 596 (-3)) dmin)
  else if String.eqb species "Cu2" then
    Ret (deformed 63 (nlit A 420 (-2)) (nlit A 596 (-3)) (nlit A 162 (-3)) (- nlit A 6 (-3)) dmin)
  else if String.eqb species "Xe" then
    Ret (woods_saxon 129 (nlit A 536 (-2)) (nlit A 590 (-3)) dmin)
  else if String.eqb species "Xe2" then
    Ret (deformed 129 (nlit A 536 (-2)) (nlit A 590 (-3)) (nlit A 162 (-3)) (- nlit A 3 (-3)) dmin)
  else if String.eqb species "Au" then
    Ret (woods_saxon 197 (nlit A 638 (-2)) (nlit A 535 (-3)) dmin)
  else if String.eqb species "Au2" then
    Ret (deformed 197 (nlit A 638 (-2)) (nlit A 535 (-3)) (- nlit A 131 (-3)) (- nlit A 31 (-3)) dmin)
  else if String.eqb species "Pb" then
    Ret (woods_saxon 208 (nlit A 662 (-2)) (nlit A 546 (-3)) dmin)
  else if String.eqb species "U" then
    Ret (deformed 238 (nlit A 681 (-2)) (nlit A 600 (-3)) (nlit A 280 (-3)) (nlit A 93 (-3)) dmin)
  else if String.eqb species "U2" then
    Ret (deformed 238 (nlit A 686 (-2)) (nlit A 420 (-3)) (nlit A 265 (-3)) (nlit A 0 (-3)) dmin)
  else if String.eqb species "U3" then
    Ret (deformed 238 (nlit A 667 (-2)) (nlit A 440 (-3)) (nlit A 280 (-3)) (nlit A 93 (-3)) dmin)
  else if filename_is_hdf5 species then
    if with_hdf5 bd then manual_create f species
    else Throw (InvalidArgument "HDF5 output was not compiled"%string)
  else Throw (InvalidArgument ("unknown projectile species: " ++ species)%string).

(** ** Sampling *)
Context (R : Rng A).

(** nucleus.cxx:94-97 [set_nucleon_position]. *)
Definition set_nucleon_position (offset : num A) (n : nucleon A) (x y z : num A) : nucleon A :=
  set_position n (x + offset) y z.

(** nucleus.cxx:107-109 [Proton::sample_nucleons_impl]. *)
Definition sample_proton (offset : num A) (ns : list (nucleon A)) : M (engine R) (list (nucleon A)) :=
  match ns with
  | n :: rest =>
      ret (set_nucleon_position offset n (nlit A 0 0) (nlit A 0 0) (nlit A 0 0) :: rest)
  | [] => undefined UbDerefEnd
  end.

(** nucleus.cxx:133-144: the rejection loop for the inter-nucleon radius. *)
Fixpoint deuteron_radius (fuel : nat) (a b : num A) : M (engine R) (num A) :=
  match fuel with
  | O => out_of_fuel
  | S fuel' =>
      let* u := draw_canonical R in
      let r := - nlog A u / (nofZ A 2 * a) in
      let prob := npow A (nexp A (- a * r) - nexp A (- b * r)) (nofZ A 2) / u in
      let* v := draw_canonical R in
      if prob <? v then deuteron_radius fuel' a b else ret r
  end.

(** nucleus.cxx:151-154, 228-231: polar to Cartesian coordinates. *)
Definition polar (r cos_th ph : num A) : num A * num A * num A :=
  let r_sin_theta := r * nsqrt A (nlit A 1 0 - cos_th * cos_th) in
  (r_sin_theta * ncos A ph, r_sin_theta * nsin A ph, r * cos_th).

(** nucleus.cxx:125-160 [Deuteron::sample_nucleons_impl]. *)
Definition sample_deuteron (fuel : nat) (a b offset : num A) (ns : list (nucleon A))
  : M (engine R) (list (nucleon A)) :=
  let* r := deuteron_radius fuel a b in
  let* c := cos_theta R in
  let* ph := phi R in
  let '(x, y, z) := polar r c ph in
  match ns with
  | n1 :: n2 :: rest =>
      ret (set_nucleon_position offset n1 x y z
           :: set_nucleon_position offset n2 (- x) (- y) (- z) :: rest)
  | _ => undefined UbDerefEnd
  end.

(** nucleus.cxx:167-178 [is_too_close]: [prev] are the nucleons before [n]. *)
Definition dist3_sq (n n2 : nucleon A) : num A :=
  let dx := n_x n - n_x n2 in
  let dy := n_y n - n_y n2 in
  let dz := n_z n - n_z n2 in
  dx * dx + dy * dy + dz * dz.

Definition is_too_close (dminsq : num A) (prev : list (nucleon A)) (n : nucleon A) : bool :=
  if dminsq <? nlit A 1 (-10) then false
  else existsb (fun n2 => dist3_sq n n2 <? dminsq) prev.

(** nucleus.cxx:220-243: the placement loop of one nucleon; [tries] attempts are
    left (the loop starts with 1000). *)
Fixpoint place_ws (tries : nat) (dminsq offset r : num A) (prev : list (nucleon A)) (n : nucleon A)
  : M (engine R) (nucleon A) :=
  match tries with
  | O => ret n
  | S tries' =>
      let* c := cos_theta R in
      let* ph := phi R in
      let '(x, y, z) := polar r c ph in
      let n' := set_nucleon_position offset n x y z in
      match tries' with
      | O => ret n'
      | S _ => if is_too_close dminsq prev n' then place_ws tries' dminsq offset r prev n'
               else ret n'
      end
  end.

(** nucleus.cxx:214-244: place every nucleon at the next radius. *)
Fixpoint place_all_ws (dminsq offset : num A) (radii : list (num A))
    (prev todo : list (nucleon A)) : M (engine R) (list (nucleon A)) :=
  match todo with
  | [] => ret prev
  | n :: todo' =>
      match radii with
      | [] => undefined UbDerefEnd
      | r :: radii' =>
          let* n' := place_ws 1000 dminsq offset r prev n in
          place_all_ws dminsq offset radii' (prev ++ [n']) todo'
      end
  end.

(** nucleus.cxx:187-188: the Woods-Saxon density with r^2 Jacobian. *)
Definition ws_weight (Rws a r : num A) : num A :=
  r * r / (nlit A 1 0 + nexp A ((r - Rws) / a)).

(** woods_saxon_dist_(random::engine) *)
Definition draw_ws (Rws a : num A) : M (engine R) (num A) :=
  act (pwl R 1000 (nlit A 0 0) (Rws + nlit A 10 0 * a) (ws_weight Rws a)).

(** nucleus.cxx:200-246 [WoodsSaxonNucleus::sample_nucleons_impl]. *)
Definition sample_ws (Rws a dminsq offset : num A) (ns : list (nucleon A))
  : M (engine R) (list (nucleon A)) :=
  let* radii := mrepeat (length ns) (draw_ws Rws a) in
  place_all_ws dminsq offset (sort_num R radii) [] ns.

(** nucleus.cxx:269-283 [deformed_woods_saxon_dist]. *)
Definition deformed_dist (Rws a beta2 beta4 r cos_th : num A) : num A :=
  let c2 := cos_th * cos_th in
  let Y20 := nsqrt A (nofZ A 5) / nlit A 4 0 * none_div_root_pi A * (nlit A 3 0 * c2 - nlit A 1 0) in
  let Y40 := nlit A 3 0 / nlit A 16 0 * none_div_root_pi A
             * (nlit A 35 0 * c2 * c2 - nlit A 30 0 * c2 + nlit A 3 0) in
  let Reff := Rws * (nlit A 1 0 + beta2 * Y20 + beta4 * Y40) in
  nlit A 1 0 / (nlit A 1 0 + nexp A ((r - Reff) / a)).

(** nucleus.cxx:318-324: rejection sampling of one (r, cos_theta). *)
Fixpoint sample_deformed_point (fuel : nat) (Rws a beta2 beta4 rmax : num A)
  : M (engine R) (num A * num A) :=
  match fuel with
  | O => out_of_fuel
  | S fuel' =>
      let* u := draw_canonical R in
      let r := rmax * ncbrt A u in
      let* c := cos_theta R in
      let* v := draw_canonical R in
      if v >? deformed_dist Rws a beta2 beta4 r c
      then sample_deformed_point fuel' Rws a beta2 beta4 rmax
      else ret (r, c)
  end.

(** nucleus.cxx:356-361: tilt and spin rotation. *)
Definition rotate_tilt_spin (cos_a sin_a cos_b sin_b : num A) (p : num A * num A * num A)
  : num A * num A * num A :=
  let '(x, y, z) := p in
  (x * cos_b - y * cos_a * sin_b + z * sin_a * sin_b,
   x * sin_b + y * cos_a * cos_b - z * sin_a * cos_b,
   y * sin_a + z * cos_a).

(** nucleus.cxx:346-378: placement loop of one nucleon; z changes sign at each retry. *)
Fixpoint place_deformed (tries : nat) (dminsq offset : num A) (rot : num A * num A * num A -> num A * num A * num A)
    (r_sin_theta z : num A) (prev : list (nucleon A)) (n : nucleon A) : M (engine R) (nucleon A) :=
  match tries with
  | O => ret n
  | S tries' =>
      let* ph := phi R in
      let x := r_sin_theta * ncos A ph in
      let y := r_sin_theta * nsin A ph in
      let '(x_rot, y_rot, z_rot) := rot (x, y, z) in
      let n' := set_nucleon_position offset n x_rot y_rot z_rot in
      let z' := z * nofZ A (-1) in
      match tries' with
      | O => ret n'
      | S _ => if is_too_close dminsq prev n'
               then place_deformed tries' dminsq offset rot r_sin_theta z' prev n'
               else ret n'
      end
  end.

(** nucleus.cxx:337-379. *)
Fixpoint place_all_deformed (dminsq offset : num A) (rot : num A * num A * num A -> num A * num A * num A)
    (samples : list (num A * num A)) (prev todo : list (nucleon A)) : M (engine R) (list (nucleon A)) :=
  match todo with
  | [] => ret prev
  | n :: todo' =>
      match samples with
      | [] => undefined UbDerefEnd
      | (r, c) :: samples' =>
          let r_sin_theta := r * nsqrt A (nlit A 1 0 - c * c) in
          let z := r * c in
          let* n' := place_deformed 1000 dminsq offset rot r_sin_theta z prev n in
          place_all_deformed dminsq offset rot samples' (prev ++ [n']) todo'
      end
  end.

(** nucleus.cxx:286-380 [DeformedWoodsSaxonNucleus::sample_nucleons_impl]. *)
Definition sample_deformed (fuel : nat) (Rws a beta2 beta4 rmax dminsq offset : num A)
    (ns : list (nucleon A)) : M (engine R) (list (nucleon A)) :=
  let* cos_a := cos_theta R in
  let sin_a := nsqrt A (nlit A 1 0 - cos_a * cos_a) in
  let* angle_b := phi R in
  let cos_b := ncos A angle_b in
  let sin_b := nsin A angle_b in
  let* samples := mrepeat (length ns) (sample_deformed_point fuel Rws a beta2 beta4 rmax) in
  place_all_deformed dminsq offset (rotate_tilt_spin cos_a sin_a cos_b sin_b)
    (sort_fst R samples) [] ns.

(** nucleus.cxx:519-522: the ZXZ Euler rotation. *)
Definition rotate_euler (c1 s1 c2 s2 c3 s3 : num A) (p : num A * num A * num A)
  : num A * num A * num A :=
  let '(x, y, z) := p in
  (x * (c1 * c3 - c2 * s1 * s3) - y * (c3 * s1 + c1 * c2 * s3) + z * s2 * s3,
   x * (c1 * s3 + c2 * c3 * s1) - y * (s1 * s3 - c1 * c2 * c3) - z * c3 * s2,
   x * s1 * s2 + y * c1 * s2 + z * c2).

(** nucleus.cxx:510-525: place all nucleons from consecutive positions. *)
Fixpoint place_manual (offset : num A) (rot : num A * num A * num A -> num A * num A * num A)
    (data : list (num A)) (i : Z) (ns : list (nucleon A)) : result (list (nucleon A)) :=
  match ns with
  | [] => Ret []
  | n :: ns' =>
      letr p := position_at data i in
      let '(x, y, z) := rot p in
      letr rest := place_manual offset rot data (i + 1) ns' in
      Ret (set_nucleon_position offset n x y z :: rest)
  end.

(** nucleus.cxx:490-526 [ManualNucleus::sample_nucleons_impl].  [nconfigs - 1] is
    a size_t (wraps for an empty dataset); selecting a row outside the dataset
    makes the HDF5 library throw. *)
Definition sample_manual (nconfigs nnuc : Z) (data : list (num A)) (offset : num A)
    (ns : list (nucleon A)) : M (engine R) (list (nucleon A)) :=
  let* angle_1 := phi R in
  let c1 := ncos A angle_1 in
  let s1 := nsin A angle_1 in
  let* c2 := cos_theta R in
  let s2 := nsqrt A (nlit A 1 0 - c2 * c2) in
  let* angle_3 := phi R in
  let c3 := ncos A angle_3 in
  let s3 := nsin A angle_3 in
  let* index := act (unif_int R 0 (to_size (nconfigs - 1))) in
  if (nconfigs <=? index)%Z then throw (H5Exception "hyperslab selection out of range")
  else lift (place_manual offset (rotate_euler c1 s1 c2 s2 c3 s3) data (index * nnuc) ns).

(** nucleus.cxx:89-92 [Nucleus::sample_nucleons] with the virtual call resolved.
    [fuel] bounds the rejection loops of the deuteron and the deformed nuclei. *)
Definition sample_nucleons (fuel : nat) (nu : nucleus A) (offset : num A)
  : M (engine R) (nucleus A) :=
  let ns := nu_nucleons nu in
  let* ns' :=
    match nu_kind nu with
    | KProton => sample_proton offset ns
    | KDeuteron a b => sample_deuteron fuel a b offset ns
    | KWoodsSaxon Rws a dminsq => sample_ws Rws a dminsq offset ns
    | KDeformed Rws a beta2 beta4 rmax dminsq =>
        sample_deformed fuel Rws a beta2 beta4 rmax dminsq offset ns
    | KManual nconfigs nnuc data _ => sample_manual nconfigs nnuc data offset ns
    end in
  ret (Nucleus (nu_kind nu) ns' offset).

End Nucleus.
