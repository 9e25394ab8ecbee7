(** Model of src/output.cxx and src/output.h. *)
From Coq Require Import Ascii.
From Verif.Base Require Import Result Arith Rng.
From Verif.Model Require Import Config Nucleon Nucleus Event Text Files CrossSection.

(** output.h:38: the writer functions held by [Output] (closures with their
    captured values). *)
Inductive writer : Type :=
| WStdout (width : Z)                               (* output.cxx:175-181 *)
| WText (dir : string) (width : Z) (header : bool)  (* output.cxx:207-214 *)
| WHdf5 (path : string).                            (* output.cxx:190 *)

Section Output.
Context {A : Arith} (R : Rng A).
Local Open Scope string_scope.

(** output.cxx:25-48 [write_stream]: the characters written. *)
Definition stream_line (width evnum : Z) (b : num A) (nc : Z) (ev : event A) : string :=
  setw width (print_Z evnum)
  ++ setw 15 (print_fixed 10 (nfixed A 10 b))
  ++ setw 5 (print_Z (ev_npart ev))
  ++ (if (0 <? nc)%Z then setw 6 (print_Z nc) else "")
  ++ setw 18 (print_sci 10 (nsci A 10 (ev_mult ev)))
  ++ fold_right append "" (map (fun e => setw 14 (print_fixed 10 (nfixed A 10 (snd e)))) (ev_ecc ev))
  ++ newline.

(** Default float format with the given precision. *)
Definition print_default (prec : nat) (x : num A) : string :=
  print_general prec (nsci A (Z.of_nat prec - 1) x).

(** output.cxx:79-86: one row of the grid.  The do-while loop writes an element
    and advances until the iterator is at the last element. *)
Fixpoint row_text (prec : nat) (row : list (num A)) : result string :=
  match row with
  | [] => UB UbDerefEnd
  | x :: rest =>
      let s := print_default prec x ++ " " in
      match rest with
      | [y] => Ret (s ++ print_default prec y ++ newline)
      | _ => letr t := row_text prec rest in Ret (s ++ t)
      end
  end.

(** output.cxx:78-87. *)
Fixpoint grid_text (prec : nat) (g : grid A) : result string :=
  match g with
  | [] => Ret ""
  | row :: g' =>
      letr s := row_text prec row in
      letr t := grid_text prec g' in
      Ret (s ++ t)
  end.

(** output.cxx:58-72: the header. *)
Definition header_text (evnum : Z) (b : num A) (nc : Z) (ev : event A) : string :=
  "# event " ++ print_Z evnum ++ newline
  ++ "# b     = " ++ print_default 10 b ++ newline
  ++ "# npart = " ++ print_Z (ev_npart ev) ++ newline
  ++ (if (0 <? nc)%Z then "# ncoll = " ++ print_Z nc ++ newline else "")
  ++ "# mult  = " ++ print_default 10 (ev_mult ev) ++ newline
  ++ fold_right append ""
       (map (fun e => "# e" ++ print_Z (fst e) ++ "    = " ++ print_default 10 (snd e) ++ newline)
            (ev_ecc ev)).

(** output.cxx:54-55: the padded file name. *)
Definition text_file_name (width evnum : Z) : string :=
  pad_left "0"%char width (print_Z evnum) ++ ".dat".

(** output.cxx:50-88 [write_text_file].  setprecision(10) is only executed with
    the header; otherwise the stream's default precision 6 applies. *)
Definition event_text (evnum : Z) (b : num A) (nc : Z) (ev : event A) (header : bool) : result string :=
  letr g := grid_text (if header then 10 else 6) (ev_TR ev) in
  Ret ((if header then header_text evnum b nc ev else "") ++ g).

Definition write_text_file (dir : string) (width evnum : Z) (b : num A) (nc : Z) (ev : event A)
    (header : bool) : M (fs A) unit :=
  let* s := lift (event_text evnum b nc ev header) in
  write_file (path_join dir (text_file_name width evnum)) s.

(** output.cxx:116-118 [HDF5Writer::HDF5Writer]: creates or truncates the file. *)
Definition hdf5_open (path : string) : M (fs A) unit :=
  fun f =>
    match fs_lookup f path with
    | Some Dir => (Throw (H5Exception "unable to create file"), f)
    | _ => if parent_ok f path then (Ret tt, fs_set f path (H5File []))
           else (Throw (H5Exception "unable to create file"), f)
    end.

(** output.cxx:125. *)
Definition dataset_name (evnum : Z) : string := "event_" ++ print_Z evnum.

(** output.cxx:127-159: the dataset written for one event. *)
Definition event_dataset (b : num A) (nc : Z) (ev : event A) : h5dataset A :=
  H5Dataset [ev_nsteps ev; ev_nsteps ev] (concat (ev_TR ev))
    ([("b", VDouble b); ("npart", VInt (ev_npart ev))]
     ++ (if (0 <? nc)%Z then [("ncoll", VInt nc)] else [])
     ++ [("mult", VDouble (ev_mult ev))]
     ++ map (fun e => (("e" ++ print_Z (fst e))%string, VDouble (snd e))) (ev_ecc ev))%list.

(** output.cxx:120-160 [HDF5Writer::operator()].  A chunk dimension of zero and
    an existing dataset name make the library throw. *)
Definition hdf5_write (path : string) (evnum : Z) (b : num A) (nc : Z) (ev : event A) : M (fs A) unit :=
  fun f =>
    match fs_lookup f path with
    | Some (H5File objs) =>
        if (ev_nsteps ev <=? 0)%Z then (Throw (H5Exception "chunk dimension"), f)
        else if existsb (fun o => String.eqb (dataset_name evnum) (fst o)) objs
        then (Throw (H5Exception "dataset exists"), f)
        else (Ret tt, fs_set f path
               (H5File (objs ++ [(dataset_name evnum, ODataset (event_dataset b nc ev))])%list))
    | _ => (Throw (H5Exception "file is not open"), f)
    end.

(** Append to standard output. *)
Definition write_stdout (t : string) : M (sys R) unit :=
  fun s => (Ret tt, Sys (s_eng s) (s_fs s) (s_out s ++ t) (s_err s)).

(** One writer applied to one event. *)
Definition run_writer (w : writer) (evnum : Z) (b : num A) (nc : Z) (ev : event A) : M (sys R) unit :=
  match w with
  | WStdout width => write_stdout (stream_line width evnum b nc ev)
  | WText dir width header => in_fs R (write_text_file dir width evnum b nc ev header)
  | WHdf5 path => in_fs R (hdf5_write path evnum b nc ev)
  end.

(** output.h:41-45 [Output::operator()]. *)
Definition run_output (ws : list writer) (evnum : Z) (b : num A) (nc : Z) (ev : event A) : M (sys R) unit :=
  mfold (fun _ w => run_writer w evnum b nc ev) ws tt.

(** output.cxx:171: static_cast<int>(ceil(log10(nevents))). *)
Definition output_width (nevents : Z) : result Z :=
  to_int (nceil A (nlog10 A (nofZ A nevents))).

(** output.cxx:166-217 [Output::Output]. *)
Definition output_new (bd : build) (cfg : config A) : M (sys R) (list writer) :=
  let* width := lift (output_width (number_events cfg)) in
  let stdout_writers := if quiet cfg then [] else [WStdout width] in
  let* file_writers :=
    match output cfg with
    | None => ret []
    | Some path =>
        let* s := get in
        if filename_is_hdf5 path then
          if with_hdf5 bd then
            if fs_exists (s_fs s) path && negb (fs_is_empty (s_fs s) path)
            then throw (RuntimeError ("file '" ++ path ++ "' exists, will not overwrite"))
            else let* _ := in_fs R (hdf5_open path) in ret [WHdf5 path]
          else throw (RuntimeError "HDF5 output was not compiled")
        else
          let* _ :=
            if fs_exists (s_fs s) path then
              if negb (fs_is_empty (s_fs s) path)
              then throw (RuntimeError ("output directory '" ++ path ++ "' must be empty"))
              else ret tt
            else in_fs R (create_directories path) in
          ret [WText path width (negb (no_header cfg))]
    end in
  ret (stdout_writers ++ file_writers)%list.

End Output.
