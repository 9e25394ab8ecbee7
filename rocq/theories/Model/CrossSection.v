(** Model of the cross-section part of src/nucleon.cxx: the semi-analytic and
    Monte-Carlo determination of the partonic cross section and its disk cache. *)
From Coq Require Import Ascii.
From Verif.Base Require Import Result Arith Rng.
From Verif.Model Require Import Random Config Nucleon Text Files.

(** Everything outside the process that the program can read or write: the
    global random engine, files, the two standard streams. *)
Record sys {A} (R : Rng A) : Type := Sys {
  s_eng : engine R;
  s_fs : fs A;
  s_out : string;
  s_err : string
}.
Arguments Sys {A R}. Arguments s_eng {A R}. Arguments s_fs {A R}.
Arguments s_out {A R}. Arguments s_err {A R}.

(** Environment variables read by get_data_home. *)
Record env : Type := Env { xdg_data_home : option string; home : option string }.

(** math::tools::toms748_solve: given a (possibly effectful) function, a bracket
    and the limits, returns the final bracket.  Polymorphic in the state of the
    function; nothing is assumed about it here. *)
Record Solver (A : Arith) : Type := MkSolver {
  toms748 : forall S : Type,
    (num A -> M S (num A)) ->      (* the function *)
    num A -> num A ->              (* the bracket *)
    Z ->                           (* tolerance: bits of eps_tolerance *)
    Z ->                           (* maximum number of iterations *)
    M S (num A * num A)
}.
Arguments toms748 {A}.

Section CrossSection.
Context {A : Arith} (R : Rng A) (sv : Solver A).
Local Open Scope num_scope.

(** Lift engine and file-system actions to [sys]. *)
Definition in_eng {X} (m : M (engine R) X) : M (sys R) X :=
  fun s => let (r, e) := m (s_eng s) in (r, Sys e (s_fs s) (s_out s) (s_err s)).
Definition in_fs {X} (m : M (fs A) X) : M (sys R) X :=
  fun s => let (r, f) := m (s_fs s) in (r, Sys (s_eng s) f (s_out s) (s_err s)).

(** nucleon.cxx:53-58 [get_data_home]: constructing a path from a null pointer
    is undefined. *)
Definition get_data_home (e : env) : result string :=
  match xdg_data_home e with
  | Some p => Ret p
  | None => match home e with
            | Some h => Ret (path_join h ".local/share")
            | None => UB UbNullPtr
            end
  end.

(** nucleon.cxx:61-63. *)
Definition almost_equal (a b : num A) : bool := nabs A (a - b) <? nlit A 1 (-6).

(** catch (const std::domain_error&) { throw std::domain_error{msg}; } *)
Definition rethrow_domain {S X} (msg : string) (m : M S X) : M S X :=
  fun s => match m s with
           | (Throw (DomainError _), s') => (Throw (DomainError msg), s')
           | r => r
           end.

(** ** Semi-analytic determination, nucleon.cxx:85-134 *)

(** nucleon.cxx:112. *)
Definition analytic_rhs (sigma_nn width : num A) : num A :=
  sigma_nn / (nofZ A 4 * npi A * sqr width).

(** nucleon.cxx:115. *)
Definition analytic_c : num A := sqr (@max_impact_widths A) / nofZ A 4.

(** nucleon.cxx:119-123: the function whose root is sought. *)
Definition analytic_fn (rhs c x : num A) : num A :=
  c - nexpint A (- nexp A x) + nexpint A (- nexp A (x - c)) - rhs.

(** Tolerance bits: numeric_limits<double>::digits * 3 / 4 (nucleon.cxx:103-104). *)
Definition analytic_bits : Z := (53 * 3 / 4)%Z.

Definition analytic_partonic_cross_section (sigma_nn width : num A) : M (engine R) (num A) :=
  let rhs := analytic_rhs sigma_nn width in
  let c := analytic_c in
  rethrow_domain "unable to fit cross section -- nucleon width too small?"
    (let* (lo, hi) := toms748 sv (engine R) (fun x => ret (analytic_fn rhs c x))
                        (- nlit A 10 0) (nlit A 20 0) analytic_bits 1000 in
     let p := nlit A 5 (-1) * (lo + hi) in
     ret (nexp A p * nofZ A 4 * npi A * sqr width)).

(** ** Monte-Carlo determination, nucleon.cxx:264-337 *)

(** nucleon.h:331-337: members of MonteCarloCrossSection. *)
Record mc : Type := MC {
  mc_number : Z;
  mc_sampling_width : num A;
  mc_max_impact : num A;
  mc_width_sq : num A;
  mc_prefactor : num A
}.

(** nucleon.cxx:264-272. *)
Definition mc_new (cfg : config A) : mc :=
  let w := nucleon_width cfg in
  let v := constit_width cfg in
  let m := to_size (constit_number cfg) in
  {| mc_number := m;
     mc_sampling_width := calc_sampling_width w v (constit_number cfg);
     mc_max_impact := max_impact_widths * w;
     mc_width_sq := sqr v;
     mc_prefactor := none_div_two_pi A / sqr v / nofZ A m |}.

(** nucleon.h:339-343: constants. *)
Definition mc_n_max : Z := 10000000.
Definition mc_cache_size : Z := 1000000.
Definition mc_n_loops : Z := 10.
Definition mc_n_pass : Z := 10000.
Definition mc_tolerance : num A := nlit A 1 (-3).

(** nucleon.cxx:296-299, 301-304: draw the constituents of one nucleon. *)
Fixpoint mc_draw (k : nat) (c : cyclic) : M (engine R) (list (num A * num A) * cyclic) :=
  match k with
  | O => ret ([], c)
  | S k' =>
      let* (x, c1) := cyclic_draw R c in
      let* (y, c2) := cyclic_draw R c1 in
      let* (qs, c3) := mc_draw k' c2 in
      ret ((x, y) :: qs, c3)
  end.

(** nucleon.cxx:306-312. *)
Definition mc_pair (m : mc) (b : num A) (qA qB : num A * num A) : num A :=
  let distance_sq := sqr (fst qA - fst qB + b) + sqr (snd qA - snd qB) in
  nexp A (- (nlit A 25 (-2)) * distance_sq / mc_width_sq m).
Definition mc_overlap (m : mc) (b : num A) (qsA qsB : list (num A * num A)) : num A :=
  fold_left (fun acc qA => fold_left (fun acc' qB => acc' + mc_pair m b qA qB) qsB acc)
            qsA (nlit A 0 0).

(** nucleon.cxx:293-315: one sample of the miss probability. *)
Definition mc_sample (m : mc) (sigma_partonic : num A) (c : cyclic) : M (engine R) (num A * cyclic) :=
  let* u := draw_canonical R in
  let b := mc_max_impact m * nsqrt A u in
  let* (qsA, c1) := mc_draw (Z.to_nat (mc_number m)) c in
  let* (qsB, c2) := mc_draw (Z.to_nat (mc_number m)) c1 in
  let miss := nexp A (- sigma_partonic * mc_prefactor m
                        / (nlit A 2 0 * nofZ A (mc_number m)) * mc_overlap m b qsA qsB) in
  ret (miss, c2).

(** nucleon.cxx:317-318: the estimate after iteration [n] with accumulated
    miss probability [prob_miss]. *)
Definition mc_estimate (m : mc) (n : Z) (prob_miss : num A) : num A :=
  npi A * sqr (mc_max_impact m) * (nlit A 1 0 - prob_miss / nofZ A n).

(** nucleon.cxx:292-332: the loop; [todo] iterations are left, [n] is the loop
    counter. *)
Fixpoint mc_loop (m : mc) (sigma_partonic : num A) (todo : nat) (n : Z) (c : cyclic)
    (ref prob_miss : num A) (pass : Z) : M (engine R) (num A) :=
  match todo with
  | O => throw (OutOfRange "Partonic cross section failed to converge")
  | S todo' =>
      let* (miss, c') := mc_sample m sigma_partonic c in
      let prob_miss' := prob_miss + miss in
      let est := mc_estimate m n prob_miss' in
      let close := nabs A (est - ref) <? mc_tolerance in
      let pass' := if close then (pass + 1)%Z else 0%Z in
      let ref' := if close then ref else est in
      if (mc_n_pass <? pass')%Z then ret est
      else mc_loop m sigma_partonic todo' (n + 1) c' ref' prob_miss' pass'
  end.

(** nucleon.cxx:274-337 [MonteCarloCrossSection::operator()]. *)
Definition mc_cross_section (m : mc) (sigma_partonic : num A) : M (engine R) (num A) :=
  let* c := cyclic_new R (nlit A 0 0) (mc_sampling_width m) mc_cache_size mc_n_loops in
  mc_loop m sigma_partonic (Z.to_nat mc_n_max) 0 c (nlit A 0 0) (nlit A 0 0) 0.

(** nucleon.cxx:138-172 [numeric_partonic_cross_section]. *)
Definition numeric_partonic_cross_section (cfg : config A) : M (engine R) (num A) :=
  let m := mc_new cfg in
  let c := nofZ A 4 * npi A * sqr (constit_width cfg) in
  rethrow_domain "unable to fit cross section -- nucleon and/or constituent width too small?"
    (let* (lo, hi) := toms748 sv (engine R)
                        (fun p => let* est := mc_cross_section m (nexp A p * c) in
                                  ret (est - cross_section cfg))
                        (- nlit A 10 0) (nlit A 20 0) 8 20 in
     let p := nlit A 5 (-1) * (lo + hi) in
     ret (nexp A p * c)).

(** ** The disk cache, nucleon.cxx:176-244 *)

(** nucleon.cxx:184-188: the five variables, [None] while uninitialised. *)
Record cvars : Type := CVars {
  cv_number : option Z;
  cv_nw : option (num A);
  cv_cw : option (num A);
  cv_sigma : option (num A);
  cv_sp : option (num A)
}.
Definition cvars_uninit : cvars := CVars None None None None None.

Definition assign {X} (e : extracted X) (old : option X) : option X :=
  match e with Assigned x => Some x | Unchanged => old end.

(** nucleon.cxx:203-204: five chained extractions. *)
Definition read_entry (i : istream) (v : cvars) : istream * cvars :=
  let (e1, i1) := read_int i in
  let (e2, i2) := read_double A i1 in
  let (e3, i3) := read_double A i2 in
  let (e4, i4) := read_double A i3 in
  let (e5, i5) := read_double A i4 in
  (i5, CVars (assign e1 (cv_number v)) (assign e2 (cv_nw v)) (assign e3 (cv_cw v))
             (assign e4 (cv_sigma v)) (assign e5 (cv_sp v))).

Definition read_var {X} (o : option X) : result X :=
  match o with Some x => Ret x | None => UB UbUninit end.

(** nucleon.cxx:205-208: the comparison, left to right with short circuit. *)
Definition entry_matches (w v : num A) (m : Z) (sigma : num A) (cv : cvars) : result bool :=
  letr w' := read_var (cv_nw cv) in
  if negb (almost_equal w w') then Ret false else
  letr v' := read_var (cv_cw cv) in
  if negb (almost_equal v v') then Ret false else
  letr s' := read_var (cv_sigma cv) in
  if negb (almost_equal sigma s') then Ret false else
  letr m' := read_var (cv_number cv) in
  Ret (m =? m')%Z.

(** nucleon.cxx:202-211: the reading loop. *)
Fixpoint cache_loop (fuel : nat) (w v : num A) (m : Z) (sigma : num A) (i : istream) (cv : cvars)
  : result (option (num A)) :=
  if is_eof i then Ret None
  else match fuel with
  | O => OutOfFuel
  | S fuel' =>
      let (i', cv') := read_entry i cv in
      letr hit := entry_matches w v m sigma cv' in
      if (hit : bool) then letr sp := read_var (cv_sp cv') in Ret (Some sp)
      else cache_loop fuel' w v m sigma i' cv'
  end.

(** The text of a file opened for reading.  An HDF5 file starts with the byte
    0x89; reading a directory fails without reaching end-of-file: neither yields
    a number, which is all that matters here. *)
Definition file_text (n : node A) : string :=
  match n with
  | File s => s
  | H5File _ => String (ascii_of_nat 137) "HDF"
  | Dir => "<directory>"
  end.

(** nucleon.cxx:235-241: the line appended to the cache. *)
Definition cache_line (m : Z) (w v sigma sp : num A) : string :=
  pad_right space 4 (print_Z m)
  ++ setw 10 (print_fixed 6 (nfixed A 6 w))
  ++ setw 10 (print_fixed 6 (nfixed A 6 v))
  ++ setw 10 (print_fixed 6 (nfixed A 6 sigma))
  ++ setw 14 (print_sci 6 (nsci A 6 sp))
  ++ newline.

(** nucleon.cxx:223-226. *)
Definition compute_partonic (cfg : config A) : M (engine R) (num A) :=
  if (1 <? constit_number cfg)%Z then numeric_partonic_cross_section cfg
  else analytic_partonic_cross_section (cross_section cfg) (nucleon_width cfg).

Definition cache_path (data_home : string) : string :=
  path_join (path_join data_home "trento") "cross_section.cache".

(** nucleon.cxx:176-244 [partonic_cross_section].  [fuel] bounds the reading loop. *)
Definition partonic_cross_section (fuel : nat) (e : env) (cfg : config A) : M (sys R) (num A) :=
  let w := nucleon_width cfg in
  let v := constit_width cfg in
  let m := constit_number cfg in
  let sigma := cross_section cfg in
  let* dh := lift (get_data_home e) in
  let path := cache_path dh in
  let* _ := in_fs (create_directory (path_join dh "trento")) in
  let* s := get in
  let* hit :=
    match fs_lookup (s_fs s) path with
    | Some n => lift (cache_loop fuel w v m sigma (Istream (file_text n) false false) cvars_uninit)
    | None => ret None
    end in
  match hit with
  | Some sp => ret sp
  | None =>
      let* _ := in_fs (append_file path "") in               (* opens, creating the file *)
      let* sp := in_eng (compute_partonic cfg) in
      let* _ := in_fs (append_file path (cache_line m w v sigma sp)) in
      ret sp
  end.

End CrossSection.
Arguments mc : clear implicits. Arguments cvars : clear implicits.
