(* input_reader.c: the input file.  Text is a list of character codes.  The text of the file is what fopen/fscanf deliver;
   a call of fscanf that would write outside the arrays of 64 characters or outside the 64 entries is undefined (None).
   Messages are not modelled. *)
From Coq Require Import Ascii String.
From Verif Require Import CInt TextModel.
Import ListNotations.
Open Scope Z_scope.

(* conversion %s after white space: the characters up to the next white space *)
Fixpoint word (s : list Z) : list Z * list Z :=
  match s with
  | [] => ([], [])
  | c :: r => if space c then ([], s) else let '(w, r') := word r in (c :: w, r')
  end.
(* fscanf( setup , "%s = %s" , TOKEN , VALUE ), line 53: None is EOF; an entry whose second conversion did not happen
   keeps the empty VALUE of calloc.  What follows the last character used stays in the stream. *)
Definition scan_entry (s : list Z) : option (list Z * list Z * list Z) :=
  match skip_ws s with
  | [] => None
  | s1 => let '(t, r) := word s1 in
          match skip_ws r with
          | [] => Some (t, [], [])
          | c :: r' => if c =? 61 then let '(v, r3) := word (skip_ws r') in Some (t, v, r3) else Some (t, [], c :: r')
          end
  end.
Definition entry : Type := (list Z * list Z)%type.
Definition fits (w : list Z) : bool := Nat.ltb (length w) 64.
(* lines 47-56: tbl holds INPUT[0 .. NTAGS], the entry about to be written has index length tbl.
   calloc has set every entry to the empty string, and INPUT[0] stays so. *)
Fixpoint pack_loop (fuel : nat) (tbl : list entry) (s : list Z) : option (list entry) :=
  match fuel with
  | O => Some tbl
  | S f => match scan_entry s with
           | None => Some tbl
           | Some (t, v, r) => if Nat.ltb (length tbl) 64 && fits t && fits v then pack_loop f (tbl ++ [(t, v)]) r else None
           end
  end.
(* NTAGS is static: ntags is its value before the call (0 for the first one).  Every call of fscanf that is not EOF uses up
   at least one character, so length s + 1 rounds are enough. *)
Definition pack_inputs (ntags : nat) (s : list Z) : option (list entry) :=
  pack_loop (S (length s)) (repeat ([], []) (S ntags)) s.

(* lines 76-84, None is -1; are_equal is strcmp() == 0 *)
Fixpoint search_from (i : nat) (tbl : list entry) (tag : list Z) : option nat :=
  match tbl with
  | [] => None
  | e :: r => if streq (fst e) tag then Some i else search_from (S i) r tag
  end.
Definition tag_search (tbl : list entry) (tag : list Z) : option nat := search_from 0 tbl tag.
(* INPUT[idx].VALUE: undefined (None) for an index outside, in particular for -1 *)
Definition VALUE (tbl : list entry) (idx : option nat) : option (list Z) :=
  match idx with None => None | Some i => option_map snd (nth_error tbl i) end.
(* the tests of the kind are_equal( INPUT[idx].VALUE , "..." ) in order *)
Fixpoint choose {A} (v : list Z) (l : list (list Z * A)) (default : A) : A :=
  match l with
  | [] => default
  | (name, a) :: r => if streq v name then a else choose v r default
  end.

(* strtol( s , &endptr , 10 ): whether a number was found, whether it is in range, the value returned *)
Definition LONG_MAX : Z := two63 - 1.
Definition LONG_MIN : Z := - two63.
Definition strtol (s : list Z) : bool * bool * Z :=
  let '(neg, r) := take_sign (skip_ws (cstr s)) in
  let '(k, v, _) := get_digits 10 r 0 0 in
  match k with
  | O => (false, true, 0)
  | _ => let v := if neg : bool then - v else v in
         if LONG_MAX <? v then (true, false, LONG_MAX) else if v <? LONG_MIN then (true, false, LONG_MIN) else (true, true, v)
  end.
(* lines 86-101: success and the value of the variable afterwards.  old is its value before. *)
Definition setint (tbl : list entry) (old : Z) (tag : list Z) : bool * Z :=
  match VALUE tbl (tag_search tbl tag) with
  | None => (false, old)
  | Some s => let '(found, inrange, v) := strtol s in (found && inrange, u64 v)
  end.
Definition getint (tbl : list entry) (tag : list Z) : option Z := let '(ok, v) := setint tbl 0 tag in if ok then Some v else None.

Inductive GLU_mode := MODE_REWRITE | MODE_GF | MODE_CUTS | MODE_SMEARING | MODE_CROSS_U1 | MODE_HEATBATH.
Inductive GLU_output := OUTPUT_SMALL | OUTPUT_GAUGE | OUTPUT_NCxNC | OUTPUT_MILC | OUTPUT_ILDG | OUTPUT_SCIDAC | OUTPUT_HIREP | OUTPUT_CERN.
Inductive header_mode := UNSUPPORTED | NERSC_HEADER | HIREP_HEADER | MILC_HEADER | SCIDAC_HEADER | ILDG_SCIDAC_HEADER | ILDG_BQCD_HEADER
  | JLQCD_HEADER | LIME_HEADER | CERN_HEADER | RANDOM_CONFIG | UNIT_GAUGE | INSTANTON.
Inductive cut_mode := EXCEPTIONAL | NONEXCEPTIONAL | FIELDS | SMEARED_GLUONS | INSTANTANEOUS_GLUONS | CONFIGSPACE_GLUONS | GLUON_PROPS
  | STATIC_POTENTIAL | TOPOLOGICAL_CORRELATOR | TOPOLOGICAL_MOMENTS | TOPOLOGICAL_SUSCEPTIBILITY | GLU_NOCUTS.
Inductive momentum_cut_def := HYPERCUBIC_CUT | PSQ_CUT | CYLINDER_CUT | CYLINDER_AND_CONICAL_CUT.
Inductive lie_field_def := LINEAR_DEF | LOG_DEF.
Inductive GLU_fixing := DEFAULT_NOFIX | GLU_AXIALT_FIX | GLU_COULOMB_FIX | GLU_COULOMB_RESIDUAL_FIX | GLU_LANDAU_FIX | GLU_MAG_FIX.
Inductive smearing_types := SM_NOSMEARING | SM_APE | SM_STOUT | SM_LOG | SM_HYP | SM_HEX | SM_HYL | SM_WFLOW_STOUT | SM_WFLOW_LOG
  | SM_ADAPTWFLOW_STOUT | SM_ADAPTWFLOW_LOG.
Inductive U1_meas := U1_PLAQUETTE | U1_RECTANGLE | U1_TOPOLOGICAL.

Local Open Scope string_scope.
Local Open Scope Z_scope.
(* the lists of names, in the order of the tests *)
Definition mode_names : list (list Z * GLU_mode) :=                                                        (* lines 175-187 *)
  [(str "GAUGE_FIXING", MODE_GF); (str "CUTTING", MODE_CUTS); (str "SMEARING", MODE_SMEARING); (str "SUNCxU1", MODE_CROSS_U1);
   (str "HEATBATH", MODE_HEATBATH)].
Definition cut_names : list (list Z * option cut_mode) :=                                                  (* lines 362-383 *)
  [(str "EXCEPTIONAL", Some EXCEPTIONAL); (str "NON_EXCEPTIONAL", Some NONEXCEPTIONAL); (str "FIELDS", Some FIELDS);
   (str "SMEARED_GLUONS", Some SMEARED_GLUONS); (str "INSTANTANEOUS_GLUONS", Some INSTANTANEOUS_GLUONS);
   (str "CONFIGSPACE_GLUONS", Some CONFIGSPACE_GLUONS); (str "GLUON_PROPS", Some GLUON_PROPS);
   (str "STATIC_POTENTIAL", Some STATIC_POTENTIAL); (str "TOPOLOGICAL_CORRELATOR", Some TOPOLOGICAL_CORRELATOR);
   (str "TOPOLOGICAL_SUSCEPTIBILITY", Some TOPOLOGICAL_SUSCEPTIBILITY); (str "TOPOLOGICAL_MOMENTS", Some TOPOLOGICAL_MOMENTS)].
Definition momcut_names : list (list Z * momentum_cut_def) :=                                              (* lines 395-407 *)
  [(str "HYPERCUBIC_CUT", HYPERCUBIC_CUT); (str "SPHERICAL_CUT", PSQ_CUT); (str "CYLINDER_CUT", CYLINDER_CUT);
   (str "CONICAL_CUT", CYLINDER_AND_CONICAL_CUT)].
Definition gf_names : list (list Z * GLU_fixing) :=                                                        (* lines 452-462 *)
  [(str "AXIALT", GLU_AXIALT_FIX); (str "COULOMB", GLU_COULOMB_FIX); (str "COULOMB_RESIDUAL", GLU_COULOMB_RESIDUAL_FIX);
   (str "LANDAU", GLU_LANDAU_FIX); (str "MAG", GLU_MAG_FIX)].
Definition smear_names : list (list Z * smearing_types) :=                                                 (* lines 527-546 *)
  [(str "APE", SM_APE); (str "STOUT", SM_STOUT); (str "LOG", SM_LOG); (str "HYP", SM_HYP); (str "HEX", SM_HEX); (str "HYL", SM_HYL);
   (str "WFLOW_LOG", SM_WFLOW_LOG); (str "WFLOW_STOUT", SM_WFLOW_STOUT); (str "ADAPTWFLOW_LOG", SM_ADAPTWFLOW_LOG);
   (str "ADAPTWFLOW_STOUT", SM_ADAPTWFLOW_STOUT)].
Definition u1_names : list (list Z * U1_meas) := [(str "U1_RECTANGLE", U1_RECTANGLE); (str "U1_TOPOLOGICAL", U1_TOPOLOGICAL)]. (* 502-506 *)
Definition header_names : list (list Z * header_mode) :=                                                   (* lines 248-313 *)
  [(str "NERSC", NERSC_HEADER); (str "HIREP", HIREP_HEADER); (str "CERN", CERN_HEADER); (str "MILC", MILC_HEADER);
   (str "SCIDAC", SCIDAC_HEADER); (str "LIME", LIME_HEADER); (str "ILDG_SCIDAC", ILDG_SCIDAC_HEADER); (str "ILDG_BQCD", ILDG_BQCD_HEADER);
   (str "JLQCD", JLQCD_HEADER); (str "RANDOM", RANDOM_CONFIG); (str "UNIT", UNIT_GAUGE); (str "INSTANTON", INSTANTON)].

Section Floats.
(* double, strtod on a C string (None: nothing converted or ERANGE), and pow( 10 , -x ) *)
Context {D : Type}.
Variable strtod : list Z -> option D.
Variable pow10m : D -> D.
(* lines 103-118 *)
Definition setdbl (tbl : list entry) (tag : list Z) : option D :=
  match VALUE tbl (tag_search tbl tag) with None => None | Some s => strtod (cstr s) end.

(* what get_input_data leaves in INFILE and Latt when it returns GLU_SUCCESS.  An option is None where nothing is stored. *)
Record cut_info := { c_dir : cut_mode; c_rest : option (momentum_cut_def * lie_field_def * (Z * Z * Z) * D * list Z) }.
Record gf_info := { g_type : GLU_fixing; g_accuracy : D; g_max_iters : Z; g_alpha : D }.
Record hb_info := { h_beta : D; h_therm : Z; h_iterations : Z; h_Nor : Z; h_Nsave : Z; h_Nmeasure : Z; h_continuation : bool }.
Record sm_info := { s_type : smearing_types; s_spatial : bool; s_smiters : Z; s_alpha : list D }.
Record u1_info := { u_alpha : D; u_charge : D; u_meas : U1_meas }.
Record infile := { i_mode : GLU_mode; i_seed : option Z; i_cut : cut_info; i_gf : gf_info; i_hb : hb_info; i_sm : sm_info; i_u1 : u1_info;
                   i_rtrans : bool; i_head : header_mode; i_flow : Z; i_dims : list (option Z); i_storage : GLU_output; i_details : list Z }.

(* lines 122-132 *)
Definition confno (tbl : list entry) : Z := let '(ok, v) := setint tbl 0 (str "CONFNO") in if ok then v else 0.
(* lines 134-153: success, the dimensions, CONFNO.  The loop stops at the first failure, dimensions after it are not set: None. *)
Fixpoint dims_loop (tbl : list entry) (mu left : nat) : bool * list (option Z) :=
  match left with
  | O => (true, [])
  | S l => let '(ok, v) := setint tbl 8 (str "DIM_" ++ dec (Z.of_nat mu))%list in
           if ok then let '(b, r) := dims_loop tbl (S mu) l in (b, Some v :: r) else (false, Some v :: repeat None l)
  end.
Definition read_random_lattice_info (ND : nat) (tbl : list entry) (flow : Z) : bool * list (option Z) * Z :=
  let '(ok, d) := dims_loop tbl 0 ND in
  if ok then let '(ok2, f) := setint tbl flow (str "CONFNO") in (ok2, d, f) else (false, d, flow).

(* lines 168-196; the outer None is undefined: "%u" of a number that does not fit *)
Definition get_mode (tbl : list entry) : option (option (GLU_mode * option Z)) :=
  match VALUE tbl (tag_search tbl (str "MODE")), VALUE tbl (tag_search tbl (str "SEED")) with
  | Some m, Some s => match scan_u 10 two32 s with None => None | Some x => Some (Some (choose m mode_names MODE_REWRITE, x)) end
  | _, _ => Some None
  end.
(* lines 198-236 *)
Definition out_details (NC : Z) (tbl : list entry) (mode : GLU_mode) : option GLU_output :=
  do v <- VALUE tbl (tag_search tbl (str "STORAGE"));
  let cross := match mode with MODE_CROSS_U1 => true | _ => false end in
  choose v [(str "NERSC_SMALL", Some (if (3 <? NC) || cross then OUTPUT_NCxNC else OUTPUT_SMALL));
            (str "NERSC_GAUGE", Some (if cross then OUTPUT_NCxNC else OUTPUT_GAUGE));
            (str "NERSC_NCxNC", Some OUTPUT_NCxNC); (str "HIREP", Some OUTPUT_HIREP); (str "MILC", Some OUTPUT_MILC);
            (str "SCIDAC", Some OUTPUT_SCIDAC); (str "ILDG", Some OUTPUT_ILDG); (str "CERN", Some OUTPUT_CERN)] None.
(* lines 238-319: header, Latt.flow, Latt.dims *)
Definition header_type (ND : nat) (tbl : list entry) : option (header_mode * Z * option (list (option Z))) :=
  do v <- VALUE tbl (tag_search tbl (str "HEADER"));
  let flow := confno tbl in
  match choose v header_names UNSUPPORTED with
  | UNSUPPORTED => None
  | (JLQCD_HEADER | RANDOM_CONFIG | INSTANTON) as h => let '(ok, d, f) := read_random_lattice_info ND tbl flow in if ok then Some (h, f, Some d) else None
  | UNIT_GAUGE => let '(_, d, f) := read_random_lattice_info ND tbl flow in Some (UNIT_GAUGE, f, Some d)
  | h => Some (h, flow, None)
  end.
(* lines 321-351 *)
Definition read_hb_struct (tbl : list entry) : option (D * (Z * Z * Z * Z * Z)) :=
  do beta <- setdbl tbl (str "BETA"); do therm <- getint tbl (str "THERM"); do its <- getint tbl (str "ITERS");
  do nor <- getint tbl (str "OVER_ITERS"); do nsave <- getint tbl (str "SAVE"); do nmeas <- getint tbl (str "MEASURE");
  Some (beta, (therm, its, nor, nsave, nmeas)).
(* lines 353-440: an unknown CUTTYPE returns success with the rest of the structure not set *)
Definition read_cuts_struct (tbl : list entry) : option cut_info :=
  do v <- VALUE tbl (tag_search tbl (str "CUTTYPE"));
  match choose v cut_names None with
  | None => Some {| c_dir := GLU_NOCUTS; c_rest := None |}
  | Some dir =>
    do m <- VALUE tbl (tag_search tbl (str "MOM_CUT"));
    do f <- VALUE tbl (tag_search tbl (str "FIELD_DEFINITION"));
    do max_t <- getint tbl (str "MAX_T"); do max_mom <- getint tbl (str "MAXMOM"); do angle <- getint tbl (str "ANGLE");
    do cyl <- setdbl tbl (str "CYL_WIDTH"); do out <- VALUE tbl (tag_search tbl (str "OUTPUT"));
    Some {| c_dir := dir; c_rest := Some (choose m momcut_names PSQ_CUT, choose f [(str "LOGARITHMIC", LOG_DEF)] LINEAR_DEF,
                                          (max_t, max_mom, angle), cyl, cstr out) |}
  end.
(* lines 442-482 *)
Definition read_gf_struct (tbl : list entry) : option gf_info :=
  do v <- VALUE tbl (tag_search tbl (str "GFTYPE"));
  do acc <- setdbl tbl (str "ACCURACY"); do its <- getint tbl (str "MAX_ITERS"); do tune <- setdbl tbl (str "GF_TUNE");
  Some {| g_type := choose v gf_names DEFAULT_NOFIX; g_accuracy := pow10m acc; g_max_iters := its; g_alpha := tune |}.
(* lines 484-509 *)
Definition read_suNC_x_U1 (tbl : list entry) : option u1_info :=
  do a <- setdbl tbl (str "U1_ALPHA"); do q <- setdbl tbl (str "U1_CHARGE"); do v <- VALUE tbl (tag_search tbl (str "U1_MEAS"));
  Some {| u_alpha := a; u_charge := q; u_meas := choose v u1_names U1_PLAQUETTE |}.
(* lines 511-518: no test of the index, None is undefined *)
Definition rtrans (tbl : list entry) : option bool :=
  do v <- VALUE tbl (tag_search tbl (str "RANDOM_TRANSFORM")); Some (streq v (str "YES")).
(* lines 520-580 *)
Fixpoint alphas (tbl : list entry) (mu left : nat) : option (list D) :=
  match left with
  | O => Some []
  | S l => do a <- setdbl tbl (str "ALPHA" ++ dec (Z.of_nat (mu + 1)))%list; do r <- alphas tbl (S mu) l; Some (a :: r)
  end.
Definition smearing_info (ND : nat) (tbl : list entry) : option sm_info :=
  do v <- VALUE tbl (tag_search tbl (str "SMEARTYPE")); do d <- VALUE tbl (tag_search tbl (str "DIRECTION"));
  do its <- getint tbl (str "SMITERS"); do al <- alphas tbl 0 (ND - 1);
  Some {| s_type := choose v smear_names SM_NOSMEARING; s_spatial := streq d (str "SPATIAL"); s_smiters := its; s_alpha := al |}.
(* lines 157-163, None is undefined *)
Definition config_information (tbl : list entry) : option (list Z) := option_map cstr (VALUE tbl (tag_search tbl (str "CONFIG_INFO"))).

Inductive outcome := Undefined | Failure | Success (r : infile).
(* lines 583-650.  Every reader runs whatever the others return, a failure is only counted; rtrans and config_information have no
   failure.  i_dims holds the dimensions read here (none for the headers that bring their own);
   a dimension left as it was is None.  (When MODE is missing, out_details tests an uninitialised mode; the call fails anyway.) *)
Definition get_input_table (NC : Z) (ND : nat) (tbl : list entry) : outcome :=
  match get_mode tbl, rtrans tbl, config_information tbl with
  | Some gm, Some rt, Some ci =>
    match gm with
    | None => Failure
    | Some (mode, seed) =>
      match read_cuts_struct tbl, read_gf_struct tbl, read_hb_struct tbl, smearing_info ND tbl with
      | Some cut, Some gf, Some (beta, (therm, its, nor, nsave, nmeas)), Some sm =>
        match read_suNC_x_U1 tbl, header_type ND tbl, out_details NC tbl mode with
        | Some u1, Some (head, flow, dims), Some st =>
          let fresh := match head with UNIT_GAUGE | RANDOM_CONFIG => true | _ => false end in
          Success {| i_mode := mode; i_seed := seed; i_cut := cut; i_gf := gf;
                     i_hb := {| h_beta := beta; h_therm := if fresh then therm else 0; h_iterations := its; h_Nor := nor; h_Nsave := nsave;
                                h_Nmeasure := nmeas; h_continuation := negb fresh |};
                     i_sm := sm; i_u1 := u1; i_rtrans := rt; i_head := head; i_flow := if fresh then 0 else flow;
                     i_dims := match dims with Some d => d | None => [] end;
                     i_storage := st; i_details := ci |}
        | _, _, _ => Failure
        end
      | _, _, _, _ => Failure
      end
    end
  | _, _, _ => Undefined
  end.
(* ntags: value of the static counter before the call *)
Definition get_input_data (NC : Z) (ND ntags : nat) (text : list Z) : outcome :=
  match pack_inputs ntags text with None => Undefined | Some tbl => get_input_table NC ND tbl end.
End Floats.
