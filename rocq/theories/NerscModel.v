(* Model of the NERSC header: /repo/src/IO/write_headers.c 76-138 and read_headers.c 227-361,
   and of the integrity checks of /repo/src/IO/read_config.c 34-122.
   Doubles and floats are rational numbers (finite values only: infinities and NaNs are not modelled). *)
From Coq Require Import String QArith Qabs.
From Verif Require Import CInt TextModel HdrModel.
Open Scope Z_scope.

(* nearest integer to a/b, ties to even *)
Definition rne (a b : Z) : Z :=
  let q := a / b in let r := a mod b in
  if 2 * r <? b then q else if b <? 2 * r then q + 1 else if Z.even q then q else q + 1.

(* exactly k decimal digits *)
Fixpoint pad (k : nat) (n : Z) : list Z :=
  match k with O => [] | S k' => pad k' (n / 10) ++ [dig (n mod 10)] end.
(* printf "%1.15f": the nearest multiple of 10^-15 *)
Definition ten15 : Z := 10 ^ 15.
Definition fmt15 (q : Q) : list Z :=
  let N := rne (Z.abs (Qnum q) * ten15) (QDen q) in
  (if Qnum q <? 0 then str "-" else []) ++ dec (N / ten15) ++ str "." ++ pad 15 (N mod ten15).

(* the float nearest to q, ties to even, subnormals included; None = overflow *)
Definition fl32 (q : Q) : option Q :=
  let n := Z.abs (Qnum q) in let d := QDen q in
  if n =? 0 then Some 0%Q else
  let t := Z.log2 n - Z.log2 d in
  let E := if d * 2 ^ Z.max 0 t <=? n * 2 ^ Z.max 0 (- t) then t else t - 1 in
  let e := Z.max (E - 23) (-149) in
  let m := rne (n * 2 ^ Z.max 0 (- e)) (d * 2 ^ Z.max 0 e) in
  let v := (m * 2 ^ Z.max 0 e # Z.to_pos (2 ^ Z.max 0 (- e)))%Q in
  if Qle_bool (inject_Z (2 ^ 128)) v then None else Some (if Qnum q <? 0 then (- v)%Q else v).

(* sscanf "%f" of a plain decimal number: the number itself, before it is rounded to a float.
   None: no number, or a form not modelled (exponent, hexadecimal, inf, nan). *)
Definition scan_f (s : list Z) : option Q :=
  let '(neg, r) := take_sign (skip_ws (cstr s)) in
  let '(k, v, r1) := get_digits 10 r 0 0 in
  let '(j, w, r2) := match r1 with c :: r' => if c =? 46 then get_digits 10 r' 0 v else (O, v, r1) | [] => (O, v, r1) end in
  match (k + j)%nat with
  | O => None
  | _ => match r2 with
         | c :: _ => if existsb (Z.eqb c) (str "eExXpP") then None else Some ((if neg : bool then - w else w) # Z.to_pos (10 ^ Z.of_nat j))%Q
         | [] => Some ((if neg : bool then - w else w) # Z.to_pos (10 ^ Z.of_nat j))%Q
         end
  end.
(* chklat_stuff.c 50-62; None = GLU_FAILURE, Some None = nothing stored or not modelled *)
Definition get_float (s : list Z) (hdr : list (list Z * list Z)) : option (option Q) :=
  match get_string s hdr with
  | None => None
  | Some p => Some (match scan_f p with Some q => fl32 q | None => None end)
  end.

(* GLU_enum.h: GLU_output, as far as headers distinguish them *)
Inductive GLU_output := OUTPUT_SMALL | OUTPUT_GAUGE | OUTPUT_NCxNC | OUTPUT_OTHER.
Definition datatype (ND NC : Z) (type : GLU_output) : list Z :=
  match type with
  | OUTPUT_SMALL => dec ND ++ str "D_SU" ++ dec NC ++ str "_GAUGE_SMALL"
  | OUTPUT_GAUGE => dec ND ++ str "D_SU" ++ dec NC ++ str "_GAUGE"
  | _ => dec ND ++ str "D_SU" ++ dec NC ++ str "_GAUGE_" ++ dec NC ++ str "x" ++ dec NC
  end.
(* write_headers.c 122-135 *)
Definition float_format (single big : bool) : list Z :=
  if single then (if big then str "IEEE32BIG" else str "IEEE32LITTLE")
  else (if big then str "IEEE64BIG" else str "IEEE64LITTLE").

(* write_headers.c 76-138.  single: SINGLE_PREC; big: OUT_BIG; dims, flow: Latt.dims, Latt.flow;
   user: getenv( "USER" ); date: the text of get_date if HAVE_TIME_H *)
Definition write_header_NERSC (single big : bool) (NC : Z) (dims : list Z) (flow : Z)
           (tr plaq : Q) (chksum : Z) (details user : list Z) (date : option (list Z)) (type : GLU_output) : list Z :=
  let ND := Z.of_nat (List.length dims) in
  str "BEGIN_HEADER" ++ nl ++
  str "HDR_VERSION = 1.0" ++ nl ++
  str "DATATYPE = " ++ datatype ND NC type ++ nl ++
  str "STORAGE_FORMAT = 1.0" ++ nl ++
  List.concat (map (fun mu => str "DIMENSION_" ++ dec (Z.of_nat mu + 1) ++ str " = " ++ dec (nth mu dims 0) ++ nl) (seq 0 (List.length dims))) ++
  str "CHECKSUM = " ++ hex chksum ++ nl ++
  str "LINK_TRACE = " ++ fmt15 tr ++ nl ++
  str "PLAQUETTE = " ++ fmt15 plaq ++ nl ++
  List.concat (map (fun mu => str "BOUNDARY_" ++ dec (Z.of_nat mu + 1) ++ str " = PERIODIC" ++ nl) (seq 0 (List.length dims))) ++
  str "ENSEMBLE_ID = ukqcd" ++ nl ++
  str "SEQUENCE_NUMBER = " ++ dec flow ++ nl ++
  str "ENSEMBLE_LABEL = " ++ details ++ nl ++
  str "CREATOR_MACHINE = " ++ user ++ nl ++
  (match date with Some d => str "CREATION_DATE = " ++ d ++ nl | None => [] end) ++
  str "FLOATING_POINT = " ++ float_format single big ++ nl ++
  str "END_HEADER" ++ nl.

(* what the reader leaves in Latt and HEAD_DATA, and the rest of the stream *)
Record nersc := Nersc { n_flow : Z; n_dims : list Z; n_double : bool; n_big : bool; n_type : GLU_output;
                        n_checksum : Z; n_plaquette : Q; n_trace : Q; n_rest : list Z }.
Inductive nres := NOk (h : nersc) | NFail | NUndef.

(* read_headers.c 263-271: DIMENSION_1 ... *)
Fixpoint get_dims (mu : nat) (old : list Z) (hdr : list (list Z * list Z)) : option (list Z) + bool :=
  match old with
  | [] => inl (Some [])
  | d :: r => match get_size_t (str "DIMENSION_" ++ dec (Z.of_nat mu + 1)) hdr with
              | HFail => inr true
              | HBad => inl None
              | x => match get_dims (S mu) r hdr with
                     | inl (Some ds) => inl (Some ((match x with HNum z => z | _ => d end) :: ds))
                     | other => other
                     end
              end
  end.
(* read_headers.c 282-306: the precision (true = double) and endianness (true = big) *)
Definition float_type (v : list Z) : option (bool * bool) :=
  if streq (str " IEEE64BIG") v then Some (true, true)
  else if streq (str " IEEE32BIG") v then Some (false, true)
  else if streq (str " IEEE32") v then Some (false, true)
  else if streq (str " IEEE64LITTLE") v then Some (true, false)
  else if streq (str " IEEE32LITTLE") v then Some (false, false) else None.
(* read_headers.c 315-331 *)
Definition data_type (ND NC : Z) (v : list Z) : option GLU_output :=
  if streq (str " " ++ datatype ND NC OUTPUT_SMALL) v then Some OUTPUT_SMALL
  else if streq (str " " ++ datatype ND NC OUTPUT_GAUGE) v then Some OUTPUT_GAUGE
  else if streq (str " " ++ datatype ND NC OUTPUT_NCxNC) v then Some OUTPUT_NCxNC else None.

(* read_headers.c 227-361.  flow0, dims0: Latt.flow and Latt.dims before the call *)
Definition get_header_data_NERSC (NC : Z) (flow0 : Z) (dims0 : list Z) (f : list Z) : nres :=
  let ND := Z.of_nat (List.length dims0) in
  match get_header f with
  | HNull => NFail
  | HUndef => NUndef
  | Hdr hdr rest =>
      match get_size_t (str "SEQUENCE_NUMBER") hdr with
      | HFail => NFail
      | HBad => NUndef
      | x =>
        let flow := match x with HNum z => z | _ => flow0 end in
        if flow =? 0 then NFail else
        match get_dims 0 dims0 hdr with
        | inr _ => NFail
        | inl None => NUndef
        | inl (Some dims) =>
          match get_string (str "FLOATING_POINT") hdr with
          | None => NFail
          | Some v =>
            match float_type v with
            | None => NFail
            | Some (dbl, big) =>
              match get_string (str "DATATYPE") hdr with
              | None => NFail
              | Some v =>
                match data_type ND NC v with
                | None => NFail
                | Some type =>
                  match get_uint32_t (str "CHECKSUM") hdr with
                  | HFail => NFail
                  | HNum chk =>
                    match get_float (str "PLAQUETTE") hdr with
                    | None => NFail
                    | Some None => NUndef
                    | Some (Some plaq) =>
                      match get_float (str "LINK_TRACE") hdr with
                      | None => NFail
                      | Some None => NUndef
                      | Some (Some tr) => NOk (Nersc flow dims dbl big type chk plaq tr rest)
                      end
                    end
                  | _ => NUndef          (* check is not initialised *)
                  end
                end
              end
            end
          end
        end
      end
  end.

(* GLU_enum.h: header_mode *)
Inductive header_mode := UNSUPPORTED | NERSC_HEADER | HIREP_HEADER | MILC_HEADER | SCIDAC_HEADER | ILDG_SCIDAC_HEADER
  | ILDG_BQCD_HEADER | JLQCD_HEADER | LIME_HEADER | CERN_HEADER | RANDOM_CONFIG | UNIT_GAUGE | INSTANTON.
(* struct head_data, as far as check_sums uses it *)
Record head_data := HeadData { h_double : bool; h_checksum : Z; h_plaquette : Q; h_trace : Q }.
(* GLU_definitions.h: PLAQ_AND_TRACE_TOL = 1E-6, PREC_TOL = NC * 1.0E-14 (double) or NC * 1.0E-6 (single) *)
Definition PLAQ_AND_TRACE_TOL : Q := 1 # 1000000.
Definition PREC_TOL (single : bool) (NC : Z) : Q := if single then inject_Z NC * (1 # 1000000) else inject_Z NC * (1 # 100000000000000).
(* fabs( a - b ) > tol, in exact arithmetic *)
Definition differ (a b tol : Q) : bool := negb (Qle_bool (Qabs (a - b)) tol).

(* read_config.c 34-122; true = GLU_SUCCESS *)
Definition check_sums (single : bool) (NC : Z) (head : header_mode) (plaq tr : Q) (chksum : Z) (HEAD_DATA : head_data) : bool :=
  match head with
  | MILC_HEADER | ILDG_SCIDAC_HEADER | SCIDAC_HEADER => chksum =? h_checksum HEAD_DATA
  | ILDG_BQCD_HEADER =>
      let TTOL := if h_double HEAD_DATA then PLAQ_AND_TRACE_TOL else 1 # 1000000 in
      if differ (h_plaquette HEAD_DATA) plaq TTOL then false else chksum =? h_checksum HEAD_DATA
  | HIREP_HEADER | CERN_HEADER => negb (differ plaq (h_plaquette HEAD_DATA) (10 * PREC_TOL single NC))
  | NERSC_HEADER =>
      let error := (if chksum =? h_checksum HEAD_DATA then 0 else 1)
                 + (if differ plaq (h_plaquette HEAD_DATA) PLAQ_AND_TRACE_TOL then 1 else 0)
                 + (if differ tr (h_trace HEAD_DATA) PLAQ_AND_TRACE_TOL then 1 else 0) in
      negb (error =? 3)
  | LIME_HEADER | RANDOM_CONFIG | UNIT_GAUGE | INSTANTON | JLQCD_HEADER => true
  | UNSUPPORTED => false
  end.
