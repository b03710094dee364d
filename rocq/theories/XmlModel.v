(* Model of /repo/src/IO/XML_info.c (lines 34-249), of the use made of it in /repo/src/IO/Scidac.c (lines 68-148, 197-211) and of
   the writers of the headers in /repo/src/IO/Scidac.c (lines 215-396).
   Text is a list of character codes.  Successive calls strtok( NULL , "<>" ) walk through the list [tokens]; a call
   strtok( pch , " " ) in between replaces the text walked through by the token pch, as in C where there is one saved pointer.
   Undefined behaviour (access outside an array, strncmp of a null pointer, sscanf overflow, use of an unset variable) is XUndef / HUndef.
   Not modelled: messages, the plaquette of a bqcd-plaquette record, failing allocations.  NC and ND are the compile-time numbers. *)
From Coq Require Import String.
From Verif Require Import CInt TextModel InputModel LimeModel.

Definition sep : list Z := str "<>".
Definition blank1 : list Z := str " ".
Definition among (d : list Z) (c : Z) : bool := existsb (Z.eqb c) d.
(* strtok: the first token of s and the text behind the delimiter that ends it; None = NULL *)
Fixpoint skip_d (d s : list Z) : list Z := match s with c :: r => if among d c then skip_d d r else s | [] => [] end.
Fixpoint till_d (d s : list Z) : list Z * list Z :=
  match s with
  | [] => ([], [])
  | c :: r => if among d c then ([], r) else let '(t, r') := till_d d r in (c :: t, r')
  end.
Definition strtok (d s : list Z) : option (list Z * list Z) :=
  match skip_d d s with [] => None | s' => Some (till_d d s') end.
(* the tokens found by successive calls: s cut at every delimiter, without the empty pieces.  cur: the piece so far, reversed *)
Fixpoint pieces (d s cur : list Z) : list (list Z) :=
  match s with
  | [] => [rev cur]
  | c :: r => if among d c then rev cur :: pieces d r [] else pieces d r (c :: cur)
  end.
Definition tokens (d s : list Z) : list (list Z) := filter (fun t => match t with [] => false | _ => true end) (pieces d s []).

(* strncmp( t , p , strlen( p ) ) == 0 *)
Fixpoint prefix (p t : list Z) : bool :=
  match p, t with [], _ => true | x :: p', y :: t' => (x =? y) && prefix p' t' | _, _ => false end.
(* XML_info.c 34 *)
Definition realFront (s : list Z) : list Z := skip_d [32; 9] s.

(* XML_info.c 38-57: the value returned and the tokens left.  close = "/" ++ tag *)
Fixpoint int_loop (close : list Z) (value : Z) (ts : list (list Z)) : Z * list (list Z) :=
  match ts with
  | [] => (value, [])
  | t :: r => if prefix close t then (value, r) else
      let '(found, inrange, v) := strtol (realFront t) in
      if negb inrange || negb found then (-1, r) else int_loop close (i32 v) r
  end.
Definition get_int_tag (tag : list Z) (ts : list (list Z)) : Z * list (list Z) := int_loop (47 :: tag) 0 ts.

Inductive file_prec := FLOAT_PREC | DOUBLE_PREC.                           (* GLU_enum.h 41-42 *)
Inductive GLU_endian := L_ENDIAN | B_ENDIAN.                               (* GLU_enum.h 67-68 *)
(* XML_info.c 60-80: the final content of prec[8] (None: a token does not fit) and the tokens left *)
Fixpoint prec_loop (close prec : list Z) (ts : list (list Z)) : option (list Z * list (list Z)) :=
  match ts with
  | [] => Some (prec, [])
  | t :: r => if prefix close t then Some (prec, r) else if (8 <=? length t)%nat then None else prec_loop close t r
  end.
(* Some None is GLU_FAILURE *)
Definition get_prec_tag (tag : list Z) (ts : list (list Z)) : option (option file_prec * list (list Z)) :=
  do '(prec, r) <- prec_loop (47 :: tag) (str "00") ts;
  Some ((if eqs prec (str "F") then Some FLOAT_PREC else if eqs prec (str "D") then Some DOUBLE_PREC else
         let '(_, _, v) := strtol (realFront prec) in
         if i32 v =? 32 then Some FLOAT_PREC else if i32 v =? 64 then Some DOUBLE_PREC else None), r).

(* Latt.dims and the members of head_data that are set (GLU_types.h 219-232 and struct head_data) *)
Record meta := Meta { m_dims : list Z; m_endian : GLU_endian; m_prec : file_prec; m_type : GLU_output; m_sum : Z; m_sumb : Z }.
Definition with_dims (m : meta) d := Meta d (m_endian m) (m_prec m) (m_type m) (m_sum m) (m_sumb m).
Definition with_endian (m : meta) e := Meta (m_dims m) e (m_prec m) (m_type m) (m_sum m) (m_sumb m).
Definition with_prec (m : meta) p := Meta (m_dims m) (m_endian m) p (m_type m) (m_sum m) (m_sumb m).
Definition with_type (m : meta) t := Meta (m_dims m) (m_endian m) (m_prec m) t (m_sum m) (m_sumb m).
Definition with_sum (m : meta) s := Meta (m_dims m) (m_endian m) (m_prec m) (m_type m) s (m_sumb m).

Inductive xres := XUndef | XFail (m : meta) | XOk (m : meta).

(* XML_info.c 101-112 *)
Definition open (mu : nat) : list Z := nth mu [str "lx"; str "ly"; str "lz"; str "lt"] [].
Definition search (ND mu : nat) : list Z :=
  if (mu =? ND - 1)%nat then str "lt" else if (mu <? 4)%nat then open mu else str "l" ++ dec (Z.of_nat mu).

(* the value stored by  dims[ . ] = strtol( token ) *)
Definition dim_of (w : list Z) : Z := let '(_, _, v) := strtol w in u64 v.
(* XML_info.c 191-195: the dimensions and the text left.  Latt.dims has ND elements *)
Fixpoint dims_words (fuel : nat) (d : list Z) (idx : nat) (s : list Z) : option (list Z * list Z) :=
  match fuel with
  | O => Some (d, s)
  | S f => match strtok blank1 s with
           | None => Some (d, [])
           | Some (w, r) => if eqs w (str "/dims") then Some (d, r) else
               do d' <- set_nth d idx (dim_of w); dims_words f d' (S idx) r
           end
  end.
(* XML_info.c 204-207: None = overflow in sscanf *)
Fixpoint suma_loop (m : meta) (ts : list (list Z)) : option (meta * list (list Z)) :=
  match ts with
  | [] => Some (m, [])
  | t :: r => if eqs t (str "/suma") then Some (m, r) else
      do v <- scan_x t; suma_loop (match v with Some x => with_sum m x | None => m end) r
  end.
(* XML_info.c 219-226; the continue inside belongs to this loop *)
Fixpoint geometry (ND : nat) (t : list Z) (mus : list nat) (m : meta) (ts : list (list Z)) : option (meta * list (list Z)) :=
  match mus with
  | [] => Some (m, ts)
  | mu :: r => if eqs t (search ND mu)
      then let '(v, ts') := get_int_tag (search ND mu) ts in
           if v =? 0 then geometry ND t r m ts' else
           do d <- set_nth (m_dims m) mu (u64 v); geometry ND t r (with_dims m d) ts'
      else geometry ND t r m ts
  end.
(* XML_info.c 231-244: inl = GLU_FAILURE *)
Definition gauge_name (NC : Z) : list Z := str "su" ++ dec NC ++ str "gauge".
Fixpoint field_loop (NC : Z) (m : meta) (ts : list (list Z)) : meta + (meta * list (list Z)) :=
  match ts with
  | [] => inr (m, [])
  | t :: r => if eqs t (str "/field") then inr (m, r) else
      if prefix (firstn 8 (gauge_name NC)) (realFront t) then field_loop NC (with_type m OUTPUT_NCxNC) r else inl m
  end.

(* XML_info.c 118-246, the inner loop *)
Fixpoint xml_loop (fuel : nat) (NC : Z) (ND : nat) (m : meta) (ts : list (list Z)) : xres :=
  match fuel, ts with
  | _, [] => XOk m
  | O, _ => XUndef
  | S f, t :: ts =>
      let nd := Z.of_nat ND in
      if eqs t (str "/scidacRecord") || eqs t (str "/scidacFile") || eqs t (str "/ildgFormat") then XOk m else
      if eqs t (str "spacetime") then
        let '(v, ts) := get_int_tag (str "spacetime") ts in
        if negb (v =? 0) && negb (v =? nd) then XFail m else xml_loop f NC ND m ts
      else if eqs t (str "colors") then
        let '(v, ts) := get_int_tag (str "colors") ts in
        if negb (v =? 0) && negb (v =? NC) then XFail m else xml_loop f NC ND m ts
      else if eqs t (str "typesize") then
        let '(v, ts) := get_int_tag (str "typesize") ts in
        if v =? 0 then xml_loop f NC ND m ts else
        let m := with_type m OUTPUT_NCxNC in
        if v =? 2 * nd * (NC * NC) then xml_loop f NC ND (with_prec m FLOAT_PREC) ts
        else if v =? 4 * nd * (NC * NC) then xml_loop f NC ND (with_prec m DOUBLE_PREC) ts else XFail m
      else if eqs t (str "precision") then
        match get_prec_tag (str "precision") ts with
        | None => XUndef
        | Some (p, ts) => xml_loop f NC ND (match p with Some p => with_prec m p | None => m end) ts
        end
      else if eqs t (str "dims") then
        match ts with
        | [] => XOk m
        | u :: _ =>
            match strtok blank1 u with
            | None => XFail m
            | Some (w, r) =>
                match (do d <- set_nth (m_dims m) 0 (dim_of w); dims_words (S (length r)) d 1 r) with
                | None => XUndef
                | Some (d, r) => xml_loop f NC ND (with_dims m d) (tokens sep r)
                end
            end
        end
      else if eqs t (str "suma") then
        match suma_loop m ts with
        | None => XUndef
        | Some (m, ts) => xml_loop f NC ND m ts
        end
      else
        match geometry ND t (seq 0 ND) m ts with
        | None => XUndef
        | Some (m, ts) =>
        if eqs t (str "field") then
          if 100 <=? NC then match ts with [] => XOk m | u :: ts => if eqs u (str "/field") then xml_loop f NC ND m ts else XUndef end else
          match field_loop NC m ts with
          | inl m => XFail m
          | inr (m, ts) => xml_loop f NC ND m ts
          end
        else xml_loop f NC ND m ts
        end
  end.

(* XML_info.c 84-248 *)
Definition parse_and_set_xml_SCIDAC (NC : Z) (ND : nat) (text : list Z) (m : meta) : xres :=
  let m := with_endian m B_ENDIAN in
  match tokens sep (cstr text) with
  | [] => XUndef
  | t :: ts =>
      if negb (prefix (str "?xml") t) then XOk m else
      if (12 <=? ND)%nat then XUndef else           (* sprintf( search[10] , "l10" ) *)
      match ts with [] => XOk m | _ :: ts => xml_loop (S (length ts)) NC ND m ts end
  end.

Inductive hres := HUndef | HFail | HOk (m : meta) (rest : list Z).
(* Scidac.c 124-134: the effect of one record.  The value returned by the parser is not looked at. *)
Definition use_record (NC : Z) (ND : nat) (typebuf payload : list Z) (m : meta) : option meta :=
  do m <- (if is_type (str "bqcd-cksum") typebuf
           then match scan_zu (cstr payload) with Some (Some v) => Some (with_sum m (u32 v)) | _ => None end
           else Some m);
  match parse_and_set_xml_SCIDAC NC ND payload m with XUndef => None | XFail m => Some m | XOk m => Some m end.
(* Scidac.c 197-211 *)
Fixpoint header_records (big : bool) (bad_plaq : list Z -> bool) (NC : Z) (ND : nat) (n : nat) (m : meta) (f : list Z) : hres :=
  match n with
  | O => HOk m f
  | S n' =>
      match parse_SCIDAC_hdr big bad_plaq f with
      | LFail => HFail
      | LEof r => HOk m r
      | LRec t p r => match use_record NC ND t p m with None => HUndef | Some m => header_records big bad_plaq NC ND n' m r end
      end
  end.
Definition read_header_SCIDAC big bad_plaq NC ND m f := header_records big bad_plaq NC ND 12 m f.

(* ---- the writers.  dbl: not SINGLE_PREC; date: the result of get_date; vol: LVOLUME ---- *)
(* sprintf( tmp , ... ) with char tmp[128] *)
Definition sprintf128 (s : list Z) : option (list Z) := if (length s <? 128)%nat then Some s else None.
Definition xml_start : list Z := str "<?xml version=""1.0"" encoding=""UTF-8""?>".
(* Scidac.c 226-238 and 310-324 *)
Fixpoint dims_text (dims : list Z) : list Z :=
  match dims with [] => [] | [d] => dec d | d :: r => dec d ++ str " " ++ dims_text r end.
Definition file_xml (ND : nat) (dims : list Z) (close : list Z) : option (list Z) :=
  do t <- sprintf128 (str "<scidacFile><version>1.1</version><spacetime>" ++ dec (Z.of_nat ND) ++ str "</spacetime><dims>");
  Some (xml_start ++ t ++ dims_text dims ++ str "</dims><volfmt>0</volfmt>" ++ close).
(* Scidac.c 245-270 and 329-354; the int arithmetic must not overflow *)
Definition record_xml (dbl : bool) (NC : Z) (ND : nat) (date : list Z) : option (list Z) :=
  do t1 <- sprintf128 (str "<scidacRecord><version>1.0</version><date>" ++ date ++ str " GMT</date><globaldata>0</globaldata>");
  do t2 <- sprintf128 (str (if dbl then "<datatype>QDP_D" else "<datatype>QDP_F") ++ dec NC ++ str "_ColorMatrix</datatype>" ++
                       str (if dbl then "<precision>D</precision>" else "<precision>F</precision>"));
  let ts := Z.of_nat ND * (NC * NC) * 2 * (if dbl then 2 else 1) in
  if two31 <=? ts then None else
  do t3 <- sprintf128 (str "<colors>" ++ dec NC ++ str "</colors><typesize>" ++ dec ts ++
                       str "</typesize><datacount>" ++ dec (Z.of_nat ND) ++ str "</datacount></scidacRecord>");
  Some (xml_start ++ t1 ++ t2 ++ t3).
(* a call of write_SCIDAC_binary with a string as record *)
Definition put (big : bool) (record : list Z) (banf : string) : option (list Z) :=
  write_SCIDAC_binary big (record ++ [0]) (Z.of_nat (length record)) (str banf ++ [0]).
Definition put_data (big dbl : bool) (NC : Z) (ND : nat) (vol : Z) (banf : string) : option (list Z) :=
  write_SCIDAC_binary big [0] (u64 ((if dbl then 8 else 4) * vol * Z.of_nat ND * (NC * NC) * 2)) (str banf ++ [0]).
(* Scidac.c 214-280 *)
Definition write_header_SCIDAC (big dbl : bool) (NC : Z) (ND : nat) (dims date : list Z) (vol : Z) : option (list Z) :=
  do x1 <- file_xml ND dims (str "</scidacFile>");
  do r1 <- put big x1 "scidac-private-file-xml";
  do r2 <- put big (str "<title>GLU SCIDAC archival gauge configuration</title>") "scidac-file-xml";
  do x3 <- record_xml dbl NC ND date;
  do r3 <- put big x3 "scidac-private-record-xml";
  do r4 <- put big (str "<info>GLU library configuration file</info>") "scidac-record-xml";
  do r5 <- put_data big dbl NC ND vol "scidac-binary-data";
  Some (r1 ++ r2 ++ r3 ++ r4 ++ r5).
(* Scidac.c 283-299 *)
Definition checksum_xml (cksuma cksumb : Z) : list Z :=
  xml_start ++ str "<scidacChecksum>" ++ str "<version>1.0</version><suma>" ++ hex cksuma ++ str "</suma><sumb>" ++ hex cksumb ++
  str "</sumb>" ++ str "</scidacChecksum>".
Definition write_trailing_header_SCIDAC (big : bool) (cksuma cksumb : Z) : option (list Z) :=
  put big (checksum_xml cksuma cksumb) "scidac-checksum".
(* Scidac.c 363-384 *)
Definition geometry_tag (ND mu : nat) (d : Z) : list Z :=
  if (mu =? ND - 1)%nat then str "<lt>" ++ dec d ++ str "</lt>" else
  if (mu <? 4)%nat then str "<" ++ open mu ++ str ">" ++ dec d ++ str "</" ++ open mu ++ str ">" else
  str "<l" ++ dec (Z.of_nat mu) ++ str ">" ++ dec d ++ str "</l" ++ dec (Z.of_nat mu) ++ str ">".
Fixpoint geometry_tags (ND mu : nat) (dims : list Z) : list Z :=
  match dims with [] => [] | d :: r => geometry_tag ND mu d ++ geometry_tags ND (S mu) r end.
Definition ildg_xml (dbl : bool) (ND : nat) (dims : list Z) : list Z :=
  xml_start ++ str "<ildgFormat xmlns=""http://www.lqcd.org/ildg"" xmlns:xsi=""http://www.w3.org/2001/XMLSchema-instance"" xsi:schemaLocation=""http://www.lqcd.org/ildg/filefmt.xsd""><version>1.0</version>" ++
  str (if dbl then "<field>su3gauge</field><precision>64</precision>" else "<field>su3gauge</field><precision>32</precision>") ++
  geometry_tags ND 0 dims ++ str "</ildgFormat>".
(* Scidac.c 303-396 *)
Definition write_header_ILDG (big dbl : bool) (NC : Z) (ND : nat) (dims date : list Z) (vol : Z) : option (list Z) :=
  do x1 <- file_xml ND dims (str "</ScidacFile>");
  do r1 <- put big x1 "scidac-private-file-xml";
  do r2 <- put big (str "<title>GLU ILDG archival gauge configuration</title>") "scidac-file-xml";
  do x3 <- record_xml dbl NC ND date;
  do r3 <- put big x3 "scidac-private-record-xml";
  do r4 <- put big (str "<info>GLU library configuration file</info>") "scidac-record-xml";
  do r5 <- put big (ildg_xml dbl ND dims) "ildg-format";
  do r6 <- put big (str "lfn://") "ildg-data-lfn";
  do r7 <- put_data big dbl NC ND vol "ildg-binary-data";
  Some (r1 ++ r2 ++ r3 ++ r4 ++ r5 ++ r6 ++ r7).
