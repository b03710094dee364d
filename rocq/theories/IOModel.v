(* Model of the binary part of configuration files: /repo/src/IO/writers.c and /repo/src/IO/readers.c.
   A double is its 64 bit pattern (an integer in [0,2^64)); a link matrix is the list of the 2*NC*NC
   patterns re,im,re,im,... in memory order; a site is the list of its ND links; a field is the list
   of its sites.  SINGLE_PREC is not defined (GLU_real = double).
   Floating point steps are parameters of the model: [shorten] (U_Nops.c 694-710), the last row computed
   by complete_top (readers.c 47-75), exhume_O (readers.c 126-133) and float to double conversion. *)
From Verif Require Import CInt ByteModel ByteSpec CrcModel OmpModel.

Inductive layout := SMALL | GAUGE | NCxNC.
Inductive head := NERSC | MILC | SCIDAC | ILDG_SCIDAC | ILDG_BQCD | LIME | JLQCD | OTHER.

Record cfg := {
  ND : nat ;
  NC : nat ;
  words_be : bool ;               (* WORDS_BIGENDIAN *)
  out_big : bool ;                (* OUT_BIG defined *)
  sh32 : option (Z -> Z) ;        (* what (uint32_t)x >> 32 gives: None = undefined behaviour (ISO C) *)
  shorten : list Z -> list Z ;
  last_row : list Z -> list Z ;
  exhume : list Z -> list Z ;
  widen : Z -> Z                  (* float pattern to double pattern *)
}.

(* enum LOOP_SMALL = NCNC-1, LOOP_GAUGE = 2(NC-1)NC, LOOP_NCxNC = 2 NCNC; readers.c 80-105, writers.c 73-107 *)
Definition loop_var (c : cfg) (l : layout) : nat :=
  match l with
  | SMALL => (NC c * NC c - 1)%nat
  | GAUGE => (2 * (NC c - 1) * NC c)%nat
  | NCxNC => (2 * (NC c * NC c))%nat
  end.

Fixpoint omap {A B} (f : A -> option B) (l : list A) : option (list B) :=
  match l with [] => Some [] | a :: r => do b <- f a; do t <- omap f r; Some (b :: t) end.

(* first n elements, None if there are fewer (read past the end) *)
Definition ofirstn {A} (n : nat) (l : list A) : option (list A) :=
  if (length l <? n)%nat then None else Some (firstn n l).

(* writers.c 111-140: the data of one link in the file layout; LOOP_VAR is even in the default branch,
   which copies LOOP_VAR/2 complex numbers *)
Definition grab_link (c : cfg) (l : layout) (link : list Z) : option (list Z) :=
  match l with
  | SMALL => ofirstn (loop_var c l) (shorten c link)
  | _ => ofirstn (2 * (loop_var c l / 2)) link
  end.
Definition grab_sitedata (c : cfg) (l : layout) (site : list (list Z)) : option (list Z) :=
  do s <- ofirstn (ND c) site; do ls <- omap (grab_link c l) s; Some (concat ls).

(* writers.c 144-165 *)
Definition swap_for_output (c : cfg) (u : list Z) : list Z :=
  if Bool.eqb (out_big c) (words_be c) then u else map SwapByteOrder_64 u.

(* writers.c 51-69, union of a double and two uint32_t *)
Definition checksum_word (w : Z) : Z := u32 (u32 w + u32 (Z.shiftr w 32)).

(* the bytes of a word of nb bytes as they lie in memory *)
Definition host_bytes (c : cfg) (nb : nat) (w : Z) : list Z :=
  if words_be c then rev (le_bytes nb w) else le_bytes nb w.
Definition host_word (c : cfg) (bs : list Z) : Z :=
  if words_be c then le_val (rev bs) else le_val bs.

(* x >> n for a uint32_t *)
Definition shr32 (c : cfg) (x n : Z) : option Z :=
  if n <? 32 then Some (Z.shiftr x n)
  else match sh32 c with Some f => Some (u32 (f x)) | None => None end.
(* x << r | x >> ( 32 - r ) ; writers.c 208-209, 220-221, readers.c 119-120, 205-206, 303-304, 443-444 *)
Definition rot (c : cfg) (x r : Z) : option Z :=
  do y <- shr32 c x (32 - r); Some (Z.lor (u32 (Z.shiftl x r)) y).

(* the five checksums of writers.c 180: k, sum29, sum31, CRCsum29, CRCsum31 *)
Record sums := { s_k : Z ; s_29 : Z ; s_31 : Z ; s_c29 : Z ; s_c31 : Z }.
Definition zero_sums : sums := {| s_k := 0 ; s_29 := 0 ; s_31 := 0 ; s_c29 := 0 ; s_c31 := 0 |}.
(* reductions + on k, ^ on the others (writers.c 182, readers.c 198, 272) *)
Definition add_sums (a b : sums) : sums :=
  {| s_k := u32 (s_k a + s_k b) ; s_29 := Z.lxor (s_29 a) (s_29 b) ; s_31 := Z.lxor (s_31 a) (s_31 b) ;
     s_c29 := Z.lxor (s_c29 a) (s_c29 b) ; s_c31 := Z.lxor (s_c31 a) (s_c31 b) |}.

(* rank = ( rank < top ) ? rank + 1 : 0 *)
Definition next_rank (top r : Z) : Z := if r <? top then r + 1 else 0.

(* writers.c 200-212, readers.c 285-314, 427-454: the loop over the words of a site *)
Fixpoint word_loop (c : cfg) (ws : list Z) (k s29 s31 r29 r31 : Z) : option (Z * Z * Z) :=
  match ws with
  | [] => Some (k, s29, s31)
  | work :: r =>
      do x29 <- rot c work r29;
      do x31 <- rot c work r31;
      word_loop c r (u32 (k + work)) (Z.lxor s29 x29) (Z.lxor s31 x31) (next_rank 28 r29) (next_rank 30 r31)
  end.

Definition crc_site (c : cfg) (i : nat) (bytes : list Z) : option (Z * Z) :=
  do work <- crc32 0 (Some bytes) (Z.of_nat (length bytes));
  do x29 <- rot c work (Z.of_nat i mod 29);
  do x31 <- rot c work (Z.of_nat i mod 31);
  Some (x29, x31).

(* writers.c 183-230, one iteration of compute_checksum *)
Definition checksum_site (c : cfg) (l : layout) (lat : list (list (list Z))) (i : nat) : option sums :=
  do st <- nth_error lat i;
  do site <- grab_sitedata c l st;
  let tmp := Z.of_nat (i * ND c * loop_var c l) in
  do ' (k, a, b) <- word_loop c (map checksum_word site) 0 0 0 (tmp mod 29) (tmp mod 31);
  do ' (x, y) <- crc_site c i (flat_map (host_bytes c 8) (swap_for_output c site));
  Some {| s_k := k ; s_29 := a ; s_31 := b ; s_c29 := x ; s_c31 := y |}.

(* writers.c 168-237 *)
Definition compute_checksum (c : cfg) (l : layout) (lat : list (list (list Z))) (s : schedule) : option sums :=
  omp_reduce add_sums zero_sums (checksum_site c l lat) zero_sums s.

(* writers.c 270-276: uout[ val + j ] = site[j] *)
Fixpoint store_at (uout : list Z) (off : nat) (ws : list Z) : option (list Z) :=
  match ws with
  | [] => Some uout
  | w :: r => do u <- set_nth uout off w; store_at u (S off) r
  end.
(* writers.c 251-280; [order] is the order in which the iterations START..END-1 take effect *)
Fixpoint copy_data (c : cfg) (l : layout) (lat : list (list (list Z))) (order : list nat) (uout : list Z) : option (list Z) :=
  match order with
  | [] => Some uout
  | i :: r =>
      do st <- nth_error lat i;
      do site <- grab_sitedata c l st;
      do u <- store_at uout (loop_var c l * (i * ND c)) site;
      copy_data c l lat r u
  end.

(* writers.c 284-301: returns the bytes appended to the file; [mem] is the malloc'ed block *)
Definition write_binary_data (c : cfg) (l : layout) (lat : list (list (list Z))) (mem : list Z) (order : list nat)
  : option (list Z) :=
  do u <- copy_data c l lat order mem;
  Some (flat_map (host_bytes c 8) (swap_for_output c u)).

(* writers.c 304-326; [lcu] sites per time slice, [orders] one order per slice *)
Fixpoint write_slices (c : cfg) (l : layout) (lat : list (list (list Z))) (mem : list Z) (orders : list (list nat))
  : option (list Z) :=
  match orders with
  | [] => Some []
  | o :: r =>
      do u <- copy_data c l lat o mem;
      let out := swap_for_output c u in
      do rest <- write_slices c l lat out r;
      Some (flat_map (host_bytes c 8) out ++ rest)
  end.

(* -------------------------------- readers -------------------------------- *)
Record header := { h_type : layout ; h_double : bool ; h_big : bool ; h_head : head }.

(* cut a byte string into words of nb bytes *)
Fixpoint words_of (c : cfg) (nb : nat) (n : nat) (bytes : list Z) : list Z :=
  match n with
  | O => []
  | S k => host_word c (firstn nb bytes) :: words_of c nb k (skipn nb bytes)
  end.

Definition prec_bytes (h : header) : nat := if h_double h then 8%nat else 4%nat.

(* readers.c 222-226, 262-266, 397-400, 412-415 *)
Definition swap_in (c : cfg) (h : header) (u : list Z) : list Z :=
  if Bool.eqb (h_big h) (words_be c) then u
  else map (if h_double h then SwapByteOrder_64 else SwapByteOrder_32) u.

(* readers.c 288-299, 430-441: res and the value stored in utemp *)
Definition res_word (h : header) (w : Z) : Z := if h_double h then checksum_word w else u32 w.
Definition val_word (c : cfg) (h : header) (w : Z) : Z := if h_double h then w else widen c w.

(* readers.c 34-77, 126-160 *)
Definition rebuild_lat (c : cfg) (l : layout) (utemp : list Z) : list Z :=
  match l with
  | SMALL => exhume c utemp
  | GAUGE => firstn (2 * (NC c * NC c - NC c)) utemp ++ last_row c (firstn (2 * (NC c * NC c - NC c)) utemp)
  | NCxNC => firstn (2 * (NC c * NC c)) utemp
  end.

(* the links of a site from its words *)
Fixpoint site_links (c : cfg) (h : header) (nd : nat) (ws : list Z) : list (list Z) :=
  match nd with
  | O => []
  | S k => rebuild_lat c (h_type h) (map (val_word c h) (firstn (loop_var c (h_type h)) ws))
           :: site_links c h k (skipn (loop_var c (h_type h)) ws)
  end.

Definition slice {A} (off len : nat) (l : list A) : list A := firstn len (skipn off l).

(* readers.c 273-325: body of the loop over sites, reductions *)
Definition read_site_sums (c : cfg) (h : header) (ws : list Z) (i : nat) : option sums :=
  let n := (ND c * loop_var c (h_type h))%nat in
  let t := Z.of_nat (n * i) in
  do ' (k, a, b) <- word_loop c (map (res_word h) (slice (n * i) n ws)) 0 0 0 (t mod 29) (t mod 31);
  Some {| s_k := k ; s_29 := a ; s_31 := b ; s_c29 := 0 ; s_c31 := 0 |}.
(* readers.c 199-208, 240-249: CRC over the raw bytes, only for the SciDAC headers *)
Definition read_site_crc (c : cfg) (h : header) (bytes : list Z) (i : nat) : option sums :=
  let n := (ND c * loop_var c (h_type h) * prec_bytes h)%nat in
  do ' (x, y) <- crc_site c i (slice (n * i) n bytes);
  Some {| s_k := 0 ; s_29 := 0 ; s_31 := 0 ; s_c29 := x ; s_c31 := y |}.

(* GLU_FAILURE returned as uint32_t *)
Definition fail32 : Z := two32 - 1.

(* readers.c 338-347, 481-490 *)
Definition reader_result (h : header) (s : sums) (bqcd : Z) : Z :=
  match h_head h with
  | NERSC => s_k s
  | MILC => s_29 s
  | SCIDAC | ILDG_SCIDAC => s_c29 s
  | ILDG_BQCD => bqcd
  | LIME | JLQCD => 0
  | OTHER => fail32
  end.

(* readers.c 163-348 for [vol] sites.  Result: return value and the field.  The schedules are those of the
   CRC loop and of the main loop, [order] the order in which the links are stored.
   latt_reunitU after reading single precision data (l.332) is the parameter [reunit].
   ILDG_BQCD: the double branch (l.216) reads the static pointer of the float branch, which is never set to
   the data just read: undefined (None).  In the float branch the static cksum state is used. *)
Definition lattice_reader (c : cfg) (reunit : list (list (list Z)) -> list (list (list Z)))
  (h : header) (vol : nat) (file : list Z) (cks : cksum_state)
  (s1 s2 : schedule) (order : list nat) (lat0 : list (list (list Z)))
  : option (Z * list (list (list Z)) * cksum_state) :=
  let n := (ND c * loop_var c (h_type h))%nat in
  let nbytes := (n * vol * prec_bytes h)%nat in
  if (length file <? nbytes)%nat then Some (fail32, lat0, cks)
  else
    let raw := firstn nbytes file in
    do crcs <- match h_head h with
               | SCIDAC | ILDG_SCIDAC => omp_reduce add_sums zero_sums (read_site_crc c h raw) zero_sums s1
               | _ => Some zero_sums
               end;
    do ' (bqcd, cks') <-
      match h_head h with
      | ILDG_BQCD =>
          if h_double h then None
          else do st <- cksum_add_all cks (map (fun i => slice (n * 4 * i) (n * 4) raw) (seq 0 vol));
               do ' (v, _) <- CKSUM_GET st; Some (v, st)
      | _ => Some (0, cks)
      end;
    let ws := swap_in c h (words_of c (prec_bytes h) (n * vol) raw) in
    do sm <- omp_reduce add_sums zero_sums (read_site_sums c h ws) zero_sums s2;
    do lat <- omp_fill (fun i => Some (site_links c h (ND c) (slice (n * i) n ws))) order lat0;
    let lat' := if h_double h then lat else reunit lat in
    Some (reader_result h (add_sums crcs sm) bqcd, lat', cks').

(* readers.c 351-491, site by site.  [i] counts the sites already read. *)
Fixpoint cheaper_loop (c : cfg) (h : header) (todo : nat) (i : nat) (file : list Z) (s : sums)
  (cks : cksum_state) (lat : list (list (list Z)))
  : option (option (sums * cksum_state * list (list (list Z))) * cksum_state * list (list (list Z))) :=
  match todo with
  | O => Some (Some (s, cks, lat), cks, lat)
  | S m =>
      let n := (ND c * loop_var c (h_type h))%nat in
      let nbytes := (n * prec_bytes h)%nat in
      if (length file <? nbytes)%nat then Some (None, cks, lat)
      else
        let raw := firstn nbytes file in
        do ' (x, y) <- crc_site c i raw;
        do cks' <- CKSUM_ADD cks raw;
        let ws := swap_in c h (words_of c (prec_bytes h) n raw) in
        let t := Z.of_nat (n * i) in
        do ' (k, a, b) <- word_loop c (map (res_word h) ws) 0 0 0 (t mod 29) (t mod 31);
        do lat' <- set_nth lat i (site_links c h (ND c) ws);
        cheaper_loop c h m (S i) (skipn nbytes file)
          (add_sums s {| s_k := k ; s_29 := a ; s_31 := b ; s_c29 := x ; s_c31 := y |}) cks' lat'
  end.
Definition lattice_reader_cheaper (c : cfg) (reunit : list (list (list Z)) -> list (list (list Z)))
  (h : header) (vol : nat) (file : list Z) (cks : cksum_state) (lat0 : list (list (list Z)))
  : option (Z * list (list (list Z)) * cksum_state) :=
  do ' (r, cks', lat') <- cheaper_loop c h vol 0 file zero_sums cks lat0;
  match r with
  | None => Some (fail32, lat', cks')
  | Some (s, st, lat) =>
      do ' (bqcd, _) <- CKSUM_GET st;
      let lat'' := if h_double h then lat else reunit lat in
      Some (reader_result h s bqcd, lat'', st)
  end.
