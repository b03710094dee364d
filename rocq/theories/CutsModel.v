(* Model of src/Cuts/cut_routines.c (list building and cache file) and of FWRITE in
   src/Cuts/cut_output.c.  The cut itself is the argument [safe] here (safe_momenta, modelled over the
   reals in CutsRModel.v).  Progress messages are not modelled. *)
From Verif Require Import CInt ByteModel ByteSpec GeomModel.

(* struct veclist, GLU_types.h:298-301: idx and MOM[ND] *)
Notation veclist := (Z * list Z)%type.

Fixpoint mapo {A B} (f : A -> option B) (l : list A) : option (list B) :=
  match l with
  | [] => Some []
  | a :: r => do b <- f a; do bs <- mapo f r; Some (b :: bs)
  end.

(* 0, 1, ..., n-1 as C integers *)
Definition zrange (n : Z) : list Z := map Z.of_nat (seq 0 (Z.to_nat n)).

(* cut_routines.c:401-410 and 475-482: one pass over the sites, keeping the index of those whose
   vector passes.  [vec] is get_mom_pipi or get_vec_from_origin.  kept has LOOP cells, so storing
   never leaves the array. *)
Fixpoint keep_loop (vec : Z -> option (list Z)) (safe : list Z -> bool) (is : list Z) : option (list Z) :=
  match is with
  | [] => Some []
  | i :: r =>
      do n <- vec i;
      do k <- keep_loop vec safe r;
      Some (if safe n then i :: k else k)
  end.

(* cut_routines.c:494-497: LOOP = product of the first DIMS extents (size_t) *)
Definition LOOP (dims : list Z) (DIMS : nat) : Z := lvolume (firstn DIMS dims).

(* cut_routines.c:383-454 get_mom_veclist.  The loop 417-436 only prints.  The last loop (448-451)
   is work-shared: every iteration touches its own entry only, so it is a map. *)
Definition get_mom_veclist (dims : list Z) (DIMS : nat) (safe : list Z -> bool) : option (list veclist) :=
  do k <- keep_loop (fun i => get_mom_pipi dims i DIMS) safe (zrange (LOOP dims DIMS));
  mapo (fun i => do m <- get_mom_pipi dims i DIMS;
                 do s <- get_site_pipiBZ dims m DIMS;
                 Some (s, m)) k.

(* cut_routines.c:457-484 passes_cuts and get_veclist: idx is the site itself *)
Definition get_veclist (dims : list Z) (DIMS : nat) (safe : list Z -> bool) : option (list veclist) :=
  do k <- keep_loop (fun i => get_vec_from_origin dims i DIMS) safe (zrange (LOOP dims DIMS));
  mapo (fun i => do m <- get_vec_from_origin dims i DIMS; Some (i, m)) k.

(* ---- memory images.  be = the host stores the most significant byte first ---- *)
Definition enc (be : bool) (k : nat) (x : Z) : list Z :=
  if be then rev (le_bytes k x) else le_bytes k x.
Definition dec (be : bool) (l : list Z) : Z := if be then le_val (rev l) else le_val l.

(* sizeof(struct veclist) with 8 byte size_t, 4 byte int, alignment 8; the padding bytes (odd ND) are
   copied from malloc'd memory, taken as zero here and never looked at *)
Definition vec_pad (nd : nat) : nat := if Nat.even nd then O else 4%nat.
Definition vec_size (nd : nat) : nat := (8 + 4 * nd + vec_pad nd)%nat.
Definition enc_vec (be : bool) (v : veclist) : list Z :=
  enc be 8 (fst v) ++ concat (map (fun c => enc be 4 (c mod two32)) (snd v))
  ++ repeat 0 (vec_pad (length (snd v))).
Definition dec_vec (be : bool) (nd : nat) (b : list Z) : veclist :=
  (dec be (firstn 8 b),
   map (fun mu => i32 (dec be (firstn 4 (skipn (8 + 4 * mu) b)))) (seq 0 nd)).

(* cut_routines.c:572 and 581: fwrite( in , sizeof(int) , 1 ) writes the first four bytes of the
   size_t in[0]; then the list *)
Definition write_cache (be : bool) (l : list veclist) : list Z :=
  firstn 4 (enc be 8 (Z.of_nat (length l))) ++ concat (map (enc_vec be) l).

(* the m-th record of the body *)
Definition record (be : bool) (nd : nat) (body : list Z) (m : nat) : veclist :=
  dec_vec be nd (firstn (vec_size nd) (skipn (vec_size nd * m) body)).

(* what a call of compute_veclist hands to its caller.  A cell None is memory from malloc that was
   never written. *)
Inductive outcome : Type :=
| Undefined                                   (* fwrite / fread on a NULL stream *)
| Null                                        (* NULL returned, *list_size = 0 *)
| VList (n : Z) (cells : list (option veclist)).

(* cut_routines.c:588-616, after the file has been reopened.  [in0] is the value of in[0] before the
   fread of four bytes into it, [old] the list still in memory when it was computed by this call
   (None when flag says the file existed: fresh malloc of in[0] entries).
   Simplified: check is an int holding the fread result; a result that is a non-zero multiple of
   2^32 is not distinguished. *)
Definition read_cache (be : bool) (nd : nat) (in0 : Z) (old : option (list veclist)) (file : list Z) : outcome :=
  if (length file <? 4)%nat then Null
  else
    let n := dec be (firstn 4 file ++ skipn 4 (enc be 8 in0)) in
    let body := skipn 4 file in
    let m := Z.min n (Z.of_nat (length body) / Z.of_nat (vec_size nd)) in
    if m =? 0 then Null
    else
      let read := map (record be nd body) (seq 0 (Z.to_nat m)) in
      VList n (map Some read ++
               match old with
               | Some l => map Some (skipn (Z.to_nat m) l)
               | None => repeat None (Z.to_nat (n - m))
               end).

(* cut_routines.c:487-633 compute_veclist without CONDOR_MODE.  [file]: contents of the cache file of
   this lattice and cut if it exists; [can_create]: whether fopen( str , "wb" ) succeeds; [kept]: the
   list computed by get_mom_veclist / get_veclist.  Returns the outcome and the file afterwards.
   The construction of the file name (501-532) is not modelled. *)
Definition compute_veclist (be : bool) (nd : nat) (can_create : bool) (file : option (list Z))
  (kept : list veclist) : outcome * option (list Z) :=
  match file with
  | Some f => (read_cache be nd 1 None f, file)
  | None =>
      match kept with
      | [] => (Null, if can_create then Some [] else None)     (* 562-568; the new file stays empty *)
      | _ =>
          if can_create then
            let f := write_cache be kept in
            (read_cache be nd (Z.of_nat (length kept)) (Some kept) f, Some f)
          else (Undefined, None)
      end
  end.

(* ---- cut_output.c:31-52 FWRITE.  The array is a list of words (unsigned values of the elements);
   the file receives the memory image.  Returns the code, the bytes written and the array after the
   call; None: access outside the array.  The two byte swaps are work-shared loops in any order. *)
Definition image (be : bool) (size : nat) (arr : list Z) : list Z := concat (map (enc be size) arr).
Definition FWRITE (be : bool) (o1 o2 : list nat) (arr : list Z) (size stride : nat) : option (Z * list Z * list Z) :=
  if (size =? 4)%nat then
    do a1 <- (if be then Some arr else bswap_32 o1 arr);
    if (length a1 <? stride)%nat then None else
    do a2 <- (if be then Some a1 else bswap_32 o2 a1);
    Some (0, image be 4 (firstn stride a1), a2)
  else if (size =? 8)%nat then
    do a1 <- (if be then Some arr else bswap_64 o1 arr);
    if (length a1 <? stride)%nat then None else
    do a2 <- (if be then Some a1 else bswap_64 o2 a1);
    Some (0, image be 8 (firstn stride a1), a2)
  else Some (-1, [], arr).
