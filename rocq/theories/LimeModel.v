(* Model of the LIME record code of /repo/src/IO/Scidac.c (lines 30-211).
   The file is a list of bytes; [big] is WORDS_BIGENDIAN.  The handling of the payload (XML, BQCD numbers)
   is not modelled here except for its only effect on the control flow: [bad_plaq] says whether strtod finds
   no number in the payload of a bqcd-plaquette record.  malloc is assumed to succeed. *)
From Coq Require Import String.
From Verif Require Import CInt ByteModel ByteSpec TextModel.

(* a word in the memory of the host and back *)
Definition mem_bytes (big : bool) (k : nat) (v : Z) : list Z := if big then rev (le_bytes k v) else le_bytes k v.
Definition mem_word (big : bool) (l : list Z) : Z := if big then le_val (rev l) else le_val l.

(* Scidac.c 52-53; the size_t expression 8 - nbytes%8 converted to int *)
Definition lime_padding (nbytes : Z) : Z := if nbytes mod 8 =? 0 then 0 else i32 (u64 (8 - nbytes mod 8)).
(* Scidac.c 84 *)
Definition lime_magic : Z := 1164413355.

(* overwrite part of the header union; None = outside of it *)
Definition poke (h : list Z) (off : nat) (b : list Z) : option (list Z) :=
  if (length h <? off + length b)%nat then None else Some (firstn off h ++ b ++ skipn (off + length b) h).
(* Scidac.c 152-192; record: the bytes at [record] including the terminating 0 *)
Definition write_SCIDAC_binary (big : bool) (record : list Z) (record_length : Z) (banf : list Z) : option (list Z) :=
  let h0 := repeat 0 144 in
  let magic := if negb big then SwapByteOrder_32 lime_magic else lime_magic in
  let version := if negb big then SwapByteOrder_16 1 else 1 in
  let dl := if negb big then SwapByteOrder_64 record_length else record_length in
  do h1 <- poke h0 0 (mem_bytes big 4 magic);
  do h2 <- poke h1 4 (mem_bytes big 2 version);
  do h3 <- poke h2 6 [0x80];
  do h4 <- poke h3 8 (mem_bytes big 8 dl);
  do h5 <- poke h4 16 (cstr banf);
  (* fprintf "%s" *)
  Some (h5 ++ cstr record ++ repeat 0 (Z.to_nat (lime_padding record_length))).

Inductive lime_res :=
  | LEof (rest : list Z)                                  (* GLU_EOF *)
  | LFail                                                 (* GLU_FAILURE *)
  | LRec (typebuf payload rest : list Z).                 (* GLU_SUCCESS *)

(* strcmp( typebuf , lit ) == 0 *)
Definition is_type (lit : list Z) (typebuf : list Z) : bool := eqs (firstn (length lit + 1) typebuf) (lit ++ [0]).

(* Scidac.c 68-148 *)
Definition parse_SCIDAC_hdr (big : bool) (bad_plaq : list Z -> bool) (f : list Z) : lime_res :=
  if (length f <? 144)%nat then LEof [] else
  let h := firstn 144 f in let r := skipn 144 f in
  let m := mem_word big (firstn 4 h) in
  let m := if negb big then SwapByteOrder_32 m else m in
  if negb (m =? lime_magic) then LFail else
  let len := mem_word big (firstn 8 (skipn 8 h)) in
  let len := if negb big then SwapByteOrder_64 len else len in
  let padding := lime_padding len in
  let typebuf := skipn 16 h in
  if is_type (str "scidac-binary-data") typebuf || is_type (str "ildg-binary-data") typebuf then LEof r else
  if Z.of_nat (length r) <? len then LFail else
  let io_data := firstn (Z.to_nat len) r in
  let r := skipn (Z.to_nat len) r in
  if is_type (str "bqcd-plaquette") typebuf && bad_plaq io_data then LFail else
  if (0 <? padding) && (Z.of_nat (length r) <? padding) then LFail else
  LRec typebuf io_data (skipn (Z.to_nat padding) r).

(* Scidac.c 197-211: the records seen, and the rest of the stream (None = GLU_FAILURE) *)
Fixpoint scidac_records (big : bool) (bad_plaq : list Z -> bool) (n : nat) (f : list Z)
  : list (list Z * list Z) * option (list Z) :=
  match n with
  | O => ([], Some f)
  | S n' =>
      match parse_SCIDAC_hdr big bad_plaq f with
      | LFail => ([], None)
      | LEof r => ([], Some r)
      | LRec t p r => let '(l, o) := scidac_records big bad_plaq n' r in ((t, p) :: l, o)
      end
  end.
Definition get_header_data_SCIDAC big bad_plaq (f : list Z) := scidac_records big bad_plaq 12 f.
