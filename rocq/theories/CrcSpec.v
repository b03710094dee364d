(* Bit by bit definitions of the two checksums, independent of the tables. *)
From Verif Require Import CInt.

Definition is_byte (b : Z) : Prop := 0 <= b < 256.
Definition is_word32 (w : Z) : Prop := 0 <= w < two32.

(* reflected CRC-32: shift right one bit, and if a one falls out add the polynomial *)
Definition crc_bit (x : Z) : Z :=
  if Z.odd x then Z.lxor (x / 2) 0xEDB88320 else x / 2.
Fixpoint repeat_f {A} (n : nat) (f : A -> A) (x : A) : A :=
  match n with O => x | S k => repeat_f k f (f x) end.
(* a byte is added to the low end of the register, then eight bits are shifted out *)
Definition crc_byte (x b : Z) : Z := repeat_f 8 crc_bit (Z.lxor x b).
(* running value [start] is kept complemented, as in zlib *)
Definition crc32_spec (start : Z) (msg : list Z) : Z :=
  Z.lxor (fold_left crc_byte msg (Z.lxor start 0xFFFFFFFF)) 0xFFFFFFFF.

(* POSIX cksum: most significant bit first *)
Definition cks_bit (x : Z) : Z :=
  if two31 <=? x then Z.lxor (2 * x - two32) 0x04C11DB7 else 2 * x.
Definition cks_byte (x b : Z) : Z := repeat_f 8 cks_bit (Z.lxor x (b * 16777216)).
(* the length, least significant byte first, without leading zero bytes *)
Fixpoint length_bytes (fuel : nat) (n : Z) : list Z :=
  match fuel with
  | O => []
  | S f => if n =? 0 then [] else n mod 256 :: length_bytes f (n / 256)
  end.
Definition posix_cksum (msg : list Z) : Z :=
  let len := Z.of_nat (length msg) in
  two32 - 1 - fold_left cks_byte (msg ++ length_bytes 8 len) 0.
