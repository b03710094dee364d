(* The LIME format: 4 byte magic number 0x456789ab, 4 bytes version and flags, 8 byte big-endian payload
   length, 128 byte type padded with zeros, payload, zeros up to the next multiple of 8. *)
From Verif Require Import CInt ByteSpec.

Definition be_bytes (k : nat) (x : Z) : list Z := rev (le_bytes k x).
Definition zeros (n : Z) : list Z := repeat 0 (Z.to_nat n).
Definition round8 (n : Z) : Z := (n + 7) / 8 * 8.
Definition lime_header (flags typ : list Z) (len : Z) : list Z :=
  [0x45; 0x67; 0x89; 0xab] ++ flags ++ be_bytes 8 len ++ typ ++ repeat 0 (128 - length typ).
Definition lime_record (flags typ payload : list Z) : list Z :=
  lime_header flags typ (Z.of_nat (length payload)) ++ payload ++
  zeros (round8 (Z.of_nat (length payload)) - Z.of_nat (length payload)).
