(* Memory representation of unsigned integers. *)
From Verif Require Import CInt.

(* the k bytes of x, least significant first *)
Fixpoint le_bytes (k : nat) (x : Z) : list Z :=
  match k with O => [] | S k' => x mod 256 :: le_bytes k' (x / 256) end.
Fixpoint le_val (l : list Z) : Z :=
  match l with [] => 0 | b :: r => b + 256 * le_val r end.
