(* Model of /repo/src/Utils/GLU_bswap.c.  The compiler built-ins __builtin_bswap32/64 (l.48, 65) are
   replaced by the portable code of the #else branches. *)
From Verif Require Import CInt.

(* GLU_bswap.c 30-41 *)
Definition SwapByteOrder_16 (value : Z) : Z :=
  let Hi := Z.shiftl value 8 mod 65536 in
  let Lo := Z.shiftr value 8 in
  Z.lor Hi Lo.

(* GLU_bswap.c 45-58, portable branch l.52-56 *)
Definition SwapByteOrder_32 (value : Z) : Z :=
  let Byte0 := Z.land value 0x000000FF in
  let Byte1 := Z.land value 0x0000FF00 in
  let Byte2 := Z.land value 0x00FF0000 in
  let Byte3 := Z.land value 0xFF000000 in
  Z.lor (Z.lor (Z.lor (u32 (Z.shiftl Byte0 24)) (u32 (Z.shiftl Byte1 8))) (Z.shiftr Byte2 8)) (Z.shiftr Byte3 24).

(* GLU_bswap.c 62-73, portable branch l.69-71 *)
Definition SwapByteOrder_64 (value : Z) : Z :=
  let Hi := SwapByteOrder_32 (u32 value) in
  let Lo := SwapByteOrder_32 (u32 (Z.shiftr value 32)) in
  Z.lor (u64 (Z.shiftl Hi 32)) Lo.

(* GLU_bswap.c 76-112: the three array loops.  The iterations are an OpenMP parallel for; [order] is
   the order in which the iterations i happen to be executed.  None: access outside the array. *)
Fixpoint bswap_iters (swap : Z -> Z) (order : list nat) (T : list Z) : option (list Z) :=
  match order with
  | [] => Some T
  | i :: r => do v <- nth_error T i; do T' <- set_nth T i (swap v); bswap_iters swap r T'
  end.
Definition bswap_16 := bswap_iters SwapByteOrder_16.
Definition bswap_32 := bswap_iters SwapByteOrder_32.
Definition bswap_64 := bswap_iters SwapByteOrder_64.
(* sequential execution *)
Definition bswap_seq (swap : Z -> Z) (n : nat) (T : list Z) : option (list Z) :=
  bswap_iters swap (seq 0 n) T.
