(** Matrix multiplication, /repo/src/Matrix_Ops/MMUL.

    The portable variants are modelled (the ones compiled when immintrin.h is
    not used); the SSE2 variants *_SSE.c are not.  A matrix is a flat array,
    entry (i,j) at index j + NC*i.  The NC=3 and NC=2 branches are transcribed
    statement by statement; creal( z ) and cimag( z ) inside a complex
    expression are the complex numbers [creal z], [cimag z].
    The arrays a, b, c are assumed not to overlap (multab( a , a , c ) is not
    modelled). *)
From Coq Require Import PeanoNat.
From Verif Require Export Arr.
Local Open Scope C_scope.

(** * The unrolled branches *)

(** src/Matrix_Ops/MMUL/MMUL.c lines 35-43 *)
Definition multab_3 (a b c : arr) : arr :=
  let a := upd a 0 (b 0 * c 0 + b 1 * c 3 + b 2 * c 6) in
  let a := upd a 1 (b 0 * c 1 + b 1 * c 4 + b 2 * c 7) in
  let a := upd a 2 (b 0 * c 2 + b 1 * c 5 + b 2 * c 8) in
  let a := upd a 3 (b 3 * c 0 + b 4 * c 3 + b 5 * c 6) in
  let a := upd a 4 (b 3 * c 1 + b 4 * c 4 + b 5 * c 7) in
  let a := upd a 5 (b 3 * c 2 + b 4 * c 5 + b 5 * c 8) in
  let a := upd a 6 (b 6 * c 0 + b 7 * c 3 + b 8 * c 6) in
  let a := upd a 7 (b 6 * c 1 + b 7 * c 4 + b 8 * c 7) in
  let a := upd a 8 (b 6 * c 2 + b 7 * c 5 + b 8 * c 8) in
  a.

(** src/Matrix_Ops/MMUL/MMUL.c lines 45-48 *)
Definition multab_2 (a b c : arr) : arr :=
  let a := upd a 0 (b 0 * c 0 + b 1 * c 2) in
  let a := upd a 1 (b 0 * c 1 + b 1 * c 3) in
  let a := upd a 2 (b 2 * c 0 + b 3 * c 2) in
  let a := upd a 3 (b 2 * c 1 + b 3 * c 3) in
  a.

(** src/Matrix_Ops/MMUL/MMUL.c lines 77-88 *)
Definition multab_atomic_left_3 (a b : arr) : arr :=
  let C0 := b 0 * a 0 + b 1 * a 3 + b 2 * a 6 in
  let C1 := b 3 * a 0 + b 4 * a 3 + b 5 * a 6 in
  let C2 := b 6 * a 0 + b 7 * a 3 + b 8 * a 6 in
  let a := upd a 0 (C0) in
  let a := upd a 3 (C1) in
  let a := upd a 6 (C2) in
  let C0 := b 0 * a 1 + b 1 * a 4 + b 2 * a 7 in
  let C1 := b 3 * a 1 + b 4 * a 4 + b 5 * a 7 in
  let C2 := b 6 * a 1 + b 7 * a 4 + b 8 * a 7 in
  let a := upd a 1 (C0) in
  let a := upd a 4 (C1) in
  let a := upd a 7 (C2) in
  let C0 := b 0 * a 2 + b 1 * a 5 + b 2 * a 8 in
  let C1 := b 3 * a 2 + b 4 * a 5 + b 5 * a 8 in
  let C2 := b 6 * a 2 + b 7 * a 5 + b 8 * a 8 in
  let a := upd a 2 (C0) in
  let a := upd a 5 (C1) in
  let a := upd a 8 (C2) in
  a.

(** src/Matrix_Ops/MMUL/MMUL.c lines 90-95 *)
Definition multab_atomic_left_2 (a b : arr) : arr :=
  let C0 := b 0 * a 0 + b 1 * a 2 in
  let C1 := b 2 * a 0 + b 3 * a 2 in
  let a := upd a 0 (C0) in
  let a := upd a 2 (C1) in
  let C0 := b 0 * a 1 + b 1 * a 3 in
  let C1 := b 2 * a 1 + b 3 * a 3 in
  let a := upd a 1 (C0) in
  let a := upd a 3 (C1) in
  a.

(** src/Matrix_Ops/MMUL/MMUL.c lines 126-137 *)
Definition multab_atomic_right_3 (a b : arr) : arr :=
  let R0 := a 0 * b 0 + a 1 * b 3 + a 2 * b 6 in
  let R1 := a 0 * b 1 + a 1 * b 4 + a 2 * b 7 in
  let R2 := a 0 * b 2 + a 1 * b 5 + a 2 * b 8 in
  let a := upd a 0 (R0) in
  let a := upd a 1 (R1) in
  let a := upd a 2 (R2) in
  let R0 := a 3 * b 0 + a 4 * b 3 + a 5 * b 6 in
  let R1 := a 3 * b 1 + a 4 * b 4 + a 5 * b 7 in
  let R2 := a 3 * b 2 + a 4 * b 5 + a 5 * b 8 in
  let a := upd a 3 (R0) in
  let a := upd a 4 (R1) in
  let a := upd a 5 (R2) in
  let R0 := a 6 * b 0 + a 7 * b 3 + a 8 * b 6 in
  let R1 := a 6 * b 1 + a 7 * b 4 + a 8 * b 7 in
  let R2 := a 6 * b 2 + a 7 * b 5 + a 8 * b 8 in
  let a := upd a 6 (R0) in
  let a := upd a 7 (R1) in
  let a := upd a 8 (R2) in
  a.

(** src/Matrix_Ops/MMUL/MMUL.c lines 139-144 *)
Definition multab_atomic_right_2 (a b : arr) : arr :=
  let R0 := a 0 * b 0 + a 1 * b 2 in
  let R1 := a 0 * b 1 + a 1 * b 3 in
  let a := upd a 0 (R0) in
  let a := upd a 1 (R1) in
  let R0 := a 2 * b 0 + a 3 * b 2 in
  let R1 := a 2 * b 1 + a 3 * b 3 in
  let a := upd a 2 (R0) in
  let a := upd a 3 (R1) in
  a.

(** src/Matrix_Ops/MMUL/MMULdag.c lines 35-43 *)
Definition multabdag_3 (a b c : arr) : arr :=
  let a := upd a 0 (conj (b 0) * c 0 + conj (b 3) * c 3 + conj (b 6) * c 6) in
  let a := upd a 1 (conj (b 0) * c 1 + conj (b 3) * c 4 + conj (b 6) * c 7) in
  let a := upd a 2 (conj (b 0) * c 2 + conj (b 3) * c 5 + conj (b 6) * c 8) in
  let a := upd a 3 (conj (b 1) * c 0 + conj (b 4) * c 3 + conj (b 7) * c 6) in
  let a := upd a 4 (conj (b 1) * c 1 + conj (b 4) * c 4 + conj (b 7) * c 7) in
  let a := upd a 5 (conj (b 1) * c 2 + conj (b 4) * c 5 + conj (b 7) * c 8) in
  let a := upd a 6 (conj (b 2) * c 0 + conj (b 5) * c 3 + conj (b 8) * c 6) in
  let a := upd a 7 (conj (b 2) * c 1 + conj (b 5) * c 4 + conj (b 8) * c 7) in
  let a := upd a 8 (conj (b 2) * c 2 + conj (b 5) * c 5 + conj (b 8) * c 8) in
  a.

(** src/Matrix_Ops/MMUL/MMULdag.c lines 45-48 *)
Definition multabdag_2 (a b c : arr) : arr :=
  let a := upd a 0 (conj (b 0) * c 0 + conj (b 2) * c 2) in
  let a := upd a 1 (conj (b 0) * c 1 + conj (b 2) * c 3) in
  let a := upd a 2 (conj (b 1) * c 0 + conj (b 3) * c 2) in
  let a := upd a 3 (conj (b 1) * c 1 + conj (b 3) * c 3) in
  a.

(** src/Matrix_Ops/MMUL/MMUL_dag.c lines 35-43 *)
Definition multab_dag_3 (a b c : arr) : arr :=
  let a := upd a 0 (b 0 * conj (c 0) + b 1 * conj (c 1) + b 2 * conj (c 2)) in
  let a := upd a 1 (b 0 * conj (c 3) + b 1 * conj (c 4) + b 2 * conj (c 5)) in
  let a := upd a 2 (b 0 * conj (c 6) + b 1 * conj (c 7) + b 2 * conj (c 8)) in
  let a := upd a 3 (b 3 * conj (c 0) + b 4 * conj (c 1) + b 5 * conj (c 2)) in
  let a := upd a 4 (b 3 * conj (c 3) + b 4 * conj (c 4) + b 5 * conj (c 5)) in
  let a := upd a 5 (b 3 * conj (c 6) + b 4 * conj (c 7) + b 5 * conj (c 8)) in
  let a := upd a 6 (b 6 * conj (c 0) + b 7 * conj (c 1) + b 8 * conj (c 2)) in
  let a := upd a 7 (b 6 * conj (c 3) + b 7 * conj (c 4) + b 8 * conj (c 5)) in
  let a := upd a 8 (b 6 * conj (c 6) + b 7 * conj (c 7) + b 8 * conj (c 8)) in
  a.

(** src/Matrix_Ops/MMUL/MMUL_dag.c lines 45-48 *)
Definition multab_dag_2 (a b c : arr) : arr :=
  let a := upd a 0 (b 0 * conj (c 0) + b 1 * conj (c 1)) in
  let a := upd a 1 (b 0 * conj (c 2) + b 1 * conj (c 3)) in
  let a := upd a 2 (b 2 * conj (c 0) + b 3 * conj (c 1)) in
  let a := upd a 3 (b 2 * conj (c 2) + b 3 * conj (c 3)) in
  a.

(** src/Matrix_Ops/MMUL/MMULdagdag.c lines 35-43 *)
Definition multab_dagdag_3 (a b c : arr) : arr :=
  let a := upd a 0 (conj (b 0) * conj (c 0) + conj (b 3) * conj (c 1) + conj (b 6) * conj (c 2)) in
  let a := upd a 1 (conj (b 0) * conj (c 3) + conj (b 3) * conj (c 4) + conj (b 6) * conj (c 5)) in
  let a := upd a 2 (conj (b 0) * conj (c 6) + conj (b 3) * conj (c 7) + conj (b 6) * conj (c 8)) in
  let a := upd a 3 (conj (b 1) * conj (c 0) + conj (b 4) * conj (c 1) + conj (b 7) * conj (c 2)) in
  let a := upd a 4 (conj (b 1) * conj (c 3) + conj (b 4) * conj (c 4) + conj (b 7) * conj (c 5)) in
  let a := upd a 5 (conj (b 1) * conj (c 6) + conj (b 4) * conj (c 7) + conj (b 7) * conj (c 8)) in
  let a := upd a 6 (conj (b 2) * conj (c 0) + conj (b 5) * conj (c 1) + conj (b 8) * conj (c 2)) in
  let a := upd a 7 (conj (b 2) * conj (c 3) + conj (b 5) * conj (c 4) + conj (b 8) * conj (c 5)) in
  let a := upd a 8 (conj (b 2) * conj (c 6) + conj (b 5) * conj (c 7) + conj (b 8) * conj (c 8)) in
  a.

(** src/Matrix_Ops/MMUL/MMULdagdag.c lines 45-48 *)
Definition multab_dagdag_2 (a b c : arr) : arr :=
  let a := upd a 0 (conj (b 0) * conj (c 0) + conj (b 2) * conj (c 1)) in
  let a := upd a 1 (conj (b 0) * conj (c 2) + conj (b 2) * conj (c 3)) in
  let a := upd a 2 (conj (b 1) * conj (c 0) + conj (b 3) * conj (c 1)) in
  let a := upd a 3 (conj (b 1) * conj (c 2) + conj (b 3) * conj (c 3)) in
  a.

(** src/Matrix_Ops/MMUL/MMUL_SUNC.c lines 35-69 *)
Definition multab_suNC_3 (a b c : arr) : arr :=
    let a := upd a 0 (creal (b 0) * creal (c 0) - cimag (b 0) * cimag (c 0) + Ci * ( creal (b 0)
        * cimag (c 0) + creal (c 0) * cimag (b 0) ) + creal (b 1) * creal (c 3) - cimag (b 1) *
      cimag (c
        3) + Ci * ( creal (b 1) * cimag (c 3) + creal (c 3) * cimag (b 1) ) + creal (b 2) *
      creal (c 6)
        - cimag (b 2) * cimag (c 6) + Ci * ( creal (b 2) * cimag (c 6) + creal (c 6) * cimag (b
      2) )) in
    let a := upd a 1 (creal (b 0) * creal (c 1) - cimag (b 0) * cimag (c 1) + Ci * ( creal (b 0)
        * cimag (c 1) + creal (c 1) * cimag (b 0) ) + creal (b 1) * creal (c 4) - cimag (b 1) *
      cimag (c
        4) + Ci * ( creal (b 1) * cimag (c 4) + creal (c 4) * cimag (b 1) ) + creal (b 2) *
      creal (c 7)
        - cimag (b 2) * cimag (c 7) + Ci * ( creal (b 2) * cimag (c 7) + creal (c 7) * cimag (b
      2) )) in
    let a := upd a 2 (creal (b 0) * creal (c 2) - cimag (b 0) * cimag (c 2) + Ci * ( creal (b 0)
        * cimag (c 2) + creal (c 2) * cimag (b 0) ) + creal (b 1) * creal (c 5) - cimag (b 1) *
      cimag (c
        5) + Ci * ( creal (b 1) * cimag (c 5) + creal (c 5) * cimag (b 1) ) + creal (b 2) *
      creal (c 8)
        - cimag (b 2) * cimag (c 8) + Ci * ( creal (b 2) * cimag (c 8) + creal (c 8) * cimag (b
      2) )) in
    let a := upd a 3 (creal (b 3) * creal (c 0) - cimag (b 3) * cimag (c 0) + Ci * ( creal (b 3)
        * cimag (c 0) + creal (c 0) * cimag (b 3) ) + creal (b 4) * creal (c 3) - cimag (b 4) *
      cimag (c
        3) + Ci * ( creal (b 4) * cimag (c 3) + creal (c 3) * cimag (b 4) ) + creal (b 5) *
      creal (c 6)
        - cimag (b 5) * cimag (c 6) + Ci * ( creal (b 5) * cimag (c 6) + creal (c 6) * cimag (b
      5) )) in
    let a := upd a 4 (creal (b 3) * creal (c 1) - cimag (b 3) * cimag (c 1) + Ci * ( creal (b 3)
        * cimag (c 1) + creal (c 1) * cimag (b 3) ) + creal (b 4) * creal (c 4) - cimag (b 4) *
      cimag (c
        4) + Ci * ( creal (b 4) * cimag (c 4) + creal (c 4) * cimag (b 4) ) + creal (b 5) *
      creal (c 7)
        - cimag (b 5) * cimag (c 7) + Ci * ( creal (b 5) * cimag (c 7) + creal (c 7) * cimag (b
      5) )) in
    let a := upd a 5 (creal (b 3) * creal (c 2) - cimag (b 3) * cimag (c 2) + Ci * ( creal (b 3)
        * cimag (c 2) + creal (c 2) * cimag (b 3) ) + creal (b 4) * creal (c 5) - cimag (b 4) *
      cimag (c
        5) + Ci * ( creal (b 4) * cimag (c 5) + creal (c 5) * cimag (b 4) ) + creal (b 5) *
      creal (c 8)
        - cimag (b 5) * cimag (c 8) + Ci * ( creal (b 5) * cimag (c 8) + creal (c 8) * cimag (b
      5) )) in
    let a := upd a 6 (creal (a 1) * creal (a 5) - cimag (a 1) * cimag (a 5) - Ci * ( creal (a 1)
        * cimag (a 5) + creal (a 5) * cimag (a 1) ) - creal (a 2) * creal (a 4) + cimag (a 2) *
      cimag (a
      4) + Ci * ( creal (a 2) * cimag (a 4) + creal (a 4) * cimag (a 2) )) in
    let a := upd a 7 (creal (a 2) * creal (a 3) - cimag (a 2) * cimag (a 3) - Ci * ( creal (a 2)
        * cimag (a 3) + creal (a 3) * cimag (a 2) ) - creal (a 0) * creal (a 5) + cimag (a 0) *
      cimag (a
      5) + Ci * ( creal (a 0) * cimag (a 5) + creal (a 5) * cimag (a 0) )) in
    let a := upd a 8 (creal (a 0) * creal (a 4) - cimag (a 0) * cimag (a 4) - Ci * ( creal (a 0)
        * cimag (a 4) + creal (a 4) * cimag (a 0) ) - creal (a 1) * creal (a 3) + cimag (a 1) *
      cimag (a
      3) + Ci * ( creal (a 1) * cimag (a 3) + creal (a 3) * cimag (a 1) )) in
  a.

(** src/Matrix_Ops/MMUL/MMUL_SUNC.c lines 71-84 *)
Definition multab_suNC_2 (a b c : arr) : arr :=
    let a := upd a 0 (creal (b 0) * creal (c 0) - cimag (b 0) * cimag (c 0) + creal (b 1) *
        creal (c 2) - cimag (b 1) * cimag (c 2) + Ci * ( creal (b 0) * cimag (c 0) + creal (c 0)
      * cimag
      (b 0) + creal (b 1) * cimag (c 2) + creal (c 2) * cimag (b 1) )) in
    let a := upd a 1 (creal (b 0) * creal (c 1) - cimag (b 0) * cimag (c 1) + creal (b 1) *
        creal (c 3) - cimag (b 1) * cimag (c 3) + Ci * ( creal (b 0) * cimag (c 1) + creal (c 1)
      * cimag
      (b 0) + creal (b 1) * cimag (c 3) + creal (c 3) * cimag (b 1) )) in
  let a := upd a 2 (-conj (a 1)) in
  let a := upd a 3 (conj (a 0)) in
  a.

(** src/Matrix_Ops/MMUL/MMULdag_SUNC.c lines 35-78 *)
Definition multabdag_suNC_3 (a b c : arr) : arr :=
    let a := upd a 0 (creal (b 0) * creal (c 0) + cimag (b 0) * cimag (c 0) - Ci * ( cimag (b 0)
        * creal (c 0) - creal (b 0) * cimag (c 0) ) + creal (b 3) * creal (c 3) + cimag (b 3) *
      cimag (c
        3) - Ci * ( cimag (b 3) * creal (c 3) - creal (b 3) * cimag (c 3) ) + creal (b 6) *
      creal (c 6)
        + cimag (b 6) * cimag (c 6) - Ci * ( cimag (b 6) * creal (c 6) - creal (b 6) * cimag (c
      6) )) in
    let a := upd a 1 (creal (b 0) * creal (c 1) + cimag (b 0) * cimag (c 1) - Ci * ( cimag (b 0)
        * creal (c 1) - creal (b 0) * cimag (c 1) ) + creal (b 3) * creal (c 4) + cimag (b 3) *
      cimag (c
        4) - Ci * ( cimag (b 3) * creal (c 4) - creal (b 3) * cimag (c 4) ) + creal (b 6) *
      creal (c 7)
        + cimag (b 6) * cimag (c 7) - Ci * ( cimag (b 6) * creal (c 7) - creal (b 6) * cimag (c
      7) )) in
    let a := upd a 2 (creal (b 0) * creal (c 2) + cimag (b 0) * cimag (c 2) - Ci * ( cimag (b 0)
        * creal (c 2) - creal (b 0) * cimag (c 2) ) + creal (b 3) * creal (c 5) + cimag (b 3) *
      cimag (c
        5) - Ci * ( cimag (b 3) * creal (c 5) - creal (b 3) * cimag (c 5) ) + creal (b 6) *
      creal (c 8)
        + cimag (b 6) * cimag (c 8) - Ci * ( cimag (b 6) * creal (c 8) - creal (b 6) * cimag (c
      8) )) in
    let a := upd a 3 (creal (b 1) * creal (c 0) + cimag (b 1) * cimag (c 0) - Ci * ( cimag (b 1)
        * creal (c 0) - creal (b 1) * cimag (c 0) ) + creal (b 4) * creal (c 3) + cimag (b 4) *
      cimag (c
        3) - Ci * ( cimag (b 4) * creal (c 3) - creal (b 4) * cimag (c 3) ) + creal (b 7) *
      creal (c 6)
        + cimag (b 7) * cimag (c 6) - Ci * ( cimag (b 7) * creal (c 6) - creal (b 7) * cimag (c
      6) )) in
    let a := upd a 4 (creal (b 1) * creal (c 1) + cimag (b 1) * cimag (c 1) - Ci * ( cimag (b 1)
        * creal (c 1) - creal (b 1) * cimag (c 1) ) + creal (b 4) * creal (c 4) + cimag (b 4) *
      cimag (c
        4) - Ci * ( cimag (b 4) * creal (c 4) - creal (b 4) * cimag (c 4) ) + creal (b 7) *
      creal (c 7)
        + cimag (b 7) * cimag (c 7) - Ci * ( cimag (b 7) * creal (c 7) - creal (b 7) * cimag (c
      7) )) in
    let a := upd a 5 (creal (b 1) * creal (c 2) + cimag (b 1) * cimag (c 2) - Ci * ( cimag (b 1)
        * creal (c 2) - creal (b 1) * cimag (c 2) ) + creal (b 4) * creal (c 5) + cimag (b 4) *
      cimag (c
        5) - Ci * ( cimag (b 4) * creal (c 5) - creal (b 4) * cimag (c 5) ) + creal (b 7) *
      creal (c 8)
        + cimag (b 7) * cimag (c 8) - Ci * ( cimag (b 7) * creal (c 8) - creal (b 7) * cimag (c
      8) )) in
    let a := upd a 6 (creal (a 1) * creal (a 5) - cimag (a 1) * cimag (a 5) - Ci * ( creal (a 1)
        * cimag (a 5) + creal (a 5) * cimag (a 1) ) - creal (a 2) * creal (a 4) + cimag (a 2) *
      cimag (a
      4) + Ci * ( creal (a 2) * cimag (a 4) + creal (a 4) * cimag (a 2) )) in
    let a := upd a 7 (creal (a 2) * creal (a 3) - cimag (a 2) * cimag (a 3) - Ci * ( creal (a 2)
        * cimag (a 3) + creal (a 3) * cimag (a 2) ) - creal (a 0) * creal (a 5) + cimag (a 0) *
      cimag (a
      5) + Ci * ( creal (a 0) * cimag (a 5) + creal (a 5) * cimag (a 0) )) in
    let a := upd a 8 (creal (a 0) * creal (a 4) - cimag (a 0) * cimag (a 4) - Ci * ( creal (a 0)
        * cimag (a 4) + creal (a 4) * cimag (a 0) ) - creal (a 1) * creal (a 3) + cimag (a 1) *
      cimag (a
      3) + Ci * ( creal (a 1) * cimag (a 3) + creal (a 3) * cimag (a 1) )) in
  a.

(** src/Matrix_Ops/MMUL/MMULdag_SUNC.c lines 81-93 *)
Definition multabdag_suNC_2 (a b c : arr) : arr :=
    let a := upd a 0 (creal (b 0) * creal (c 0) + cimag (b 0) * cimag (c 0) - Ci * ( cimag (b 0)
        * creal (c 0) - cimag (c 0) * creal (b 0) ) + creal (b 2) * creal (c 2) + cimag (b 2) *
      cimag (c
      2) - Ci * ( cimag (b 2) * creal (c 2) - cimag (c 2) * creal (b 2) )) in
    let a := upd a 1 (creal (b 0) * creal (c 1) + cimag (b 0) * cimag (c 1) - Ci * ( cimag (b 0)
        * creal (c 1) - cimag (c 1) * creal (b 0) ) + creal (b 2) * creal (c 3) + cimag (b 2) *
      cimag (c
      3) - Ci * ( cimag (b 2) * creal (c 3) - cimag (c 3) * creal (b 2) )) in
  let a := upd a 2 (-conj (a 1)) in
  let a := upd a 3 (conj (a 0)) in
  a.

(** src/Matrix_Ops/MMUL/MMUL_dag_SUNC.c lines 35-77 *)
Definition multab_dag_suNC_3 (a b c : arr) : arr :=
    let a := upd a 0 (creal (b 0) * creal (c 0) + cimag (b 0) * cimag (c 0) - Ci * ( creal (b 0)
        * cimag (c 0) - creal (c 0) * cimag (b 0) ) + creal (b 1) * creal (c 1) + cimag (b 1) *
      cimag (c
        1) - Ci * ( creal (b 1) * cimag (c 1) - creal (c 1) * cimag (b 1) ) + creal (b 2) *
      creal (c 2)
        + cimag (b 2) * cimag (c 2) - Ci * ( creal (b 2) * cimag (c 2) - creal (c 2) * cimag (b
      2) )) in
    let a := upd a 1 (creal (b 0) * creal (c 3) + cimag (b 0) * cimag (c 3) - Ci * ( creal (b 0)
        * cimag (c 3) - creal (c 3) * cimag (b 0) ) + creal (b 1) * creal (c 4) + cimag (b 1) *
      cimag (c
        4) - Ci * ( creal (b 1) * cimag (c 4) - creal (c 4) * cimag (b 1) ) + creal (b 2) *
      creal (c 5)
        + cimag (b 2) * cimag (c 5) - Ci * ( creal (b 2) * cimag (c 5) - creal (c 5) * cimag (b
      2) )) in
    let a := upd a 2 (creal (b 0) * creal (c 6) + cimag (b 0) * cimag (c 6) - Ci * ( creal (b 0)
        * cimag (c 6) - creal (c 6) * cimag (b 0) ) + creal (b 1) * creal (c 7) + cimag (b 1) *
      cimag (c
        7) - Ci * ( creal (b 1) * cimag (c 7) - creal (c 7) * cimag (b 1) ) + creal (b 2) *
      creal (c 8)
        + cimag (b 2) * cimag (c 8) - Ci * ( creal (b 2) * cimag (c 8) - creal (c 8) * cimag (b
      2) )) in
    let a := upd a 3 (creal (b 3) * creal (c 0) + cimag (b 3) * cimag (c 0) - Ci * ( creal (b 3)
        * cimag (c 0) - creal (c 0) * cimag (b 3) ) + creal (b 4) * creal (c 1) + cimag (b 4) *
      cimag (c
        1) - Ci * ( creal (b 4) * cimag (c 1) - creal (c 1) * cimag (b 4) ) + creal (b 5) *
      creal (c 2)
        + cimag (b 5) * cimag (c 2) - Ci * ( creal (b 5) * cimag (c 2) - creal (c 2) * cimag (b
      5) )) in
    let a := upd a 4 (creal (b 3) * creal (c 3) + cimag (b 3) * cimag (c 3) - Ci * ( creal (b 3)
        * cimag (c 3) - creal (c 3) * cimag (b 3) ) + creal (b 4) * creal (c 4) + cimag (b 4) *
      cimag (c
        4) - Ci * ( creal (b 4) * cimag (c 4) - creal (c 4) * cimag (b 4) ) + creal (b 5) *
      creal (c 5)
        + cimag (b 5) * cimag (c 5) - Ci * ( creal (b 5) * cimag (c 5) - creal (c 5) * cimag (b
      5) )) in
    let a := upd a 5 (creal (b 3) * creal (c 6) + cimag (b 3) * cimag (c 6) - Ci * ( creal (b 3)
        * cimag (c 6) - creal (c 6) * cimag (b 3) ) + creal (b 4) * creal (c 7) + cimag (b 4) *
      cimag (c
        7) - Ci * ( creal (b 4) * cimag (c 7) - creal (c 7) * cimag (b 4) ) + creal (b 5) *
      creal (c 8)
        + cimag (b 5) * cimag (c 8) - Ci * ( creal (b 5) * cimag (c 8) - creal (c 8) * cimag (b
      5) )) in
    let a := upd a 6 (creal (a 1) * creal (a 5) - cimag (a 1) * cimag (a 5) - Ci * ( creal (a 1)
        * cimag (a 5) + creal (a 5) * cimag (a 1) ) - creal (a 2) * creal (a 4) + cimag (a 2) *
      cimag (a
      4) + Ci * ( creal (a 2) * cimag (a 4) + creal (a 4) * cimag (a 2) )) in
    let a := upd a 7 (creal (a 2) * creal (a 3) - cimag (a 2) * cimag (a 3) - Ci * ( creal (a 2)
        * cimag (a 3) + creal (a 3) * cimag (a 2) ) - creal (a 0) * creal (a 5) + cimag (a 0) *
      cimag (a
      5) + Ci * ( creal (a 0) * cimag (a 5) + creal (a 5) * cimag (a 0) )) in
    let a := upd a 8 (creal (a 0) * creal (a 4) - cimag (a 0) * cimag (a 4) - Ci * ( creal (a 0)
        * cimag (a 4) + creal (a 4) * cimag (a 0) ) - creal (a 1) * creal (a 3) + cimag (a 1) *
      cimag (a
      3) + Ci * ( creal (a 1) * cimag (a 3) + creal (a 3) * cimag (a 1) )) in
  a.

(** src/Matrix_Ops/MMUL/MMUL_dag_SUNC.c lines 79-91 *)
Definition multab_dag_suNC_2 (a b c : arr) : arr :=
    let a := upd a 0 (creal (b 0) * creal (c 0) + cimag (b 0) * cimag (c 0) - Ci * ( creal (b 0)
        * cimag (c 0) - creal (c 0) * cimag (b 0) ) + creal (b 1) * creal (c 1) + cimag (b 1) *
      cimag (c
      1) - Ci * ( creal (b 1) * cimag (c 1) - creal (c 1) * cimag (b 1) )) in
    let a := upd a 1 (creal (b 0) * creal (c 2) + cimag (b 0) * cimag (c 2) - Ci * ( creal (b 0)
        * cimag (c 2) - creal (c 2) * cimag (b 0) ) + creal (b 1) * creal (c 3) + cimag (b 1) *
      cimag (c
      3) - Ci * ( creal (b 1) * cimag (c 3) - creal (c 3) * cimag (b 1) )) in
  let a := upd a 2 (-conj (a 1)) in
  let a := upd a 3 (conj (a 0)) in
  a.

(** src/Matrix_Ops/MMUL/MMULdagdag_SUNC.c lines 35-78 *)
Definition multab_dagdag_suNC_3 (a b c : arr) : arr :=
    let a := upd a 0 (creal (b 0) * creal (c 0) - cimag (b 0) * cimag (c 0) - Ci * ( creal (b 0)
        * cimag (c 0) + creal (c 0) * cimag (b 0) ) + creal (b 3) * creal (c 1) - cimag (b 3) *
      cimag (c
        1) - Ci * ( creal (b 3) * cimag (c 1) + creal (c 1) * cimag (b 3) ) + creal (b 6) *
      creal (c 2)
        - cimag (b 6) * cimag (c 2) - Ci * ( creal (b 6) * cimag (c 2) + creal (c 2) * cimag (b
      6) )) in
    let a := upd a 1 (creal (b 0) * creal (c 3) - cimag (b 0) * cimag (c 3) - Ci * ( creal (b 0)
        * cimag (c 3) + creal (c 3) * cimag (b 0) ) + creal (b 3) * creal (c 4) - cimag (b 3) *
      cimag (c
        4) - Ci * ( creal (b 3) * cimag (c 4) + creal (c 4) * cimag (b 3) ) + creal (b 6) *
      creal (c 5)
        - cimag (b 6) * cimag (c 5) - Ci * ( creal (b 6) * cimag (c 5) + creal (c 5) * cimag (b
      6) )) in
    let a := upd a 2 (creal (b 0) * creal (c 6) - cimag (b 0) * cimag (c 6) - Ci * ( creal (b 0)
        * cimag (c 6) + creal (c 6) * cimag (b 0) ) + creal (b 3) * creal (c 7) - cimag (b 3) *
      cimag (c
        7) - Ci * ( creal (b 3) * cimag (c 7) + creal (c 7) * cimag (b 3) ) + creal (b 6) *
      creal (c 8)
        - cimag (b 6) * cimag (c 8) - Ci * ( creal (b 6) * cimag (c 8) + creal (c 8) * cimag (b
      6) )) in
    let a := upd a 3 (creal (b 1) * creal (c 0) - cimag (b 1) * cimag (c 0) - Ci * ( creal (b 1)
        * cimag (c 0) + creal (c 0) * cimag (b 1) ) + creal (b 4) * creal (c 1) - cimag (b 4) *
      cimag (c
        1) - Ci * ( creal (b 4) * cimag (c 1) + creal (c 1) * cimag (b 4) ) + creal (b 7) *
      creal (c 2)
        - cimag (b 7) * cimag (c 2) - Ci * ( creal (b 7) * cimag (c 2) + creal (c 2) * cimag (b
      7) )) in
    let a := upd a 4 (creal (b 1) * creal (c 3) - cimag (b 1) * cimag (c 3) - Ci * ( creal (b 1)
        * cimag (c 3) + creal (c 3) * cimag (b 1) ) + creal (b 4) * creal (c 4) - cimag (b 4) *
      cimag (c
        4) - Ci * ( creal (b 4) * cimag (c 4) + creal (c 4) * cimag (b 4) ) + creal (b 7) *
      creal (c 5)
        - cimag (b 7) * cimag (c 5) - Ci * ( creal (b 7) * cimag (c 5) + creal (c 5) * cimag (b
      7) )) in
    let a := upd a 5 (creal (b 1) * creal (c 6) - cimag (b 1) * cimag (c 6) - Ci * ( creal (b 1)
        * cimag (c 6) + creal (c 6) * cimag (b 1) ) + creal (b 4) * creal (c 7) - cimag (b 4) *
      cimag (c
        7) - Ci * ( creal (b 4) * cimag (c 7) + creal (c 7) * cimag (b 4) ) + creal (b 7) *
      creal (c 8)
        - cimag (b 7) * cimag (c 8) - Ci * ( creal (b 7) * cimag (c 8) + creal (c 8) * cimag (b
      7) )) in
    let a := upd a 6 (creal (a 1) * creal (a 5) - cimag (a 1) * cimag (a 5) - Ci * ( creal (a 1)
        * cimag (a 5) + creal (a 5) * cimag (a 1) ) - creal (a 2) * creal (a 4) + cimag (a 2) *
      cimag (a
      4) + Ci * ( creal (a 2) * cimag (a 4) + creal (a 4) * cimag (a 2) )) in
    let a := upd a 7 (creal (a 2) * creal (a 3) - cimag (a 2) * cimag (a 3) - Ci * ( creal (a 2)
        * cimag (a 3) + creal (a 3) * cimag (a 2) ) - creal (a 0) * creal (a 5) + cimag (a 0) *
      cimag (a
      5) + Ci * ( creal (a 0) * cimag (a 5) + creal (a 5) * cimag (a 0) )) in
    let a := upd a 8 (creal (a 0) * creal (a 4) - cimag (a 0) * cimag (a 4) - Ci * ( creal (a 0)
        * cimag (a 4) + creal (a 4) * cimag (a 0) ) - creal (a 1) * creal (a 3) + cimag (a 1) *
      cimag (a
      3) + Ci * ( creal (a 1) * cimag (a 3) + creal (a 3) * cimag (a 1) )) in
  a.

(** src/Matrix_Ops/MMUL/MMULdagdag_SUNC.c lines 81-92 *)
Definition multab_dagdag_suNC_2 (a b c : arr) : arr :=
    let a := upd a 0 (creal (b 0) * creal (c 0) - cimag (b 0) * cimag (c 0) - Ci * ( creal (b 0)
        * cimag (c 0) + creal (c 0) * cimag (b 0) ) + creal (b 2) * creal (c 1) - cimag (b 2) *
      cimag (c
      1) - Ci * ( creal (b 2) * cimag (c 1) + creal (c 1) * cimag (b 2) )) in
    let a := upd a 1 (creal (b 0) * creal (c 2) - cimag (b 0) * cimag (c 2) - Ci * ( creal (b 0)
        * cimag (c 2) + creal (c 2) * cimag (b 0) ) + creal (b 2) * creal (c 3) - cimag (b 2) *
      cimag (c
      3) - Ci * ( creal (b 2) * cimag (c 3) + creal (c 3) * cimag (b 2) )) in
  let a := upd a 2 (-conj (a 1)) in
  let a := upd a 3 (conj (a 0)) in
  a.


(** * The looped branches, any NC *)

(** MMUL.c lines 51-64; [sum += ...] starting from 0 *)
Definition multab_n (NC : nat) (a b c : arr) : arr :=
  for_ NC (fun i a =>
    for_ NC (fun j a =>
      let sum := for_ NC (fun m sum =>
        let REB := creal (b (m + NC*i)%nat) in let IMB := cimag (b (m + NC*i)%nat) in
        let REC := creal (c (j + m*NC)%nat) in let IMC := cimag (c (j + m*NC)%nat) in
        sum + (REB * REC - IMB * IMC + Ci * ( REB * IMC + IMB * REC ))) C0 in
      upd a (j + NC*i) sum) a) a.

(** MMUL.c lines 98-113; R is the scratch row, whose contents on entry are
    irrelevant (here: 0) *)
Definition multab_atomic_left_n (NC : nat) (a b : arr) : arr :=
  for_ NC (fun i a =>
    let R := for_ NC (fun j R =>
      let sum := for_ NC (fun m sum => sum + b (m + j*NC)%nat * a (i + m*NC)%nat) C0 in
      upd R j sum) (fun _ => C0) in
    for_ NC (fun m a => upd a (i + m*NC) (R m)) a) a.

(** MMUL.c lines 147-160 *)
Definition multab_atomic_right_n (NC : nat) (a b : arr) : arr :=
  for_ NC (fun i a =>
    let R := for_ NC (fun j R =>
      for_ NC (fun m R => upd R j (R j + a (m + i*NC)%nat * b (j + m*NC)%nat)) (upd R j C0))
      (fun _ => C0) in
    for_ NC (fun j a => upd a (j + i*NC) (R j)) a) a.

(** MMULdag.c lines 50-63 *)
Definition multabdag_n (NC : nat) (a b c : arr) : arr :=
  for_ NC (fun i a =>
    for_ NC (fun j a =>
      let sum := for_ NC (fun m sum =>
        let REB := creal (b (i + NC*m)%nat) in let IMB := cimag (b (i + NC*m)%nat) in
        let REC := creal (c (j + NC*m)%nat) in let IMC := cimag (c (j + NC*m)%nat) in
        sum + (REB * REC + IMB * IMC + Ci * ( REB * IMC - IMB * REC ))) C0 in
      upd a (j + NC*i) sum) a) a.

(** MMUL_dag.c lines 51-74, NC even: two columns per pass, j = 2*h;
    pB = b + NC*i, pC = c + NC*j *)
Definition multab_dag_even (NC : nat) (a b c : arr) : arr :=
  for_ NC (fun i a =>
    for_ (NC/2) (fun h a =>
      let j := (2*h)%nat in
      let sums := for_ NC (fun m (s : C * C) =>
        let (sum, sum2) := s in
        let REB := creal (b (NC*i + m)%nat) in let IMB := cimag (b (NC*i + m)%nat) in
        let REC := creal (c (NC*j + m)%nat) in let IMC := cimag (c (NC*j + m)%nat) in
        let sum := sum + (REB * REC + IMB * IMC + Ci * ( REC * IMB - REB * IMC )) in
        let REC := creal (c (NC*j + (m + NC))%nat) in let IMC := cimag (c (NC*j + (m + NC))%nat) in
        let sum2 := sum2 + (REB * REC + IMB * IMC + Ci * ( REC * IMB - REB * IMC )) in
        (sum, sum2)) (C0, C0) in
      upd (upd a (j + NC*i) (fst sums)) (j + 1 + NC*i) (snd sums)) a) a.

(** MMUL_dag.c lines 76-89, NC odd *)
Definition multab_dag_odd (NC : nat) (a b c : arr) : arr :=
  for_ NC (fun i a =>
    for_ NC (fun j a =>
      let sum := for_ NC (fun m sum =>
        let REB := creal (b (m + NC*i)%nat) in let IMB := cimag (b (m + NC*i)%nat) in
        let REC := creal (c (m + NC*j)%nat) in let IMC := cimag (c (m + NC*j)%nat) in
        sum + (REB * REC + IMB * IMC + Ci * ( REC * IMB - REB * IMC ))) C0 in
      upd a (j + NC*i) sum) a) a.

(** MMULdagdag.c lines 50-69; pB = b + NC*m, pC = c + NC*j *)
Definition multab_dagdag_n (NC : nat) (a b c : arr) : arr :=
  for_ NC (fun i a =>
    for_ NC (fun j a =>
      let sums := for_ NC (fun m (s : C * C) =>
        let (sumr, sumi) := s in
        let REB := creal (b (NC*m + i)%nat) in let IMB := cimag (b (NC*m + i)%nat) in
        let REC := creal (c (NC*j + m)%nat) in let IMC := cimag (c (NC*j + m)%nat) in
        (sumr + (REB * REC - IMB * IMC), sumi + (REB * IMC + IMB * REC))) (C0, C0) in
      upd a (j + NC*i) (fst sums + Ci * snd sums)) a) a.

(** * The functions: the preprocessor picks the branch from NC *)

Definition multab (NC : nat) (a b c : arr) : arr :=
  match NC with 3 => multab_3 a b c | 2 => multab_2 a b c | _ => multab_n NC a b c end.
Definition multab_atomic_left (NC : nat) (a b : arr) : arr :=
  match NC with 3 => multab_atomic_left_3 a b | 2 => multab_atomic_left_2 a b
              | _ => multab_atomic_left_n NC a b end.
Definition multab_atomic_right (NC : nat) (a b : arr) : arr :=
  match NC with 3 => multab_atomic_right_3 a b | 2 => multab_atomic_right_2 a b
              | _ => multab_atomic_right_n NC a b end.
Definition multabdag (NC : nat) (a b c : arr) : arr :=
  match NC with 3 => multabdag_3 a b c | 2 => multabdag_2 a b c | _ => multabdag_n NC a b c end.
Definition multab_dag (NC : nat) (a b c : arr) : arr :=
  match NC with
  | 3 => multab_dag_3 a b c
  | 2 => multab_dag_2 a b c
  | _ => if Nat.even NC then multab_dag_even NC a b c else multab_dag_odd NC a b c
  end.
Definition multab_dagdag (NC : nat) (a b c : arr) : arr :=
  match NC with 3 => multab_dagdag_3 a b c | 2 => multab_dagdag_2 a b c
              | _ => multab_dagdag_n NC a b c end.

(** The SU(NC) shortcuts.  For NC > 3 they are macros for the general products
    (Headers/MMUL_SUNC.h line 42, MMUL_dag_SUNC.h line 42, MMULdag.h line 55,
    MMULdagdag_SUNC.h line 45); the functions in MMUL*_SUNC.c are then not compiled.
    NC = 1 (where MMUL_SUNC.c line 87 calls itself) is not supported by the code. *)
Definition multab_suNC (NC : nat) (a b c : arr) : arr :=
  match NC with 3 => multab_suNC_3 a b c | 2 => multab_suNC_2 a b c
              | _ => multab NC a b c end.
Definition multabdag_suNC (NC : nat) (a b c : arr) : arr :=
  match NC with 3 => multabdag_suNC_3 a b c | 2 => multabdag_suNC_2 a b c
              | _ => multabdag NC a b c end.
Definition multab_dag_suNC (NC : nat) (a b c : arr) : arr :=
  match NC with 3 => multab_dag_suNC_3 a b c | 2 => multab_dag_suNC_2 a b c
              | _ => multab_dag NC a b c end.
Definition multab_dagdag_suNC (NC : nat) (a b c : arr) : arr :=
  match NC with 3 => multab_dagdag_suNC_3 a b c | 2 => multab_dagdag_suNC_2 a b c
              | _ => multab_dagdag NC a b c end.
