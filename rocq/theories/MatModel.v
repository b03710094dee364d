(** Elementary matrix operations, /repo/src/Matrix_Ops/U_Nops.c and the portable
    branches of trace_abc.c (trace_abc_SSE.c is not modelled).

    As in MmulModel.v the NC=3 and NC=2 branches are transcribed statement by
    statement and the looped branches are for any NC.  Results returned through
    a pointer ( *tr, *res, *dt) are returned as values; casts between float and
    double are identities in exact arithmetic. *)
From Coq Require Import PeanoNat.
From Coq Require Import ZArith.
From Verif Require Export Arr MmulModel.
Local Open Scope C_scope.

(** * The unrolled branches *)

(** ** elementwise operations *)

(** src/Matrix_Ops/U_Nops.c lines 33-35 *)
Definition add_constant_3 (a : arr) (c : C) : arr := (
  let a := upd a 0 (a 0 + c) in
  let a := upd a 4 (a 4 + c) in
  let a := upd a 8 (a 8 + c) in
  a)%C.

(** src/Matrix_Ops/U_Nops.c lines 37-38 *)
Definition add_constant_2 (a : arr) (c : C) : arr := (
  let a := upd a 0 (a 0 + c) in
  let a := upd a 3 (a 3 + c) in
  a)%C.

(** src/Matrix_Ops/U_Nops.c lines 54-56 *)
Definition a_plus_b_3 (a b : arr) : arr := (
  let a := upd a 0 (a 0 + b 0) in
  let a := upd a 1 (a 1 + b 1) in
  let a := upd a 2 (a 2 + b 2) in
  let a := upd a 3 (a 3 + b 3) in
  let a := upd a 4 (a 4 + b 4) in
  let a := upd a 5 (a 5 + b 5) in
  let a := upd a 6 (a 6 + b 6) in
  let a := upd a 7 (a 7 + b 7) in
  let a := upd a 8 (a 8 + b 8) in
  a)%C.

(** src/Matrix_Ops/U_Nops.c lines 58-59 *)
Definition a_plus_b_2 (a b : arr) : arr := (
  let a := upd a 0 (a 0 + b 0) in
  let a := upd a 1 (a 1 + b 1) in
  let a := upd a 2 (a 2 + b 2) in
  let a := upd a 3 (a 3 + b 3) in
  a)%C.

(** src/Matrix_Ops/U_Nops.c lines 76-78 *)
Definition a_plus_CSxb_3 (a b : arr) (S : C) : arr := (
  let a := upd a 0 (a 0 + S * b 0) in
  let a := upd a 1 (a 1 + S * b 1) in
  let a := upd a 2 (a 2 + S * b 2) in
  let a := upd a 3 (a 3 + S * b 3) in
  let a := upd a 4 (a 4 + S * b 4) in
  let a := upd a 5 (a 5 + S * b 5) in
  let a := upd a 6 (a 6 + S * b 6) in
  let a := upd a 7 (a 7 + S * b 7) in
  let a := upd a 8 (a 8 + S * b 8) in
  a)%C.

(** src/Matrix_Ops/U_Nops.c lines 80-81 *)
Definition a_plus_CSxb_2 (a b : arr) (S : C) : arr := (
  let a := upd a 0 (a 0 + S * b 0) in
  let a := upd a 1 (a 1 + S * b 1) in
  let a := upd a 2 (a 2 + S * b 2) in
  let a := upd a 3 (a 3 + S * b 3) in
  a)%C.

(** src/Matrix_Ops/U_Nops.c lines 145-147 *)
Definition b_min_c_3 (a b c : arr) : arr := (
  let a := upd a 0 (b 0 - c 0) in
  let a := upd a 1 (b 1 - c 1) in
  let a := upd a 2 (b 2 - c 2) in
  let a := upd a 3 (b 3 - c 3) in
  let a := upd a 4 (b 4 - c 4) in
  let a := upd a 5 (b 5 - c 5) in
  let a := upd a 6 (b 6 - c 6) in
  let a := upd a 7 (b 7 - c 7) in
  let a := upd a 8 (b 8 - c 8) in
  a)%C.

(** src/Matrix_Ops/U_Nops.c lines 149-150 *)
Definition b_min_c_2 (a b c : arr) : arr := (
  let a := upd a 0 (b 0 - c 0) in
  let a := upd a 1 (b 1 - c 1) in
  let a := upd a 2 (b 2 - c 2) in
  let a := upd a 3 (b 3 - c 3) in
  a)%C.

(** src/Matrix_Ops/U_Nops.c lines 121-125 *)
Definition a_plus_Sxbminc_short_3 (a : arr) (S : C) (B C : arr) : arr := (
  let a := upd a 0 (a 0 + (S * ( B 0 - C 0 ))) in
  let a := upd a 1 (a 1 + (S * ( B 1 - C 1 ))) in
  let a := upd a 2 (a 2 + (S * ( B 2 - C 2 ))) in
  let a := upd a 3 (a 3 + (S * ( B 3 - C 3 ))) in
  let a := upd a 4 (a 4 + (S * ( B 4 - C 4 ))) in
  a)%C.

(** src/Matrix_Ops/U_Nops.c lines 127-128 *)
Definition a_plus_Sxbminc_short_2 (a : arr) (S : C) (B C : arr) : arr := (
  let a := upd a 0 (a 0 + (S * ( B 0 - C 0 ))) in
  let a := upd a 1 (a 1 + (S * ( B 1 - C 1 ))) in
  a)%C.

(** src/Matrix_Ops/U_Nops.c lines 440-442 *)
Definition M_times_c_3 (M : arr) (c : C) : arr := (
  let M := upd M 0 (M 0 * (c)) in
  let M := upd M 1 (M 1 * (c)) in
  let M := upd M 2 (M 2 * (c)) in
  let M := upd M 3 (M 3 * (c)) in
  let M := upd M 4 (M 4 * (c)) in
  let M := upd M 5 (M 5 * (c)) in
  let M := upd M 6 (M 6 * (c)) in
  let M := upd M 7 (M 7 * (c)) in
  let M := upd M 8 (M 8 * (c)) in
  M)%C.

(** src/Matrix_Ops/U_Nops.c lines 444-445 *)
Definition M_times_c_2 (M : arr) (c : C) : arr := (
  let M := upd M 0 (M 0 * (c)) in
  let M := upd M 1 (M 1 * (c)) in
  let M := upd M 2 (M 2 * (c)) in
  let M := upd M 3 (M 3 * (c)) in
  M)%C.

(** src/Matrix_Ops/U_Nops.c lines 302-304 *)
Definition equiv_3 (a b : arr) : arr := (
  let a := upd a 0 (b 0) in
  let a := upd a 1 (b 1) in
  let a := upd a 2 (b 2) in
  let a := upd a 3 (b 3) in
  let a := upd a 4 (b 4) in
  let a := upd a 5 (b 5) in
  let a := upd a 6 (b 6) in
  let a := upd a 7 (b 7) in
  let a := upd a 8 (b 8) in
  a)%C.

(** src/Matrix_Ops/U_Nops.c lines 306-307 *)
Definition equiv_2 (a b : arr) : arr := (
  let a := upd a 0 (b 0) in
  let a := upd a 1 (b 1) in
  let a := upd a 2 (b 2) in
  let a := upd a 3 (b 3) in
  a)%C.

(** src/Matrix_Ops/U_Nops.c lines 1081-1083 *)
Definition zero_mat_3 (a : arr) : arr := (
  let a := upd a 0 (C0) in
  let a := upd a 1 (C0) in
  let a := upd a 2 (C0) in
  let a := upd a 3 (C0) in
  let a := upd a 4 (C0) in
  let a := upd a 5 (C0) in
  let a := upd a 6 (C0) in
  let a := upd a 7 (C0) in
  let a := upd a 8 (C0) in
  a)%C.

(** src/Matrix_Ops/U_Nops.c lines 1085-1086 *)
Definition zero_mat_2 (a : arr) : arr := (
  let a := upd a 0 (C0) in
  let a := upd a 1 (C0) in
  let a := upd a 2 (C0) in
  let a := upd a 3 (C0) in
  a)%C.

(** src/Matrix_Ops/U_Nops.c lines 322-324 *)
Definition identity_3 (ident : arr) : arr := (
  let ident := upd ident 0 (C1) in
  let ident := upd ident 1 (C0) in
  let ident := upd ident 2 (C0) in
  let ident := upd ident 3 (C0) in
  let ident := upd ident 4 (C1) in
  let ident := upd ident 5 (C0) in
  let ident := upd ident 6 (C0) in
  let ident := upd ident 7 (C0) in
  let ident := upd ident 8 (C1) in
  ident)%C.

(** src/Matrix_Ops/U_Nops.c lines 326-327 *)
Definition identity_2 (ident : arr) : arr := (
  let ident := upd ident 0 (C1) in
  let ident := upd ident 1 (C0) in
  let ident := upd ident 2 (C0) in
  let ident := upd ident 3 (C1) in
  ident)%C.

(** src/Matrix_Ops/U_Nops.c lines 255-257 *)
Definition diag_3 (M : arr) (c : C) : arr := (
  let M := upd M 0 (c) in
  let M := upd M 1 (C0) in
  let M := upd M 2 (C0) in
  let M := upd M 3 (C0) in
  let M := upd M 4 (c) in
  let M := upd M 5 (C0) in
  let M := upd M 6 (C0) in
  let M := upd M 7 (C0) in
  let M := upd M 8 (c) in
  M)%C.

(** src/Matrix_Ops/U_Nops.c lines 259-260 *)
Definition diag_2 (M : arr) (c : C) : arr := (
  let M := upd M 0 (c) in
  let M := upd M 1 (C0) in
  let M := upd M 2 (C0) in
  let M := upd M 3 (c) in
  M)%C.

(** src/Matrix_Ops/U_Nops.c lines 278-280 *)
Definition diag_vect_3 (M c : arr) : arr := (
  let M := upd M 0 (c 0) in
  let M := upd M 1 (C0) in
  let M := upd M 2 (C0) in
  let M := upd M 3 (C0) in
  let M := upd M 4 (c 1) in
  let M := upd M 5 (C0) in
  let M := upd M 6 (C0) in
  let M := upd M 7 (C0) in
  let M := upd M 8 (c 2) in
  M)%C.

(** src/Matrix_Ops/U_Nops.c lines 282-283 *)
Definition diag_vect_2 (M c : arr) : arr := (
  let M := upd M 0 (c 0) in
  let M := upd M 1 (C0) in
  let M := upd M 2 (C0) in
  let M := upd M 3 (c 1) in
  M)%C.

(** src/Matrix_Ops/U_Nops.c lines 217-219 *)
Definition dagger_3 (b a : arr) : arr := (
  let b := upd b 0 (conj (a 0)) in
  let b := upd b 1 (conj (a 3)) in
  let b := upd b 2 (conj (a 6)) in
  let b := upd b 3 (conj (a 1)) in
  let b := upd b 4 (conj (a 4)) in
  let b := upd b 5 (conj (a 7)) in
  let b := upd b 6 (conj (a 2)) in
  let b := upd b 7 (conj (a 5)) in
  let b := upd b 8 (conj (a 8)) in
  b)%C.

(** src/Matrix_Ops/U_Nops.c lines 221-222 *)
Definition dagger_2 (b a : arr) : arr := (
  let b := upd b 0 (conj (a 0)) in
  let b := upd b 1 (conj (a 2)) in
  let b := upd b 2 (conj (a 1)) in
  let b := upd b 3 (conj (a 3)) in
  b)%C.

(** src/Matrix_Ops/U_Nops.c lines 1008-1010 *)
Definition transpose_3 (a b : arr) : arr := (
  let a := upd a 0 (b 0) in
  let a := upd a 1 (b 3) in
  let a := upd a 2 (b 6) in
  let a := upd a 3 (b 1) in
  let a := upd a 4 (b 4) in
  let a := upd a 5 (b 7) in
  let a := upd a 6 (b 2) in
  let a := upd a 7 (b 5) in
  let a := upd a 8 (b 8) in
  a)%C.

(** src/Matrix_Ops/U_Nops.c lines 1012-1013 *)
Definition transpose_2 (a b : arr) : arr := (
  let a := upd a 0 (b 0) in
  let a := upd a 1 (b 2) in
  let a := upd a 2 (b 1) in
  let a := upd a 3 (b 3) in
  a)%C.

(** src/Matrix_Ops/U_Nops.c lines 517-519 *)
Definition outerproduct_3 (Q a b : arr) : arr := (
  let Q := upd Q 0 (a 0 * conj (b 0)) in
  let Q := upd Q 1 (a 0 * conj (b 1)) in
  let Q := upd Q 2 (a 0 * conj (b 2)) in
  let Q := upd Q 3 (a 1 * conj (b 0)) in
  let Q := upd Q 4 (a 1 * conj (b 1)) in
  let Q := upd Q 5 (a 1 * conj (b 2)) in
  let Q := upd Q 6 (a 2 * conj (b 0)) in
  let Q := upd Q 7 (a 2 * conj (b 1)) in
  let Q := upd Q 8 (a 2 * conj (b 2)) in
  Q)%C.

(** src/Matrix_Ops/U_Nops.c lines 521-522 *)
Definition outerproduct_2 (Q a b : arr) : arr := (
  let Q := upd Q 0 (a 0 * conj (b 0)) in
  let Q := upd Q 1 (a 0 * conj (b 1)) in
  let Q := upd Q 2 (a 1 * conj (b 0)) in
  let Q := upd Q 3 (a 1 * conj (b 1)) in
  Q)%C.

(** src/Matrix_Ops/U_Nops.c lines 416-418 *)
Definition mat_mult_vec_3 (vect S v : arr) : arr := (
  let vect := upd vect 0 (S 0 * v 0 + S 1 * v 1 + S 2 * v 2) in
  let vect := upd vect 1 (S 3 * v 0 + S 4 * v 1 + S 6 * v 2) in
  let vect := upd vect 2 (S 6 * v 0 + S 7 * v 1 + S 8 * v 2) in
  vect)%C.

(** src/Matrix_Ops/U_Nops.c lines 420-421 *)
Definition mat_mult_vec_2 (vect S v : arr) : arr := (
  let vect := upd vect 0 (S 0 * v 0 + S 1 * v 1) in
  let vect := upd vect 1 (S 2 * v 0 + S 3 * v 1) in
  vect)%C.

(** ** determinant and cofactors *)

(** src/Matrix_Ops/U_Nops.c lines 166-175 *)
Definition cofactor_transpose_3 (a b : arr) : (arr * C)%type := (
  let a := upd a 0 (b 4 * b 8 - b 5 * b 7) in
  let a := upd a 1 (-( b 1 * b 8 - b 2 * b 7 )) in
  let a := upd a 2 (b 1 * b 5 - b 2 * b 4) in
  let a := upd a 3 (-( b 3 * b 8 - b 5 * b 6 )) in
  let a := upd a 4 (b 0 * b 8 - b 2 * b 6) in
  let a := upd a 5 (-( b 0 * b 5 - b 2 * b 3 )) in
  let a := upd a 6 (b 3 * b 7 - b 4 * b 6) in
  let a := upd a 7 (-( b 0 * b 7 - b 1 * b 6 )) in
  let a := upd a 8 (b 0 * b 4 - b 1 * b 3) in
  (a, b 0 * a 0 + b 1 * a 3 + b 2 * a 6))%C.

(** src/Matrix_Ops/U_Nops.c lines 177-181 *)
Definition cofactor_transpose_2 (a b : arr) : (arr * C)%type := (
  let a := upd a 0 (b 3) in
  let a := upd a 1 (-b 1) in
  let a := upd a 2 (-b 2) in
  let a := upd a 3 (b 0) in
  (a, b 0 * a 0 + b 1 * a 2))%C.

(** src/Matrix_Ops/U_Nops.c lines 239-241 *)
Definition det_3 (U : arr) : C := (
  U 0 * ( U 4 * U 8-U 5 * U 7 ) - U 1 * ( U 3 * U 8 - U 5 * U 6 ) + U 2 * ( U 3 * U 7 - U 4 * U 6 ))%C.

(** src/Matrix_Ops/U_Nops.c lines 243-243 *)
Definition det_2 (U : arr) : C := (
  U 0 * U 3 - U 1 * U 2)%C.

(** src/Matrix_Ops/U_Nops.c lines 719-721 *)
Definition speed_det_3 (U : arr) : C := (
    let dt := U 0 * ( U 4 * U 8 - U 5 * U 7 ) - U 1 * ( U 3 * U 8 - U 5 * U 6 ) + U 2 * ( U 3 *
      U 7 - U 4 * U 6 ) in
  dt)%C.

(** src/Matrix_Ops/U_Nops.c lines 723-723 *)
Definition speed_det_2 (U : arr) : C := (
  let dt := U 0 * U 3 - U 1 * U 2 in
  dt)%C.

(** ** traces *)

(** src/Matrix_Ops/U_Nops.c lines 736-736 *)
Definition speed_trace_3 (U : arr) : C := (
  let res := U 0 + U 4 + U 8 in
  res)%C.

(** src/Matrix_Ops/U_Nops.c lines 738-738 *)
Definition speed_trace_2 (U : arr) : C := (
  let res := ( U 0 + U 3 ) in
  res)%C.

(** src/Matrix_Ops/U_Nops.c lines 759-760 *)
Definition speed_trace_Re_3 (U : arr) : R := (
  let res := re (U 0%nat) + re (U 4%nat) + re (U 8%nat) in
  res)%R.

(** src/Matrix_Ops/U_Nops.c lines 762-762 *)
Definition speed_trace_Re_2 (U : arr) : R := (
  let res := re (U 0%nat) + re (U 3%nat) in
  res)%R.

(** src/Matrix_Ops/U_Nops.c lines 781-781 *)
Definition trace_3 (U : arr) : C := (
  U 0 + U 4 + U 8)%C.

(** src/Matrix_Ops/U_Nops.c lines 783-783 *)
Definition trace_2 (U : arr) : C := (
  U 0 + U 3)%C.

(** src/Matrix_Ops/U_Nops.c lines 804-806 *)
Definition trace_ab_3 (a b : arr) : C := (
    let tr := a 0 * b 0 + a 1 * b 3 + a 2 * b 6 + a 3 * b 1 + a 4 * b 4 + a 5 * b 7 + a 6 * b 2
      + a 7 * b 5 + a 8 * b 8 in
  tr)%C.

(** src/Matrix_Ops/U_Nops.c lines 808-809 *)
Definition trace_ab_2 (a b : arr) : C := (
  let tr := a 0 * b 0 + a 2 * b 1 + a 1 * b 2 + a 3 * b 3 in
  tr)%C.

(** src/Matrix_Ops/U_Nops.c lines 833-835 *)
Definition trace_ab_dag_3 (a b : arr) : C := (
    let tr := a 0 * conj (b 0) + a 1 * conj (b 1) + a 2 * conj (b 2) + a 3 * conj (b 3) + a 4 *
      conj (b 4) + a 5 * conj (b 5) + a 6 * conj (b 6) + a 7 * conj (b 7) + a 8 * conj (b 8) in
  tr)%C.

(** src/Matrix_Ops/U_Nops.c lines 837-838 *)
Definition trace_ab_dag_2 (a b : arr) : C := (
  let tr := a 0 * conj (b 0) + a 1 * conj (b 1) + a 2 * conj (b 2) + a 3 * conj (b 3) in
  tr)%C.

(** src/Matrix_Ops/U_Nops.c lines 867-875 *)
Definition trace_ab_dag_Re_3 (a b : arr) : R := (
  let tr := re (a 0%nat) * re (b 0%nat) + im (a 0%nat) * im (b 0%nat) in
  let tr := tr + (re (a 1%nat) * re (b 1%nat) + im (a 1%nat) * im (b 1%nat)) in
  let tr := tr + (re (a 2%nat) * re (b 2%nat) + im (a 2%nat) * im (b 2%nat)) in
  let tr := tr + (re (a 3%nat) * re (b 3%nat) + im (a 3%nat) * im (b 3%nat)) in
  let tr := tr + (re (a 4%nat) * re (b 4%nat) + im (a 4%nat) * im (b 4%nat)) in
  let tr := tr + (re (a 5%nat) * re (b 5%nat) + im (a 5%nat) * im (b 5%nat)) in
  let tr := tr + (re (a 6%nat) * re (b 6%nat) + im (a 6%nat) * im (b 6%nat)) in
  let tr := tr + (re (a 7%nat) * re (b 7%nat) + im (a 7%nat) * im (b 7%nat)) in
  let tr := tr + (re (a 8%nat) * re (b 8%nat) + im (a 8%nat) * im (b 8%nat)) in
  tr)%R.

(** src/Matrix_Ops/U_Nops.c lines 877-880 *)
Definition trace_ab_dag_Re_2 (a b : arr) : R := (
  let tr := re (a 0%nat) * re (b 0%nat) + im (a 0%nat) * im (b 0%nat) in
  let tr := tr + (re (a 1%nat) * re (b 1%nat) + im (a 1%nat) * im (b 1%nat)) in
  let tr := tr + (re (a 2%nat) * re (b 2%nat) + im (a 2%nat) * im (b 2%nat)) in
  let tr := tr + (re (a 3%nat) * re (b 3%nat) + im (a 3%nat) * im (b 3%nat)) in
  tr)%R.

(** src/Matrix_Ops/U_Nops.c lines 907-910 *)
Definition trace_ab_herm_3 (a b : arr) : R := (
    let tr := re (a 0%nat) * re (b 0%nat) + re (a 4%nat) * re (b 4%nat) + re (a 8%nat) * re (b
      8%nat) + 2 * ( re (a 1%nat) * re (b 1%nat) + im (a 1%nat) * im (b 1%nat) + re (a 2%nat) * re (b
      2%nat) + im (a 2%nat) * im (b 2%nat) + re (a 5%nat) * re (b 5%nat) + im (a 5%nat) * im (b 5%nat)
      ) in
  tr)%R.

(** src/Matrix_Ops/U_Nops.c lines 912-913 *)
Definition trace_ab_herm_2 (a b : arr) : R := (
    let tr := 2 * ( re (a 0%nat) * re (b 0%nat) + re (a 1%nat) * re (b 1%nat) + im (a 1%nat) *
      im (b 1%nat) ) in
  tr)%R.

(** src/Matrix_Ops/U_Nops.c lines 938-942 *)
Definition trace_ab_herm_short_3 (a b : arr) : R := (
    let tr := ( re (a 0%nat) * re (b 3%nat) + re (a 3%nat) * re (b 0%nat) ) + 2 * ( re (a 0%nat)
      * re (b 0%nat) + re (a 3%nat) * re (b 3%nat) + re (a 1%nat) * re (b 1%nat) + im (a 1%nat) * im
      (b 1%nat) + re (a 2%nat) * re (b 2%nat) + im (a 2%nat) * im (b 2%nat) + re (a 4%nat) * re (b
      4%nat) + im (a 4%nat) * im (b 4%nat) ) in
  tr)%R.

(** src/Matrix_Ops/U_Nops.c lines 944-945 *)
Definition trace_ab_herm_short_2 (a b : arr) : R := (
    let tr := 2 * ( re (a 0%nat) * re (b 0%nat) + re (a 1%nat) * re (b 1%nat) + im (a 1%nat) *
      im (b 1%nat) ) in
  tr)%R.

(** src/Matrix_Ops/U_Nops.c lines 972-977 *)
Definition trace_prod_herm_3 (a : arr) : R := (
    let tr := re (a 0%nat) * re (a 0%nat) + re (a 4%nat) * re (a 4%nat) + re (a 8%nat) * re (a
      8%nat) + 2 * ( re (a 1%nat) * re (a 1%nat) + im (a 1%nat) * im (a 1%nat) + re (a 2%nat) * re (a
      2%nat) + im (a 2%nat) * im (a 2%nat) + re (a 5%nat) * re (a 5%nat) + im (a 5%nat) * im (a 5%nat)
      ) in
  tr)%R.

(** src/Matrix_Ops/U_Nops.c lines 979-980 *)
Definition trace_prod_herm_2 (a : arr) : R := (
    let tr := 2 * ( re (a 0%nat) * re (a 0%nat) + re (a 1%nat) * re (a 1%nat) + im (a 1%nat) *
      im (a 1%nat) ) in
  tr)%R.

(** src/Matrix_Ops/trace_abc.c lines 118-126 *)
Definition trace_abc_3 (a b c : arr) : C := (
    let tr := ( a 0 * b 0 + a 1 * b 3 + a 2 * b 6 ) * c 0 + ( a 3 * b 0 + a 4 * b 3 + a 5 * b 6
      ) * c 1 + ( a 6 * b 0 + a 7 * b 3 + a 8 * b 6 ) * c 2 + ( a 0 * b 1 + a 1 * b 4 + a 2 * b 7 ) *
      c 3 + ( a 3 * b 1 + a 4 * b 4 + a 5 * b 7 ) * c 4 + ( a 6 * b 1 + a 7 * b 4 + a 8 * b 7 ) * c 5
      + ( a 0 * b 2 + a 1 * b 5 + a 2 * b 8 ) * c 6 + ( a 3 * b 2 + a 4 * b 5 + a 5 * b 8 ) * c 7 + (
      a 6 * b 2 + a 7 * b 5 + a 8 * b 8 ) * c 8 in
  tr)%C.

(** src/Matrix_Ops/trace_abc.c lines 128-131 *)
Definition trace_abc_2 (a b c : arr) : C := (
    let tr := ( a 0 * b 0 + a 1 * b 2 ) * c 0 + ( a 2 * b 0 + a 3 * b 2 ) * c 1 + ( a 0 * b 1 +
      a 1 * b 3 ) * c 2 + ( a 2 * b 1 + a 3 * b 3 ) * c 3 in
  tr)%C.

(** src/Matrix_Ops/trace_abc.c lines 168-176 *)
Definition trace_abc_dag_3 (a b c : arr) : C := (
    let tr := ( a 0 * b 0 + a 1 * b 3 + a 2 * b 6 ) * conj (c 0) + ( a 3 * b 0 + a 4 * b 3 + a 5
      * b 6 ) * conj (c 3) + ( a 6 * b 0 + a 7 * b 3 + a 8 * b 6 ) * conj (c 6) + ( a 0 * b 1 + a 1 *
      b 4 + a 2 * b 7 ) * conj (c 1) + ( a 3 * b 1 + a 4 * b 4 + a 5 * b 7 ) * conj (c 4) + ( a 6 * b
      1 + a 7 * b 4 + a 8 * b 7 ) * conj (c 7) + ( a 0 * b 2 + a 1 * b 5 + a 2 * b 8 ) * conj (c 2) +
      ( a 3 * b 2 + a 4 * b 5 + a 5 * b 8 ) * conj (c 5) + ( a 6 * b 2 + a 7 * b 5 + a 8 * b 8 ) *
      conj (c 8) in
  tr)%C.

(** src/Matrix_Ops/trace_abc.c lines 178-181 *)
Definition trace_abc_dag_2 (a b c : arr) : C := (
    let tr := ( a 0 * b 0 + a 1 * b 2 ) * conj (c 0) + ( a 0 * b 1 + a 1 * b 3 ) * conj (c 1) +
      ( a 2 * b 0 + a 3 * b 2 ) * conj (c 2) + ( a 2 * b 1 + a 3 * b 3 ) * conj (c 3) in
  tr)%C.

(** src/Matrix_Ops/trace_abc.c lines 218-226 *)
Definition trace_abc_dag_Re_3 (a b c : arr) : R := (
    let tr := ( ( a 0 * b 0 + a 1 * b 3 + a 2 * b 6 ) * conj (c 0) + ( a 0 * b 1 + a 1 * b 4 + a
      2 * b 7 ) * conj (c 1) + ( a 0 * b 2 + a 1 * b 5 + a 2 * b 8 ) * conj (c 2) + ( a 3 * b 0 + a 4
      * b 3 + a 5 * b 6 ) * conj (c 3) + ( a 3 * b 1 + a 4 * b 4 + a 5 * b 7 ) * conj (c 4) + ( a 3 *
      b 2 + a 4 * b 5 + a 5 * b 8 ) * conj (c 5) + ( a 6 * b 0 + a 7 * b 3 + a 8 * b 6 ) * conj (c 6)
      + ( a 6 * b 1 + a 7 * b 4 + a 8 * b 7 ) * conj (c 7) + ( a 6 * b 2 + a 7 * b 5 + a 8 * b 8 ) *
      conj (c 8) ) in
  re tr)%C.

(** src/Matrix_Ops/trace_abc.c lines 228-231 *)
Definition trace_abc_dag_Re_2 (a b c : arr) : R := (
    let tr := ( ( a 0 * b 0 + a 1 * b 2 ) * conj (c 0) + ( a 0 * b 1 + a 1 * b 3 ) * conj (c 1)
      + ( a 2 * b 0 + a 3 * b 2 ) * conj (c 2) + ( a 2 * b 1 + a 3 * b 3 ) * conj (c 3) ) in
  re tr)%C.

(** src/Matrix_Ops/trace_abc.c lines 34-94 *)
Definition Re_trace_abc_dag_suNC_3 (a b c : arr) : R := (
    let Ra0 := re (a 0%nat) * re (b 0%nat) - im (a 0%nat) * im (b 0%nat) + re (a 1%nat) * re (b
      3%nat) - im (a 1%nat) * im (b 3%nat) + re (a 2%nat) * re (b 6%nat) - im (a 2%nat) * im (b 6%nat)
      in
    let Ia0 := re (a 0%nat) * im (b 0%nat) + im (a 0%nat) * re (b 0%nat) + re (a 1%nat) * im (b
      3%nat) + im (a 1%nat) * re (b 3%nat) + re (a 2%nat) * im (b 6%nat) + im (a 2%nat) * re (b 6%nat)
      in
    let Ra1 := re (a 0%nat) * re (b 1%nat) - im (a 0%nat) * im (b 1%nat) + re (a 1%nat) * re (b
      4%nat) - im (a 1%nat) * im (b 4%nat) + re (a 2%nat) * re (b 7%nat) - im (a 2%nat) * im (b 7%nat)
      in
    let Ia1 := re (a 0%nat) * im (b 1%nat) + im (a 0%nat) * re (b 1%nat) + re (a 1%nat) * im (b
      4%nat) + im (a 1%nat) * re (b 4%nat) + re (a 2%nat) * im (b 7%nat) + im (a 2%nat) * re (b 7%nat)
      in
    let Ra2 := re (a 0%nat) * re (b 2%nat) - im (a 0%nat) * im (b 2%nat) + re (a 1%nat) * re (b
      5%nat) - im (a 1%nat) * im (b 5%nat) + re (a 2%nat) * re (b 8%nat) - im (a 2%nat) * im (b 8%nat)
      in
    let Ia2 := re (a 0%nat) * im (b 2%nat) + im (a 0%nat) * re (b 2%nat) + re (a 1%nat) * im (b
      5%nat) + im (a 1%nat) * re (b 5%nat) + re (a 2%nat) * im (b 8%nat) + im (a 2%nat) * re (b 8%nat)
      in
    let Ra3 := re (a 3%nat) * re (b 0%nat) - im (a 3%nat) * im (b 0%nat) + re (a 4%nat) * re (b
      3%nat) - im (a 4%nat) * im (b 3%nat) + re (a 5%nat) * re (b 6%nat) - im (a 5%nat) * im (b 6%nat)
      in
    let Ia3 := re (a 3%nat) * im (b 0%nat) + im (a 3%nat) * re (b 0%nat) + re (a 4%nat) * im (b
      3%nat) + im (a 4%nat) * re (b 3%nat) + re (a 5%nat) * im (b 6%nat) + im (a 5%nat) * re (b 6%nat)
      in
    let Ra4 := re (a 3%nat) * re (b 1%nat) - im (a 3%nat) * im (b 1%nat) + re (a 4%nat) * re (b
      4%nat) - im (a 4%nat) * im (b 4%nat) + re (a 5%nat) * re (b 7%nat) - im (a 5%nat) * im (b 7%nat)
      in
    let Ia4 := re (a 3%nat) * im (b 1%nat) + im (a 3%nat) * re (b 1%nat) + re (a 4%nat) * im (b
      4%nat) + im (a 4%nat) * re (b 4%nat) + re (a 5%nat) * im (b 7%nat) + im (a 5%nat) * re (b 7%nat)
      in
    let Ra5 := re (a 3%nat) * re (b 2%nat) - im (a 3%nat) * im (b 2%nat) + re (a 4%nat) * re (b
      5%nat) - im (a 4%nat) * im (b 5%nat) + re (a 5%nat) * re (b 8%nat) - im (a 5%nat) * im (b 8%nat)
      in
    let Ia5 := re (a 3%nat) * im (b 2%nat) + im (a 3%nat) * re (b 2%nat) + re (a 4%nat) * im (b
      5%nat) + im (a 4%nat) * re (b 5%nat) + re (a 5%nat) * im (b 8%nat) + im (a 5%nat) * re (b 8%nat)
      in
  let Ra6 := ( Ra1 * Ra5 - Ia1 * Ia5 - Ra2 * Ra4 + Ia2 * Ia4 ) in
  let Ia6 := -( Ra1 * Ia5 + Ia1 * Ra5 - Ra2 * Ia4 - Ia2 * Ra4 ) in
  let Ra7 := ( Ra2 * Ra3 - Ia2 * Ia3 - Ra0 * Ra5 + Ia0 * Ia5 ) in
  let Ia7 := -( Ra2 * Ia3 + Ia2 * Ra3 - Ra0 * Ia5 - Ia0 * Ra5 ) in
  let Ra8 := ( Ra0 * Ra4 - Ia0 * Ia4 - Ra1 * Ra3 + Ia1 * Ia3 ) in
  let Ia8 := -( Ra0 * Ia4 + Ia0 * Ra4 - Ra1 * Ia3 - Ia1 * Ra3 ) in
  let sum := Ra0 * re (c 0%nat) + Ia0 * im (c 0%nat) in
  let sum := Ra1 * re (c 1%nat) + Ia1 * im (c 1%nat) + sum in
  let sum := Ra2 * re (c 2%nat) + Ia2 * im (c 2%nat) + sum in
  let sum := Ra3 * re (c 3%nat) + Ia3 * im (c 3%nat) + sum in
  let sum := Ra4 * re (c 4%nat) + Ia4 * im (c 4%nat) + sum in
  let sum := Ra5 * re (c 5%nat) + Ia5 * im (c 5%nat) + sum in
  let sum := Ra6 * re (c 6%nat) + Ia6 * im (c 6%nat) + sum in
  let sum := Ra7 * re (c 7%nat) + Ia7 * im (c 7%nat) + sum in
  let sum := Ra8 * re (c 8%nat) + Ia8 * im (c 8%nat) + sum in
  sum)%R.

(** src/Matrix_Ops/trace_abc.c lines 96-101 *)
Definition Re_trace_abc_dag_suNC_2 (a b c : arr) : R := (
  let a0 := (a 0%nat * b 0%nat + a 1%nat * b 2%nat)%C in
  let a1 := (a 0%nat * b 1%nat + a 1%nat * b 3%nat)%C in
  let sum := re a0 * re (c 0%nat) + im a0 * im (c 0%nat) in
  let sum := sum + (re a1 * re (c 1%nat) + im a1 * im (c 1%nat)) in
  let sum := sum - (re a1 * re (c 2%nat) - im a1 * im (c 2%nat)) in
  let sum := sum + (re a0 * re (c 3%nat) - im a0 * im (c 3%nat)) in
  sum)%R.

(** ** packed hermitian matrices *)

(** src/Matrix_Ops/U_Nops.c lines 616-624 *)
Definition rebuild_antihermitian_3 (a b : arr) : arr := (
  let a := upd a 0 (b 0) in
  let a := upd a 1 (b 1) in
  let a := upd a 2 (b 2) in
  let a := upd a 3 (-conj (a 1)) in
  let a := upd a 4 (b 3) in
  let a := upd a 5 (b 4) in
  let a := upd a 6 (-conj (a 2)) in
  let a := upd a 7 (-conj (a 5)) in
  let a := upd a 8 (-a 0-a 4) in
  a)%C.

(** src/Matrix_Ops/U_Nops.c lines 626-629 *)
Definition rebuild_antihermitian_2 (a b : arr) : arr := (
  let a := upd a 0 (b 0) in
  let a := upd a 1 (b 1) in
  let a := upd a 2 (-conj (a 1)) in
  let a := upd a 3 (-a 0) in
  a)%C.

(** src/Matrix_Ops/U_Nops.c lines 657-665 *)
Definition rebuild_hermitian_3 (a b : arr) : arr := (
  let a := upd a 0 (b 0) in
  let a := upd a 1 (b 1) in
  let a := upd a 2 (b 2) in
  let a := upd a 3 (conj (a 1)) in
  let a := upd a 4 (b 3) in
  let a := upd a 5 (b 4) in
  let a := upd a 6 (conj (a 2)) in
  let a := upd a 7 (conj (a 5)) in
  let a := upd a 8 (-a 0-a 4) in
  a)%C.

(** src/Matrix_Ops/U_Nops.c lines 667-670 *)
Definition rebuild_hermitian_2 (a b : arr) : arr := (
  let a := upd a 0 (b 0) in
  let a := upd a 1 (b 1) in
  let a := upd a 2 (conj (a 1)) in
  let a := upd a 3 (-a 0) in
  a)%C.

(** * The looped branches, any NC *)

(** U_Nops.c lines 40-43 *)
Definition add_constant_n (NC : nat) (a : arr) (c : C) : arr :=
  for_ NC (fun i a => upd a (i*(NC+1)) (a (i*(NC+1))%nat + c)) a.
(** lines 61-64 *)
Definition a_plus_b_n (NC : nat) (a b : arr) : arr :=
  for_ (NC*NC) (fun i a => upd a i (a i + b i)) a.
(** lines 83-86 *)
Definition a_plus_CSxb_n (NC : nat) (a b : arr) (S : C) : arr :=
  for_ (NC*NC) (fun i a => upd a i (a i + S * b i)) a.
(** lines 152-155 *)
Definition b_min_c_n (NC : nat) (a b c : arr) : arr :=
  for_ (NC*NC) (fun i a => upd a i (b i - c i)) a.
(** HERMSIZE, /repo/src/Headers/Mainfile.h: ((NC*(NC+1))>>1) - 1 *)
Definition HERMSIZE (NC : nat) : nat := (NC*(NC+1)/2 - 1)%nat.
(** lines 130-133 *)
Definition a_plus_Sxbminc_short_n (NC : nat) (a : arr) (S : C) (B C : arr) : arr :=
  for_ (HERMSIZE NC) (fun mu a => upd a mu (a mu + S * (B mu - C mu))) a.
(** lines 447-450 *)
Definition M_times_c_n (NC : nat) (M : arr) (c : C) : arr :=
  for_ (NC*NC) (fun i M => upd M i (M i * c)) M.
(** lines 309-312 *)
Definition equiv_n (NC : nat) (a b : arr) : arr :=
  for_ (NC*NC) (fun i a => upd a i (b i)) a.
(** lines 1089-1092 *)
Definition zero_mat_n (NC : nat) (a : arr) : arr :=
  for_ (NC*NC) (fun i a => upd a i C0) a.
(** lines 329-334 *)
Definition identity_n (NC : nat) (ident : arr) : arr :=
  for_ NC (fun i a => for_ NC (fun j a =>
    upd a (j + NC*i) (if negb (Nat.eqb i j) then C0 else C1)) a) ident.
(** lines 262-267 *)
Definition diag_n (NC : nat) (M : arr) (c : C) : arr :=
  for_ NC (fun i a => for_ NC (fun j a =>
    upd a (j + NC*i) (if negb (Nat.eqb i j) then C0 else c)) a) M.
(** lines 285-291; j = i+1+h *)
Definition diag_vect_n (NC : nat) (M c : arr) : arr :=
  for_ NC (fun i M =>
    let M := for_ (NC - (i+1)) (fun h M =>
      let j := (i+1+h)%nat in
      let M := upd M (i + j*NC) C0 in
      upd M (j + i*NC) C0) M in
    upd M (i*(NC+1)) (c i)) M.
(** lines 224-229 *)
Definition dagger_n (NC : nat) (b a : arr) : arr :=
  for_ NC (fun i b => for_ NC (fun j b =>
    upd b (j + i*NC) (conj (a (i + j*NC)%nat))) b) b.
(** lines 1015-1020 *)
Definition transpose_n (NC : nat) (a b : arr) : arr :=
  for_ NC (fun i a => for_ NC (fun j a =>
    upd a (j + i*NC) (b (i + j*NC)%nat)) a) a.
(** lines 524-529 *)
Definition outerproduct_n (NC : nat) (Q a b : arr) : arr :=
  for_ NC (fun i Q => for_ NC (fun j Q =>
    upd Q (j + i*NC) (a i * conj (b j))) Q) Q.
(** lines 423-429 *)
Definition mat_mult_vec_n (NC : nat) (vect S v : arr) : arr :=
  for_ NC (fun i vect =>
    for_ NC (fun j vect => upd vect i (vect i + S (j + i*NC)%nat * v j)) (upd vect i C0)) vect.

(** lines 740-748: the array read as reals, re at 2k, im at 2k+1; pU advances by
    2 + 2*NC reals each turn *)
Definition speed_trace_n (NC : nat) (U : arr) : C :=
  let (sumr, sumi) := for_ NC (fun i (s : R * R) =>
    (fst s + re (U (i*(NC+1))%nat), snd s + im (U (i*(NC+1))%nat))%R) (0, 0)%R in
  RtoC sumr + Ci * RtoC sumi.
(** lines 764-771 *)
Definition speed_trace_Re_n (NC : nat) (U : arr) : R :=
  for_ NC (fun i s => (s + re (U (i*(NC+1))%nat))%R) 0%R.
(** lines 785-793 *)
Definition trace_n (NC : nat) (U : arr) : C := speed_trace_n NC U.
(** lines 811-821 *)
Definition trace_ab_n (NC : nat) (a b : arr) : C :=
  let (sumr, sumi) := for_ NC (fun i (s : R * R) => for_ NC (fun j (s : R * R) =>
    (fst s + (re (a (j + NC*i)%nat) * re (b (i + NC*j)%nat) - im (a (j + NC*i)%nat) * im (b (i + NC*j)%nat)),
     snd s + (re (a (j + NC*i)%nat) * im (b (i + NC*j)%nat) + im (a (j + NC*i)%nat) * re (b (i + NC*j)%nat)))%R) s)
    (0, 0)%R in
  RtoC sumr + Ci * RtoC sumi.
(** lines 840-855; NC even: two entries per turn *)
Definition trace_ab_dag_term (a b : arr) (i : nat) (s : R * R) : R * R :=
  (fst s + (re (a i) * re (b i) + im (a i) * im (b i)),
   snd s + (re (a i) * im (b i) - re (b i) * im (a i)))%R.
Definition trace_ab_dag_n (NC : nat) (a b : arr) : C :=
  let (sumr, sumi) :=
    if Nat.even NC
    then for_ (NC*NC/2) (fun h s => trace_ab_dag_term a b (2*h + 1) (trace_ab_dag_term a b (2*h) s)) (0, 0)%R
    else for_ (NC*NC) (trace_ab_dag_term a b) (0, 0)%R in
  RtoC sumr - Ci * RtoC sumi.
(** lines 882-894 *)
Definition trace_ab_dag_Re_n (NC : nat) (a b : arr) : R :=
  let term i (s : R) := (s + (re (a i) * re (b i) + im (a i) * im (b i)))%R in
  if Nat.even NC
  then for_ (NC*NC/2) (fun h s => term (2*h + 1)%nat (term (2*h)%nat s)) 0%R
  else for_ (NC*NC) term 0%R.
(** lines 916-926; j = i+1+h *)
Definition trace_ab_herm_n (NC : nat) (a b : arr) : R :=
  for_ NC (fun i sum =>
    let sum := (sum + re (a (i + NC*i)%nat) * re (b (i + NC*i)%nat))%R in
    for_ (NC - (i+1)) (fun h sum => let j := (i+1+h)%nat in
      (sum + 2 * (re (a (j + NC*i)%nat) * re (b (j + NC*i)%nat)
                + im (a (j + NC*i)%nat) * im (b (j + NC*i)%nat)))%R) sum) 0%R.
(** lines 948-962; the state is (idx, suma, sumb, sum) *)
Definition trace_ab_herm_short_n (NC : nat) (a b : arr) : R :=
  let '(idx, suma, sumb, sum) :=
    for_ (NC-1) (fun i '(idx, suma, sumb, sum) =>
      let sum := (sum + re (a idx) * re (b idx))%R in
      let suma := (suma + re (a idx))%R in
      let sumb := (sumb + re (b idx))%R in
      let idx := S idx in
      let '(idx, sum) := for_ (NC - (i+1)) (fun _ '(idx, sum) =>
        (S idx, (sum + 2 * (re (a idx) * re (b idx) + im (a idx) * im (b idx)))%R)) (idx, sum) in
      (idx, suma, sumb, sum)) (O, 0%R, 0%R, 0%R) in
  (sum + suma * sumb)%R.
(** lines 984-997; the state is (pA - a, sum) *)
Definition trace_prod_herm_n (NC : nat) (a : arr) : R :=
  snd (for_ NC (fun i '(p, sum) =>
    let sum := (sum + re (a p) * re (a p))%R in
    let p := S p in
    let '(p, sum) := for_ (NC - (i+1)) (fun _ '(p, sum) =>
      (S p, (sum + 2 * (re (a p) * re (a p) + im (a p) * im (a p)))%R)) (p, sum) in
    ((p + (i+1))%nat, sum)) (O, 0%R)).
(** trace_abc.c lines 142-149, the inner sum: pA = a + NC*j, pB = b + NC*k *)
Definition abc_inner (NC : nat) (a b : arr) (i j : nat) : R * R :=
  for_ NC (fun k (s : R * R) =>
    (fst s + (re (a (NC*j + k)%nat) * re (b (NC*k + i)%nat) - im (a (NC*j + k)%nat) * im (b (NC*k + i)%nat)),
     snd s + (re (a (NC*j + k)%nat) * im (b (NC*k + i)%nat) + im (a (NC*j + k)%nat) * re (b (NC*k + i)%nat)))%R)
    (0, 0)%R.
(** trace_abc.c lines 133-155 *)
Definition trace_abc_n (NC : nat) (a b c : arr) : C :=
  let (sumr, sumi) := for_ NC (fun i s => for_ NC (fun j (s : R * R) =>
    let (insumr, insumi) := abc_inner NC a b i j in
    (fst s + (insumr * re (c (j + i*NC)%nat) - insumi * im (c (j + i*NC)%nat)),
     snd s + (insumr * im (c (j + i*NC)%nat) + insumi * re (c (j + i*NC)%nat)))%R) s) (0, 0)%R in
  RtoC sumr + Ci * RtoC sumi.
(** lines 183-205 *)
Definition trace_abc_dag_n (NC : nat) (a b c : arr) : C :=
  let (sumr, sumi) := for_ NC (fun i s => for_ NC (fun j (s : R * R) =>
    let (insumr, insumi) := abc_inner NC a b i j in
    (fst s + (insumr * re (c (i + j*NC)%nat) + insumi * im (c (i + j*NC)%nat)),
     snd s + (- insumr * im (c (i + j*NC)%nat) + insumi * re (c (i + j*NC)%nat)))%R) s) (0, 0)%R in
  RtoC sumr + Ci * RtoC sumi.
(** lines 233-254 *)
Definition trace_abc_dag_Re_n (NC : nat) (a b c : arr) : R :=
  for_ NC (fun i s => for_ NC (fun j (s : R) =>
    let (insumr, insumi) := abc_inner NC a b i j in
    (s + (insumr * re (c (i + j*NC)%nat) + insumi * im (c (i + j*NC)%nat)))%R) s) 0%R.

(** pack_hermitian, lines 540-546 (all NC); the state is (a, idx), j = i+h *)
Definition pack_hermitian (NC : nat) (a b : arr) : arr :=
  fst (for_ (NC-1) (fun i s => for_ (NC - i) (fun h '(a, idx) =>
    (upd a idx (b ((i+h) + i*NC)%nat), S idx)) s) (a, O)).
(** rebuild_antihermitian lines 631-646 and rebuild_hermitian lines 672-687 *)
Definition rebuild_antihermitian_n (NC : nat) (a b : arr) : arr :=
  let (a, _) := for_ (NC-1) (fun i s => for_ (NC - i) (fun h '(a, idx) =>
    let j := (i+h)%nat in
    let a := upd a (j + NC*i) (b idx) in
    let a := upd a (i + NC*j) (- conj (b idx)) in
    (a, S idx)) s) (a, O) in
  let res := for_ (NC-1) (fun k res => res + a (k*(NC+1))%nat) C0 in
  upd a (NC*NC - 1) (- res).
Definition rebuild_hermitian_n (NC : nat) (a b : arr) : arr :=
  let (a, _) := for_ (NC-1) (fun i s => for_ (NC - i) (fun h '(a, idx) =>
    let j := (i+h)%nat in
    let a := upd a (j + NC*i) (b idx) in
    let a := upd a (i + NC*j) (conj (b idx)) in
    (a, S idx)) s) (a, O) in
  let res := for_ (NC-1) (fun k res => res + a (k*(NC+1))%nat) C0 in
  upd a (NC*NC - 1) (- res).

(** * The functions: the preprocessor picks the branch from NC *)

Definition add_constant (NC : nat) (a : arr) (c : C) : arr :=
  match NC with 3 => add_constant_3 a c | 2 => add_constant_2 a c | _ => add_constant_n NC a c end.
Definition diag (NC : nat) (a : arr) (c : C) : arr :=
  match NC with 3 => diag_3 a c | 2 => diag_2 a c | _ => diag_n NC a c end.
Definition M_times_c (NC : nat) (a : arr) (c : C) : arr :=
  match NC with 3 => M_times_c_3 a c | 2 => M_times_c_2 a c | _ => M_times_c_n NC a c end.
Definition a_plus_b (NC : nat) (a b : arr) : arr :=
  match NC with 3 => a_plus_b_3 a b | 2 => a_plus_b_2 a b | _ => a_plus_b_n NC a b end.
Definition equiv (NC : nat) (a b : arr) : arr :=
  match NC with 3 => equiv_3 a b | 2 => equiv_2 a b | _ => equiv_n NC a b end.
Definition dagger (NC : nat) (a b : arr) : arr :=
  match NC with 3 => dagger_3 a b | 2 => dagger_2 a b | _ => dagger_n NC a b end.
Definition transpose (NC : nat) (a b : arr) : arr :=
  match NC with 3 => transpose_3 a b | 2 => transpose_2 a b | _ => transpose_n NC a b end.
Definition a_plus_CSxb (NC : nat) (a b : arr) (S : C) : arr :=
  match NC with 3 => a_plus_CSxb_3 a b S | 2 => a_plus_CSxb_2 a b S | _ => a_plus_CSxb_n NC a b S end.
(** lines 92-111: the same statements with S real *)
Definition a_plus_Sxb (NC : nat) (a b : arr) (S : R) : arr := a_plus_CSxb NC a b (RtoC S).
Definition a_plus_Sxbminc_short (NC : nat) (a : arr) (S : R) (B C : arr) : arr :=
  match NC with 3 => a_plus_Sxbminc_short_3 a (RtoC S) B C | 2 => a_plus_Sxbminc_short_2 a (RtoC S) B C
  | _ => a_plus_Sxbminc_short_n NC a (RtoC S) B C end.
Definition b_min_c (NC : nat) (a b c : arr) : arr :=
  match NC with 3 => b_min_c_3 a b c | 2 => b_min_c_2 a b c | _ => b_min_c_n NC a b c end.
Definition zero_mat (NC : nat) (a : arr) : arr :=
  match NC with 3 => zero_mat_3 a | 2 => zero_mat_2 a | _ => zero_mat_n NC a end.
Definition identity (NC : nat) (a : arr) : arr :=
  match NC with 3 => identity_3 a | 2 => identity_2 a | _ => identity_n NC a end.
Definition diag_vect (NC : nat) (M c : arr) : arr :=
  match NC with 3 => diag_vect_3 M c | 2 => diag_vect_2 M c | _ => diag_vect_n NC M c end.
Definition outerproduct (NC : nat) (Q a b : arr) : arr :=
  match NC with 3 => outerproduct_3 Q a b | 2 => outerproduct_2 Q a b | _ => outerproduct_n NC Q a b end.
Definition mat_mult_vec (NC : nat) (vect S v : arr) : arr :=
  match NC with 3 => mat_mult_vec_3 vect S v | 2 => mat_mult_vec_2 vect S v | _ => mat_mult_vec_n NC vect S v end.
Definition speed_trace (NC : nat) (U : arr) : C :=
  match NC with 3 => speed_trace_3 U | 2 => speed_trace_2 U | _ => speed_trace_n NC U end.
Definition trace (NC : nat) (U : arr) : C :=
  match NC with 3 => trace_3 U | 2 => trace_2 U | _ => trace_n NC U end.
Definition speed_trace_Re (NC : nat) (U : arr) : R :=
  match NC with 3 => speed_trace_Re_3 U | 2 => speed_trace_Re_2 U | _ => speed_trace_Re_n NC U end.
Definition trace_ab (NC : nat) (a b : arr) : C :=
  match NC with 3 => trace_ab_3 a b | 2 => trace_ab_2 a b | _ => trace_ab_n NC a b end.
Definition trace_ab_dag (NC : nat) (a b : arr) : C :=
  match NC with 3 => trace_ab_dag_3 a b | 2 => trace_ab_dag_2 a b | _ => trace_ab_dag_n NC a b end.
Definition trace_ab_dag_Re (NC : nat) (a b : arr) : R :=
  match NC with 3 => trace_ab_dag_Re_3 a b | 2 => trace_ab_dag_Re_2 a b | _ => trace_ab_dag_Re_n NC a b end.
Definition trace_ab_herm (NC : nat) (a b : arr) : R :=
  match NC with 3 => trace_ab_herm_3 a b | 2 => trace_ab_herm_2 a b | _ => trace_ab_herm_n NC a b end.
Definition trace_ab_herm_short (NC : nat) (a b : arr) : R :=
  match NC with 3 => trace_ab_herm_short_3 a b | 2 => trace_ab_herm_short_2 a b | _ => trace_ab_herm_short_n NC a b end.
Definition trace_prod_herm (NC : nat) (a : arr) : R :=
  match NC with 3 => trace_prod_herm_3 a | 2 => trace_prod_herm_2 a | _ => trace_prod_herm_n NC a end.
Definition trace_abc (NC : nat) (a b c : arr) : C :=
  match NC with 3 => trace_abc_3 a b c | 2 => trace_abc_2 a b c | _ => trace_abc_n NC a b c end.
Definition trace_abc_dag (NC : nat) (a b c : arr) : C :=
  match NC with 3 => trace_abc_dag_3 a b c | 2 => trace_abc_dag_2 a b c | _ => trace_abc_dag_n NC a b c end.
Definition trace_abc_dag_Re (NC : nat) (a b c : arr) : R :=
  match NC with 3 => trace_abc_dag_Re_3 a b c | 2 => trace_abc_dag_Re_2 a b c | _ => trace_abc_dag_Re_n NC a b c end.
(** trace_abc.c lines 102-106 *)
Definition Re_trace_abc_dag_suNC (NC : nat) (a b c : arr) : R :=
  match NC with 3 => Re_trace_abc_dag_suNC_3 a b c | 2 => Re_trace_abc_dag_suNC_2 a b c
  | _ => trace_abc_dag_Re NC a b c end.
Definition rebuild_antihermitian (NC : nat) (a b : arr) : arr :=
  match NC with 3 => rebuild_antihermitian_3 a b | 2 => rebuild_antihermitian_2 a b | _ => rebuild_antihermitian_n NC a b end.
Definition rebuild_hermitian (NC : nat) (a b : arr) : arr :=
  match NC with 3 => rebuild_hermitian_3 a b | 2 => rebuild_hermitian_2 a b | _ => rebuild_hermitian_n NC a b end.

(** matrix_power, lines 462-508.  The linked list is the list of booleans
    "squareable", head first: the list is built by pushing at the front, so its
    head is the last step of the reduction of nn (lines 475-487).  n is an int;
    nn = (size_t)n (line 476) is n for n >= 0 and 2^64+n for n < 0.  The
    allocations are assumed to succeed.  [fuel] bounds the while loop; nn steps
    are enough because each turn decreases nn. *)
Fixpoint power_list (fuel nn : nat) (head : list bool) : list bool :=
  match fuel with
  | O => head
  | S f =>
      if Nat.ltb 2 nn
      then if Nat.even nn then power_list f (Nat.div2 nn) (cons true head)
           else power_list f (nn - 1) (cons false head)
      else head
  end.
Fixpoint power_steps (NC : nat) (b : arr) (l : list bool) (a : arr) : arr :=
  match l with
  | nil => a
  | cons sq l =>
      let tmp := fun _ => C0 in
      let tmp := if sq then multab NC tmp a a else multab NC tmp a b in
      power_steps NC b l (equiv NC a tmp)
  end.
Definition matrix_power (NC : nat) (a b : arr) (n : Z) : arr :=
  if Z.eqb n 0 then identity NC a
  else if Z.eqb n 1 then equiv NC a b
  else if Z.eqb n 2 then multab NC a b b
  else let nn := Z.to_nat (n mod 2^64) in
       power_steps NC b (power_list nn nn nil) (multab NC a b b).
