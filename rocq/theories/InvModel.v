(** Determinant, cofactors and inverse for any NC:
    /repo/src/Matrix_Ops/LU.c, invert.c and the general branches of det,
    speed_det and cofactor_transpose in U_Nops.c.

    Modelled: the portable branches (no SSE, no LAPACKE, neither
    CLASSICAL_ADJOINT_INV nor FULL_PIVOT defined, which is the default).  The
    warnings printed to stderr are not modelled. *)
From Coq Require Import PeanoNat Reals.
From Verif Require Export Arr MatModel.
Local Open Scope C_scope.

(** creal( x ) * creal( x ) + cimag( x ) * cimag( x ) *)
Definition abs2 (x : C) : R := (re x * re x + im x * im x)%R.

(** creal( f ) * creal( p ) - cimag( f ) * cimag( p ) + I * ( ... ) *)
Definition cprod (f p : C) : C :=
  creal f * creal p - cimag f * cimag p + Ci * (creal f * cimag p + cimag f * creal p).

(** LU.c lines 52-64: the row with the largest |U[i+j*N]|; returns (piv, best) *)
Definition lu_pivot (N : nat) (U : arr) (i : nat) : nat * R :=
  for_ (N - (i+1)) (fun h '(piv, best) =>
    let j := (i+1+h)%nat in
    let attempt := abs2 (U (i + j*N)%nat) in
    if Rlt_dec best attempt then (j, attempt) else (piv, best))
    (i, abs2 (U (i*(N+1))%nat)).
(** lines 73-77, l = i+h *)
Definition lu_swap (N : nat) (U : arr) (i piv : nat) : arr :=
  for_ (N - i) (fun h U =>
    let l := (i+h)%nat in
    let dt := U (l + i*N)%nat in
    let U := upd U (l + i*N) (U (l + piv*N)%nat) in
    upd U (l + piv*N) dt) U.
(** lines 81-93, j = N-1-g, l = i+1+h *)
Definition lu_eliminate (N : nat) (U : arr) (i : nat) : arr :=
  let dt := C1 / U (i*(N+1))%nat in
  for_ (N - 1 - i) (fun g U =>
    let j := (N - 1 - g)%nat in
    let fac1 := U (i + j*N)%nat * dt in
    for_ (N - (i+1)) (fun h U =>
      let l := (i+1+h)%nat in
      upd U (l + j*N) (U (l + j*N)%nat - cprod fac1 (U (i*N + l)%nat))) U) U.

Inductive lu_state :=
| Returned (z : C)
| Running (U : arr) (determinant : C) (perms : nat).

(** one turn of the loop of lines 50-95 *)
Definition lu_turn (N i : nat) (s : lu_state) : lu_state :=
  match s with
  | Returned z => Returned z
  | Running U determinant perms =>
      let '(piv, best) := lu_pivot N U i in
      if Req_EM_T best 0 then Returned C0
      else
        let '(U, perms) := if Nat.eqb piv i then (U, perms) else (lu_swap N U i piv, S perms) in
        let U := lu_eliminate N U i in
        Running U (determinant * U (i*(N+1))%nat) perms
  end.
(** LU_det_overwrite, lines 43-99; LU_det (lines 33-40) copies the matrix first *)
Definition LU_det (N : nat) (U : arr) : C :=
  match for_ (N-1) (lu_turn N) (Running U C1 0) with
  | Returned z => z
  | Running U determinant perms =>
      let determinant := determinant * U (N*N-1)%nat in
      if Nat.odd perms then - determinant else determinant
  end.

(** U_Nops.c det, lines 235-247, and speed_det, lines 713-728 *)
Definition det (NC : nat) (U : arr) : C :=
  match NC with 3 => det_3 U | 2 => det_2 U | _ => LU_det NC U end.
Definition speed_det (NC : nat) (U : arr) : C :=
  match NC with 3 => speed_det_3 U | 2 => speed_det_2 U | _ => LU_det NC U end.

(** U_Nops.c lines 188-195: the minor of entry i, packed into "array" *)
Definition pack_minor (NC : nat) (b : arr) (i : nat) : arr :=
  fst (for_ (NC*NC) (fun j '(array, idx) =>
    if andb (negb (Nat.eqb (j mod NC) (i mod NC))) (negb (Nat.eqb (j / NC) (i / NC)))
    then (upd array idx (b j), S idx) else (array, idx)) (fun _ => C0, O)).
(** cofactor_transpose, general branch, lines 183-208 *)
Definition cofactor_transpose_n (NC : nat) (a b : arr) : (arr * C)%type :=
  let temp := for_ (NC*NC) (fun i temp =>
    let mulfact := if Nat.odd (i / NC + i mod NC) then - C1 else C1 in
    upd temp i (mulfact * LU_det (NC-1) (pack_minor NC b i))) (fun _ => C0) in
  let det := for_ NC (fun i det => det + b i * temp i) C0 in
  (transpose NC a temp, det).
Definition cofactor_transpose (NC : nat) (a b : arr) : (arr * C)%type :=
  match NC with 3 => cofactor_transpose_3 a b | 2 => cofactor_transpose_2 a b | _ => cofactor_transpose_n NC a b end.

(** * invert.c *)

(** eliminate_column, lines 38-59; k = i+1+h in the first loop.  A division by
    zero gives an unspecified complex number here (NaN or infinity in C). *)
Definition eliminate_column (NC : nat) (a inverse : arr) (i j : nat) : (arr * arr)%type :=
  let fac1 := a (i + j*NC)%nat / a (i*(NC+1))%nat in
  let a := for_ (NC - (i+1)) (fun h a =>
    let k := (i+1+h)%nat in
    upd a (k + j*NC) (a (k + j*NC)%nat - cprod fac1 (a (i*NC + k)%nat))) a in
  let inverse := for_ NC (fun k inverse =>
    upd inverse (k + j*NC) (inverse (k + j*NC)%nat - cprod fac1 (inverse (i*NC + k)%nat))) inverse in
  (a, inverse).

(** swap_rows, lines 79-96 *)
Definition swap_rows (NC : nat) (a inverse : arr) (row_idx piv : nat) : (arr * arr)%type :=
  for_ NC (fun l '(a, inverse) =>
    let tmp := a (l + row_idx*NC)%nat in
    let a := upd a (l + row_idx*NC) (a (l + piv*NC)%nat) in
    let a := upd a (l + piv*NC) tmp in
    let tmp := inverse (l + row_idx*NC)%nat in
    let inverse := upd inverse (l + row_idx*NC) (inverse (l + piv*NC)%nat) in
    let inverse := upd inverse (l + piv*NC) tmp in
    (a, inverse)) (a, inverse).

(** lines 120-162: one turn of the first loop.  row_best stays equal to pivot
    without FULL_PIVOT; col_piv starts as i*(NC+1) but is then not used. *)
Definition gj_turn (NC i : nat) (s : arr * arr) : arr * arr :=
  let '(a, ainv) := s in
  let pivot := abs2 (a (i*(NC+1))%nat) in
  let '(col_piv, col_best) := for_ (NC - (i+1)) (fun h '(col_piv, col_best) =>
      let j := (i+1+h)%nat in
      let col_attempt := abs2 (a (i + j*NC)%nat) in
      if Rlt_dec col_best col_attempt then (j, col_attempt) else (col_piv, col_best))
      ((i*(NC+1))%nat, pivot) in
  let '(a, ainv) := if Rlt_dec pivot col_best
                    then swap_rows NC a ainv col_piv i else (a, ainv) in
  for_ (NC - 1 - i) (fun g '(a, ainv) => eliminate_column NC a ainv i (NC - 1 - g)) (a, ainv).

(** lines 166-170, i = NC-1-g *)
Definition gj_upper (NC : nat) (s : arr * arr) : arr * arr :=
  for_ (NC-1) (fun g s =>
    let i := (NC - 1 - g)%nat in
    for_ i (fun j '(a, ainv) => eliminate_column NC a ainv i j) s) s.

(** lines 173-190: None is the return of GLU_FAILURE *)
Definition gj_scale (NC : nat) (a ainv : arr) : option arr :=
  for_ NC (fun j r => match r with
    | None => None
    | Some ainv =>
        if Req_EM_T (re (a (j*(NC+1))%nat)) 0
        then if Req_EM_T (im (a (j*(NC+1))%nat)) 0 then None
             else Some (for_ NC (fun i ainv => upd ainv (i + j*NC) (cprod (ainv (i + j*NC)%nat) (C1 / a (j*(NC+1))%nat))) ainv)
        else Some (for_ NC (fun i ainv => upd ainv (i + j*NC) (cprod (ainv (i + j*NC)%nat) (C1 / a (j*(NC+1))%nat))) ainv)
    end) (Some ainv).

(** gauss_jordan, lines 98-209 *)
Definition gauss_jordan (NC : nat) (M_1 M : arr) : option arr :=
  let a := for_ (NC*NC) (fun i a => upd a i (M i)) (fun _ => C0) in
  let ainv := for_ (NC*NC) (fun i a => upd a i C0) (fun _ => C0) in
  let ainv := for_ NC (fun i ainv => upd ainv (i*(NC+1)) C1) ainv in
  let '(a, ainv) := for_ (NC-1) (gj_turn NC) (a, ainv) in
  let '(a, ainv) := gj_upper NC (a, ainv) in
  match gj_scale NC a ainv with
  | None => None
  | Some ainv => Some (for_ (NC*NC) (fun i M_1 => upd M_1 i (ainv i)) M_1)
  end.

(** inverse, lines 215-255: None is GLU_FAILURE *)
Definition inverse (NC : nat) (M_1 M : arr) : option arr :=
  match NC with
  | 2 =>
      let INV_detM := C1 / det 2 M in
      let M_1 := upd M_1 0 (M 3%nat * INV_detM) in
      let M_1 := upd M_1 1 (- M 1%nat * INV_detM) in
      let M_1 := upd M_1 2 (- M 2%nat * INV_detM) in
      let M_1 := upd M_1 3 (M 0%nat * INV_detM) in
      Some M_1
  | _ => gauss_jordan NC M_1 M
  end.
