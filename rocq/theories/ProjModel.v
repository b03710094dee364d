(** Hermitian and antihermitian projections, /repo/src/Matrix_Ops/exactQ.c, and
    the reduced storage of SU(2) and SU(3) matrices, /repo/src/Matrix_Ops/U_Nops.c.
    Portable (no SSE) branches; a GLU_real used in a complex expression is
    written RtoC. *)
From Coq Require Import PeanoNat Reals List.
From Verif Require Export Arr MatModel.
Local Open Scope C_scope.
Local Notation half := (RtoC (1/2)).

(** AntiHermitian_proj, lines 83-116 *)
Definition AntiHermitian_proj_3 (Q U : arr) : arr :=
  let cimU0 := im (U 0) in let cimU4 := im (U 4) in let cimU8 := im (U 8) in
  let Q := upd Q 0 (Ci * RtoC cimU0) in
  let Q := upd Q 1 (half * (U 1 - conj (U 3))) in
  let Q := upd Q 2 (half * (U 2 - conj (U 6))) in
  let Q := upd Q 3 (- conj (Q 1)) in
  let Q := upd Q 4 (Ci * RtoC cimU4) in
  let Q := upd Q 5 (half * (U 5 - conj (U 7))) in
  let Q := upd Q 6 (- conj (Q 2)) in
  let Q := upd Q 7 (- conj (Q 5)) in
  upd Q 8 (Ci * RtoC cimU8).
Definition AntiHermitian_proj_2 (Q U : arr) : arr :=
  let cimU0 := im (U 0) in let cimU3 := im (U 3) in
  let Q := upd Q 0 (Ci * RtoC cimU0) in
  let Q := upd Q 1 (U 1) in
  let Q := upd Q 2 (- conj (Q 1)) in
  upd Q 3 (Ci * RtoC cimU3).
Definition AntiHermitian_proj_n (NC : nat) (Q U : arr) : arr :=
  for_ NC (fun i Q => for_ NC (fun j Q =>
    upd Q (j+i*NC) ((U (j+i*NC)%nat - conj (U (i+j*NC)%nat)) * half)) Q) Q.
Definition AntiHermitian_proj (NC : nat) (Q U : arr) : arr :=
  match NC with 3 => AntiHermitian_proj_3 Q U | 2 => AntiHermitian_proj_2 Q U | _ => AntiHermitian_proj_n NC Q U end.

(** AntiHermitian_proj_short, lines 119-152 *)
Definition AntiHermitian_proj_short_3 (Q U : arr) : arr :=
  let cimU0 := im (U 0) in let cimU4 := im (U 4) in let cimU8 := im (U 8) in
  let Q := upd Q 0 (Ci * RtoC ((2 * cimU0 - cimU4 - cimU8)/3)) in
  let Q := upd Q 1 (half * (U 1 - conj (U 3))) in
  let Q := upd Q 2 (half * (U 2 - conj (U 6))) in
  let Q := upd Q 3 (Ci * RtoC ((2 * cimU4 - cimU0 - cimU8)/3)) in
  upd Q 4 (half * (U 5 - conj (U 7))).
Definition AntiHermitian_proj_short_2 (Q U : arr) : arr :=
  let cimU0 := im (U 0) in
  let Q := upd Q 0 (Ci * RtoC cimU0) in
  upd Q 1 (U 1).
(** lines 136-149; tr is complex, the state is (Q, idx) and j = i+h *)
Definition AntiHermitian_proj_short_n (NC : nat) (Q U : arr) : arr :=
  let tr := for_ NC (fun i tr => tr + cimag (U (i*(NC+1))%nat)) C0 in
  let tr := Cdiv tr (RtoC (INR NC)) in
  fst (for_ (NC-1) (fun i s => for_ (NC - i) (fun h '(Q, idx) =>
    let j := (i+h)%nat in
    (upd Q idx (if negb (Nat.eqb i j) then (U (j + NC*i)%nat - conj (U (i + NC*j)%nat)) * half
                else Ci * cimag (U (j + NC*i)%nat) - tr), S idx)) s) (Q, O)).
Definition AntiHermitian_proj_short (NC : nat) (Q U : arr) : arr :=
  match NC with 3 => AntiHermitian_proj_short_3 Q U | 2 => AntiHermitian_proj_short_2 Q U
  | _ => AntiHermitian_proj_short_n NC Q U end.

(** Hermitian_proj, lines 357-396 *)
Definition Hermitian_proj_3 (Q U : arr) : arr :=
  let cimU0 := im (U 0) in let cimU4 := im (U 4) in let cimU8 := im (U 8) in
  let Q := upd Q 0 (RtoC ((2 * cimU0 - cimU4 - cimU8) / 3)) in
  let Q := upd Q 1 (- Ci * (U 1 - conj (U 3)) * half) in
  let Q := upd Q 2 (- Ci * (U 2 - conj (U 6)) * half) in
  let Q := upd Q 3 (conj (Q 1)) in
  let Q := upd Q 4 (RtoC ((2 * cimU4 - cimU0 - cimU8) / 3)) in
  let Q := upd Q 5 (- Ci * (U 5 - conj (U 7)) * half) in
  let Q := upd Q 6 (conj (Q 2)) in
  let Q := upd Q 7 (conj (Q 5)) in
  upd Q 8 (RtoC (- re (Q 0) - re (Q 4))).
Definition Hermitian_proj_2 (Q U : arr) : arr :=
  let Q := upd Q 0 (cimag (U 0)) in
  let Q := upd Q 1 (- Ci * U 1) in
  let Q := upd Q 2 (conj (Q 1)) in
  upd Q 3 (- Q 0).
(** lines 378-393; the state is (Q, tr), j = i+1+h *)
Definition Hermitian_proj_n (NC : nat) (Q U : arr) : arr :=
  let '(Q, tr) := for_ NC (fun i '(Q, tr) =>
    let Q := upd Q (i*(NC+1)) (cimag (U (i*(NC+1))%nat)) in
    let tr := (tr + re (Q (i*(NC+1))%nat))%R in
    (for_ (NC - (i+1)) (fun h Q =>
      let j := (i+1+h)%nat in
      let Q := upd Q (j+i*NC) (- Ci * (U (j+i*NC)%nat - conj (U (i+j*NC)%nat)) * half) in
      upd Q (i+j*NC) (conj (Q (j+i*NC)%nat))) Q, tr)) (Q, 0%R) in
  let tr := (tr / INR NC)%R in
  for_ NC (fun i Q => upd Q (i*(NC+1)) (Q (i*(NC+1))%nat - RtoC tr)) Q.
Definition Hermitian_proj (NC : nat) (Q U : arr) : arr :=
  match NC with 3 => Hermitian_proj_3 Q U | 2 => Hermitian_proj_2 Q U | _ => Hermitian_proj_n NC Q U end.

(** Hermitian_proj_short, lines 399-451 *)
Definition Hermitian_proj_short_3 (Q U : arr) : arr :=
  let cimU0 := im (U 0) in let cimU4 := im (U 4) in let cimU8 := im (U 8) in
  let Q := upd Q 0 (RtoC ((2 * cimU0 - cimU4 - cimU8) / 3)) in
  let Q := upd Q 1 (Ci * half * (conj (U 3) - U 1)) in
  let Q := upd Q 2 (Ci * half * (conj (U 6) - U 2)) in
  let Q := upd Q 3 (RtoC ((2 * cimU4 - cimU0 - cimU8) / 3)) in
  upd Q 4 (Ci * half * (conj (U 7) - U 5)).
Definition Hermitian_proj_short_2 (Q U : arr) : arr :=
  let Q := upd Q 0 (cimag (U 0)) in
  upd Q 1 (- Ci * U 1).
(** lines 433-448; j = i+1+h *)
Definition Hermitian_proj_short_n (NC : nat) (Q U : arr) : arr :=
  let tr := for_ NC (fun i tr => (tr + im (U (i*(NC+1))%nat))%R) 0%R in
  let tr := (tr / INR NC)%R in
  fst (for_ (NC-1) (fun i '(Q, idx) =>
    let Q := upd Q idx (RtoC (im (U (i*(NC+1))%nat) - tr)) in
    for_ (NC - (i+1)) (fun h '(Q, idx) =>
      let j := (i+1+h)%nat in
      (upd Q idx (- Ci * (U (j + NC*i)%nat - conj (U (i + NC*j)%nat)) * half), S idx)) (Q, S idx)) (Q, O)).
Definition Hermitian_proj_short (NC : nat) (Q U : arr) : arr :=
  match NC with 3 => Hermitian_proj_short_3 Q U | 2 => Hermitian_proj_short_2 Q U | _ => Hermitian_proj_short_n NC Q U end.

(** trf_AntiHermitian_proj, lines 454-491 *)
Definition trf_AntiHermitian_proj_3 (Q U : arr) : arr :=
  let cimU0 := im (U 0) in let cimU4 := im (U 4) in let cimU8 := im (U 8) in
  let Q := upd Q 0 (Ci * RtoC ((2 * cimU0 - cimU4 - cimU8) / 3)) in
  let Q := upd Q 1 (half * (U 1 - conj (U 3))) in
  let Q := upd Q 2 (half * (U 2 - conj (U 6))) in
  let Q := upd Q 3 (- conj (Q 1)) in
  let Q := upd Q 4 (Ci * RtoC ((2 * cimU4 - cimU0 - cimU8) / 3)) in
  let Q := upd Q 5 (half * (U 5 - conj (U 7))) in
  let Q := upd Q 6 (- conj (Q 2)) in
  let Q := upd Q 7 (- conj (Q 5)) in
  upd Q 8 (- Q 0 - Q 4).
Definition trf_AntiHermitian_proj_2 (Q U : arr) : arr := AntiHermitian_proj_2 Q U. (* lines 471-477, same text as 101-107 *)
Definition trf_AntiHermitian_proj_n (NC : nat) (Q U : arr) : arr :=
  let Q := AntiHermitian_proj_n NC Q U in (* lines 479-484, same text as 109-114 *)
  let tr := Cdiv (trace NC Q) (RtoC (INR NC)) in
  for_ NC (fun i Q => upd Q (i*(NC+1)) (Q (i*(NC+1))%nat - tr)) Q.
Definition trf_AntiHermitian_proj (NC : nat) (Q U : arr) : arr :=
  match NC with 3 => trf_AntiHermitian_proj_3 Q U | 2 => trf_AntiHermitian_proj_2 Q U | _ => trf_AntiHermitian_proj_n NC Q U end.

(** * Reduced storage of group elements, U_Nops.c *)

(** C's carg: the angle in [-pi,pi], 0 for 0 (signed zeros are not modelled) *)
Definition carg (z : C) : R :=
  if Req_EM_T (norm2 z) 0 then 0%R
  else if Rle_dec 0 (im z) then acos (re z / sqrt (norm2 z)) else (- acos (re z / sqrt (norm2 z)))%R.
Definition rupd (a : nat -> R) (i : nat) (v : R) : nat -> R := fun k => if Nat.eqb k i then v else a k.
(** shorten, lines 694-712 *)
Definition shorten_3 (a : nat -> R) (b : arr) : nat -> R :=
  let a := rupd a 0 (re (b 1)) in let a := rupd a 1 (im (b 1)) in
  let a := rupd a 2 (re (b 2)) in let a := rupd a 3 (im (b 2)) in
  let a := rupd a 4 (re (b 3)) in let a := rupd a 5 (im (b 3)) in
  let a := rupd a 6 (carg (b 0)) in
  rupd a 7 (carg (b 6)).
Definition shorten_2 (a : nat -> R) (b : arr) : nat -> R :=
  let a := rupd a 0 (carg (b 0)) in
  let a := rupd a 1 (re (b 1)) in
  rupd a 2 (im (b 1)).
Definition DBL_MIN : R := (/ 2 ^ 1022)%R.
Definition Cexpi (x : R) : C := (cos x, sin x).
(** rebuild, lines 562-607, double precision *)
Definition rebuild_3 (a : arr) (b : nat -> R) : arr :=
  let tmp := (b 0%nat * b 0%nat + b 1%nat * b 1%nat + b 2%nat * b 2%nat + b 3%nat * b 3%nat)%R in
  if Rlt_dec (Rabs tmp) DBL_MIN then identity 3 a
  else
    let NORM := RtoC (1 / tmp) in
    let reg1 := (1 - (b 0%nat * b 0%nat + b 1%nat * b 1%nat) - (b 2%nat * b 2%nat + b 3%nat * b 3%nat))%R in
    let a1 := if Rlt_dec reg1 0 then C0 else RtoC (sqrt reg1) * Cexpi (b 6%nat) in
    let reg2 := (1 - (re a1 * re a1 + im a1 * im a1) - (b 4%nat * b 4%nat + b 5%nat * b 5%nat))%R in
    let c := if Rlt_dec reg2 0 then C0 else RtoC (sqrt reg2) * Cexpi (b 7%nat) in
    let a := upd a 0 a1 in
    let a := upd a 1 (b 0%nat, b 1%nat) in
    let a := upd a 2 (b 2%nat, b 3%nat) in
    let star_a0 := conj (a 0) in
    let ca1 := c * a 1 in
    let ca2 := c * a 2 in
    let a := upd a 3 (b 4%nat, b 5%nat) in
    let a := upd a 4 ((- conj ca2 - a 3 * star_a0 * a 1) * NORM) in
    let a := upd a 5 ((conj ca1 - star_a0 * a 2 * a 3) * NORM) in
    let a := upd a 6 c in
    let a := upd a 7 ((conj (a 3 * a 2) - star_a0 * ca1) * NORM) in
    upd a 8 ((- conj (a 3 * a 1) - star_a0 * ca2) * NORM).
Definition rebuild_2 (a : arr) (b : nat -> R) : arr :=
  let Rr := sqrt (1 - (b 1%nat * b 1%nat + b 2%nat * b 2%nat)) in
  let a := upd a 0 (RtoC Rr * Cexpi (b 0%nat)) in
  let a := upd a 1 (b 1%nat, b 2%nat) in
  let a := upd a 2 (- conj (a 1)) in
  upd a 3 (conj (a 0)).
