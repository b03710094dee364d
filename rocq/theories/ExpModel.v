(** Matrix exponentials: /repo/src/Matrix_Ops/expMat.c, and the stout projection of
    /repo/src/Smear/projectors.c, for NC = 2 and NC = 3 (the NC > 3 branches use
    LAPACK, GSL or an iteration to convergence and are not modelled).

    Arithmetic is that of the real numbers.  The macro r3 of expMat.c line 27, a
    decimal approximation of the square root of 3, is the square root of 3.
    Division by zero and acos outside [-1,1] are None. *)
From Coq Require Import PeanoNat Reals List.
From Verif Require Export Arr MmulModel MatModel ProjModel.
Local Open Scope R_scope.

(** GLU_definitions.h lines 157, 163 *)
Definition SINTOL : R := 5 / 100.
Definition SINTOLSU2 : R := 1 / 10000.
Definition divo (x y : R) : option R := if Req_EM_T y 0 then None else Some (x / y).
Definition acoso (x : R) : option R := if Rle_dec (Rabs x) 1 then Some (acos x) else None.
(** lines 222-223 *)
Definition taylor_sinc (ww : R) : R := 1 - ww / 6 * (1 - ww / 20 * (1 - ww / 42)).
Definition id3 (U : arr) : arr :=
  upd (upd (upd (upd (upd (upd (upd (upd (upd U 0 C1) 1 C0) 2 C0) 3 C0) 4 C1) 5 C0) 6 C0) 7 C0) 8 C1.
(** lines 194-233: f0, f1, f2 from c0 and c1; exponentiate_short 419-459 is the same
    text up to the order of the last multiplications *)
Definition exp_coeffs (c0 c1 : R) : option (C * C * C) :=
  let flag := if Rlt_dec c0 0 then -1 else 1 in
  let c0 := c0 * flag in
  let rc1 := sqrt c1 in
  let c0_max := 2 * rc1 * c1 in
  match divo c0 c0_max with None => None | Some x =>
  match acoso x with None => None | Some ac =>
  let theta := ac / 3 in
  let u := rc1 * cos theta in
  let w := sqrt 3 * rc1 * sin theta in
  let uu := u * u in let ww := w * w in
  match divo 1 (9 * uu - ww) with None => None | Some denom =>
  let one := (RtoC (cos u) - Ci * RtoC (sin u))%C in
  let two := conj one in
  let two := (two * two)%C in
  let s := sin w in let c := cos w in
  let E0 := if Rlt_dec (Rabs w) SINTOL then taylor_sinc ww else s / w in
  let f0 := (RtoC (uu - ww) * two + one * (RtoC (8 * uu * c) + Ci * RtoC (2 * u * (3 * uu + ww) * E0)))%C in
  let f1 := (RtoC (2 * u) * two - one * (RtoC (2 * u * c) - Ci * RtoC ((3 * uu - ww) * E0)))%C in
  let f2 := (two - one * (RtoC c + Ci * RtoC (3 * u * E0)))%C in
  let f0 := (RtoC denom * (RtoC (re f0) + Ci * RtoC (im f0 * flag)))%C in
  let f1 := (RtoC denom * (RtoC (flag * re f1) + Ci * RtoC (im f1)))%C in
  let f2 := (RtoC denom * (RtoC (re f2) + Ci * RtoC (im f2 * flag)))%C in
  Some (f0, f1, f2) end end end.
(** lines 156-263, NC = 3 *)
Definition exponentiate_3 (U Q : arr) : option arr :=
  let REQ0 := re (Q 0%nat) in
  let REQ1 := re (Q 1%nat) in let IMQ1 := im (Q 1%nat) in
  let REQ2 := re (Q 2%nat) in let IMQ2 := im (Q 2%nat) in
  let REQ4 := re (Q 4%nat) in
  let REQ5 := re (Q 5%nat) in let IMQ5 := im (Q 5%nat) in
  let REQ8 := re (Q 8%nat) in
  let c1 := (REQ0 * REQ0 + REQ0 * REQ4 + REQ4 * REQ4 + REQ1 * REQ1 + IMQ1 * IMQ1
             + REQ2 * REQ2 + IMQ2 * IMQ2 + REQ5 * REQ5 + IMQ5 * IMQ5) / 3 in
  if Rlt_dec c1 DBL_MIN then Some (id3 U) else
  let c0 := REQ0 * (REQ4*REQ8 - REQ5*REQ5 - IMQ5*IMQ5) in
  let c0 := c0 - REQ1 * (REQ1*REQ8 - REQ5*REQ2 - IMQ5*IMQ2) in
  let c0 := c0 + IMQ1 * (- IMQ1*REQ8 + REQ5*IMQ2 - IMQ5*REQ2) in
  let c0 := c0 + REQ2 * (- REQ4 * REQ2 + REQ1 * REQ5 - IMQ1 * IMQ5) in
  let c0 := c0 - IMQ2 * (REQ4 * IMQ2 - REQ1 * IMQ5 - IMQ1 * REQ5) in
  match exp_coeffs c0 c1 with None => None | Some (f0, f1, f2) =>
  let temp0 := REQ0 * REQ0 + REQ1 * REQ1 + IMQ1 * IMQ1 + REQ2 * REQ2 + IMQ2 * IMQ2 in
  let temp1 := (- REQ1 * REQ8 + REQ2 * REQ5 + IMQ2 * IMQ5, REQ5 * IMQ2 - REQ2 * IMQ5 - IMQ1 * REQ8) in
  let temp2 := (REQ1 * REQ5 - IMQ1 * IMQ5 - REQ2 * REQ4, IMQ1 * REQ5 + IMQ5 * REQ1 - IMQ2 * REQ4) in
  let temp3 := REQ4 * REQ4 + REQ1 * REQ1 + IMQ1 * IMQ1 + REQ5 * REQ5 + IMQ5 * IMQ5 in
  let temp4 := (REQ1 * REQ2 + IMQ2 * IMQ1 - REQ0 * REQ5, REQ1 * IMQ2 - REQ2 * IMQ1 - REQ0 * IMQ5) in
  let temp5 := REQ8 * REQ8 + REQ2 * REQ2 + IMQ2 * IMQ2 + REQ5 * REQ5 + IMQ5 * IMQ5 in
  let U := upd U 0 (f0 + f1 * RtoC REQ0 + f2 * RtoC temp0)%C in
  let U := upd U 1 (f1 * Q 1%nat + f2 * temp1)%C in
  let U := upd U 2 (f1 * Q 2%nat + f2 * temp2)%C in
  let U := upd U 3 (f1 * Q 3%nat + f2 * conj temp1)%C in
  let U := upd U 4 (f0 + f1 * RtoC REQ4 + f2 * RtoC temp3)%C in
  let U := upd U 5 (f1 * Q 5%nat + f2 * temp4)%C in
  let U := upd U 6 (f1 * Q 6%nat + f2 * conj temp2)%C in
  let U := upd U 7 (f1 * Q 7%nat + f2 * conj temp4)%C in
  Some (upd U 8 (f0 + f1 * RtoC REQ8 + f2 * RtoC temp5)%C) end.
(** lines 264-281, NC = 2; the Taylor branch has z where z*z is meant *)
Definition su2_f1 (z : R) : R := if Rlt_dec (Rabs z) SINTOLSU2 then taylor_sinc z else sin z / z.
Definition exponentiate_2 (U Q : arr) : arr :=
  let z := sqrt (re (Q 0%nat) * re (Q 0%nat) + re (Q 1%nat) * re (Q 1%nat) + im (Q 1%nat) * im (Q 1%nat)) in
  let f0 := cos z in
  let f1 := su2_f1 z in
  let f1Q0 := (Ci * RtoC f1 * RtoC (re (Q 0%nat)))%C in
  let f1Q1 := (Ci * RtoC f1 * Q 1%nat)%C in
  let U := upd U 0 (RtoC f0 + f1Q0)%C in
  let U := upd U 1 f1Q1 in
  let U := upd U 2 (- conj f1Q1)%C in
  upd U 3 (RtoC f0 - f1Q0)%C.
Definition exponentiate (NC : nat) (U Q : arr) : option arr :=
  match NC with 3 => exponentiate_3 U Q | 2 => Some (exponentiate_2 U Q) | _ => None end.
(** exponentiate_short 371-519, NC = 3 376-490 *)
Definition exponentiate_short_3 (U Q : arr) : option arr :=
  let REQ0 := re (Q 0%nat) in
  let REQ1 := re (Q 1%nat) in let IMQ1 := im (Q 1%nat) in
  let REQ2 := re (Q 2%nat) in let IMQ2 := im (Q 2%nat) in
  let REQ4 := re (Q 3%nat) in
  let REQ5 := re (Q 4%nat) in let IMQ5 := im (Q 4%nat) in
  let REQ8 := - (REQ0 + REQ4) in
  let c1 := (- REQ0 * REQ8 + REQ4 * REQ4 + REQ1 * REQ1 + IMQ1 * IMQ1
             + REQ2 * REQ2 + IMQ2 * IMQ2 + REQ5 * REQ5 + IMQ5 * IMQ5) / 3 in
  if Rlt_dec c1 DBL_MIN then Some (id3 U) else
  let c0 := REQ0 * (REQ4*REQ8 - REQ5*REQ5 - IMQ5*IMQ5) in
  let c0 := c0 - REQ1 * (REQ1*REQ8 - REQ5*REQ2 - IMQ5*IMQ2) in
  let c0 := c0 + IMQ1 * (- IMQ1*REQ8 + REQ5*IMQ2 - IMQ5*REQ2) in
  let c0 := c0 + REQ2 * (- REQ4 * REQ2 + REQ1 * REQ5 - IMQ1 * IMQ5) in
  let c0 := c0 - IMQ2 * (REQ4 * IMQ2 - REQ1 * IMQ5 - IMQ1 * REQ5) in
  match exp_coeffs c0 c1 with None => None | Some (f0, f1, f2) =>
  let temp0 := REQ0 * REQ0 + REQ1 * REQ1 + IMQ1 * IMQ1 + REQ2 * REQ2 + IMQ2 * IMQ2 in
  let temp1 := (- REQ1 * REQ8 + REQ2 * REQ5 + IMQ2 * IMQ5, REQ5 * IMQ2 - REQ2 * IMQ5 - IMQ1 * REQ8) in
  let temp2 := (REQ1 * REQ5 - IMQ1 * IMQ5 - REQ2 * REQ4, IMQ1 * REQ5 + IMQ5 * REQ1 - IMQ2 * REQ4) in
  let temp3 := REQ4 * REQ4 + REQ1 * REQ1 + IMQ1 * IMQ1 + REQ5 * REQ5 + IMQ5 * IMQ5 in
  let temp4 := (REQ1 * REQ2 + IMQ2 * IMQ1 - REQ0 * REQ5, REQ1 * IMQ2 - REQ2 * IMQ1 - REQ0 * IMQ5) in
  let temp5 := REQ8 * REQ8 + REQ2 * REQ2 + IMQ2 * IMQ2 + REQ5 * REQ5 + IMQ5 * IMQ5 in
  let U := upd U 0 (f0 + f1 * RtoC REQ0 + f2 * RtoC temp0)%C in
  let U := upd U 1 (f1 * Q 1%nat + f2 * temp1)%C in
  let U := upd U 2 (f1 * Q 2%nat + f2 * temp2)%C in
  let U := upd U 3 (f1 * conj (Q 1%nat) + f2 * conj temp1)%C in
  let U := upd U 4 (f0 + f1 * RtoC REQ4 + f2 * RtoC temp3)%C in
  let U := upd U 5 (f1 * Q 4%nat + f2 * temp4)%C in
  let U := upd U 6 (f1 * conj (Q 2%nat) + f2 * conj temp2)%C in
  let U := upd U 7 (f1 * conj (Q 4%nat) + f2 * conj temp4)%C in
  Some (upd U 8 (f0 + f1 * RtoC REQ8 + f2 * RtoC temp5)%C) end.
(** lines 491-510, NC = 2 *)
Definition exponentiate_short_2 (U Q : arr) : arr :=
  let z := sqrt (re (Q 0%nat) * re (Q 0%nat) + re (Q 1%nat) * re (Q 1%nat) + im (Q 1%nat) * im (Q 1%nat)) in
  let f0 := cos z in
  let f1 := su2_f1 z in
  let f1Q0 := (Ci * RtoC f1 * Q 0%nat)%C in
  let f1Q1 := (Ci * RtoC f1 * Q 1%nat)%C in
  let U := upd U 0 (RtoC f0 + f1Q0)%C in
  let U := upd U 1 f1Q1 in
  let U := upd U 2 (- conj f1Q1)%C in
  upd U 3 (RtoC f0 - f1Q0)%C.
Definition exponentiate_short (NC : nat) (U Q : arr) : option arr :=
  match NC with 3 => exponentiate_short_3 U Q | 2 => Some (exponentiate_short_2 U Q) | _ => None end.

(** projectors.c.  project_STOUT lines 153-188; z1, z2 are the zero-initialised
    local arrays a and b *)
Definition project_STOUT (NC : nat) (smeared_link staple link : arr) (smear_alpha al : R) : option arr :=
  let z (k : nat) := C0 in
  let a := upd z 0 (RtoC al) in
  let b := multab_dag NC z staple link in
  let a := Hermitian_proj NC a b in
  let al := RtoC smear_alpha in
  let a := match NC with
    | 3 => let a := upd a 0 (a 0%nat * al)%C in let a := upd a 1 (a 1%nat * al)%C in let a := upd a 2 (a 2%nat * al)%C in
           let a := upd a 3 (conj (a 1%nat)) in let a := upd a 4 (a 4%nat * al)%C in let a := upd a 5 (a 5%nat * al)%C in
           let a := upd a 6 (conj (a 2%nat)) in let a := upd a 7 (conj (a 5%nat)) in
           upd a 8 (- a 0%nat - a 4%nat)%C
    | 2 => let a := upd a 0 (a 0%nat * al)%C in let a := upd a 1 (a 1%nat * al)%C in
           let a := upd a 2 (conj (a 1%nat)) in upd a 3 (- a 0%nat)%C
    | _ => for_ (NC*NC) (fun k a => upd a k (a k * al)%C) a
    end in
  match exponentiate NC b a with None => None | Some b => Some (multab_suNC NC smeared_link b link) end.
