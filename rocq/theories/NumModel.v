(** Sums, splines, line search and Vandermonde solver:
    /repo/src/Utils/GLU_sums.c, /repo/src/Utils/GLU_splines.c,
    /repo/src/Gfix/line_search.c (approx_minimum), /repo/src/Matrix_Ops/vandermonde.c.

    double is modelled by the real numbers.  An array is the list of its elements;
    reading or writing outside it is None.  size_t arithmetic is modulo 2^64. *)
From Coq Require Import ZArith Reals List PeanoNat.
From Verif Require Import CInt Cplx Arr ProjModel.
Import ListNotations.
Local Open Scope R_scope.

Definition rd (a : list R) (i : Z) : option R := if (i <? 0)%Z then None else nth_error a (Z.to_nat i).

(** ** GLU_sums.c *)
(** dandc_sum, lines 30-38.  None also when the recursion is deeper than [fuel]. *)
Fixpoint dandc_sum (fuel : nat) (a : list R) (lo hi : Z) : option R :=
  match fuel with
  | O => None
  | S f =>
      if (u64 (hi - lo) <? 2)%Z then rd a lo
      else let mid := (u64 (hi + lo) / 2)%Z in
           match dandc_sum f a lo mid with
           | None => None
           | Some l => match dandc_sum f a mid hi with None => None | Some r => Some (l + r) end
           end
  end.
(** kahan_summation, lines 41-54: state (sum, c) *)
Fixpoint kahan_loop (a : list R) (sum c : R) : R :=
  match a with
  | [] => sum
  | x :: a => let y := x - c in let t := sum + y in let c := (t - sum) - y in kahan_loop a t c
  end.
Definition kahan_summation (a : list R) : R := kahan_loop a 0 0.
(** knuth_average, lines 57-67 *)
Fixpoint knuth_loop (a : list R) (i : nat) (ave : R) : R :=
  match a with
  | [] => ave
  | x :: a => knuth_loop a (S i) (ave + (x - ave) / (1 + INR i))
  end.
Definition knuth_average (a : list R) : R := knuth_loop a 0 0.
(** knuth_average_err, lines 70-85: (ave, err); the division by N - 1 is the
    one of size_t; None = division by zero *)
Fixpoint knuth_err_loop (a : list R) (i : nat) (ave err : R) : R * R :=
  match a with
  | [] => (ave, err)
  | x :: a =>
      let delta := x - ave in
      let ave := ave + delta / (INR i + 1) in
      let err := err + delta * (x - ave) in
      knuth_err_loop a (S i) ave err
  end.
Definition knuth_average_err (a : list R) : option (R * R) :=
  let '(ave, err) := knuth_err_loop a 0 0 0 in
  let d := u64 (Z.of_nat (length a) - 1) in
  if (d =? 0)%Z then None else Some (ave, err / IZR d).
(** par_danc_sum, lines 88-109, with Nth threads; [order] is the order in which
    the iterations' contributions are added up *)
Fixpoint par_loop (fuel : nat) (a : list R) (N split : Z) (order : list nat) (sum : R) : option R :=
  match order with
  | [] => Some sum
  | i :: r =>
      let i := Z.of_nat i in
      let hi := if (N <? u64 (u64 (i + 1) * split))%Z then N else u64 (u64 (i + 1) * split) in
      match dandc_sum fuel a (u64 (i * split)) hi with
      | None => None
      | Some s => par_loop fuel a N split r (sum + s)
      end
  end.
Definition par_danc_sum (fuel : nat) (a : list R) (Nth : nat) (order : list nat) : option R :=
  let N := Z.of_nat (length a) in
  let split := (u64 (N + Z.of_nat Nth - 1) / Z.of_nat Nth)%Z in
  par_loop fuel a N split order 0.

(** ** GLU_splines.c *)
(** find_idx, lines 28-38; the recursion is at most [fuel] deep *)
Fixpoint find_idx (fuel : nat) (target : R) (X : list R) (high low : Z) : option Z :=
  match fuel with
  | O => None
  | S f =>
      if (u64 (high - low) <? 2)%Z then Some high
      else let mid := Z.shiftr (u64 (high + low)) 1 in
           match rd X mid with
           | None => None
           | Some v => if Rlt_dec v target then find_idx f target X high mid else find_idx f target X mid low
           end
  end.
(** h2_derivative, lines 41-69, at the first, a middle and the last point: x0, x1, x2
    are the nodes read, y0, y1, y2 the values *)
Definition h2_first (x0 x1 x2 y0 y1 y2 : R) : R :=
  let a0 := x2 - x0 in let b0 := x1 - x0 in
  let num0 := b0*b0*y2 - a0*a0*y1 + y0*(a0*a0-b0*b0) in
  num0 / (a0*b0*(b0-a0)).
Definition h2_middle (x0 x1 x2 y0 y1 y2 : R) : R :=
  let a := x2 - x1 in let b := x1 - x0 in
  let num := b*b*y2 - a*a*y0 + y1*(a*a-b*b) in
  num / (a*b*(b+a)).
Definition h2_last (x0 x1 x2 y0 y1 y2 : R) : R :=
  let a1 := x2 - x0 in let b1 := x2 - x1 in
  let num1 := b1*b1*y0 - a1*a1*y1 + y2*(a1*a1-b1*b1) in
  num1 / (a1*b1*(a1-b1)).
(** h3_derivative, lines 72-124 *)
Definition h3_first (x0 x1 x2 x3 y0 y1 y2 y3 : R) : R :=
  let a := x1 - x0 in let b := x2 - x0 in let c := x3 - x0 in
  let ab := a*b in let ac := a*c in let bc := b*c in
  let num := bc*bc*(c-b)*y1 - ac*ac*(-a+c)*y2 + ab*ab*(-a+b)*y3 in
  num / (-ab*(-ac+bc)*(b-c)*(-a+c)) + (-1/a - 1/b - 1/c) * y0.
Definition h3_second (x0 x1 x2 x3 y0 y1 y2 y3 : R) : R :=
  let a := x1 - x0 in let b := x2 - x1 in let c := x3 - x1 in
  let ab := a*b in let ac := a*c in let bc := b*c in
  let num := bc*bc*(c-b)*y0 - ac*ac*(a+c)*y2 + ab*ab*(a+b)*y3 in
  num / (a*b*c*(a+b)*(b-c)*(a+c)) + (1/a - 1/b - 1/c) * y1.
Definition h3_third (x0 x1 x2 x3 y0 y1 y2 y3 : R) : R :=
  let a := x2 - x0 in let b := x2 - x1 in let c := x3 - x2 in
  let ab := a*b in let ac := a*c in let bc := b*c in
  let num := bc*bc*(b+c)*y0 - ac*ac*(a+c)*y1 + ab*ab*(a-b)*y3 in
  num / (ab*c*(a-b)*(b+c)*(a+c)) + (1/a + 1/b - 1/c) * y2.
Definition h3_last (x0 x1 x2 x3 y0 y1 y2 y3 : R) : R :=
  let a := x3 - x0 in let b := x3 - x1 in let c := x3 - x2 in
  let ab := a*b in let ac := a*c in let bc := b*c in
  let num := bc*bc*(b-c)*y0 - ac*ac*(a-c)*y1 + ab*ab*(a-b)*y2 in
  num / (-ab*c*(a-b)*(b-c)*(a-c)) + (1/a + 1/b + 1/c) * y3.
(** spline_derivative, lines 147-212: first, second, middle, last but one, last *)
Definition h4_0 (x0 x1 x2 x3 x4 y0 y1 y2 y3 y4 : R) : R :=
  let a := x1 - x0 in let b := x2 - x0 in let c := x3 - x0 in let d := x4 - x0 in
  let A := (b*c*d)*(b*c*d)*(-b+c)*(c-d)*(-b+d)*y1 in
  let B := -(a*c*d)*(a*c*d)*(-a+c)*(c-d)*(-a+d)*y2 in
  let C := -(a*b*d)*(a*b*d)*(-a+b)*(-a+d)*(-b+d)*y3 in
  let D := (a*b*c)*(a*b*c)*(-a+b)*(-a+c)*(-b+c)*y4 in
  (A+B+C+D)/(-a*-b*c*d*(-a+b)*(-a+c)*(-b+c)*(c-d)*(-a+d)*(-b+d)) + (1/-a + 1/-b - 1/c - 1/d) * y0.
Definition h4_1 (x0 x1 x2 x3 x4 y0 y1 y2 y3 y4 : R) : R :=
  let a := x1 - x0 in let b := x2 - x1 in let c := x3 - x1 in let d := x4 - x1 in
  let A := (b*c*d)*(b*c*d)*(-b+c)*(c-d)*(-b+d)*y0 in
  let B := -(a*c*d)*(a*c*d)*(a+c)*(c-d)*(a+d)*y2 in
  let C := -(a*b*d)*(a*b*d)*(a+b)*(a+d)*(-b+d)*y3 in
  let D := (a*b*c)*(a*b*c)*(a+b)*(a+c)*(-b+c)*y4 in
  (A+B+C+D)/(a*-b*c*d*(a+b)*(a+c)*(-b+c)*(c-d)*(a+d)*(-b+d)) + (1/a + 1/-b - 1/c - 1/d) * y1.
Definition h4_2 (x0 x1 x2 x3 x4 y0 y1 y2 y3 y4 : R) : R :=
  let a := x2 - x0 in let b := x2 - x1 in let c := x3 - x2 in let d := x4 - x2 in
  let A := (b*c*d)*(b*c*d)*(b+c)*(c-d)*(b+d)*y0 in
  let B := -(a*c*d)*(a*c*d)*(a+c)*(c-d)*(a+d)*y1 in
  let C := -(a*b*d)*(a*b*d)*(a-b)*(a+d)*(b+d)*y3 in
  let D := (a*b*c)*(a*b*c)*(a-b)*(a+c)*(b+c)*y4 in
  (A+B+C+D)/(a*b*c*d*(a-b)*(a+c)*(b+c)*(c-d)*(a+d)*(b+d)) + (1/a + 1/b - 1/c - 1/d) * y2.
Definition h4_3 (x0 x1 x2 x3 x4 y0 y1 y2 y3 y4 : R) : R :=
  let a := x3 - x0 in let b := x3 - x1 in let c := x3 - x2 in let d := x4 - x3 in
  let A := (b*c*d)*(b*c*d)*(b-c)*(-c-d)*(b+d)*y0 in
  let B := -(a*c*d)*(a*c*d)*(a-c)*(-c-d)*(a+d)*y1 in
  let C := -(a*b*d)*(a*b*d)*(a-b)*(a+d)*(b+d)*y2 in
  let D := (a*b*c)*(a*b*c)*(a-b)*(a-c)*(b-c)*y4 in
  (A+B+C+D)/(a*b*-c*d*(a-b)*(a-c)*(b-c)*(-c-d)*(a+d)*(b+d)) + (1/a + 1/b + 1/c - 1/d) * y3.
Definition h4_4 (x0 x1 x2 x3 x4 y0 y1 y2 y3 y4 : R) : R :=
  let a := x4 - x0 in let b := x4 - x1 in let c := x4 - x2 in let d := x4 - x3 in
  let A := (b*c*d)*(b*c*d)*(b-c)*(-c+d)*(b-d)*y0 in
  let B := -(a*c*d)*(a*c*d)*(a-c)*(-c+d)*(a-d)*y1 in
  let C := -(a*b*d)*(a*b*d)*(a-b)*(a-d)*(b-d)*y2 in
  let D := (a*b*c)*(a*b*c)*(a-b)*(a-c)*(b-c)*y3 in
  (A+B+C+D)/(a*b*-c*-d*(a-b)*(a-c)*(b-c)*(-c+d)*(a-d)*(b-d)) + (1/a + 1/b + 1/c - 1/-d) * y4.
(** read k consecutive elements *)
Definition rd3 (x : list R) (i : nat) : option (R * R * R) :=
  match skipn i x with a :: b :: c :: _ => Some (a, b, c) | _ => None end.
Definition rd4 (x : list R) (i : nat) : option (R * R * R * R) :=
  match skipn i x with a :: b :: c :: d :: _ => Some (a, b, c, d) | _ => None end.
Definition rd5 (x : list R) (i : nat) : option (R * R * R * R * R) :=
  match skipn i x with a :: b :: c :: d :: e :: _ => Some (a, b, c, d, e) | _ => None end.
Definition ap3 (f : R -> R -> R -> R -> R -> R -> R) (x y : list R) (i : nat) : option R :=
  match rd3 x i, rd3 y i with Some (a,b,c), Some (d,e,g) => Some (f a b c d e g) | _, _ => None end.
Definition ap4 (f : R -> R -> R -> R -> R -> R -> R -> R -> R) (x y : list R) (i : nat) : option R :=
  match rd4 x i, rd4 y i with Some (a,b,c,d), Some (e,g,h,k) => Some (f a b c d e g h k) | _, _ => None end.
Definition ap5 (f : R -> R -> R -> R -> R -> R -> R -> R -> R -> R -> R) (x y : list R) (i : nat) : option R :=
  match rd5 x i, rd5 y i with Some (a,b,c,d,e), Some (g,h,k,l,m) => Some (f a b c d e g h k l m) | _, _ => None end.
(** the value written to der[i], i < N; None when nothing is written (N < 3) or an
    access is outside the arrays.  In the block of lines 188-199 the index i is N-2. *)
Definition spline_der (x y : list R) (N i : nat) : option R :=
  if Nat.ltb i N then
    if Nat.ltb N 3 then None
    else if Nat.eqb N 3 then
      if Nat.eqb i 0 then ap3 h2_first x y 0 else if Nat.eqb i 1 then ap3 h2_middle x y 0 else ap3 h2_last x y 0
    else if Nat.eqb N 4 then
      if Nat.eqb i 0 then ap4 h3_first x y 0 else if Nat.eqb i 1 then ap4 h3_second x y 0
      else if Nat.eqb i 2 then ap4 h3_third x y 0 else ap4 h3_last x y 0
    else
      if Nat.eqb i 0 then ap5 h4_0 x y 0 else if Nat.eqb i 1 then ap5 h4_1 x y 0
      else if Nat.ltb i (N - 2) then ap5 h4_2 x y (i - 2)
      else if Nat.eqb i (N - 2) then ap5 h4_3 x y (N - 5) else ap5 h4_4 x y (N - 5)
  else None.
(** the coefficients a, b, c, d of lines 231-235 (also 259-261, 386-389) *)
Definition spl_a (y0 y1 yp yp_p : R) : R := 2 * (y0 - y1) + yp + yp_p.
Definition spl_b (a yp yp_p : R) : R := 1/2 * (-3 * a + (yp_p - yp)).
Definition rd2 (x : list R) (ref : Z) : option (R * R) :=
  match rd x (ref - 1), rd x ref with Some a, Some b => Some (a, b) | _, _ => None end.
(** cubic_eval, lines 217-242 *)
Definition cubic_eval (fuel : nat) (x y der : list R) (mu : R) (datalength : Z) : option R :=
  match find_idx fuel mu x datalength 0 with
  | None => None
  | Some ref =>
      match rd2 x ref, rd2 y ref, rd2 der ref with
      | Some (x0, x1), Some (y0, y1), Some (d0, d1) =>
          let diff := x1 - x0 in
          let yp := d0 * diff in let yp_p := d1 * diff in
          let a := spl_a y0 y1 yp yp_p in
          let b := spl_b a yp yp_p in
          let c := yp in let d := y0 in
          let t := (mu - x0) / diff in
          Some (d + t * (c + t * (b + t * a)))
      | _, _, _ => None
      end
  end.
(** cubert 296-304; cbrt of a non-negative number *)
Definition cbrt (x : R) : R := if Req_EM_T x 0 then 0 else Rpower x (1/3).
Definition cabs (z : C) : R := sqrt (re z * re z + im z * im z).
Definition cubert (z : C) : C :=
  let real := cabs z in let angle := carg z / 3 in
  (RtoC (cbrt real) * (cos angle, sin angle))%C.
(** csqrt of a real number *)
Definition csqrt (x : R) : C := if Rlt_dec x 0 then (0, sqrt (- x)) else (sqrt x, 0).
Definition sgn (a : R) : R := if Rlt_dec a 0 then -1 else 1.
(** quad_solve 307-322: Z[0], Z[1]; None = division by zero *)
Definition quad_solve (ca cb cc : R) : option (C * C) :=
  let q := (RtoC (-1/2) * (RtoC cb + RtoC (sgn cb) * csqrt (cb*cb - 4 * ca*cc)))%C in
  if Req_EM_T ca 0 then None
  else if Req_EM_T (re q * re q + im q * im q) 0 then None
  else Some (Cdiv q (RtoC ca), Cdiv (RtoC cc) q).
(** PREC_TOL, GLU_definitions.h: NC * 1.0E-14 *)
Definition PREC_TOL : R := 3 / 10^14.
(** cubic_solve 325-368: the array Z, zero on entry *)
Definition cubic_solve (ca cb cc cd eval : R) : option (C * C * C) :=
  if Rlt_dec (Rabs ca) PREC_TOL then
    match quad_solve cb cc (cd - eval) with None => None | Some (z0, z1) => Some (z0, z1, C0) end
  else if Rlt_dec (Rabs (cd - eval)) PREC_TOL then
    match quad_solve ca cb cc with None => None | Some (z0, z1) => Some (z0, z1, C0) end
  else
    let a := cb / ca in let b := cc / ca in let c := (cd - eval) / ca in
    let Q := (a * a - 3 * b) / 9 in
    let R := (a * (2 * a * a - 9 * b) + 27 * c) / 54 in
    if Rlt_dec (R*R) (Q*Q*Q) then
      let theta := acos (R / sqrt (Q*Q*Q)) in
      Some (RtoC (-2 * sqrt Q * cos (theta / 3) - a/3),
            RtoC (-2 * sqrt Q * cos ((theta + 2*PI) / 3) - a/3),
            RtoC (-2 * sqrt Q * cos ((theta - 2*PI) / 3) - a/3))
    else
      let res := cubert (RtoC R + csqrt (R*R - Q*Q*Q))%C in
      let A := (- res)%C in
      let B := if Req_EM_T (re A * re A + im A * im A) 0 then C0 else Cdiv (RtoC Q) A in
      let s := (A + B)%C in let m := (A - B)%C in
      Some ((s - RtoC (a/3))%C,
            (RtoC (-1/2) * s - RtoC (a/3) - Ci * RtoC (sqrt 3) * RtoC (1/2) * m)%C,
            (RtoC (-1/2) * s - RtoC (a/3) + Ci * RtoC (sqrt 3) * RtoC (1/2) * m)%C).
(** solve_spline 371-404.  [None]: undefined *)
Definition solve_spline (x y der : list R) (mu : R) (change_up : Z) : option R :=
  if (change_up =? 0)%Z then Some (-1) else
  match rd2 x change_up, rd2 y change_up, rd2 der change_up with
  | Some (x0, x1), Some (y0, y1), Some (d0, d1) =>
      let diff := x1 - x0 in
      let yp := d0 * diff in let yp_p := d1 * diff in
      let a := spl_a y0 y1 yp yp_p in
      let b := spl_b a yp yp_p in
      match cubic_solve a b yp y0 mu with
      | None => None
      | Some (z0, z1, z2) =>
          let sol z := re z * diff + x0 in
          let ok s := if Rlt_dec s x1 then (if Rlt_dec x0 s then true else false) else false in
          Some (if ok (sol z0) then sol z0 else if ok (sol z1) then sol z1 else if ok (sol z2) then sol z2 else -1)
      end
  | _, _, _ => None
  end.

(** ** line_search.c.  approx_minimum 38-57 with three probes.  isnan or isinf of Sol:
    a zero denominator; which of nan, +inf, -inf arises from n/0 is decided by the sign
    of n (for +inf the comparison of line 50 succeeds). *)
Definition approx_minimum (a0 a1 a2 f0 f1 f2 : R) : R :=
  let A := f0 / ((a0-a1)*(a0-a2)) in
  let B := f1 / ((a1-a0)*(a1-a2)) in
  let C := f2 / ((a2-a0)*(a2-a1)) in
  let num := a0*(B+C) + a1*(A+C) + a2*(A+B) in
  let den := 2*(A+B+C) in
  if Req_EM_T den 0 then (if Rlt_dec 0 num then a2 else 8/100)
  else let Sol := num / den in
       if Rlt_dec a2 Sol then a2 else if Rlt_dec Sol a0 then 8/100 else Sol.

(** ** vandermonde.c, solvandermonde 27-45 and solvandermonde_new 59-77 (the same loops; n is NC).
    A downward loop is a counted loop over the reversed index. *)
Definition vdm_divide (n k : nat) (x : nat -> R) (f : arr) : arr :=
  for_ (n - 1 - k) (fun j f => let i := (n - 1 - j)%nat in
    upd f i (Cdiv (f i - f (i - 1)%nat) (RtoC (x i - x (i - k - 1)%nat)))%C) f.
Definition vdm_plug (n k : nat) (x : nat -> R) (f : arr) : arr :=
  for_ (n - 1 - k) (fun j f => let i := (k + j)%nat in
    upd f i (f i - f (i + 1)%nat * RtoC (x k))%C) f.
Definition solvandermonde (n : nat) (x : nat -> R) (f : arr) : arr :=
  let f := for_ (n - 1) (fun k f => vdm_divide n k x f) f in
  (* k = NC-1 , ... , 1 *)
  for_ (n - 1) (fun j f => vdm_plug n (n - 1 - j) x f) f.
