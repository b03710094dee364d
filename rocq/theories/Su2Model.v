(** SU(2) subgroups, over-relaxation and heat bath:
    /repo/src/Update/SU2_rotate.c, relax.c, hb.c.

    Modelled: the portable (no SSE) SU2_rotate.c for NC=3, NC=2 and general NC;
    microcanonical and overrelax; KP, generate_SU2 and one turn of hb (with
    USE_KP, which hb.c defines).  The random numbers are a stream [rng], read
    in order.  A division by zero (vanishing subgroup projection; infinity and
    then NaN in C) is the outcome [None].  Memory allocation is not modelled. *)
From Coq Require Import PeanoNat Reals List.
From Verif Require Export Arr.
Import ListNotations.
Local Open Scope C_scope.

(** * SU2_rotate.c *)

(** lines 36-42: the loop over i1 with its break; (found, i1, index) *)
Fixpoint scan_i1 (k i1 index su2_index : nat) : bool * nat * nat :=
  match k with
  | O => (false, i1, index)
  | S k => if Nat.eqb index su2_index then (true, i1, index) else scan_i1 k (S i1) (S index) su2_index
  end.
(** lines 33-43: the while loop, at most NC-1 turns; (i1, del_i) *)
Fixpoint scan_del (fuel NC del_i index i1 su2_index : nat) : nat * nat :=
  match fuel with
  | O => (i1, del_i)
  | S fuel =>
      if Nat.ltb del_i (NC-1) then
        let del_i := S del_i in
        let '(found, i1, index) := scan_i1 (NC - del_i) 0 index su2_index in
        if found then (i1, del_i) else scan_del fuel NC del_i index i1 su2_index
      else (i1, del_i)
  end.
(** compute_pertinent_indices, lines 32-50: (idx_a, idx_b, idx_c, idx_d).  (i1
    is uninitialised in C if the loop does not run, i.e. NC < 2.) *)
Definition su2_data (NC su2_index : nat) : nat * nat * nat * nat :=
  let '(i1, del_i) := scan_del (NC-1) NC 0 0 0 su2_index in
  let i2 := (i1 + del_i)%nat in
  ((i1 + NC*i1)%nat, (i2 + NC*i1)%nat, (i1 + NC*i2)%nat, (i2 + NC*i2)%nat).
Definition NSU2SUBGROUPS (NC : nat) : nat := (NC * (NC - 1)) / 2.

(** only_subgroup, lines 62-130: the four traces *)
Definition subgroup_temps (NC : nat) (U staple : arr) (su2_index : nat) : C * C * C * C :=
  match NC with
  | 3 =>
    match su2_index mod 3 with
    | 0 =>
      (U 0*conj (staple 0)+U 1*conj (staple 1)+U 2*conj (staple 2),
       U 0*conj (staple 3)+U 1*conj (staple 4)+U 2*conj (staple 5),
       U 3*conj (staple 0)+U 4*conj (staple 1)+U 5*conj (staple 2),
       U 3*conj (staple 3)+U 4*conj (staple 4)+U 5*conj (staple 5))
    | 1 =>
      (U 3*conj (staple 3)+U 4*conj (staple 4)+U 5*conj (staple 5),
       U 3*conj (staple 6)+U 4*conj (staple 7)+U 5*conj (staple 8),
       U 6*conj (staple 3)+U 7*conj (staple 4)+U 8*conj (staple 5),
       U 6*conj (staple 6)+U 7*conj (staple 7)+U 8*conj (staple 8))
    | _ =>
      (U 6*conj (staple 6)+U 7*conj (staple 7)+U 8*conj (staple 8),
       U 6*conj (staple 0)+U 7*conj (staple 1)+U 8*conj (staple 2),
       U 0*conj (staple 6)+U 1*conj (staple 7)+U 2*conj (staple 8),
       U 0*conj (staple 0)+U 1*conj (staple 1)+U 2*conj (staple 2))
    end
  | 2 =>
    (U 0 * conj (staple 0) + U 1 * conj (staple 1),
     U 0 * conj (staple 2) + U 1 * conj (staple 3),
     U 2 * conj (staple 0) + U 3 * conj (staple 1),
     U 2 * conj (staple 2) + U 3 * conj (staple 3))
  | _ =>
    let '(idx_a, idx_b, idx_c, idx_d) := su2_data NC su2_index in
    let row_a := (idx_a / NC)%nat in
    let col_b := (idx_b mod NC)%nat in
    for_ NC (fun i '(temp0, temp1, temp2, temp3) =>
      (temp0 + U (i + NC*row_a)%nat * conj (staple (i + NC*row_a)%nat),
       temp1 + U (i + NC*row_a)%nat * conj (staple (i + NC*col_b)%nat),
       temp2 + U (i + NC*col_b)%nat * conj (staple (i + NC*row_a)%nat),
       temp3 + U (i + NC*col_b)%nat * conj (staple (i + NC*col_b)%nat))) (C0, C0, C0, C0)
  end.
(** lines 120-130: (s0, s1, scale) *)
Definition only_subgroup (NC : nat) (U staple : arr) (su2_index : nat) : option (C * C * R) :=
  let '(temp0, temp1, temp2, temp3) := subgroup_temps NC U staple su2_index in
  let s0 := temp0 + conj temp3 in
  let s1 := temp1 - conj temp2 in
  let nrm := (re s0 * re s0 + im s0 * im s0 + re s1 * re s1 + im s1 * im s1)%R in
  if Req_EM_T nrm 0 then None
  else let scale := (1 / sqrt nrm)%R in Some (s0 * RtoC scale, s1 * RtoC scale, scale).

(** lines 137-154 *)
Definition shortened_su2_multiply (NC : nat) (w : arr) (a b : C) (su2_index : nat) : arr :=
  let '(idx_a, idx_b, idx_c, idx_d) := su2_data NC su2_index in
  let row_a := (NC * (idx_a / NC))%nat in
  let row_c := (NC * (idx_c / NC))%nat in
  for_ NC (fun i w =>
    let W1 := w (row_a + i)%nat in
    let W2 := w (row_c + i)%nat in
    let w := upd w (row_a + i) (a * W1 + b * W2) in
    upd w (row_c + i) (- conj b * W1 + conj a * W2)) w.
(** lines 162-179 *)
Definition shortened_su2_multiply_dag (NC : nat) (U : arr) (a b : C) (su2_index : nat) : arr :=
  let '(idx_a, idx_b, idx_c, idx_d) := su2_data NC su2_index in
  let col_a := (idx_a mod NC)%nat in
  let col_b := (idx_b mod NC)%nat in
  for_ NC (fun i U =>
    let U1 := U (col_a + i*NC)%nat in
    let U2 := U (col_b + i*NC)%nat in
    let U := upd U (col_a + i*NC) (U1 * conj a + U2 * conj b) in
    upd U (col_b + i*NC) (- U1 * b + U2 * a)) U.

(** su2_rotate, NC=3 branch, lines 188-233 *)
Definition su2_rotate_3 (U : arr) (s0 s1 : C) (su2_index : nat) : arr :=
  let s0_star := conj s0 in
  let s1_star := conj s1 in
  match su2_index mod 3 with
  | 0 =>
    let tmp0 := s0 * U 0 + s1 * U 3 in
    let tmp1 := s0 * U 1 + s1 * U 4 in
    let tmp2 := s0 * U 2 + s1 * U 5 in
    let tmp3 := - s1_star * U 0 + s0_star * U 3 in
    let tmp4 := - s1_star * U 1 + s0_star * U 4 in
    let tmp5 := - s1_star * U 2 + s0_star * U 5 in
    let U := upd U 0 tmp0 in let U := upd U 1 tmp1 in let U := upd U 2 tmp2 in
    let U := upd U 3 tmp3 in let U := upd U 4 tmp4 in upd U 5 tmp5
  | 1 =>
    let tmp0 := s0 * U 3 + s1 * U 6 in
    let tmp1 := s0 * U 4 + s1 * U 7 in
    let tmp2 := s0 * U 5 + s1 * U 8 in
    let tmp3 := - s1_star * U 3 + s0_star * U 6 in
    let tmp4 := - s1_star * U 4 + s0_star * U 7 in
    let tmp5 := - s1_star * U 5 + s0_star * U 8 in
    let U := upd U 3 tmp0 in let U := upd U 4 tmp1 in let U := upd U 5 tmp2 in
    let U := upd U 6 tmp3 in let U := upd U 7 tmp4 in upd U 8 tmp5
  | _ =>
    let tmp0 := s0_star * U 0 - s1_star * U 6 in
    let tmp1 := s0_star * U 1 - s1_star * U 7 in
    let tmp2 := s0_star * U 2 - s1_star * U 8 in
    let tmp3 := s1 * U 0 + s0 * U 6 in
    let tmp4 := s1 * U 1 + s0 * U 7 in
    let tmp5 := s1 * U 2 + s0 * U 8 in
    let U := upd U 0 tmp0 in let U := upd U 1 tmp1 in let U := upd U 2 tmp2 in
    let U := upd U 6 tmp3 in let U := upd U 7 tmp4 in upd U 8 tmp5
  end.
(** NC=2 branch, lines 235-239 *)
Definition su2_rotate_2 (U : arr) (s0 s1 : C) : arr :=
  let U' := upd U 0 (s0 * U 0 + s1 * U 2) in
  let U' := upd U' 1 (s0 * U 1 + s1 * U 3) in
  let U' := upd U' 2 (- conj (U' 1)) in
  upd U' 3 (conj (U' 0)).
Definition su2_rotate (NC : nat) (U : arr) (s0 s1 : C) (su2_index : nat) : arr :=
  match NC with
  | 3 => su2_rotate_3 U s0 s1 su2_index
  | 2 => su2_rotate_2 U s0 s1
  | _ => shortened_su2_multiply NC U s0 s1 su2_index
  end.

(** * relax.c *)

(** microcanonical, lines 34-44 *)
Definition microcanonical (s : C * C) : C * C :=
  let '(s0, s1) := s in
  let z := (re s0 * re s0 - im s0 * im s0 - re s1 * re s1 - im s1 * im s1)%R in
  let s1 := RtoC (-2 * re s0) * s1 in
  let s0 := RtoC z - Ci * RtoC (2 * re s0 * im s0) in
  (s0, s1).
(** overrelax, lines 47-72 without SOR; [idx] is the list of subgroups: 0, 1,
    ..., NSU2SUBGROUPS-1 by default, random ones if NSTOCH is configured *)
Fixpoint overrelax (NC : nat) (U staple : arr) (idx : list nat) : option arr :=
  match idx with
  | [] => Some U
  | stoch :: idx =>
    match only_subgroup NC U staple stoch with
    | None => None
    | Some (s0, s1, _) =>
        let '(s0, s1) := microcanonical (s0, s1) in
        overrelax NC (su2_rotate NC U s0 s1 stoch) staple idx
    end
  end.

(** * hb.c *)
Definition NHBMAX : nat := 42.
(** KP, lines 51-60: four random numbers from position p; (d, rejected).  The
    order of the two logarithms is unspecified in C; left to right here. *)
Definition KP (rng : nat -> R) (p : nat) (NORM : R) : R * bool :=
  let x4 := rng p in
  let x3 := cos (2 * PI * rng (p+1)%nat) in
  let d := (- (ln (rng (p+2)%nat) + ln (rng (p+3)%nat) * x3 * x3) * NORM)%R in
  (d, if Rlt_dec (1 - 1/2 * d) (x4 * x4) then true else false).
(** lines 89-91: the while loop; k = NHBMAX - iters turns are left after this one *)
Fixpoint KP_loop (k : nat) (rng : nat -> R) (p : nat) (NORM : R) : R * nat :=
  let '(d, rejected) := KP rng p NORM in
  if rejected then match k with O => (d, (p+4)%nat) | S k => KP_loop k rng (p+4) NORM end
  else (d, (p+4)%nat).
(** generate_SU2, lines 78-128; returns (s0, s1) and the next position *)
Definition generate_SU2 (rng : nat -> R) (p : nat) (s0 s1 : C) (NORM : R) : C * C * nat :=
  let '(d, rejected) := KP rng p NORM in
  let '(d, p) := if rejected then KP_loop (NHBMAX - 1) rng (p+4) NORM else (d, (p+4)%nat) in
  let a0 := (1 - d)%R in
  let ar2 := Rabs (1 - a0*a0) in
  let a3 := (sqrt ar2 * (2 * rng p - 1))%R in
  let rho := sqrt (Rabs (ar2 - a3*a3)) in
  let xr2 := (2 * PI * rng (p+1)%nat)%R in
  let a1 := (cos xr2 * rho)%R in
  let a2 := (sin xr2 * rho)%R in
  let rS0 := re s0 in let iS0 := im s0 in let rS1 := re s1 in let iS1 := im s1 in
  ((a0 * rS0 + a3 * iS0 + a2 * rS1 + a1 * iS1, - a0 * iS0 + rS0 * a3 - a2 * iS1 + rS1 * a1)%R,
   (- a0 * rS1 + a3 * iS1 + a2 * rS0 - a1 * iS0, - a0 * iS1 - a3 * rS1 + a2 * iS0 + a1 * rS0)%R,
   (p+2)%nat).
(** hb, lines 132-152; [idx] as for overrelax *)
Fixpoint hb (NC : nat) (rng : nat -> R) (p : nat) (U staple : arr) (invbeta : R) (idx : list nat) : option (arr * nat) :=
  match idx with
  | [] => Some (U, p)
  | stoch :: idx =>
    match only_subgroup NC U staple stoch with
    | None => None
    | Some (s0, s1, scale) =>
        let '(s0, s1, p) := generate_SU2 rng p s0 s1 (invbeta * scale) in
        hb NC rng p (su2_rotate NC U s0 s1 stoch) staple invbeta idx
    end
  end.
