(** Reunitarisation: /repo/src/Matrix_Ops/gramschmidt.c.

    Modelled: project, vect_norm2 and gram_reunit for NC=3, NC=2 and the
    general branch (double precision as exact reals).  A division by zero
    (zero vector) gives an unspecified real here; NaN in C. *)
From Coq Require Import PeanoNat Reals.
From Verif Require Export Arr MatModel InvModel.

(** gram_reunit, NC=3 branch, lines 75-164; GLU_real views of U as (re, im) pairs *)
Definition gram_reunit_3 (U : arr) : arr := (
  let v00R := re (U 0%nat) in
  let v00I := im (U 0%nat) in
  let v10R := re (U 1%nat) in
  let v10I := im (U 1%nat) in
  let v01R := re (U 3%nat) in
  let v01I := im (U 3%nat) in
  let v11R := re (U 4%nat) in
  let v11I := im (U 4%nat) in
  let v02R := re (U 6%nat) in
  let v02I := im (U 6%nat) in
  let v12R := re (U 7%nat) in
  let v12I := im (U 7%nat) in
  let norm := ( v00R * v00R + v00I * v00I ) in
  let norm := ( v01R * v01R + v01I * v01I ) + norm in
  let norm := ( v02R * v02R + v02I * v02I ) + norm in
  let norm := 1 / sqrt( norm ) in
  let v00R := v00R * norm in
  let v00I := v00I * norm in
  let v01R := v01R * norm in
  let v01I := v01I * norm in
  let v02R := v02R * norm in
  let v02I := v02I * norm in
  let cR := ( v10R * v00R ) + ( v10I * v00I ) in
  let cR := ( v11R * v01R ) + ( v12R * v02R ) + cR in
  let cR := ( v12I * v02I ) + ( v11I * v01I ) + cR in
  let cI := ( v00R * v10I - v10R * v00I ) in
  let cI := ( v01R * v11I - v11R * v01I ) + cI in
  let cI := ( v02R * v12I - v12R * v02I ) + cI in
  let v10R := v10R - ( cR * v00R - cI * v00I ) in
  let v10I := v10I - ( cR * v00I + cI * v00R ) in
  let v11R := v11R - ( cR * v01R - cI * v01I ) in
  let v11I := v11I - ( cR * v01I + cI * v01R ) in
  let v12R := v12R - ( cR * v02R - cI * v02I ) in
  let v12I := v12I - ( cR * v02I + cI * v02R ) in
  let norm := v10R * v10R + v10I * v10I in
  let norm := v11R * v11R + v11I * v11I + norm in
  let norm := v12R * v12R + v12I * v12I + norm in
  let norm := 1 / sqrt( norm ) in
  let v10R := v10R * norm in
  let v10I := v10I * norm in
  let v11R := v11R * norm in
  let v11I := v11I * norm in
  let v12R := v12R * norm in
  let v12I := v12I * norm in
  let v20R := v01R * v12R - v01I * v12I in
  let v20R := v20R - v02R * v11R + v02I * v11I in
  let v20I := v01R * v12I + v12R * v01I in
  let v20I := v02R * v11I + v11R * v02I - v20I in
  let v21R := v02R * v10R - v02I * v10I in
  let v21R := v21R - v12R * v00R + v12I * v00I in
  let v21I := v02R * v10I + v10R * v02I in
  let v21I := v00R * v12I + v12R * v00I - v21I in
  let v22R := v00R * v11R - v00I * v11I in
  let v22R := v22R - v01R * v10R + v01I * v10I in
  let v22I := v00R * v11I + v11R * v00I in
  let v22I := v01R * v10I + v10R * v01I - v22I in
  let U := upd U 0 (v00R, v00I) in
  let U := upd U 1 (v10R, v10I) in
  let U := upd U 2 (v20R, v20I) in
  let U := upd U 3 (v01R, v01I) in
  let U := upd U 4 (v11R, v11I) in
  let U := upd U 5 (v21R, v21I) in
  let U := upd U 6 (v02R, v02I) in
  let U := upd U 7 (v12R, v12I) in
  let U := upd U 8 (v22R, v22I) in
  U)%R.

(** NC=2 branch, lines 166-178 *)
Definition gram_reunit_2 (U : arr) : arr := (
  let v00R := re (U 0%nat) in
  let v00I := im (U 0%nat) in
  let v01R := re (U 2%nat) in
  let v01I := im (U 2%nat) in
  let norm := sqrt (v00R * v00R + v00I * v00I + v01R * v01R + v01I * v01I) in
  let norm := 1 / norm in
  let U := upd U 0 (v00R * norm, v00I * norm) in
  let U := upd U 1 (- (v01R * norm), - (- (v01I * norm))) in
  let U := upd U 2 (v01R * norm, v01I * norm) in
  let U := upd U 3 (v00R * norm, - (v00I * norm)) in
  U)%R.

(** project, lines 33-51: V, U are vectors of NC numbers; projRE and projIM are
    accumulated together *)
Definition project (NC : nat) (V U : nat -> C) : nat -> C :=
  let '(projRE, projIM) := for_ NC (fun i '(projRE, projIM) =>
    let projRE := (projRE + re (V i) * re (U i))%R in
    let projRE := (projRE + im (V i) * im (U i))%R in
    let projIM := (projIM + re (U i) * im (V i))%R in
    let projIM := (projIM - im (U i) * re (V i))%R in
    (projRE, projIM)) (0%R, 0%R) in
  for_ NC (fun i V => upd V i (V i -
    (projRE * re (U i) - projIM * im (U i), projRE * im (U i) + projIM * re (U i))%R)%C) V.

(** vect_norm2, lines 54-68 *)
Definition vect_norm2 (NC : nat) (a : nat -> C) : nat -> C :=
  let norm := for_ NC (fun mu norm => norm + (re (a mu) * re (a mu) + im (a mu) * im (a mu)))%R 0%R in
  let norm := (1 / sqrt norm)%R in
  for_ NC (fun mu a => upd a mu (a mu * RtoC norm)%C) a.

(** v[k] = w *)
Definition set_row (v : nat -> nat -> C) (k : nat) (w : nat -> C) : nat -> nat -> C :=
  fun i => if Nat.eqb i k then w else v i.

(** lines 191-201: one turn of the modified Gram-Schmidt loop; after the loop
    over i the index i is k *)
Definition gs_turn (NC k : nat) (s : (nat -> nat -> C) * arr) : (nat -> nat -> C) * arr :=
  let '(v, U) := s in
  let v := for_ k (fun i v => set_row v k (project NC (v k) (v i))) v in
  let v := set_row v k (vect_norm2 NC (v k)) in
  (v, for_ NC (fun j U => upd U (j + NC*k) (v k j)) U).

(** lines 205-211: the packed minor of the bottom row entry i *)
Definition pack_bottom (NC : nat) (U : arr) (i : nat) : arr :=
  fst (for_ ((NC-1)*NC) (fun j '(array, idx) =>
    if negb (Nat.eqb (j mod NC) (i mod NC)) then (upd array idx (U j), S idx) else (array, idx)) (fun _ => C0, O)).

(** gram_reunit, general branch, lines 178-222; i = NC*NC-NC+h in the last loop *)
Definition gram_reunit_n (NC : nat) (U : arr) : arr :=
  let v := for_ (NC-1) (fun i v => set_row v i (for_ NC (fun j w => upd w j (U (j + NC*i)%nat)) (v i))) (fun _ _ => C0) in
  let '(_, U) := for_ (NC-1) (gs_turn NC) (v, U) in
  for_ NC (fun h U =>
    let i := (NC*NC - NC + h)%nat in
    let mulfact := if Nat.eqb (NC mod 2) 0
      then (if Nat.eqb (i mod 2) 0 then -1 else 1)%R
      else (if Nat.eqb (i mod 2) 0 then 1 else -1)%R in
    upd U i (conj (RtoC mulfact * LU_det (NC-1) (pack_bottom NC U i))%C)) U.

Definition gram_reunit (NC : nat) (U : arr) : arr :=
  match NC with 3 => gram_reunit_3 U | 2 => gram_reunit_2 U | _ => gram_reunit_n NC U end.
