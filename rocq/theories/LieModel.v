(** Model of src/Matrix_Ops/lie_mats.c: structure constants, generators and contractions.
    The decimal constants 0.8660254037844386, 0.57735026918962584, 0.28867513459481292 and
    1.7320508075688772 are taken as the numbers they round (half of, one over, one over two times, and
    the square root of three).  The precomputed file of compute_fs_and_ds (NOT_CONDOR_MODE) is not
    modelled. *)
From Coq Require Import List ZArith PeanoNat Lia.
From Verif Require Import CInt Arr MatModel.
Import ListNotations.
Local Open Scope nat_scope.
Local Open Scope C_scope.

(** struct struc_func, lines 25-29: value and indices *)
Definition entry : Type := (C * (nat * nat * nat))%type.

(** the constants of lines 74, 130, 131 *)
Inductive cst := V1 | Vh | Vr | Vt | Vu.
Definition cval (v : cst) : R :=
  match v with V1 => 1 | Vh => / 2 | Vr => sqrt 3 / 2 | Vt => / sqrt 3 | Vu => / (2 * sqrt 3) end.
Definition decode (e : (Z * cst) * (nat * nat * nat)) : entry :=
  let '((s, v), i) := e in (RtoC (IZR s * cval v), i).

(** lines 75-128, NC = 3 *)
Definition f3_code : list ((Z * cst) * (nat * nat * nat)) := [
   ((1%Z,V1),(0,1,2)); (((-1)%Z,V1),(0,2,1)); ((1%Z,Vh),(0,3,6)); (((-1)%Z,Vh),(0,4,5)); ((1%Z,Vh),(0,5,4)); (((-1)%Z,Vh),(0,6,3));
   (((-1)%Z,V1),(1,0,2)); ((1%Z,V1),(1,2,0)); ((1%Z,Vh),(1,3,5)); ((1%Z,Vh),(1,4,6)); (((-1)%Z,Vh),(1,5,3)); (((-1)%Z,Vh),(1,6,4));
   ((1%Z,V1),(2,0,1)); (((-1)%Z,V1),(2,1,0)); ((1%Z,Vh),(2,3,4)); (((-1)%Z,Vh),(2,4,3)); (((-1)%Z,Vh),(2,5,6)); ((1%Z,Vh),(2,6,5));
   (((-1)%Z,Vh),(3,0,6)); (((-1)%Z,Vh),(3,1,5)); (((-1)%Z,Vh),(3,2,4)); ((1%Z,Vh),(3,4,2)); ((1%Z,Vr),(3,4,7)); ((1%Z,Vh),(3,5,1));
   ((1%Z,Vh),(3,6,0)); (((-1)%Z,Vr),(3,7,4)); ((1%Z,Vh),(4,0,5)); (((-1)%Z,Vh),(4,1,6)); ((1%Z,Vh),(4,2,3)); (((-1)%Z,Vh),(4,3,2));
   (((-1)%Z,Vr),(4,3,7)); (((-1)%Z,Vh),(4,5,0)); ((1%Z,Vh),(4,6,1)); ((1%Z,Vr),(4,7,3)); (((-1)%Z,Vh),(5,0,4)); ((1%Z,Vh),(5,1,3));
   ((1%Z,Vh),(5,2,6)); (((-1)%Z,Vh),(5,3,1)); ((1%Z,Vh),(5,4,0)); (((-1)%Z,Vh),(5,6,2)); ((1%Z,Vr),(5,6,7)); (((-1)%Z,Vr),(5,7,6));
   ((1%Z,Vh),(6,0,3)); ((1%Z,Vh),(6,1,4)); (((-1)%Z,Vh),(6,2,5)); (((-1)%Z,Vh),(6,3,0)); (((-1)%Z,Vh),(6,4,1)); ((1%Z,Vh),(6,5,2));
   (((-1)%Z,Vr),(6,5,7)); ((1%Z,Vr),(6,7,5)); ((1%Z,Vr),(7,3,4)); (((-1)%Z,Vr),(7,4,3)); ((1%Z,Vr),(7,5,6)); (((-1)%Z,Vr),(7,6,5))]%nat.
(** lines 132-189, NC = 3 *)
Definition d3_code : list ((Z * cst) * (nat * nat * nat)) := [
   ((1%Z,Vt),(0,0,7)); ((1%Z,Vh),(0,3,5)); ((1%Z,Vh),(0,4,6)); ((1%Z,Vh),(0,5,3)); ((1%Z,Vh),(0,6,4)); ((1%Z,Vt),(0,7,0));
   ((1%Z,Vt),(1,1,7)); (((-1)%Z,Vh),(1,3,6)); ((1%Z,Vh),(1,4,5)); ((1%Z,Vh),(1,5,4)); (((-1)%Z,Vh),(1,6,3)); ((1%Z,Vt),(1,7,1));
   ((1%Z,Vt),(2,2,7)); ((1%Z,Vh),(2,3,3)); ((1%Z,Vh),(2,4,4)); (((-1)%Z,Vh),(2,5,5)); (((-1)%Z,Vh),(2,6,6)); ((1%Z,Vt),(2,7,2));
   ((1%Z,Vh),(3,0,5)); (((-1)%Z,Vh),(3,1,6)); ((1%Z,Vh),(3,2,3)); ((1%Z,Vh),(3,3,2)); (((-1)%Z,Vu),(3,3,7)); ((1%Z,Vh),(3,5,0));
   (((-1)%Z,Vh),(3,6,1)); (((-1)%Z,Vu),(3,7,3)); ((1%Z,Vh),(4,0,6)); ((1%Z,Vh),(4,1,5)); ((1%Z,Vh),(4,2,4)); ((1%Z,Vh),(4,4,2));
   (((-1)%Z,Vu),(4,4,7)); ((1%Z,Vh),(4,5,1)); ((1%Z,Vh),(4,6,0)); (((-1)%Z,Vu),(4,7,4)); ((1%Z,Vh),(5,0,3)); ((1%Z,Vh),(5,1,4));
   (((-1)%Z,Vh),(5,2,5)); ((1%Z,Vh),(5,3,0)); ((1%Z,Vh),(5,4,1)); (((-1)%Z,Vh),(5,5,2)); (((-1)%Z,Vu),(5,5,7)); (((-1)%Z,Vu),(5,7,5));
   ((1%Z,Vh),(6,0,4)); (((-1)%Z,Vh),(6,1,3)); (((-1)%Z,Vh),(6,2,6)); (((-1)%Z,Vh),(6,3,1)); ((1%Z,Vh),(6,4,0)); (((-1)%Z,Vh),(6,6,2));
   (((-1)%Z,Vu),(6,6,7)); (((-1)%Z,Vu),(6,7,6)); ((1%Z,Vt),(7,0,0)); ((1%Z,Vt),(7,1,1)); ((1%Z,Vt),(7,2,2)); (((-1)%Z,Vu),(7,3,3));
   (((-1)%Z,Vu),(7,4,4)); (((-1)%Z,Vu),(7,5,5)); (((-1)%Z,Vu),(7,6,6)); (((-1)%Z,Vt),(7,7,7))]%nat.
(** lines 192-199, NC = 2; no d is allocated and dcount stays 0 *)
Definition f2_code : list ((Z * cst) * (nat * nat * nat)) := [
   ((1%Z,V1),(0,1,2)); (((-1)%Z,V1),(0,2,1)); (((-1)%Z,V1),(1,0,2)); ((1%Z,V1),(1,2,0)); ((1%Z,V1),(2,0,1)); (((-1)%Z,V1),(2,1,0))]%nat.

(** line 42 *)
Definition mat_idx (NC row column : nat) : nat := (row + column * NC)%nat.
(** lines 393-426.  State: the generators and the counter idx.  [- i] in line 420 is the negation of a
    size_t. *)
Definition set2 (lam : nat -> arr) (g k : nat) (v : C) : nat -> arr :=
  fun x => if Nat.eqb x g then upd (lam x) k v else lam x.
Definition gen_block (NC : nat) (subblock : nat) (s : (nat -> arr) * nat) : (nat -> arr) * nat :=
  let k := (subblock - 1)%nat in
  let '(lam, idx) := for_ k (fun j (s : (nat -> arr) * nat) =>
      let '(lam, idx) := s in
      let lam := set2 lam idx (mat_idx NC j k) (RtoC (/ 2)) in
      let lam := set2 lam idx (mat_idx NC k j) (RtoC (/ 2)) in
      let idx := S idx in
      let lam := set2 lam idx (mat_idx NC j k) (Ci * RtoC (/ 2)) in
      let lam := set2 lam idx (mat_idx NC k j) (- Ci * RtoC (/ 2)) in
      (lam, S idx)) s in
  let fact := sqrt (1 / (2 * INR subblock * INR (subblock - 1))) in
  let lam := for_ (subblock - 1) (fun i lam => set2 lam idx (mat_idx NC i i) (RtoC fact)) lam in
  let i := (subblock - 1)%nat in
  (set2 lam idx (mat_idx NC i i) (RtoC (fact * IZR (u64 (- Z.of_nat i)))), S idx).
Definition init_generators (NC : nat) : nat -> arr :=
  fst (for_ (NC - 1) (fun b s => gen_block NC (b + 2) s) ((fun _ _ => C0), 0%nat)).

(** lines 49-62: the results are real variables, a complex value assigned to them loses its imaginary part *)
Definition compute_f_and_d (NC : nat) (A B D : arr) : R * R :=
  let tr1 := trace_abc NC A B D in
  let tr2 := trace_abc NC B A D in
  (re (RtoC (- 2) * Ci * (tr1 - tr2)), re (RtoC 2 * (tr1 + tr2))).
(** lines 201-236: entries above PREC_TOL, in the order of the loops (the first pass only counts) *)
Definition PREC_TOL (NC : nat) : R := (INR NC * (/ 10 ^ 14))%R.
Definition gt_tol (NC : nat) (x : R) : bool := if Rlt_dec (PREC_TOL NC) (Rabs x) then true else false.
Definition triples (m : nat) : list (nat * nat * nat) :=
  flat_map (fun a => flat_map (fun b => map (fun c => (a, b, c)) (seq 0 m)) (seq 0 m)) (seq 0 m).
Definition f_of (NC : nat) (lam : nat -> arr) (i : nat * nat * nat) : R :=
  let '(a, b, c) := i in fst (compute_f_and_d NC (lam a) (lam b) (lam c)).
Definition d_of (NC : nat) (lam : nat -> arr) (i : nat * nat * nat) : R :=
  let '(a, b, c) := i in snd (compute_f_and_d NC (lam a) (lam b) (lam c)).
Definition table_of (NC : nat) (val : nat * nat * nat -> R) : list entry :=
  map (fun i => (RtoC (val i), i)) (filter (fun i => gt_tol NC (val i)) (triples (NC * NC - 1))).

(** the tables f and d after init_generators and compute_fs_and_ds *)
Definition ftable (NC : nat) (lam : nat -> arr) : list entry :=
  match NC with 3 => map decode f3_code | 2 => map decode f2_code | _ => table_of NC (f_of NC lam) end.
Definition dtable (NC : nat) (lam : nat -> arr) : list entry :=
  match NC with 3 => map decode d3_code | 2 => [] | _ => table_of NC (d_of NC lam) end.

(** lines 243-270 *)
Definition lie_data_3 (A : arr) (i : nat) : C :=
  match i with
  | 0 => A 1%nat + A 3%nat
  | 1 => Ci * (A 1%nat - A 3%nat)
  | 2 => A 0%nat - A 4%nat
  | 3 => A 2%nat + A 6%nat
  | 4 => Ci * (A 2%nat - A 6%nat)
  | 5 => A 5%nat + A 7%nat
  | 6 => Ci * (A 5%nat - A 7%nat)
  | _ => - A 8%nat * RtoC (sqrt 3)
  end.
Definition lie_data_2 (A : arr) (i : nat) : C :=
  match i with
  | 0 => RtoC (/ 2) * (A 1%nat + A 2%nat)
  | 1 => RtoC (/ 2) * (Ci * (A 1%nat - A 2%nat))
  | _ => A 0%nat
  end.
Definition lie_data_n (NC : nat) (lam : nat -> arr) (A : arr) (i : nat) : C := RtoC 2 * trace_ab NC A (lam i).
Definition lie_data (NC : nat) (lam : nat -> arr) (A : arr) : nat -> C :=
  match NC with 3 => lie_data_3 A | 2 => lie_data_2 A | _ => lie_data_n NC lam A end.

(** the loops of lines 322-325, 361-364, 381-388 *)
Definition contract (w : C) (tbl : list entry) (a b c : nat -> C) (result : C) : C :=
  fold_left (fun r (e : entry) => let '(v, (ia, ib, ic)) := e in r + (w * v) * a ia * b ib * c ic) tbl result.
(** lines 312-328 *)
Definition dabc_ABC (NC : nat) (lam : nat -> arr) (A B D : arr) : C :=
  contract C1 (dtable NC lam) (lie_data NC lam A) (lie_data NC lam B) (lie_data NC lam D) C0.
(** lines 350-366 *)
Definition ifabc_ABC (NC : nat) (lam : nat -> arr) (A B D : arr) : C :=
  contract Ci (ftable NC lam) (lie_data NC lam A) (lie_data NC lam B) (lie_data NC lam D) C0.
(** lines 369-390 *)
Definition ifabc_dabc_ABC (NC : nat) (lam : nat -> arr) (A B D : arr) : C :=
  let a := lie_data NC lam A in let b := lie_data NC lam B in let c := lie_data NC lam D in
  contract Ci (ftable NC lam) a b c (contract C1 (dtable NC lam) a b c C0).
