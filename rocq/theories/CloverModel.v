(** The field strength and the topological charge: /repo/src/Field/clover.c and
    its users in /repo/src/Smear/wflowfuncs.c.

    Arithmetic is that of the real numbers.  The code is for ND = 4.  The
    preprocessor choices PLAQUETTE_FMUNU, CLOVER_IMPROVE and k5 are the argument
    [build]; CLOVER_LOG_DEF and the (ANTI)HERMITIAN variants, which are commented
    out at the top of the file, are not modelled.  The scratch matrices u and v
    keep their contents from one call to the next; uninitialised local matrices
    are arguments. *)
From Coq Require Import PeanoNat Reals List Bool.
From Verif Require Import Arr MmulModel MatModel ProjModel FieldModel.
Import ListNotations.
Local Open Scope R_scope.

(** fClover_k1..k5 (clover.c lines 56-69) or Clover_k1..k5 (Headers/GLU_definitions.h 599-632) *)
Record weights := mkWeights { k1 : R; k2 : R; k3 : R; k4 : R; k5 : R }.
(** Headers/GLU_definitions.h line 638 *)
Definition CL_TOL : R := / 100000000.

(** compute_s1, lines 73-95 *)
Definition compute_s1 (NC : nat) (lat : lattice) (i mu nu : nat) (mul : R) (st : arr * arr * arr) : arr * arr * arr :=
  let '(sum, u, v) := st in
  let s1 := nbr (lat i) mu in
  let s2 := nbr (lat i) nu in
  let u := multab_suNC NC u (O (lat i) mu) (O (lat s1) nu) in
  let v := multab_dag_suNC NC v u (O (lat s2) mu) in
  let u := multab_dag_suNC NC u v (O (lat i) nu) in
  let sum := a_plus_Sxb NC sum u mul in
  (sum, u, v).
(** compute_s2, lines 98-120 *)
Definition compute_s2 (NC : nat) (lat : lattice) (i mu nu : nat) (mul : R) (st : arr * arr * arr) : arr * arr * arr :=
  let '(sum, u, v) := st in
  let s1 := bck (lat i) nu in
  let s2 := nbr (lat s1) mu in
  let u := multabdag_suNC NC u (O (lat s1) nu) (O (lat s1) mu) in
  let v := multab_suNC NC v u (O (lat s2) nu) in
  let u := multab_dag_suNC NC u v (O (lat i) mu) in
  let sum := a_plus_Sxb NC sum u mul in
  (sum, u, v).
(** compute_s3, lines 122-145 *)
Definition compute_s3 (NC : nat) (lat : lattice) (i mu nu : nat) (mul : R) (st : arr * arr * arr) : arr * arr * arr :=
  let '(sum, u, v) := st in
  let s1 := bck (lat i) mu in
  let s2 := bck (lat s1) nu in
  let s3 := bck (lat i) nu in
  let u := multab_dagdag_suNC NC u (O (lat s1) mu) (O (lat s2) nu) in
  let v := multab_suNC NC v u (O (lat s2) mu) in
  let u := multab_suNC NC u v (O (lat s3) nu) in
  let sum := a_plus_Sxb NC sum u mul in
  (sum, u, v).
(** compute_s4, lines 147-169 *)
Definition compute_s4 (NC : nat) (lat : lattice) (i mu nu : nat) (mul : R) (st : arr * arr * arr) : arr * arr * arr :=
  let '(sum, u, v) := st in
  let s2 := bck (lat i) mu in
  let s1 := nbr (lat s2) nu in
  let u := multab_dag_suNC NC u (O (lat i) nu) (O (lat s1) mu) in
  let v := multab_dag_suNC NC v u (O (lat s2) nu) in
  let u := multab_suNC NC u v (O (lat s2) mu) in
  let sum := a_plus_Sxb NC sum u mul in
  (sum, u, v).
(** the 2x2 loop of sector 1, lines 191-211 *)
Definition s1_2x2 (NC : nat) (lat : lattice) (i mu nu : nat) (mul : R) (st : arr * arr * arr) : arr * arr * arr :=
  let '(sum, u, v) := st in
  let s1 := nbr (lat i) mu in
  let s2 := nbr (lat s1) mu in
  let s3 := nbr (lat s2) nu in
  let u := multab_suNC NC u (O (lat i) mu) (O (lat s1) mu) in
  let v := multab_suNC NC v u (O (lat s2) nu) in
  let u := multab_suNC NC u v (O (lat s3) nu) in
  let s6 := nbr (lat i) nu in
  let s5 := nbr (lat s6) nu in
  let s4 := nbr (lat s5) mu in
  let v := multab_dag_suNC NC v u (O (lat s4) mu) in
  let u := multab_dag_suNC NC u v (O (lat s5) mu) in
  let v := multab_dag_suNC NC v u (O (lat s6) nu) in
  let u := multab_dag_suNC NC u v (O (lat i) nu) in
  let sum := a_plus_Sxb NC sum u mul in
  (sum, u, v).
(** the 1x2 loop of sector 1, lines 215-230 *)
Definition s1_1x2 (NC : nat) (lat : lattice) (i mu nu : nat) (mul : R) (st : arr * arr * arr) : arr * arr * arr :=
  let '(sum, u, v) := st in
  let s1 := nbr (lat i) mu in
  let s2 := nbr (lat s1) nu in
  let s3 := nbr (lat i) nu in
  let s4 := nbr (lat s3) nu in
  let u := multab_suNC NC u (O (lat i) mu) (O (lat s1) nu) in
  let v := multab_suNC NC v u (O (lat s2) nu) in
  let u := multab_dag_suNC NC u v (O (lat s4) mu) in
  let v := multab_dag_suNC NC v u (O (lat s3) nu) in
  let u := multab_dag_suNC NC u v (O (lat i) nu) in
  let sum := a_plus_Sxb NC sum u mul in
  (sum, u, v).
(** the 2x1 loop of sector 1, lines 231-246 *)
Definition s1_2x1 (NC : nat) (lat : lattice) (i mu nu : nat) (mul : R) (st : arr * arr * arr) : arr * arr * arr :=
  let '(sum, u, v) := st in
  let t1 := nbr (lat i) mu in
  let t2 := nbr (lat t1) mu in
  let u := multab_suNC NC u (O (lat i) mu) (O (lat t1) mu) in
  let v := multab_suNC NC v u (O (lat t2) nu) in
  let t3 := nbr (lat i) nu in
  let t4 := nbr (lat t3) mu in
  let u := multab_dag_suNC NC u v (O (lat t4) mu) in
  let v := multab_dag_suNC NC v u (O (lat t3) mu) in
  let u := multab_dag_suNC NC u v (O (lat i) nu) in
  let sum := a_plus_Sxb NC sum u mul in
  (sum, u, v).
(** the 1x3 loop of sector 1, lines 250-270 *)
Definition s1_1x3 (NC : nat) (lat : lattice) (i mu nu : nat) (mul : R) (st : arr * arr * arr) : arr * arr * arr :=
  let '(sum, u, v) := st in
  let s1 := nbr (lat i) mu in
  let s2 := nbr (lat s1) nu in
  let s3 := nbr (lat s2) nu in
  let u := multab_suNC NC u (O (lat i) mu) (O (lat s1) nu) in
  let v := multab_suNC NC v u (O (lat s2) nu) in
  let u := multab_suNC NC u v (O (lat s3) nu) in
  let s4 := nbr (lat s3) nu in
  let s5 := bck (lat s4) mu in
  let s6 := bck (lat s5) nu in
  let s7 := bck (lat s6) nu in
  let v := multab_dag_suNC NC v u (O (lat s5) mu) in
  let u := multab_dag_suNC NC u v (O (lat s6) nu) in
  let v := multab_dag_suNC NC v u (O (lat s7) nu) in
  let u := multab_dag_suNC NC u v (O (lat i) nu) in
  let sum := a_plus_Sxb NC sum u mul in
  (sum, u, v).
(** the 3x1 loop of sector 1, lines 271-291 *)
Definition s1_3x1 (NC : nat) (lat : lattice) (i mu nu : nat) (mul : R) (st : arr * arr * arr) : arr * arr * arr :=
  let '(sum, u, v) := st in
  let t1 := nbr (lat i) mu in
  let t2 := nbr (lat t1) mu in
  let t3 := nbr (lat t2) mu in
  let u := multab_suNC NC u (O (lat i) mu) (O (lat t1) mu) in
  let v := multab_suNC NC v u (O (lat t2) mu) in
  let u := multab_suNC NC u v (O (lat t3) nu) in
  let t4 := nbr (lat t3) nu in
  let t5 := bck (lat t4) mu in
  let t6 := bck (lat t5) mu in
  let t7 := bck (lat t6) mu in
  let v := multab_dag_suNC NC v u (O (lat t5) mu) in
  let u := multab_dag_suNC NC u v (O (lat t6) mu) in
  let v := multab_dag_suNC NC v u (O (lat t7) mu) in
  let u := multab_dag_suNC NC u v (O (lat i) nu) in
  let sum := a_plus_Sxb NC sum u mul in
  (sum, u, v).
(** the 3x3 loop of sector 1, lines 296-325 *)
Definition s1_3x3 (NC : nat) (lat : lattice) (i mu nu : nat) (x y s t : arr) (mul : R) (st : arr * arr * arr) : arr * arr * arr :=
  let '(sum, u, v) := st in
  let s1 := nbr (lat i) mu in
  let s2 := nbr (lat s1) mu in
  let s3 := nbr (lat s2) mu in
  let s4 := nbr (lat s3) nu in
  let s5 := nbr (lat s4) nu in
  let s := multab_suNC NC s (O (lat i) mu) (O (lat s1) mu) in
  let v := multab_suNC NC v (O (lat s2) mu) (O (lat s3) nu) in
  let x := multab_suNC NC x (O (lat s4) nu) (O (lat s5) nu) in
  let y := multab_suNC NC y s v in
  let s := multab_suNC NC s y x in
  let s7 := nbr (lat i) nu in
  let s8 := nbr (lat s7) nu in
  let s9 := nbr (lat s8) nu in
  let s10 := nbr (lat s9) mu in
  let s11 := nbr (lat s10) mu in
  let t := multab_suNC NC t (O (lat i) nu) (O (lat s7) nu) in
  let v := multab_suNC NC v (O (lat s8) nu) (O (lat s9) mu) in
  let x := multab_suNC NC x (O (lat s10) mu) (O (lat s11) mu) in
  let y := multab_suNC NC y t v in
  let t := multab_suNC NC t y x in
  let u := multab_dag_suNC NC u s t in
  let sum := a_plus_Sxb NC sum u mul in
  (sum, u, v).
(** compute_clover_s1, lines 176-329; [f] are fClover_k1..k5, [k] the weights *)
Definition compute_clover_s1 (NC : nat) (lat : lattice) (i mu nu : nat) (x y s t : arr) (f k : weights) (st : arr * arr * arr) : arr * arr * arr :=
  let st := if Rlt_dec CL_TOL (k1 f) then compute_s1 NC lat i mu nu (k1 k) st else st in
  let st := if Rlt_dec CL_TOL (k2 f) then s1_2x2 NC lat i mu nu (k2 k) st else st in
  let st := if Rlt_dec CL_TOL (k3 f) then s1_2x1 NC lat i mu nu (k3 k) (s1_1x2 NC lat i mu nu (k3 k) st) else st in
  let st := if Rlt_dec CL_TOL (k4 f) then s1_3x1 NC lat i mu nu (k4 k) (s1_1x3 NC lat i mu nu (k4 k) st) else st in
  if Rlt_dec CL_TOL (k5 f) then s1_3x3 NC lat i mu nu x y s t (k5 k) st else st.
(** the 2x2 loop of sector 2, lines 348-367 *)
Definition s2_2x2 (NC : nat) (lat : lattice) (i mu nu : nat) (mul : R) (st : arr * arr * arr) : arr * arr * arr :=
  let '(sum, u, v) := st in
  let s1 := bck (lat i) nu in
  let s2 := bck (lat s1) nu in
  let s3 := nbr (lat s2) mu in
  let u := multab_dagdag_suNC NC u (O (lat s1) nu) (O (lat s2) nu) in
  let v := multab_suNC NC v u (O (lat s2) mu) in
  let u := multab_suNC NC u v (O (lat s3) mu) in
  let s4 := nbr (lat s3) mu in
  let s5 := nbr (lat s4) nu in
  let s6 := nbr (lat i) mu in
  let v := multab_suNC NC v u (O (lat s4) nu) in
  let u := multab_suNC NC u v (O (lat s5) nu) in
  let v := multab_dag_suNC NC v u (O (lat s6) mu) in
  let u := multab_dag_suNC NC u v (O (lat i) mu) in
  let sum := a_plus_Sxb NC sum u mul in
  (sum, u, v).
(** the 1x2 loop of sector 2, lines 371-386 *)
Definition s2_1x2 (NC : nat) (lat : lattice) (i mu nu : nat) (mul : R) (st : arr * arr * arr) : arr * arr * arr :=
  let '(sum, u, v) := st in
  let s1 := bck (lat i) nu in
  let s2 := bck (lat s1) nu in
  let u := multab_dagdag_suNC NC u (O (lat s1) nu) (O (lat s2) nu) in
  let v := multab_suNC NC v u (O (lat s2) mu) in
  let s3 := nbr (lat s2) mu in
  let s4 := nbr (lat s3) nu in
  let u := multab_suNC NC u v (O (lat s3) nu) in
  let v := multab_suNC NC v u (O (lat s4) nu) in
  let u := multab_dag_suNC NC u v (O (lat i) mu) in
  let sum := a_plus_Sxb NC sum u mul in
  (sum, u, v).
(** the 2x1 loop of sector 2, lines 387-403 *)
Definition s2_2x1 (NC : nat) (lat : lattice) (i mu nu : nat) (mul : R) (st : arr * arr * arr) : arr * arr * arr :=
  let '(sum, u, v) := st in
  let t1 := bck (lat i) nu in
  let t2 := nbr (lat t1) mu in
  let u := multabdag_suNC NC u (O (lat t1) nu) (O (lat t1) mu) in
  let v := multab_suNC NC v u (O (lat t2) mu) in
  let t3 := nbr (lat t2) mu in
  let t4 := nbr (lat t3) nu in
  let t5 := bck (lat t4) mu in
  let u := multab_suNC NC u v (O (lat t3) nu) in
  let v := multab_dag_suNC NC v u (O (lat t5) mu) in
  let u := multab_dag_suNC NC u v (O (lat i) mu) in
  let sum := a_plus_Sxb NC sum u mul in
  (sum, u, v).
(** the 1x3 loop of sector 2, lines 407-426 *)
Definition s2_1x3 (NC : nat) (lat : lattice) (i mu nu : nat) (mul : R) (st : arr * arr * arr) : arr * arr * arr :=
  let '(sum, u, v) := st in
  let s1 := bck (lat i) nu in
  let s2 := bck (lat s1) nu in
  let s3 := bck (lat s2) nu in
  let u := multab_dagdag_suNC NC u (O (lat s1) nu) (O (lat s2) nu) in
  let v := multab_dag_suNC NC v u (O (lat s3) nu) in
  let u := multab_suNC NC u v (O (lat s3) mu) in
  let s4 := nbr (lat s3) mu in
  let s5 := nbr (lat s4) nu in
  let s6 := nbr (lat s5) nu in
  let v := multab_suNC NC v u (O (lat s4) nu) in
  let u := multab_suNC NC u v (O (lat s5) nu) in
  let v := multab_suNC NC v u (O (lat s6) nu) in
  let u := multab_dag_suNC NC u v (O (lat i) mu) in
  let sum := a_plus_Sxb NC sum u mul in
  (sum, u, v).
(** the 3x1 loop of sector 2, lines 427-447 *)
Definition s2_3x1 (NC : nat) (lat : lattice) (i mu nu : nat) (mul : R) (st : arr * arr * arr) : arr * arr * arr :=
  let '(sum, u, v) := st in
  let t1 := bck (lat i) nu in
  let t2 := nbr (lat t1) mu in
  let t3 := nbr (lat t2) mu in
  let u := multabdag_suNC NC u (O (lat t1) nu) (O (lat t1) mu) in
  let v := multab_suNC NC v u (O (lat t2) mu) in
  let u := multab_suNC NC u v (O (lat t3) mu) in
  let t4 := nbr (lat t3) mu in
  let t5 := nbr (lat t4) nu in
  let t6 := bck (lat t5) mu in
  let t7 := bck (lat t6) mu in
  let v := multab_suNC NC v u (O (lat t4) nu) in
  let u := multab_dag_suNC NC u v (O (lat t6) mu) in
  let v := multab_dag_suNC NC v u (O (lat t7) mu) in
  let u := multab_dag_suNC NC u v (O (lat i) mu) in
  let sum := a_plus_Sxb NC sum u mul in
  (sum, u, v).
(** the 3x3 loop of sector 2, lines 452-482 *)
Definition s2_3x3 (NC : nat) (lat : lattice) (i mu nu : nat) (x y s t : arr) (mul : R) (st : arr * arr * arr) : arr * arr * arr :=
  let '(sum, u, v) := st in
  let s1 := bck (lat i) nu in
  let s2 := bck (lat s1) nu in
  let s3 := bck (lat s2) nu in
  let s4 := nbr (lat s3) mu in
  let s5 := nbr (lat s4) mu in
  let s := multab_dagdag_suNC NC s (O (lat s1) nu) (O (lat s2) nu) in
  let v := multabdag_suNC NC v (O (lat s3) nu) (O (lat s3) mu) in
  let x := multab_suNC NC x (O (lat s4) mu) (O (lat s5) mu) in
  let y := multab_suNC NC y s v in
  let s := multab_suNC NC s y x in
  let s6 := nbr (lat i) mu in
  let s7 := nbr (lat s6) mu in
  let s8 := nbr (lat s7) mu in
  let s9 := bck (lat s8) nu in
  let s10 := bck (lat s9) nu in
  let s11 := bck (lat s10) nu in
  let t := multab_suNC NC t (O (lat i) mu) (O (lat s6) mu) in
  let v := multab_dag_suNC NC v (O (lat s7) mu) (O (lat s9) nu) in
  let x := multab_dagdag_suNC NC x (O (lat s10) nu) (O (lat s11) nu) in
  let y := multab_suNC NC y t v in
  let t := multab_suNC NC t y x in
  let u := multab_dag_suNC NC u s t in
  let sum := a_plus_Sxb NC sum u mul in
  (sum, u, v).
(** compute_clover_s2, lines 333-486; [f] are fClover_k1..k5, [k] the weights *)
Definition compute_clover_s2 (NC : nat) (lat : lattice) (i mu nu : nat) (x y s t : arr) (f k : weights) (st : arr * arr * arr) : arr * arr * arr :=
  let st := if Rlt_dec CL_TOL (k1 f) then compute_s2 NC lat i mu nu (k1 k) st else st in
  let st := if Rlt_dec CL_TOL (k2 f) then s2_2x2 NC lat i mu nu (k2 k) st else st in
  let st := if Rlt_dec CL_TOL (k3 f) then s2_2x1 NC lat i mu nu (k3 k) (s2_1x2 NC lat i mu nu (k3 k) st) else st in
  let st := if Rlt_dec CL_TOL (k4 f) then s2_3x1 NC lat i mu nu (k4 k) (s2_1x3 NC lat i mu nu (k4 k) st) else st in
  if Rlt_dec CL_TOL (k5 f) then s2_3x3 NC lat i mu nu x y s t (k5 k) st else st.
(** the 2x2 loop of sector 3, lines 505-524 *)
Definition s3_2x2 (NC : nat) (lat : lattice) (i mu nu : nat) (mul : R) (st : arr * arr * arr) : arr * arr * arr :=
  let '(sum, u, v) := st in
  let s1 := bck (lat i) mu in
  let s2 := bck (lat s1) mu in
  let s3 := bck (lat s2) nu in
  let s4 := bck (lat s3) nu in
  let u := multab_dagdag_suNC NC u (O (lat s1) mu) (O (lat s2) mu) in
  let v := multab_dag_suNC NC v u (O (lat s3) nu) in
  let u := multab_dag_suNC NC u v (O (lat s4) nu) in
  let s5 := nbr (lat s4) mu in
  let s6 := nbr (lat s5) mu in
  let s7 := nbr (lat s6) nu in
  let v := multab_suNC NC v u (O (lat s4) mu) in
  let u := multab_suNC NC u v (O (lat s5) mu) in
  let v := multab_suNC NC v u (O (lat s6) nu) in
  let u := multab_suNC NC u v (O (lat s7) nu) in
  let sum := a_plus_Sxb NC sum u mul in
  (sum, u, v).
(** the 1x2 loop of sector 3, lines 528-543 *)
Definition s3_1x2 (NC : nat) (lat : lattice) (i mu nu : nat) (mul : R) (st : arr * arr * arr) : arr * arr * arr :=
  let '(sum, u, v) := st in
  let s1 := bck (lat i) mu in
  let s2 := bck (lat s1) nu in
  let s3 := bck (lat s2) nu in
  let u := multab_dagdag_suNC NC u (O (lat s1) mu) (O (lat s2) nu) in
  let v := multab_dag_suNC NC v u (O (lat s3) nu) in
  let s4 := nbr (lat s3) mu in
  let s5 := nbr (lat s4) nu in
  let u := multab_suNC NC u v (O (lat s3) mu) in
  let v := multab_suNC NC v u (O (lat s4) nu) in
  let u := multab_suNC NC u v (O (lat s5) nu) in
  let sum := a_plus_Sxb NC sum u mul in
  (sum, u, v).
(** the 2x1 loop of sector 3, lines 544-560 *)
Definition s3_2x1 (NC : nat) (lat : lattice) (i mu nu : nat) (mul : R) (st : arr * arr * arr) : arr * arr * arr :=
  let '(sum, u, v) := st in
  let t1 := bck (lat i) mu in
  let t2 := bck (lat t1) mu in
  let t3 := bck (lat t2) nu in
  let u := multab_dagdag_suNC NC u (O (lat t1) mu) (O (lat t2) mu) in
  let v := multab_dag_suNC NC v u (O (lat t3) nu) in
  let t4 := nbr (lat t3) mu in
  let t5 := nbr (lat t4) mu in
  let u := multab_suNC NC u v (O (lat t3) mu) in
  let v := multab_suNC NC v u (O (lat t4) mu) in
  let u := multab_suNC NC u v (O (lat t5) nu) in
  let sum := a_plus_Sxb NC sum u mul in
  (sum, u, v).
(** the 1x3 loop of sector 3, lines 564-584 *)
Definition s3_1x3 (NC : nat) (lat : lattice) (i mu nu : nat) (mul : R) (st : arr * arr * arr) : arr * arr * arr :=
  let '(sum, u, v) := st in
  let s1 := bck (lat i) mu in
  let s2 := bck (lat s1) nu in
  let s3 := bck (lat s2) nu in
  let s4 := bck (lat s3) nu in
  let u := multab_dagdag_suNC NC u (O (lat s1) mu) (O (lat s2) nu) in
  let v := multab_dag_suNC NC v u (O (lat s3) nu) in
  let u := multab_dag_suNC NC u v (O (lat s4) nu) in
  let s5 := nbr (lat s4) mu in
  let s6 := nbr (lat s5) nu in
  let s7 := nbr (lat s6) nu in
  let v := multab_suNC NC v u (O (lat s4) mu) in
  let u := multab_suNC NC u v (O (lat s5) nu) in
  let v := multab_suNC NC v u (O (lat s6) nu) in
  let u := multab_suNC NC u v (O (lat s7) nu) in
  let sum := a_plus_Sxb NC sum u mul in
  (sum, u, v).
(** the 3x1 loop of sector 3, lines 585-605 *)
Definition s3_3x1 (NC : nat) (lat : lattice) (i mu nu : nat) (mul : R) (st : arr * arr * arr) : arr * arr * arr :=
  let '(sum, u, v) := st in
  let t1 := bck (lat i) mu in
  let t2 := bck (lat t1) mu in
  let t3 := bck (lat t2) mu in
  let t4 := bck (lat t3) nu in
  let u := multab_dagdag_suNC NC u (O (lat t1) mu) (O (lat t2) mu) in
  let v := multab_dag_suNC NC v u (O (lat t3) mu) in
  let u := multab_dag_suNC NC u v (O (lat t4) nu) in
  let t5 := nbr (lat t4) mu in
  let t6 := nbr (lat t5) mu in
  let t7 := nbr (lat t6) mu in
  let v := multab_suNC NC v u (O (lat t4) mu) in
  let u := multab_suNC NC u v (O (lat t5) mu) in
  let v := multab_suNC NC v u (O (lat t6) mu) in
  let u := multab_suNC NC u v (O (lat t7) nu) in
  let sum := a_plus_Sxb NC sum u mul in
  (sum, u, v).
(** the 3x3 loop of sector 3, lines 610-639 *)
Definition s3_3x3 (NC : nat) (lat : lattice) (i mu nu : nat) (x y s t : arr) (mul : R) (st : arr * arr * arr) : arr * arr * arr :=
  let '(sum, u, v) := st in
  let s1 := bck (lat i) mu in
  let s2 := bck (lat s1) mu in
  let s3 := bck (lat s2) mu in
  let s4 := bck (lat s3) nu in
  let s5 := bck (lat s4) nu in
  let s6 := bck (lat s5) nu in
  let s := multab_dagdag_suNC NC s (O (lat s1) mu) (O (lat s2) mu) in
  let v := multab_dagdag_suNC NC v (O (lat s3) mu) (O (lat s4) nu) in
  let x := multab_dagdag_suNC NC x (O (lat s5) nu) (O (lat s6) nu) in
  let y := multab_suNC NC y s v in
  let s := multab_suNC NC s y x in
  let s7 := nbr (lat s6) mu in
  let s8 := nbr (lat s7) mu in
  let s9 := nbr (lat s8) mu in
  let s10 := nbr (lat s9) nu in
  let s11 := nbr (lat s10) nu in
  let t := multab_suNC NC t (O (lat s6) mu) (O (lat s7) mu) in
  let v := multab_suNC NC v (O (lat s8) mu) (O (lat s9) nu) in
  let x := multab_suNC NC x (O (lat s10) nu) (O (lat s11) nu) in
  let y := multab_suNC NC y t v in
  let t := multab_suNC NC t y x in
  let u := multab_suNC NC u s t in
  let sum := a_plus_Sxb NC sum u mul in
  (sum, u, v).
(** compute_clover_s3, lines 490-643; [f] are fClover_k1..k5, [k] the weights *)
Definition compute_clover_s3 (NC : nat) (lat : lattice) (i mu nu : nat) (x y s t : arr) (f k : weights) (st : arr * arr * arr) : arr * arr * arr :=
  let st := if Rlt_dec CL_TOL (k1 f) then compute_s3 NC lat i mu nu (k1 k) st else st in
  let st := if Rlt_dec CL_TOL (k2 f) then s3_2x2 NC lat i mu nu (k2 k) st else st in
  let st := if Rlt_dec CL_TOL (k3 f) then s3_2x1 NC lat i mu nu (k3 k) (s3_1x2 NC lat i mu nu (k3 k) st) else st in
  let st := if Rlt_dec CL_TOL (k4 f) then s3_3x1 NC lat i mu nu (k4 k) (s3_1x3 NC lat i mu nu (k4 k) st) else st in
  if Rlt_dec CL_TOL (k5 f) then s3_3x3 NC lat i mu nu x y s t (k5 k) st else st.
(** the 2x2 loop of sector 4, lines 662-681 *)
Definition s4_2x2 (NC : nat) (lat : lattice) (i mu nu : nat) (mul : R) (st : arr * arr * arr) : arr * arr * arr :=
  let '(sum, u, v) := st in
  let s1 := nbr (lat i) nu in
  let s2 := nbr (lat s1) nu in
  let s3 := bck (lat s2) mu in
  let s4 := bck (lat s3) mu in
  let u := multab_suNC NC u (O (lat i) nu) (O (lat s1) nu) in
  let v := multab_dag_suNC NC v u (O (lat s3) mu) in
  let u := multab_dag_suNC NC u v (O (lat s4) mu) in
  let s5 := bck (lat s4) nu in
  let s6 := bck (lat s5) nu in
  let s7 := nbr (lat s6) mu in
  let v := multab_dag_suNC NC v u (O (lat s5) nu) in
  let u := multab_dag_suNC NC u v (O (lat s6) nu) in
  let v := multab_suNC NC v u (O (lat s6) mu) in
  let u := multab_suNC NC u v (O (lat s7) mu) in
  let sum := a_plus_Sxb NC sum u mul in
  (sum, u, v).
(** the 1x2 loop of sector 4, lines 685-700 *)
Definition s4_1x2 (NC : nat) (lat : lattice) (i mu nu : nat) (mul : R) (st : arr * arr * arr) : arr * arr * arr :=
  let '(sum, u, v) := st in
  let s1 := nbr (lat i) nu in
  let s2 := nbr (lat s1) nu in
  let s3 := bck (lat s2) mu in
  let u := multab_suNC NC u (O (lat i) nu) (O (lat s1) nu) in
  let v := multab_dag_suNC NC v u (O (lat s3) mu) in
  let s4 := bck (lat s3) nu in
  let s5 := bck (lat s4) nu in
  let u := multab_dag_suNC NC u v (O (lat s4) nu) in
  let v := multab_dag_suNC NC v u (O (lat s5) nu) in
  let u := multab_suNC NC u v (O (lat s5) mu) in
  let sum := a_plus_Sxb NC sum u mul in
  (sum, u, v).
(** the 2x1 loop of sector 4, lines 701-717 *)
Definition s4_2x1 (NC : nat) (lat : lattice) (i mu nu : nat) (mul : R) (st : arr * arr * arr) : arr * arr * arr :=
  let '(sum, u, v) := st in
  let t1 := nbr (lat i) nu in
  let t2 := bck (lat t1) mu in
  let t3 := bck (lat t2) mu in
  let u := multab_dag_suNC NC u (O (lat i) nu) (O (lat t2) mu) in
  let v := multab_dag_suNC NC v u (O (lat t3) mu) in
  let t4 := bck (lat t3) nu in
  let t5 := nbr (lat t4) mu in
  let u := multab_dag_suNC NC u v (O (lat t4) nu) in
  let v := multab_suNC NC v u (O (lat t4) mu) in
  let u := multab_suNC NC u v (O (lat t5) mu) in
  let sum := a_plus_Sxb NC sum u mul in
  (sum, u, v).
(** the 1x3 loop of sector 4, lines 721-741 *)
Definition s4_1x3 (NC : nat) (lat : lattice) (i mu nu : nat) (mul : R) (st : arr * arr * arr) : arr * arr * arr :=
  let '(sum, u, v) := st in
  let s1 := nbr (lat i) nu in
  let s2 := nbr (lat s1) nu in
  let s3 := nbr (lat s2) nu in
  let s4 := bck (lat s3) mu in
  let u := multab_suNC NC u (O (lat i) nu) (O (lat s1) nu) in
  let v := multab_suNC NC v u (O (lat s2) nu) in
  let u := multab_dag_suNC NC u v (O (lat s4) mu) in
  let s5 := bck (lat s4) nu in
  let s6 := bck (lat s5) nu in
  let s7 := bck (lat s6) nu in
  let v := multab_dag_suNC NC v u (O (lat s5) nu) in
  let u := multab_dag_suNC NC u v (O (lat s6) nu) in
  let v := multab_dag_suNC NC v u (O (lat s7) nu) in
  let u := multab_suNC NC u v (O (lat s7) mu) in
  let sum := a_plus_Sxb NC sum u mul in
  (sum, u, v).
(** the 3x1 loop of sector 4, lines 742-762 *)
Definition s4_3x1 (NC : nat) (lat : lattice) (i mu nu : nat) (mul : R) (st : arr * arr * arr) : arr * arr * arr :=
  let '(sum, u, v) := st in
  let t1 := nbr (lat i) nu in
  let t2 := bck (lat t1) mu in
  let t3 := bck (lat t2) mu in
  let t4 := bck (lat t3) mu in
  let u := multab_dag_suNC NC u (O (lat i) nu) (O (lat t2) mu) in
  let v := multab_dag_suNC NC v u (O (lat t3) mu) in
  let u := multab_dag_suNC NC u v (O (lat t4) mu) in
  let t5 := bck (lat t4) nu in
  let t6 := nbr (lat t5) mu in
  let t7 := nbr (lat t6) mu in
  let v := multab_dag_suNC NC v u (O (lat t5) nu) in
  let u := multab_suNC NC u v (O (lat t5) mu) in
  let v := multab_suNC NC v u (O (lat t6) mu) in
  let u := multab_suNC NC u v (O (lat t7) mu) in
  let sum := a_plus_Sxb NC sum u mul in
  (sum, u, v).
(** the 3x3 loop of sector 4, lines 767-796 *)
Definition s4_3x3 (NC : nat) (lat : lattice) (i mu nu : nat) (x y s t : arr) (mul : R) (st : arr * arr * arr) : arr * arr * arr :=
  let '(sum, u, v) := st in
  let s1 := nbr (lat i) nu in
  let s2 := nbr (lat s1) nu in
  let s3 := nbr (lat s2) nu in
  let s4 := bck (lat s3) mu in
  let s5 := bck (lat s4) mu in
  let s6 := bck (lat s5) mu in
  let s := multab_suNC NC s (O (lat i) nu) (O (lat s1) nu) in
  let v := multab_dag_suNC NC v (O (lat s2) nu) (O (lat s4) mu) in
  let x := multab_dagdag_suNC NC x (O (lat s5) mu) (O (lat s6) mu) in
  let y := multab_suNC NC y s v in
  let s := multab_suNC NC s y x in
  let s7 := bck (lat s6) nu in
  let s8 := bck (lat s7) nu in
  let s9 := bck (lat s8) nu in
  let s10 := nbr (lat s9) mu in
  let s11 := nbr (lat s10) mu in
  let t := multab_dagdag_suNC NC t (O (lat s7) nu) (O (lat s8) nu) in
  let v := multabdag_suNC NC v (O (lat s9) nu) (O (lat s9) mu) in
  let x := multab_suNC NC x (O (lat s10) mu) (O (lat s11) mu) in
  let y := multab_suNC NC y t v in
  let t := multab_suNC NC t y x in
  let u := multab_suNC NC u s t in
  let sum := a_plus_Sxb NC sum u mul in
  (sum, u, v).
(** compute_clover_s4, lines 647-800; [f] are fClover_k1..k5, [k] the weights *)
Definition compute_clover_s4 (NC : nat) (lat : lattice) (i mu nu : nat) (x y s t : arr) (f k : weights) (st : arr * arr * arr) : arr * arr * arr :=
  let st := if Rlt_dec CL_TOL (k1 f) then compute_s4 NC lat i mu nu (k1 k) st else st in
  let st := if Rlt_dec CL_TOL (k2 f) then s4_2x2 NC lat i mu nu (k2 k) st else st in
  let st := if Rlt_dec CL_TOL (k3 f) then s4_2x1 NC lat i mu nu (k3 k) (s4_1x2 NC lat i mu nu (k3 k) st) else st in
  let st := if Rlt_dec CL_TOL (k4 f) then s4_3x1 NC lat i mu nu (k4 k) (s4_1x3 NC lat i mu nu (k4 k) st) else st in
  if Rlt_dec CL_TOL (k5 f) then s4_3x3 NC lat i mu nu x y s t (k5 k) st else st.

(** the preprocessor choice; Improved takes the value of the macro k5, ImprovedNK5 is the
    build without it *)
Inductive build := Standard | Plaquette | ImprovedNK5 | Improved (kfive : R).
(** Headers/GLU_definitions.h lines 621-632 *)
Definition Clover_k (b : build) : weights :=
  match b with
  | Improved q => mkWeights (19/9 - 55*q) (1/36 - 16*q) ((64*q - 32/45) * (1/2)) ((1/15 - 6*q) * (1/2)) q
  | _ => mkWeights (19/9) (1/36) (1/2 * (-32/45)) (1/2 * (1/15)) 0
  end.
(** clover.c lines 63-69 and 995-1002 *)
Definition fClover_k (b : build) : weights :=
  match b with
  | Improved q => let k := Clover_k b in
      mkWeights (Rabs (k1 k)) (Rabs (k2 k)) (Rabs (k3 k)) (Rabs (k4 k)) (Rabs q)
  | _ => mkWeights (19/9) (1/36) (32/90) (1/30) 0
  end.
(** the accumulation of one plane, lines 886-912 = 951-977; [w] holds the local matrices x, y, s, t *)
Definition plane_sum (b : build) (NC : nat) (lat : lattice) (i mu nu : nat) (w : nat -> arr)
    (st : arr * arr * arr) : arr * arr * arr :=
  match b with
  | Standard =>
      let st := compute_s1 NC lat i mu nu 1 st in
      let st := compute_s2 NC lat i mu nu 1 st in
      let st := compute_s3 NC lat i mu nu 1 st in
      compute_s4 NC lat i mu nu 1 st
  | Plaquette => compute_s1 NC lat i mu nu 1 st
  | _ =>
      let f := fClover_k b in let k := Clover_k b in
      let st := compute_clover_s1 NC lat i mu nu (w 0%nat) (w 1%nat) (w 2%nat) (w 3%nat) f k st in
      let st := compute_clover_s2 NC lat i mu nu (w 0%nat) (w 1%nat) (w 2%nat) (w 3%nat) f k st in
      let st := compute_clover_s3 NC lat i mu nu (w 0%nat) (w 1%nat) (w 2%nat) (w 3%nat) f k st in
      compute_clover_s4 NC lat i mu nu (w 0%nat) (w 1%nat) (w 2%nat) (w 3%nat) f k st
  end.
(** both planes, lines 882-912 = 947-977: the matrices sum_1 and sum_2 *)
Definition two_planes (b : build) (NC : nat) (lat : lattice) (i mu nu rho delta : nat) (w : nat -> arr) : arr * arr :=
  let '(sum_1, u, v) := plane_sum b NC lat i mu nu w (zero_mat NC (w 4%nat), w 6%nat, w 7%nat) in
  let '(sum_2, _, _) := plane_sum b NC lat i rho delta w (zero_mat NC (w 5%nat), u, v) in
  (sum_1, sum_2).
(** compute_GG_q, lines 811-865: (plaq_t, plaq_sp, Q) *)
Definition compute_GG_q (NC : nat) (w : nat -> arr) (sum_1 sum_2 : arr) : R * R * R :=
  let GMUNU_1 := Hermitian_proj NC (w 8%nat) sum_1 in
  let GMUNU_2 := Hermitian_proj NC (w 9%nat) sum_2 in
  (re (trace_ab NC GMUNU_2 GMUNU_2), re (trace_ab NC GMUNU_1 GMUNU_1), re (trace_ab NC GMUNU_1 GMUNU_2)).
(** compute_q, lines 871-931 *)
Definition compute_q (b : build) (NC : nat) (q : arr) (lat : lattice) (i mu nu rho delta : nat) (w : nat -> arr) : arr :=
  let '(sum_1, sum_2) := two_planes b NC lat i mu nu rho delta w in
  let GMUNU_1 := Hermitian_proj NC (w 8%nat) sum_1 in
  let GMUNU_2 := Hermitian_proj NC (w 9%nat) sum_2 in
  multab NC q GMUNU_1 GMUNU_2.
(** compute_Gmunu_kernel, lines 934-984; "(double)trace( sum )" keeps the real part *)
Definition compute_Gmunu_kernel (b : build) (NC : nat) (lat : lattice) (i mu nu rho delta : nat) (w : nat -> arr) : R * R * R :=
  let '(sum_1, sum_2) := two_planes b NC lat i mu nu rho delta w in
  let '(plaq_t, plaq_sp, qtop) := compute_GG_q NC w sum_1 sum_2 in
  match b with
  | Plaquette => (2 * (INR NC - re (trace NC sum_2)), 2 * (INR NC - re (trace NC sum_1)), qtop)
  | _ => (plaq_t, plaq_sp, qtop)
  end.

(** compute_Gmunu, lines 987-1034: (GG, qtop); the reduction visits the sites in [order] *)
Definition compute_Gmunu (b : build) (NC : nat) (lat : lattice) (w : nat -> arr) (order : list nat) : R * R :=
  let '(plaq_sp, plaq_t, Q) := fold_left (fun '(plaq_sp, plaq_t, Q) i =>
    let '(plt, plsp, q) := compute_Gmunu_kernel b NC lat i 3 0 1 2 w in
    let '(plaq_sp, plaq_t, Q) := (plaq_sp + plsp, plaq_t + plt, Q + q) in
    let '(plt, plsp, q) := compute_Gmunu_kernel b NC lat i 3 1 2 0 w in
    let '(plaq_sp, plaq_t, Q) := (plaq_sp + plsp, plaq_t + plt, Q + q) in
    let '(plt, plsp, q) := compute_Gmunu_kernel b NC lat i 3 2 0 1 w in
    (plaq_sp + plsp, plaq_t + plt, Q + q)) order (0, 0, 0) in
  match b with
  | Plaquette => ((plaq_sp + plaq_t) * 16, Q * 16)
  | _ => (plaq_sp + plaq_t, Q)
  end.

(** the reduction array red *)
Definition rset (red : nat -> R) (k : nat) (x : R) : nat -> R := fun j => if Nat.eqb j k then x else red j.
(** the body of the site loop of compute_Gmunu_th, lines 1060-1078: thread th at site i *)
Definition Gmunu_th_site (b : build) (NC : nat) (lat : lattice) (w : nat -> arr) (CLINE : nat) (red : nat -> R) (ti : nat * nat) : nat -> R :=
  let '(th, i) := ti in
  let add (red : nat -> R) '(plt, plsp, q) :=
    let red := rset red (0 + CLINE*th) (red (0 + CLINE*th)%nat + (plt + plsp)) in
    rset red (1 + CLINE*th) (red (1 + CLINE*th)%nat + q) in
  let red := add red (compute_Gmunu_kernel b NC lat i 3 0 1 2 w) in
  let red := add red (compute_Gmunu_kernel b NC lat i 3 1 2 0 w) in
  add red (compute_Gmunu_kernel b NC lat i 3 2 0 1 w).
(** compute_Gmunu_th, lines 1037-1090.  [sched] lists the sites in the order they are worked
    on, each with the thread that does it *)
Definition compute_Gmunu_th (b : build) (NC : nat) (lat : lattice) (w : nat -> arr) (CLINE Nthreads : nat)
    (sched : list (nat * nat)) (red : nat -> R) : nat -> R :=
  let red := for_ Nthreads (fun i red => rset (rset red (0 + i*CLINE) 0) (1 + i*CLINE) 0) red in
  let red := fold_left (Gmunu_th_site b NC lat w CLINE) sched red in
  match b with
  | Plaquette => for_ Nthreads (fun i red =>
      let red := rset red (0 + i*CLINE) (red (0 + i*CLINE)%nat * 16) in
      rset red (1 + i*CLINE) (red (1 + i*CLINE)%nat * 16)) red
  | _ => red
  end.
(** the body of the site loop of compute_Gmunu_array, lines 1108-1120 *)
Definition Gmunu_array_site (b : build) (NC : nat) (lat : lattice) (w : nat -> arr) (qtop : arr) (i : nat) : arr :=
  let Qmat := compute_q b NC (w 10%nat) lat i 3 0 1 2 w in
  let qtop := upd qtop i (trace NC Qmat) in
  let Qmat := compute_q b NC Qmat lat i 3 1 2 0 w in
  let qtop := upd qtop i (qtop i + trace NC Qmat)%C in
  let Qmat := compute_q b NC Qmat lat i 3 2 0 1 w in
  let qtop := upd qtop i (qtop i + trace NC Qmat)%C in
  match b with Plaquette => upd qtop i (qtop i * RtoC 16)%C | _ => qtop end.
(** compute_Gmunu_array, lines 1092-1123; each iteration writes qtop[i] only *)
Definition compute_Gmunu_array (b : build) (NC : nat) (lat : lattice) (w : nat -> arr) (order : list nat) (qtop : arr) : arr :=
  fold_left (Gmunu_array_site b NC lat w) order qtop.

(** wflowfuncs.c.  The sums over the threads, lines 585-593 = 618-626 *)
Definition NORM : R := - (1583143494411527678811 / 1000000000000000000000000).
Definition flow_sums (CLINE Nthreads LVOLUME : nat) (red : nat -> R) : R * R :=
  let '(GT, Q) := for_ Nthreads (fun i '(GT, Q) => (GT + red (0 + CLINE*i)%nat, Q + red (1 + CLINE*i)%nat)) (0, 0) in
  (GT / (16 * INR LVOLUME), Q * NORM).
(** update_meas_list, lines 572-606: the (time, Gt, qtop, avplaq) that is stored *)
Definition update_meas_list (b : build) (NC : nat) (lat : lattice) (w : nat -> arr) (CLINE Nthreads LVOLUME : nat)
    (sched : list (nat * nat)) (red : nat -> R) (new_plaq t : R) : R * R * R * R :=
  let red := compute_Gmunu_th b NC lat w CLINE Nthreads sched red in
  let '(GT, Q) := flow_sums CLINE Nthreads LVOLUME red in
  (t, t * t * GT, Q, new_plaq).
