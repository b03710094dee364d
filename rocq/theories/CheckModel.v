(** The check of the links: is_unitary (Matrix_Ops/U_Nops.c) and check_links (Wrappers/OBS_wrap.c).

    Real numbers for floating point numbers; numbers that are not numbers (U_Nops.c:365-370) do not occur. *)
From Verif Require Import CInt Cplx CMat Arr MatModel MmulModel FieldModel QtopModel NumModel.
Import ListNotations.
Local Open Scope R_scope.

(** Headers/GLU_definitions.h:359-363 *)
Definition PREC_TOL (single : bool) (NC : nat) : R := INR NC * (if single then 1 / 1000000 else 1 / 100000000000000).
Definition Rleb (a b : R) : bool := if Rle_dec a b then true else false.
(** U_Nops.c:353-363: U U^dagger; temp is not set before *)
Definition product_ok (NC : nat) (tol : R) (temp : arr) : bool :=
  forallb (fun i => Rleb (Rabs (if Nat.eqb (Nat.modulo i (NC + 1)) 0 then cabs (temp i) - 1 else cabs (temp i))) tol) (seq 0 (NC * NC)).
(** 375-385: vv goes on from column to column *)
Definition column_sum (NC : nat) (U : arr) (j : nat) (vv : R) : R := for_ NC (fun i vv => vv + re (U (NC * i)%nat * conj (U (NC * i + j)%nat))%C) vv.
Definition columns_ok (NC : nat) (tol : R) (U : arr) : bool :=
  forallb (fun j => Rleb (Rabs (for_ (S j) (column_sum NC U) 0 - 1) / INR NC) tol) (seq 0 NC).
(** 340-405 is_unitary.  The rows (387-399) set unitary to GLU_TRUE, which it is *)
Definition is_unitary (NC : nat) (tol : R) (tmp U : arr) : bool := (product_ok NC tol (multab_dag NC tmp U U) && columns_ok NC tol U)%bool.
(** OBS_wrap.c:44-70 check_links: NBADLINKS *)
Definition check_links (sched : schedule) (NC ND V : nat) (tol : R) (tmp : arr) (lat : lattice) : nat :=
  fold_left (fun bad i => for_ ND (fun mu bad => if is_unitary NC tol tmp (O (lat i) mu) then bad else S bad) bad) (sched [0%Z] V) 0%nat.
