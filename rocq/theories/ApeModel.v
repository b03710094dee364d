(** /repo/src/Smear/projectors.c: the APE projection. *)
From Coq Require Import PeanoNat Reals.
From Verif Require Import CMat Arr AxialModel.
Local Open Scope C_scope.

(** project_APE 50-87 without N_APE (the default): the branches for NC = 3 and NC = 2 are
    the loop written out.  tmp stands for the uninitialised scratch of givens_reunit, tol
    for PREC_TOL; None is a division by zero in the projection. *)
Definition project_APE (NC : nat) (tol : R) (tmp smeared_link staple link : arr) (smear_alpha al : R) : option arr :=
  let smeared_link := for_ (NC*NC) (fun elem s => upd s elem (RtoC al * link elem + RtoC smear_alpha * staple elem)) smeared_link in
  givens_reunit NC tol tmp smeared_link.
