(** The logarithm of SU(2) links, Matrix_Ops/exactQ.c: exact_log_slow for NC = 2.

    Real numbers for floating point numbers.  None = division by zero, after which the entries are not numbers.  The logarithm
    for three and more colours is not modelled. *)
From Verif Require Import Cplx CMat Arr MatModel ProjModel ExpModel.
Local Open Scope R_scope.

(** exactQ.c:200-214; the series in f1 has herm_z where its square is meant, taylor_sinc is the same *)
Definition exact_log_slow_2 (Q U : arr) : option arr :=
  let reU0 := re (U 0%nat) in
  let z := (reU0, sqrt (1 - reU0 * reU0)) : C in
  let herm_z := carg z in
  let f0 := re z in
  let f1 := if Rlt_dec (Rabs herm_z) SINTOLSU2 then taylor_sinc herm_z else im z / herm_z in
  if Req_EM_T f1 0 then None else
  let oneOf1 := (- Ci * RtoC (/ f1))%C in
  let Q := upd Q 0 ((U 0%nat - RtoC f0) * oneOf1)%C in
  let Q := upd Q 1 (U 1%nat * oneOf1)%C in
  let Q := upd Q 2 (conj (Q 1%nat)) in
  Some (upd Q 3 (- Q 0%nat)%C).
