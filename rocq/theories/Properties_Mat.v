(** C22-C25, C36, C38: the matrix routines.  [mx n a] is the n x n matrix held
    in the array a; [holds n r a M]: the array r holds M and is equal to a
    beyond its first n*n entries. *)
From Coq Require Import PeanoNat List ZArith Lia.
From Verif Require Import CMat Arr MatSpec MmulModel MmulProofs MatModel MatProofs MatProofs2 MatEx.
Local Open Scope C_scope.

(** * C22: matrix products *)
Theorem C22_multab : forall n a b c, holds n (multab n a b c) a (mmul n (mx n b) (mx n c)).
Proof. exact multab_ok. Qed.
Print Assumptions C22_multab.
Theorem C22_multabdag : forall n a b c, holds n (multabdag n a b c) a (mmul n (dag (mx n b)) (mx n c)).
Proof. exact multabdag_ok. Qed.
Print Assumptions C22_multabdag.
Theorem C22_multab_dag : forall n a b c, holds n (multab_dag n a b c) a (mmul n (mx n b) (dag (mx n c))).
Proof. exact multab_dag_ok. Qed.
Print Assumptions C22_multab_dag.
(* Full statement: for every n.  It fails for n > 3, see C22_multab_dagdag_refuted. *)
Theorem C22_multab_dagdag_partial : forall n a b c, n = 2%nat \/ n = 3%nat ->
  holds n (multab_dagdag n a b c) a (mmul n (dag (mx n b)) (dag (mx n c))).
Proof. exact multab_dagdag_ok. Qed.
Print Assumptions C22_multab_dagdag_partial.
Theorem C22_multab_dagdag_refuted : forall n, (4 <= n)%nat -> exists a b c,
  ~ meq n (mx n (multab_dagdag n a b c)) (mmul n (dag (mx n b)) (dag (mx n c))).
Proof. exact multab_dagdag_fails. Qed.
Print Assumptions C22_multab_dagdag_refuted.
Theorem C22_multab_atomic_left : forall n a b, holds n (multab_atomic_left n a b) a (mmul n (mx n b) (mx n a)).
Proof. exact multab_atomic_left_ok. Qed.
Print Assumptions C22_multab_atomic_left.
Theorem C22_multab_atomic_right : forall n a b, holds n (multab_atomic_right n a b) a (mmul n (mx n a) (mx n b)).
Proof. exact multab_atomic_right_ok. Qed.
Print Assumptions C22_multab_atomic_right.
(* The unrolled SU(3) matrix times vector product has a wrong index; every other size is right. *)
Theorem C22_mat_mult_vec_partial : forall n vect S v i, n <> 3%nat -> (i < n)%nat ->
  mat_mult_vec n vect S v i = csum n (fun j => mx n S i j * v j).
Proof. exact mat_mult_vec_ok. Qed.
Print Assumptions C22_mat_mult_vec_partial.
Theorem C22_mat_mult_vec_refuted : exists vect S v i, (i < 3)%nat /\
  mat_mult_vec 3 vect S v i <> csum 3 (fun j => mx 3 S i j * v j).
Proof. exact mat_mult_vec_fails. Qed.
Print Assumptions C22_mat_mult_vec_refuted.

(** * C23: products inside the group *)
Theorem C23_su3 : forall a b c, SU3 (mx 3 b) -> SU3 (mx 3 c) ->
  holds 3 (multab_suNC 3 a b c) a (mmul 3 (mx 3 b) (mx 3 c)) /\
  holds 3 (multabdag_suNC 3 a b c) a (mmul 3 (dag (mx 3 b)) (mx 3 c)) /\
  holds 3 (multab_dag_suNC 3 a b c) a (mmul 3 (mx 3 b) (dag (mx 3 c))) /\
  holds 3 (multab_dagdag_suNC 3 a b c) a (mmul 3 (dag (mx 3 b)) (dag (mx 3 c))).
Proof.
  intros. split; [now apply multab_suNC_3_ok|].
  split; [now apply multabdag_suNC_3_ok|]. split; [now apply multab_dag_suNC_3_ok|now apply multab_dagdag_suNC_3_ok].
Qed.
Print Assumptions C23_su3.
Theorem C23_su2 : forall a b c, SU2 (mx 2 b) -> SU2 (mx 2 c) ->
  holds 2 (multab_suNC 2 a b c) a (mmul 2 (mx 2 b) (mx 2 c)) /\
  holds 2 (multabdag_suNC 2 a b c) a (mmul 2 (dag (mx 2 b)) (mx 2 c)) /\
  holds 2 (multab_dag_suNC 2 a b c) a (mmul 2 (mx 2 b) (dag (mx 2 c))) /\
  holds 2 (multab_dagdag_suNC 2 a b c) a (mmul 2 (dag (mx 2 b)) (dag (mx 2 c))).
Proof.
  intros. split; [now apply multab_suNC_2_ok|].
  split; [now apply multabdag_suNC_2_ok|]. split; [now apply multab_dag_suNC_2_ok|now apply multab_dagdag_suNC_2_ok].
Qed.
Print Assumptions C23_su2.
(* For other NC three of them are products of any matrices (for the fourth see
   C22_multab_dagdag_refuted). *)
Theorem C23_general_NC : forall n a b c, (4 <= n)%nat ->
  holds n (multab_suNC n a b c) a (mmul n (mx n b) (mx n c)) /\
  holds n (multabdag_suNC n a b c) a (mmul n (dag (mx n b)) (mx n c)) /\
  holds n (multab_dag_suNC n a b c) a (mmul n (mx n b) (dag (mx n c))).
Proof.
  intros n a b c Hn. destruct n as [|[|[|[|n]]]]; try lia.
  split; [apply multab_ok|split; [apply multabdag_ok|apply multab_dag_ok]].
Qed.
Print Assumptions C23_general_NC.
Example C23_ex3 : SU3 (mx 3 ex_su3) /\ mx 3 ex_su3 1 2 = - Ci.
Proof. split; [apply ex_su3_ok|reflexivity]. Qed.
Example C23_ex2 : SU2 (mx 2 ex_su2).
Proof. apply ex_su2_ok. Qed.

(** * C24: traces *)
Theorem C24_trace : forall n U,
  trace n U = mtr n (mx n U) /\ speed_trace n U = mtr n (mx n U) /\ speed_trace_Re n U = re (mtr n (mx n U)).
Proof. intros. split; [apply trace_ok|split; [apply speed_trace_ok|apply speed_trace_Re_ok]]. Qed.
Print Assumptions C24_trace.
Theorem C24_trace_ab : forall n a b, trace_ab n a b = mtr n (mmul n (mx n a) (mx n b)).
Proof. exact trace_ab_ok. Qed.
Print Assumptions C24_trace_ab.
Theorem C24_trace_ab_dag : forall n a b,
  trace_ab_dag n a b = mtr n (mmul n (mx n a) (dag (mx n b))) /\
  trace_ab_dag_Re n a b = re (mtr n (mmul n (mx n a) (dag (mx n b)))).
Proof. intros. split; [apply trace_ab_dag_ok|apply trace_ab_dag_Re_ok]. Qed.
Print Assumptions C24_trace_ab_dag.
Theorem C24_trace_abc : forall n a b c,
  trace_abc n a b c = mtr n (mmul n (mmul n (mx n a) (mx n b)) (mx n c)) /\
  trace_abc_dag n a b c = mtr n (mmul n (mmul n (mx n a) (mx n b)) (dag (mx n c))) /\
  trace_abc_dag_Re n a b c = re (mtr n (mmul n (mmul n (mx n a) (mx n b)) (dag (mx n c)))).
Proof. intros. split; [apply trace_abc_ok|split; [apply trace_abc_dag_ok|apply trace_abc_dag_Re_ok]]. Qed.
Print Assumptions C24_trace_abc.
Theorem C24_Re_trace_abc_dag_suNC : forall n a b c,
  (n = 2%nat -> SU2 (mx 2 a) /\ SU2 (mx 2 b)) -> (n = 3%nat -> SU3 (mx 3 a) /\ SU3 (mx 3 b)) ->
  Re_trace_abc_dag_suNC n a b c = re (mtr n (mmul n (mmul n (mx n a) (mx n b)) (dag (mx n c)))).
Proof. exact Re_trace_abc_dag_suNC_ok. Qed.
Print Assumptions C24_Re_trace_abc_dag_suNC.
(* Full statement: for all hermitian a, b.  The SU(2) code also needs them traceless. *)
Theorem C24_trace_ab_herm_partial : forall n a b,
  hermitian n (mx n a) -> hermitian n (mx n b) ->
  (n = 2%nat -> traceless n (mx n a)) -> (n = 2%nat -> traceless n (mx n b)) ->
  RtoC (trace_ab_herm n a b) = mtr n (mmul n (mx n a) (mx n b)).
Proof. exact trace_ab_herm_ok. Qed.
Print Assumptions C24_trace_ab_herm_partial.
Theorem C24_trace_prod_herm_partial : forall n a,
  hermitian n (mx n a) -> (n = 2%nat -> traceless n (mx n a)) ->
  RtoC (trace_prod_herm n a) = mtr n (mmul n (mx n a) (mx n a)).
Proof. exact trace_prod_herm_ok. Qed.
Print Assumptions C24_trace_prod_herm_partial.
Theorem C24_trace_ab_herm_refuted : exists a b, hermitian 2 (mx 2 a) /\ hermitian 2 (mx 2 b) /\
  RtoC (trace_ab_herm 2 a b) <> mtr 2 (mmul 2 (mx 2 a) (mx 2 b)).
Proof. exact trace_ab_herm_fails. Qed.
Print Assumptions C24_trace_ab_herm_refuted.
Theorem C24_trace_prod_herm_refuted : exists a, hermitian 2 (mx 2 a) /\
  RtoC (trace_prod_herm 2 a) <> mtr 2 (mmul 2 (mx 2 a) (mx 2 a)).
Proof. exact trace_prod_herm_fails. Qed.
Print Assumptions C24_trace_prod_herm_refuted.
Theorem C24_trace_ab_herm_short : forall n p q A B, (0 < n)%nat -> packed n p A -> packed n q B ->
  hermitian n A -> hermitian n B -> traceless n A -> traceless n B ->
  RtoC (trace_ab_herm_short n p q) = mtr n (mmul n A B).
Proof. exact trace_ab_herm_short_ok. Qed.
Print Assumptions C24_trace_ab_herm_short.
Example C24_ex : hermitian 3 (mx 3 ex_h3) /\ traceless 3 (mx 3 ex_h3) /\
  packed 3 (pack_hermitian 3 (fun _ => C0) ex_h3) (mx 3 ex_h3).
Proof. destruct ex_h3_ok. split; [assumption|split; [assumption|apply pack_hermitian_ok]]. Qed.

(** * C36: packed matrices *)
Theorem C36_pack_rebuild_hermitian : forall n a p b, (0 < n)%nat ->
  hermitian n (mx n b) -> traceless n (mx n b) ->
  holds n (rebuild_hermitian n a (pack_hermitian n p b)) a (mx n b).
Proof. intros. apply rebuild_hermitian_ok; try assumption. apply pack_hermitian_ok. Qed.
Print Assumptions C36_pack_rebuild_hermitian.
Theorem C36_pack_rebuild_antihermitian : forall n a p b, (0 < n)%nat ->
  antihermitian n (mx n b) -> traceless n (mx n b) ->
  holds n (rebuild_antihermitian n a (pack_hermitian n p b)) a (mx n b).
Proof. intros. apply rebuild_antihermitian_ok; try assumption. apply pack_hermitian_ok. Qed.
Print Assumptions C36_pack_rebuild_antihermitian.
Example C36_ex : hermitian 2 (mx 2 ex_h2) /\ traceless 2 (mx 2 ex_h2) /\ hermitian 3 (mx 3 ex_h3) /\ traceless 3 (mx 3 ex_h3).
Proof. destruct ex_h2_ok, ex_h3_ok. repeat split; assumption. Qed.

(** * C38: powers *)
(* Full statement: for every int n, with inverse powers for n < 0.  *)
Theorem C38_matrix_power : forall n a b k, (0 <= k < 2^64)%Z ->
  holds n (matrix_power n a b k) a (mpow n (mx n b) (Z.to_nat k)).
Proof. exact matrix_power_ok. Qed.
Print Assumptions C38_matrix_power.
Theorem C38_negative_power_refuted : forall n, (2 <= n)%nat -> exists a b,
  (exists B, meq n (mmul n (mx n b) B) mid) /\
  ~ meq n (mmul n (mx n b) (mx n (matrix_power n a b (-1)))) mid.
Proof. exact matrix_power_fails. Qed.
Print Assumptions C38_negative_power_refuted.
Example C38_ex : mpow 2 (mx 2 (two 2)) 3 0%nat 0%nat = RtoC 8.
Proof. cbn [mpow]. unfold mmul, mx, two. cbn -[Cmul Cadd RtoC]. apply C_eq; cunfold; ring. Qed.
