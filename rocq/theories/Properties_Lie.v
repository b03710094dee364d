(** C47: contractions with the structure constants (lie_mats.c). The expected values are written with traces of
    products of matrices ([mtr], [mmul]), the entries of the C array a being read as the matrix [mx n a]. *)
From Coq Require Import List ZArith PeanoNat Lia.
From Verif Require Import CInt Lib CMat Arr MatSpec MatModel MatProofs LieModel LieProofs LieProofs2 LieProofs3.
Import ListNotations.
Local Open Scope nat_scope.
Local Open Scope C_scope.

(** Tr(ABD) *)
Definition Tr3 (n : nat) (A B D : mat) : C := mtr n (mmul n A (mmul n B D)).

(** Three colours: for every three traceless matrices the contractions with f and d are 2 Tr([A,B]D) and
    2 Tr({A,B}D), and the combined one is 4 Tr(ABD), as the comment on line 368 says. Hermiticity is not needed. *)
Theorem C47_su3 : forall lam A B D, traceless 3 (mx 3 A) -> traceless 3 (mx 3 B) -> traceless 3 (mx 3 D) ->
  ifabc_ABC 3 lam A B D = RtoC 2 * (Tr3 3 (mx 3 A) (mx 3 B) (mx 3 D) - Tr3 3 (mx 3 B) (mx 3 A) (mx 3 D)) /\
  dabc_ABC 3 lam A B D = RtoC 2 * (Tr3 3 (mx 3 A) (mx 3 B) (mx 3 D) + Tr3 3 (mx 3 B) (mx 3 A) (mx 3 D)) /\
  ifabc_dabc_ABC 3 lam A B D = RtoC 4 * Tr3 3 (mx 3 A) (mx 3 B) (mx 3 D).
Proof.
  intros lam A B D HA HB HD.
  assert (T : forall M, traceless 3 (mx 3 M) -> M 8%nat = - (M 0%nat + M 4%nat)).
  { intros M H. unfold traceless, mtr, mx in H. cbn [csum Nat.mul Nat.add] in H.
    transitivity ((C0 + M 0%nat + M 4%nat + M 8%nat) - (M 0%nat + M 4%nat)); [ring|]. rewrite H. ring. }
  assert (E2 : RtoC 2 = C1 + C1) by cring. assert (E4 : RtoC 4 = C1 + C1 + (C1 + C1)) by cring.
  rewrite sum_split, (lie3_f A B D (T A HA) (T B HB) (T D HD)), (lie3_d A B D (T A HA) (T B HB) (T D HD)).
  change trace_abc_3 with (trace_abc 3). rewrite !trace_abc_tr3. change tr3 with Tr3. rewrite E2, E4. repeat split; ring.
Qed.
Print Assumptions C47_su3.

(** Any number of colours above three: the same, for the set of generators in use, provided they are hermitian,
    every traceless matrix is the combination of them with coefficients 2 Tr(A T), and no constant is lost by the cut at
    PREC_TOL. *)
Theorem C47_general_partial : forall n lam, (3 < n)%nat ->
  (forall k, (k < n * n - 1)%nat -> hermitian n (mx n (lam k))) ->
  (forall A, traceless n A -> forall i j, (i < n)%nat -> (j < n)%nat ->
     A i j = csum (n * n - 1) (fun k => RtoC 2 * mtr n (mmul n A (mx n (lam k))) * mx n (lam k) i j)) ->
  (forall i, In i (triples (n * n - 1)) -> gt_tol n (f_of n lam i) = false -> f_of n lam i = 0%R) ->
  (forall i, In i (triples (n * n - 1)) -> gt_tol n (d_of n lam i) = false -> d_of n lam i = 0%R) ->
  forall A B D, traceless n (mx n A) -> traceless n (mx n B) -> traceless n (mx n D) ->
  ifabc_ABC n lam A B D = RtoC 2 * (Tr3 n (mx n A) (mx n B) (mx n D) - Tr3 n (mx n B) (mx n A) (mx n D)) /\
  dabc_ABC n lam A B D = RtoC 2 * (Tr3 n (mx n A) (mx n B) (mx n D) + Tr3 n (mx n B) (mx n A) (mx n D)) /\
  ifabc_dabc_ABC n lam A B D = RtoC 4 * Tr3 n (mx n A) (mx n B) (mx n D).
Proof.
  intros n lam N3 Hh Hc Hf Hd A B D HA HB HD. assert (E4 : RtoC 4 = RtoC 2 + RtoC 2) by cring.
  rewrite sum_split, (general_f n lam N3 Hh Hc Hf Hd A B D HA HB HD), (general_d n lam N3 Hh Hc Hf Hd A B D HA HB HD).
  change tr3 with Tr3. rewrite E4. repeat split; ring.
Qed.
Print Assumptions C47_general_partial.
(** the hypotheses are satisfiable: products of two Pauli matrices, scaled, are such a set for four colours *)
Example C47_general_ex : 
  (forall k, (k < 15)%nat -> hermitian 4 (mx 4 (lamP k))) /\
  (forall A, traceless 4 A -> forall i j, (i < 4)%nat -> (j < 4)%nat ->
     A i j = csum 15 (fun k => RtoC 2 * mtr 4 (mmul 4 A (mx 4 (lamP k))) * mx 4 (lamP k) i j)) /\
  (forall i, gt_tol 4 (f_of 4 lamP i) = false -> f_of 4 lamP i = 0%R) /\
  (forall i, gt_tol 4 (d_of 4 lamP i) = false -> d_of 4 lamP i = 0%R).
Proof. split; [exact P_herm|split; [exact P_complete|split; [exact P_ftol|exact P_dtol]]]. Qed.

(** The constants in use are totally antisymmetric and totally symmetric, for every number of colours and every set of
    generators: [coef tbl (a,b,c)] is the sum of the entries of the table at (a,b,c), zero where the table has none. *)
Theorem C47_symmetry : forall n lam a b c,
  (coef (ftable n lam) (b, a, c) = - coef (ftable n lam) (a, b, c) /\ coef (ftable n lam) (a, c, b) = - coef (ftable n lam) (a, b, c)) /\
  (coef (dtable n lam) (b, a, c) = coef (dtable n lam) (a, b, c) /\ coef (dtable n lam) (a, c, b) = coef (dtable n lam) (a, b, c)).
Proof. intros n lam a b c. split; [exact (f_antisymmetric n lam (a, b, c))|exact (d_symmetric n lam (a, b, c))]. Qed.
Print Assumptions C47_symmetry.
Example C47_symmetry_ex : coef (ftable 3 lam4) (0, 1, 2)%nat = C1 /\ coef (ftable 3 lam4) (1, 0, 2)%nat = - C1.
Proof.
  assert (H : coef (ftable 3 lam4) (0, 1, 2)%nat = C1).
  { unfold ftable, f3_code. cbn [map]. rewrite !decode_val. cbn [coef fold_right eq3 snd fst Nat.eqb andb].
    change (RtoC (cval V1)) with C1. change (RtoC (IZR 1)) with C1. ring. }
  split; [exact H|]. destruct (C47_symmetry 3 lam4 0 1 2) as ((E & _) & _). rewrite E, H. reflexivity.
Qed.

(** Two colours: the elements are read with half the weight, so the answer is an eighth of the documented one. *)
Theorem C47_su2_is_half : forall lam A B D, traceless 2 (mx 2 A) -> traceless 2 (mx 2 B) -> traceless 2 (mx 2 D) ->
  ifabc_ABC 2 lam A B D = RtoC (/ 4) * (Tr3 2 (mx 2 A) (mx 2 B) (mx 2 D) - Tr3 2 (mx 2 B) (mx 2 A) (mx 2 D)) /\
  dabc_ABC 2 lam A B D = C0 /\
  ifabc_dabc_ABC 2 lam A B D = RtoC (/ 2) * Tr3 2 (mx 2 A) (mx 2 B) (mx 2 D).
Proof.
  intros lam A B D HA HB HD.
  assert (T : forall M, traceless 2 (mx 2 M) -> M 3%nat = - M 0%nat).
  { intros M H. unfold traceless, mtr, mx in H. cbn [csum Nat.mul Nat.add] in H.
    transitivity ((C0 + M 0%nat + M 3%nat) - M 0%nat); [ring|]. rewrite H. ring. }
  rewrite sum_split, (lie2_f A B D (T A HA) (T B HB) (T D HD)).
  assert (Ed : dabc_ABC 2 lam A B D = C0) by reflexivity. rewrite Ed.
  change trace_abc_2 with (trace_abc 2). rewrite !trace_abc_tr3. change tr3 with Tr3.
  split; [reflexivity|]. split; [reflexivity|].
  assert (S : Tr3 2 (mx 2 B) (mx 2 A) (mx 2 D) = - Tr3 2 (mx 2 A) (mx 2 B) (mx 2 D)).
  { unfold Tr3, mtr, mmul, mx. cbn [csum Nat.mul Nat.add]. rewrite (T A HA), (T B HB), (T D HD). ring. }
  rewrite S. assert (E : RtoC (/ 2) = RtoC (/ 4) + RtoC (/ 4)) by (apply C_eq; cunfold; field). rewrite E. ring.
Qed.
Print Assumptions C47_su2_is_half.
Definition px : arr := fun x => match x with 1 => C1 | 2 => C1 | _ => C0 end%nat.
Definition py : arr := fun x => match x with 1 => - Ci | 2 => Ci | _ => C0 end%nat.
Definition pz : arr := fun x => match x with 0 => C1 | 3 => - C1 | _ => C0 end%nat.
Theorem C47_su2_refuted : exists A B D, hermitian 2 (mx 2 A) /\ hermitian 2 (mx 2 B) /\ hermitian 2 (mx 2 D) /\
  traceless 2 (mx 2 A) /\ traceless 2 (mx 2 B) /\ traceless 2 (mx 2 D) /\
  forall lam, ifabc_dabc_ABC 2 lam A B D <> RtoC 4 * Tr3 2 (mx 2 A) (mx 2 B) (mx 2 D).
Proof.
  exists px, py, pz.
  assert (H : forall M : mat, (forall i j, (i < 2)%nat -> (j < 2)%nat -> conj (M j i) = M i j) -> hermitian 2 M) by (intros M HM i j Hi Hj; unfold dag; apply HM; assumption).
  assert (Tx : traceless 2 (mx 2 px)) by (unfold traceless, mtr, mx; cbn [csum Nat.mul Nat.add px]; ring).
  assert (Ty : traceless 2 (mx 2 py)) by (unfold traceless, mtr, mx; cbn [csum Nat.mul Nat.add py]; ring).
  assert (Tz : traceless 2 (mx 2 pz)) by (unfold traceless, mtr, mx; cbn [csum Nat.mul Nat.add pz]; ring).
  split; [|split; [|split; [|split; [exact Tx|split; [exact Ty|split; [exact Tz|]]]]]].
  1,2,3: apply H; intros [|[|i]] [|[|j]] Hi Hj; try lia; unfold mx; cbn [Nat.mul Nat.add px py pz]; apply C_eq; cunfold; ring.
  intros lam. destruct (C47_su2_is_half lam px py pz Tx Ty Tz) as (_ & _ & ->).
  assert (E : Tr3 2 (mx 2 px) (mx 2 py) (mx 2 pz) = Ci + Ci).
  { unfold Tr3, mtr, mmul, mx. cbn [csum Nat.mul Nat.add px py pz]. ring. }
  rewrite E. intros F. apply (f_equal im) in F. revert F. cunfold. lra.
Qed.
Print Assumptions C47_su2_refuted.

(** Four colours with the generators the program itself builds: line 420 negates an unsigned variable, the last diagonal
    entry of a generator becomes 2^64 - 1 (times the factor) instead of -1. It is not traceless, and the contraction of
    three traceless hermitian matrices is not the trace it stands for. *)
Theorem C47_generators_refuted :
  (exists k, (k < 15)%nat /\ ~ traceless 4 (mx 4 (init_generators 4 k))) /\
  exists A B D, hermitian 4 (mx 4 A) /\ hermitian 4 (mx 4 B) /\ hermitian 4 (mx 4 D) /\
  traceless 4 (mx 4 A) /\ traceless 4 (mx 4 B) /\ traceless 4 (mx 4 D) /\
  ifabc_ABC 4 (init_generators 4) A B D <> RtoC 2 * (Tr3 4 (mx 4 A) (mx 4 B) (mx 4 D) - Tr3 4 (mx 4 B) (mx 4 A) (mx 4 D)).
Proof.
  split.
  - exists 2%nat. split; [lia|]. intros H. apply (f_equal re) in H. revert H. unfold traceless, mtr, mx. cbn [csum Nat.mul Nat.add].
    change (init_generators 4) with lam4. destruct lam4_2 as [-> ->].
    change (lam4 2 10) with C0. change (lam4 2 15) with C0. rewrite big_val.
    assert (Hs : (0 < sqrt (1 / (2 * INR 2 * INR 1)))%R) by (apply sqrt_lt_R0; cbn [INR]; lra).
    revert Hs. generalize (sqrt (1 / (2 * INR 2 * INR 1))). intros s Hs. cunfold. lra.
  - exists exA, exB, exD.
    assert (H : forall M : mat, (forall i j, (i < 4)%nat -> (j < 4)%nat -> conj (M j i) = M i j) -> hermitian 4 M) by (intros M HM i j Hi Hj; unfold dag; apply HM; assumption).
    split; [|split; [|split; [|split; [|split; [|split]]]]].
    1,2,3: apply H; intros [|[|[|[|i]]]] [|[|[|[|j]]]] Hi Hj; try lia; unfold mx; cbn [Nat.mul Nat.add exA exB exD]; apply C_eq; cunfold; ring.
    1,2,3: unfold traceless, mtr, mx; cbn [csum Nat.mul Nat.add exA exB exD]; ring.
    change Tr3 with tr3. rewrite expected4. change (init_generators 4) with lam4. rewrite code4. intros F. apply (f_equal im) in F. revert F.
    assert (Hx : (x2 < -1)%R) by (unfold x2; rewrite big_val; lra). cunfold. nra.
Qed.
Print Assumptions C47_generators_refuted.
