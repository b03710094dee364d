(** C36, C37: hermitian projections and the reduced storage of group elements.
    [herm U] = (U - U^dag)/(2i), [aherm U] = (U - U^dag)/2, [trf n A] = A minus its trace part. *)
From Coq Require Import PeanoNat List Reals Lra Lia.
From Verif Require Import CMat Det Arr MatSpec MatModel MatProofs MatProofs2 MatEx ProjModel ProjProofs.
Import ListNotations.
Local Open Scope C_scope.

(** ** C36.  Full statement: for every complex matrix and every NC.  For NC = 2
    the code uses only the first row; it is right for quaternionic matrices
    (sums of real multiples of SU(2) matrices) and wrong otherwise. *)
Theorem C36_hermitian_proj_partial : forall n Q U, (0 < n)%nat -> shaped n (mx n U) ->
  holds n (Hermitian_proj n Q U) Q (trf n (herm (mx n U))).
Proof. exact Hermitian_proj_ok. Qed.
Print Assumptions C36_hermitian_proj_partial.
Theorem C36_hermitian_proj_2_refuted : exists Q U, ~ meq 2 (mx 2 (Hermitian_proj 2 Q U)) (trf 2 (herm (mx 2 U))).
Proof. exact Hermitian_proj_2_fails. Qed.
Print Assumptions C36_hermitian_proj_2_refuted.
Theorem C36_result_hermitian_traceless : forall n Q U, (0 < n)%nat -> shaped n (mx n U) ->
  hermitian n (mx n (Hermitian_proj n Q U)) /\ traceless n (mx n (Hermitian_proj n Q U)).
Proof.
  intros n Q U Hn S. destruct (Hermitian_proj_ok n Q U Hn S) as [E _]. split.
  - intros i j Hi Hj. unfold dag. rewrite !E by assumption. now apply trf_herm_hermitian.
  - unfold traceless. rewrite <- (trf_traceless n (herm (mx n U)) Hn). apply csum_ext. intros i Hi. now apply E.
Qed.
Print Assumptions C36_result_hermitian_traceless.
Theorem C36_packed_same_partial : forall n a q Q U, (0 < n)%nat -> shaped n (mx n U) ->
  meq n (mx n (rebuild_hermitian n a (Hermitian_proj_short n q U))) (mx n (Hermitian_proj n Q U)).
Proof.
  intros n a q Q U Hn S i j Hi Hj.
  rewrite (proj1 (Hermitian_proj_ok n Q U Hn S) i j Hi Hj).
  apply rebuild_hermitian_ok; try assumption; [now apply Hermitian_proj_short_ok|now apply trf_herm_hermitian|now apply trf_traceless].
Qed.
Print Assumptions C36_packed_same_partial.
Theorem C36_antihermitian_proj_partial : forall n Q U, shaped n (mx n U) ->
  holds n (AntiHermitian_proj n Q U) Q (aherm (mx n U)).
Proof. exact AntiHermitian_proj_ok. Qed.
Print Assumptions C36_antihermitian_proj_partial.
Theorem C36_trf_antihermitian_proj_partial : forall n Q U, (0 < n)%nat -> shaped n (mx n U) ->
  holds n (trf_AntiHermitian_proj n Q U) Q (trf n (aherm (mx n U))).
Proof. exact trf_AntiHermitian_proj_ok. Qed.
Print Assumptions C36_trf_antihermitian_proj_partial.
(** the packed antihermitian version is right for NC = 2, 3 and wrong for every larger NC *)
Theorem C36_antihermitian_short_partial : forall n Q U, (n = 2 \/ n = 3)%nat -> shaped n (mx n U) ->
  packed n (AntiHermitian_proj_short n Q U) (trf n (aherm (mx n U))).
Proof. exact AntiHermitian_proj_short_ok. Qed.
Print Assumptions C36_antihermitian_short_partial.
Theorem C36_antihermitian_short_refuted : forall n, (4 <= n)%nat -> exists Q U,
  ~ packed n (AntiHermitian_proj_short n Q U) (trf n (aherm (mx n U))).
Proof. exact AntiHermitian_proj_short_fails. Qed.
Print Assumptions C36_antihermitian_short_refuted.
(** any matrix for NC <> 2, and the SU(2) matrix ex_su2, meet the hypotheses;
    the projection of the latter is not zero *)
Example C36_proj_ex : (forall A, shaped 3 A) /\ (forall A, shaped 5 A) /\ shaped 2 (mx 2 ex_su2) /\
  trf 2 (herm (mx 2 ex_su2)) 0%nat 0%nat = RtoC (3/5).
Proof.
  split; [intros A H; discriminate|]. split; [intros A H; discriminate|]. split.
  - intros _. split; unfold mx, ex_su2, lst; cbn [nth Nat.add Nat.mul]; apply C_eq; cunfold; lra.
  - unfold trf, herm, aherm, mscale, msub, dag, mtr, mid, mx, ex_su2, lst. cbn [nth csum INR Nat.eqb Nat.add Nat.mul].
    apply C_eq; unfold Cdiv, Cinv, norm2; cunfold; lra.
Qed.

(** ** C37.  The eight numbers determine U unless |U01|^2 + |U02|^2 is below the
    threshold the code uses for a zero denominator; then the identity comes back. *)
Theorem C37_su3_roundtrip : forall a p U, SU3 (mx 3 U) -> (/ 2 ^ 1022 <= norm2 (U 1%nat) + norm2 (U 2%nat))%R ->
  holds 3 (rebuild_3 a (shorten_3 p U)) a (mx 3 U).
Proof. exact rebuild_3_ok. Qed.
Print Assumptions C37_su3_roundtrip.
Theorem C37_su3_exactly : forall a p U, SU3 (mx 3 U) ->
  (meq 3 (mx 3 (rebuild_3 a (shorten_3 p U))) (mx 3 U) <->
   (/ 2 ^ 1022 <= norm2 (U 1%nat) + norm2 (U 2%nat))%R \/ meq 3 (mx 3 U) mid).
Proof.
  intros a p U HU. split.
  - intro H. destruct (Rle_lt_dec DBL_MIN (norm2 (U 1%nat) + norm2 (U 2%nat))) as [L|L]; [now left|right].
    rewrite <- H. apply (proj1 (rebuild_3_degenerate a p U L)).
  - intros [L|E]; [apply (proj1 (rebuild_3_ok a p U HU L))|].
    destruct (Rle_lt_dec DBL_MIN (norm2 (U 1%nat) + norm2 (U 2%nat))) as [L|L]; [apply (proj1 (rebuild_3_ok a p U HU L))|].
    rewrite E. apply (proj1 (rebuild_3_degenerate a p U L)).
Qed.
Print Assumptions C37_su3_exactly.
(** not every SU(3) matrix survives: diag( i, -i, 1 ) *)
Theorem C37_degenerate_refuted : exists U, SU3 (mx 3 U) /\
  forall a p, ~ meq 3 (mx 3 (rebuild_3 a (shorten_3 p U))) (mx 3 U).
Proof. exists dg. split; [exact dg_su3|exact rebuild_3_fails]. Qed.
Print Assumptions C37_degenerate_refuted.
Theorem C37_su2_roundtrip : forall a p U, SU2 (mx 2 U) -> holds 2 (rebuild_2 a (shorten_2 p U)) a (mx 2 U).
Proof. exact rebuild_2_ok. Qed.
Print Assumptions C37_su2_roundtrip.
(** only eight real numbers are stored (three for SU(2)) *)
Theorem C37_eight_numbers : forall p U k, (8 <= k)%nat -> shorten_3 p U k = p k.
Proof. intros p U k Hk. do 8 (destruct k as [|k]; [exfalso; lia|]). reflexivity. Qed.
Print Assumptions C37_eight_numbers.
Theorem C37_only_eight_numbers : forall a p q, (forall k, (k < 8)%nat -> p k = q k) -> forall k, (k < 9)%nat -> rebuild_3 a p k = rebuild_3 a q k.
Proof.
  intros a p q H k Hk. unfold rebuild_3.
  now rewrite (H 0 ltac:(lia))%nat, (H 1 ltac:(lia))%nat, (H 2 ltac:(lia))%nat, (H 3 ltac:(lia))%nat, (H 4 ltac:(lia))%nat,
    (H 5 ltac:(lia))%nat, (H 6 ltac:(lia))%nat, (H 7 ltac:(lia))%nat.
Qed.
Print Assumptions C37_only_eight_numbers.
Example C37_ex : SU3 (mx 3 ex_su3) /\ (/ 2 ^ 1022 <= norm2 (ex_su3 1%nat) + norm2 (ex_su3 2%nat))%R /\ SU2 (mx 2 ex_su2).
Proof.
  split; [exact ex_su3_ok|]. split; [|exact ex_su2_ok].
  replace (norm2 (ex_su3 1%nat) + norm2 (ex_su3 2%nat))%R with (/ 1)%R.
  - apply Rinv_le_contravar; [lra|]. apply pow_R1_Rle. lra.
  - unfold ex_su3, lst, norm2; cbn [nth]. cunfold. lra.
Qed.
