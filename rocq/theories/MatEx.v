(** Concrete matrices used as examples and as witnesses of refutations. *)
From Coq Require Import PeanoNat Lia List ZArith Lra.
From Verif Require Import CMat Arr MatSpec MmulModel MmulProofs MatModel MatProofs MatProofs2.
Import ListNotations.
Local Open Scope C_scope.

Definition lst (l : list C) : arr := fun k => nth k l C0.

(** diag( i , -i , 1 ) times a cyclic permutation *)
Definition ex_su3 : arr := lst [C0; Ci; C0;  C0; C0; - Ci;  C1; C0; C0].
(** rows ( 3i/5 , 4/5 ) and ( -4/5 , -3i/5 ) *)
Definition ex_su2 : arr := lst [(0, 3/5); (4/5, 0); (-4/5, 0); (0, -3/5)]%R.
Lemma ex_su3_ok : SU3 (mx 3 ex_su3).
Proof.
  split; [split; split3|]; unfold det3, mmul, dag, mx, mid, ex_su3, lst; cbn [csum Nat.add Nat.mul nth Nat.eqb]; apply C_eq; cunfold; lra.
Qed.
Lemma ex_su2_ok : SU2 (mx 2 ex_su2).
Proof.
  split; [split; split2|]; unfold det2, mmul, dag, mx, mid, ex_su2, lst; cbn [csum Nat.add Nat.mul nth Nat.eqb]; apply C_eq; cunfold; lra.
Qed.

(** a traceless hermitian 3x3 matrix, and 2x2 *)
Definition ex_h3 : arr := lst [(1,0);(2,3);(0,1); (2,-3);(4,0);(5,6); (0,-1);(5,-6);(-5,0)]%R.
Definition ex_h2 : arr := lst [(1,0);(2,3); (2,-3);(-1,0)]%R.
Lemma ex_h3_ok : hermitian 3 (mx 3 ex_h3) /\ traceless 3 (mx 3 ex_h3).
Proof.
  split; [split3|]; unfold traceless, mtr, dag, mx, ex_h3, lst; cbn [csum Nat.add Nat.mul nth]; apply C_eq; cunfold; lra.
Qed.
Lemma ex_h2_ok : hermitian 2 (mx 2 ex_h2) /\ traceless 2 (mx 2 ex_h2).
Proof.
  split; [split2|]; unfold traceless, mtr, dag, mx, ex_h2, lst; cbn [csum Nat.add Nat.mul nth]; apply C_eq; cunfold; lra.
Qed.
(** hermitian but not traceless *)
Definition ex_p2 : arr := lst [C1; C0; C0; C0].
Lemma ex_p2_ok : hermitian 2 (mx 2 ex_p2).
Proof. split2; unfold dag, mx, ex_p2, lst; cbn [Nat.add Nat.mul nth]; apply C_eq; cunfold; lra. Qed.

Lemma trace_ab_herm_fails : exists a b, hermitian 2 (mx 2 a) /\ hermitian 2 (mx 2 b) /\
  RtoC (trace_ab_herm 2 a b) <> mtr 2 (mmul 2 (mx 2 a) (mx 2 b)).
Proof.
  exists ex_p2, ex_p2. split; [apply ex_p2_ok|]. split; [apply ex_p2_ok|]. intro H. apply (f_equal re) in H.
  unfold trace_ab_herm, trace_ab_herm_2, mtr, mmul, mx, ex_p2, lst in H. cbn [csum Nat.add Nat.mul nth] in H.
  cunfold. lra.
Qed.
Lemma trace_prod_herm_fails : exists a, hermitian 2 (mx 2 a) /\
  RtoC (trace_prod_herm 2 a) <> mtr 2 (mmul 2 (mx 2 a) (mx 2 a)).
Proof.
  exists ex_p2. split; [apply ex_p2_ok|]. intro H. apply (f_equal re) in H.
  unfold trace_prod_herm, trace_prod_herm_2, mtr, mmul, mx, ex_p2, lst in H. cbn [csum Nat.add Nat.mul nth] in H.
  cunfold. lra.
Qed.

(** the general code of the double dagger product drops the conjugations *)
Lemma multab_dagdag_fails : forall n, (4 <= n)%nat -> exists a b c,
  ~ meq n (mx n (multab_dagdag n a b c)) (mmul n (dag (mx n b)) (dag (mx n c))).
Proof.
  intros n Hn.
  exists (fun _ => C0), (fun k => if Nat.eqb k 0 then Ci else C0), (fun k => if Nat.eqb k 0 then C1 else C0).
  intro H. specialize (H 0 0 ltac:(lia) ltac:(lia))%nat.
  destruct (multab_dagdag_n_is n (fun _ => C0) (fun k => if Nat.eqb k 0 then Ci else C0)
     (fun k => if Nat.eqb k 0 then C1 else C0)) as [E _].
  assert (D : multab_dagdag n = multab_dagdag_n n) by (destruct n as [|[|[|[|n]]]]; [lia|lia|lia|lia|reflexivity]).
  rewrite D, (E 0 0 ltac:(lia) ltac:(lia))%nat in H. clear E D.
  unfold mmul, dag, mx in H. revert H.
  rewrite (csum_ext n _ (fun m => Ci * mid m 0%nat)).
  2:{ intros m Hm. unfold mid. destruct m; [cbn; rewrite Nat.mul_0_r; cbn; ring|].
      cbn [Nat.eqb]. replace (0 + n * S m =? 0)%nat with false; [ring|].
      symmetry; apply Nat.eqb_neq. nia. }
  rewrite (csum_ext n (fun k => conj _ * _) (fun m => - Ci * mid m 0%nat)).
  2:{ intros m Hm. unfold mid. destruct m; [cbn; rewrite Nat.mul_0_r; cbn; apply C_eq; cunfold; ring|].
      cbn [Nat.eqb]. replace (0 + n * S m =? 0)%nat with false; [apply C_eq; cunfold; ring|].
      symmetry; apply Nat.eqb_neq. nia. }
  rewrite !csum_delta_r by lia. intro H. apply (f_equal im) in H. cunfold. lra.
Qed.

(** the unrolled SU(3) matrix times vector reads S[6] for S[5] *)
Lemma mat_mult_vec_fails : exists vect S v, exists i, (i < 3)%nat /\
  mat_mult_vec 3 vect S v i <> csum 3 (fun j => mx 3 S i j * v j).
Proof.
  exists (fun _ => C0), (lst [C0;C0;C0;C0;C0;C1;C0;C0;C0]), (lst [C0;C0;C1]), 1%nat. split; [lia|].
  intro H. apply (f_equal re) in H.
  unfold mat_mult_vec, mat_mult_vec_3, upd, mx, lst in H. cbn [csum Nat.add Nat.mul nth Nat.eqb] in H. cunfold. lra.
Qed.

(** a negative power is not the inverse power *)
Definition two (n : nat) : arr := fun k => if Nat.eqb (k mod (n+1)) 0 then RtoC 2 else C0.
Lemma two_id : forall n, (2 <= n)%nat -> meq n (mx n (two n)) (mscale (RtoC 2) mid).
Proof.
  intros n Hn i j Hi Hj. unfold mx, two, mscale, mid.
  destruct (Nat.eqb_spec i j) as [->|N].
  - replace (j + n*j)%nat with (j*(n+1))%nat by lia. rewrite Nat.mod_mul by lia. cbn. ring.
  - destruct (Nat.eqb_spec ((j + n*i) mod (n+1)) 0) as [E|E]; [|ring].
    apply Nat.mod_divides in E; [|lia]. destruct E as [q E].
    exfalso. destruct (Nat.lt_trichotomy i q) as [L|[->|L]]; nia.
Qed.
Lemma mpow_two : forall n A k, meq n A (mscale (RtoC 2) mid) -> (0 < n)%nat ->
  exists x, (1 <= x)%R /\ mpow n A k 0%nat 0%nat = RtoC x.
Proof.
  intros n A k HA Hn.
  assert (G : exists x, (1 <= x)%R /\ meq n (mpow n A k) (mscale (RtoC x) mid)).
  { induction k as [|k (x & Hx & IH)].
    - exists 1%R. split; [lra|]. cbn [mpow]. intros i j _ _. unfold mscale. change (RtoC 1) with C1. ring.
    - exists (x * 2)%R. split; [lra|]. cbn [mpow]. rewrite IH, HA.
      rewrite mmul_scale_l, mmul_scale_r, mmul_1_l. intros i j _ _. unfold mscale. rewrite RtoC_mul. ring. }
  destruct G as (x & Hx & G). exists x. split; [exact Hx|]. rewrite (G 0 0)%nat by lia.
  unfold mscale, mid. cbn [Nat.eqb]. ring.
Qed.
Lemma matrix_power_fails : forall n, (2 <= n)%nat -> exists a b,
  (exists B, meq n (mmul n (mx n b) B) mid) /\
  ~ meq n (mmul n (mx n b) (mx n (matrix_power n a b (-1)))) mid.
Proof.
  intros n Hn. exists (fun _ => C0), (two n). split.
  - exists (mscale (RtoC (/2)) mid). rewrite (two_id n Hn).
    rewrite mmul_scale_l, mmul_scale_r, mmul_1_l. intros i j _ _. unfold mscale.
    transitivity (RtoC (2 * /2) * mid i j); [rewrite RtoC_mul; ring|].
    replace (2 * /2)%R with 1%R by lra. change (RtoC 1) with C1. ring.
  - destruct (matrix_power_neg n (fun _ => C0) (two n) (-1) ltac:(lia)) as [E _].
    remember (Z.to_nat (2 ^ 64 + -1)) as k eqn:K. clear K.
    rewrite E. rewrite (two_id n Hn) at 1. rewrite mmul_scale_l, mmul_1_l. intro H.
    specialize (H 0 0 ltac:(lia) ltac:(lia))%nat.
    destruct (mpow_two n _ k (two_id n Hn) ltac:(lia)) as (x & Hx & X).
    unfold mscale in H. rewrite X in H. unfold mid in H. cbn [Nat.eqb] in H.
    apply (f_equal re) in H. cunfold. lra.
Qed.
