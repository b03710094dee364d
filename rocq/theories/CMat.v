(** Complex matrices of any size, as functions of two indices, and the small
    amount of linear algebra the specifications are written in.  Nothing here
    mentions the C code. *)
From Coq Require Import PeanoNat Lia Setoid Morphisms.
From Verif Require Export Cplx.
Local Open Scope C_scope.

Fixpoint csum (n : nat) (f : nat -> C) : C :=
  match n with O => C0 | S m => csum m f + f m end.

Definition mat := nat -> nat -> C.

(** equality of n x n matrices *)
Definition meq (n : nat) (A B : mat) : Prop :=
  forall i j, (i < n)%nat -> (j < n)%nat -> A i j = B i j.

Definition mmul (n : nat) (A B : mat) : mat :=
  fun i j => csum n (fun k => A i k * B k j).
Definition dag (A : mat) : mat := fun i j => conj (A j i).
Definition mtr (n : nat) (A : mat) : C := csum n (fun i => A i i).
Definition mid : mat := fun i j => if Nat.eqb i j then C1 else C0.
Definition mzero : mat := fun _ _ => C0.
Definition madd (A B : mat) : mat := fun i j => A i j + B i j.
Definition msub (A B : mat) : mat := fun i j => A i j - B i j.
Definition mscale (c : C) (A : mat) : mat := fun i j => c * A i j.

Definition unitary (n : nat) (U : mat) : Prop :=
  meq n (mmul n U (dag U)) mid /\ meq n (mmul n (dag U) U) mid.

Definition hermitian (n : nat) (A : mat) : Prop := meq n (dag A) A.
Definition antihermitian (n : nat) (A : mat) : Prop := meq n (dag A) (mscale (- C1) A).

Definition det2 (A : mat) : C := A 0%nat 0%nat * A 1%nat 1%nat - A 0%nat 1%nat * A 1%nat 0%nat.
(** rule of Sarrus *)
Definition det3 (A : mat) : C :=
  A 0%nat 0%nat * A 1%nat 1%nat * A 2%nat 2%nat
  + A 0%nat 1%nat * A 1%nat 2%nat * A 2%nat 0%nat
  + A 0%nat 2%nat * A 1%nat 0%nat * A 2%nat 1%nat
  - A 0%nat 2%nat * A 1%nat 1%nat * A 2%nat 0%nat
  - A 0%nat 1%nat * A 1%nat 0%nat * A 2%nat 2%nat
  - A 0%nat 0%nat * A 1%nat 2%nat * A 2%nat 1%nat.

Definition SU2 (U : mat) : Prop := unitary 2 U /\ det2 U = C1.
Definition SU3 (U : mat) : Prop := unitary 3 U /\ det3 U = C1.

(** * Sums *)
Lemma csum_ext : forall n f g, (forall i, (i < n)%nat -> f i = g i) -> csum n f = csum n g.
Proof. induction n; intros f g H; cbn; [reflexivity|]. rewrite (IHn f g), H by (intros; try apply H; lia). reflexivity. Qed.

Lemma csum_add : forall n f g, csum n (fun i => f i + g i) = csum n f + csum n g.
Proof. induction n; intros; cbn; [|rewrite IHn]; ring. Qed.
Lemma csum_sub : forall n f g, csum n (fun i => f i - g i) = csum n f - csum n g.
Proof. induction n; intros; cbn; [|rewrite IHn]; ring. Qed.
Lemma csum_mul_l : forall n c f, csum n (fun i => c * f i) = c * csum n f.
Proof. induction n; intros; cbn; [|rewrite IHn]; ring. Qed.
Lemma csum_mul_r : forall n c f, csum n (fun i => f i * c) = csum n f * c.
Proof. induction n; intros; cbn; [|rewrite IHn]; ring. Qed.
Lemma csum_0 : forall n, csum n (fun _ => C0) = C0.
Proof. induction n; cbn; [|rewrite IHn]; ring. Qed.
Lemma csum_conj : forall n f, conj (csum n f) = csum n (fun i => conj (f i)).
Proof. induction n; intros; cbn; [cring|rewrite conj_add, IHn; reflexivity]. Qed.
Lemma csum_swap : forall n m f,
  csum n (fun i => csum m (fun j => f i j)) = csum m (fun j => csum n (fun i => f i j)).
Proof.
  induction n; intros m f; cbn.
  - now rewrite csum_0.
  - rewrite IHn, <- csum_add. reflexivity.
Qed.
Lemma csum_delta_l : forall n i f, (i < n)%nat -> csum n (fun k => mid i k * f k) = f i.
Proof.
  induction n; intros i f H; [lia|]. cbn. unfold mid at 2.
  destruct (Nat.eqb_spec i n) as [->|N].
  - rewrite (csum_ext n _ (fun _ => C0)).
    + rewrite csum_0; ring.
    + intros k Hk. unfold mid. rewrite (proj2 (Nat.eqb_neq n k)) by lia. ring.
  - rewrite IHn by lia. ring.
Qed.
Lemma mid_sym : forall i j, mid i j = mid j i.
Proof. intros; unfold mid. now rewrite Nat.eqb_sym. Qed.
Lemma csum_delta_r : forall n i f, (i < n)%nat -> csum n (fun k => f k * mid k i) = f i.
Proof.
  intros. rewrite <- (csum_delta_l n i f) by assumption.
  apply csum_ext; intros; rewrite mid_sym; ring.
Qed.
Lemma csum_re : forall n f, re (csum n f) = re (csum n (fun i => RtoC (re (f i)))).
Proof. induction n; intros; cbn; [reflexivity|]. rewrite IHn. reflexivity. Qed.

(** * Setoid structure *)
Global Instance meq_equiv n : Equivalence (meq n).
Proof.
  split.
  - intros A i j _ _; reflexivity.
  - intros A B H i j Hi Hj; symmetry; now apply H.
  - intros A B D H1 H2 i j Hi Hj; rewrite H1, H2 by assumption; reflexivity.
Qed.

Global Instance mmul_proper n : Proper (meq n ==> meq n ==> meq n) (mmul n).
Proof.
  intros A A' HA B B' HB i j Hi Hj. unfold mmul. apply csum_ext; intros k Hk.
  rewrite HA, HB by assumption; reflexivity.
Qed.
Global Instance dag_proper n : Proper (meq n ==> meq n) dag.
Proof. intros A A' HA i j Hi Hj. unfold dag. now rewrite HA. Qed.
Global Instance mtr_proper n : Proper (meq n ==> eq) (mtr n).
Proof. intros A A' HA. unfold mtr. apply csum_ext; intros; now apply HA. Qed.
Global Instance madd_proper n : Proper (meq n ==> meq n ==> meq n) madd.
Proof. intros A A' HA B B' HB i j Hi Hj. unfold madd. now rewrite HA, HB. Qed.
Global Instance msub_proper n : Proper (meq n ==> meq n ==> meq n) msub.
Proof. intros A A' HA B B' HB i j Hi Hj. unfold msub. now rewrite HA, HB. Qed.
Global Instance mscale_proper n c : Proper (meq n ==> meq n) (mscale c).
Proof. intros A A' HA i j Hi Hj. unfold mscale. now rewrite HA. Qed.
Global Instance unitary_proper n : Proper (meq n ==> iff) (unitary n).
Proof. intros A B H. unfold unitary. now rewrite H. Qed.

(** * Algebra *)
Lemma mmul_assoc : forall n A B D, meq n (mmul n (mmul n A B) D) (mmul n A (mmul n B D)).
Proof.
  intros n A B D i j _ _. unfold mmul.
  rewrite (csum_ext n _ (fun k => csum n (fun l => A i l * B l k * D k j)))
    by (intros; now rewrite csum_mul_r).
  rewrite csum_swap. apply csum_ext; intros l _.
  rewrite <- csum_mul_l. apply csum_ext; intros; ring.
Qed.
Lemma mmul_1_l : forall n A, meq n (mmul n mid A) A.
Proof. intros n A i j Hi Hj. unfold mmul. now rewrite csum_delta_l. Qed.
Lemma mmul_1_r : forall n A, meq n (mmul n A mid) A.
Proof. intros n A i j Hi Hj. unfold mmul. now rewrite csum_delta_r. Qed.
Lemma dag_mmul : forall n A B, meq n (dag (mmul n A B)) (mmul n (dag B) (dag A)).
Proof.
  intros n A B i j _ _. unfold dag, mmul. rewrite csum_conj.
  apply csum_ext; intros; rewrite conj_mul; ring.
Qed.
Lemma dag_dag : forall n A, meq n (dag (dag A)) A.
Proof. intros n A i j _ _. unfold dag. apply conj_conj. Qed.
Lemma dag_mid : forall n, meq n (dag mid) mid.
Proof. intros n i j _ _. unfold dag. rewrite mid_sym. unfold mid. destruct Nat.eqb; cring. Qed.
Lemma mtr_cyc : forall n A B, mtr n (mmul n A B) = mtr n (mmul n B A).
Proof.
  intros. unfold mtr, mmul. rewrite csum_swap. apply csum_ext; intros i _.
  apply csum_ext; intros; ring.
Qed.
Lemma mtr_dag : forall n A, mtr n (dag A) = conj (mtr n A).
Proof. intros. unfold mtr. rewrite csum_conj. reflexivity. Qed.
Lemma mtr_add : forall n A B, mtr n (madd A B) = mtr n A + mtr n B.
Proof. intros. unfold mtr, madd. now rewrite <- csum_add. Qed.
Lemma mtr_scale : forall n c A, mtr n (mscale c A) = c * mtr n A.
Proof. intros. unfold mtr, mscale. now rewrite csum_mul_l. Qed.
Lemma mmul_add_l : forall n A B D, meq n (mmul n (madd A B) D) (madd (mmul n A D) (mmul n B D)).
Proof. intros n A B D i j _ _. unfold mmul, madd. rewrite <- csum_add. apply csum_ext; intros; ring. Qed.
Lemma mmul_add_r : forall n A B D, meq n (mmul n A (madd B D)) (madd (mmul n A B) (mmul n A D)).
Proof. intros n A B D i j _ _. unfold mmul, madd. rewrite <- csum_add. apply csum_ext; intros; ring. Qed.
Lemma mmul_sub_l : forall n A B D, meq n (mmul n (msub A B) D) (msub (mmul n A D) (mmul n B D)).
Proof. intros n A B D i j _ _. unfold mmul, msub. rewrite <- csum_sub. apply csum_ext; intros; ring. Qed.
Lemma mmul_sub_r : forall n A B D, meq n (mmul n A (msub B D)) (msub (mmul n A B) (mmul n A D)).
Proof. intros n A B D i j _ _. unfold mmul, msub. rewrite <- csum_sub. apply csum_ext; intros; ring. Qed.
Lemma mmul_scale_l : forall n c A B, meq n (mmul n (mscale c A) B) (mscale c (mmul n A B)).
Proof. intros n c A B i j _ _. unfold mmul, mscale. rewrite <- csum_mul_l. apply csum_ext; intros; ring. Qed.
Lemma mmul_scale_r : forall n c A B, meq n (mmul n A (mscale c B)) (mscale c (mmul n A B)).
Proof. intros n c A B i j _ _. unfold mmul, mscale. rewrite <- csum_mul_l. apply csum_ext; intros; ring. Qed.
Lemma dag_add : forall n A B, meq n (dag (madd A B)) (madd (dag A) (dag B)).
Proof. intros n A B i j _ _. unfold dag, madd. apply conj_add. Qed.
Lemma dag_sub : forall n A B, meq n (dag (msub A B)) (msub (dag A) (dag B)).
Proof. intros n A B i j _ _. unfold dag, msub. apply conj_sub. Qed.
Lemma dag_scale : forall n c A, meq n (dag (mscale c A)) (mscale (conj c) (dag A)).
Proof. intros n c A i j _ _. unfold dag, mscale. apply conj_mul. Qed.

(** * Unitary matrices *)
Lemma unitary_mid : forall n, unitary n mid.
Proof. intro n; split; rewrite dag_mid; apply mmul_1_l. Qed.
Lemma unitary_dag : forall n U, unitary n U -> unitary n (dag U).
Proof. intros n U [H1 H2]; split; rewrite dag_dag; assumption. Qed.
Lemma unitary_mmul : forall n U V, unitary n U -> unitary n V -> unitary n (mmul n U V).
Proof.
  intros n U V [U1 U2] [V1 V2]; split; rewrite dag_mmul.
  - rewrite mmul_assoc, <- (mmul_assoc n V), V1, mmul_1_l. exact U1.
  - rewrite mmul_assoc, <- (mmul_assoc n (dag U)), U2, mmul_1_l. exact V2.
Qed.
Lemma unitary_cancel_l : forall n U A, unitary n U -> meq n (mmul n (dag U) (mmul n U A)) A.
Proof. intros n U A [_ H]. now rewrite <- mmul_assoc, H, mmul_1_l. Qed.
Lemma unitary_cancel_l' : forall n U A, unitary n U -> meq n (mmul n U (mmul n (dag U) A)) A.
Proof. intros n U A [H _]. now rewrite <- mmul_assoc, H, mmul_1_l. Qed.

(** * Three by three *)
Ltac split3 :=
  let i := fresh "i" in let j := fresh "j" in
  intros i j ? ?;
  destruct i as [|[|[|i]]]; [| | |exfalso; lia];
  (destruct j as [|[|[|j]]]; [| | |exfalso; lia]).
Ltac split2 :=
  let i := fresh "i" in let j := fresh "j" in
  intros i j ? ?;
  destruct i as [|[|i]]; [| |exfalso; lia];
  (destruct j as [|[|j]]; [| |exfalso; lia]).

Lemma det3_mmul : forall A B, det3 (mmul 3 A B) = det3 A * det3 B.
Proof. intros. unfold det3, mmul. cbn [csum]. ring. Qed.
Lemma det3_dag : forall A, det3 (dag A) = conj (det3 A).
Proof. intros. unfold det3, dag. autorewrite with conj. ring. Qed.
Lemma det2_mmul : forall A B, det2 (mmul 2 A B) = det2 A * det2 B.
Proof. intros. unfold det2, mmul. cbn [csum]. ring. Qed.
Lemma det2_dag : forall A, det2 (dag A) = conj (det2 A).
Proof. intros. unfold det2, dag. autorewrite with conj. ring. Qed.
Lemma det3_mid : det3 mid = C1.
Proof. unfold det3, mid; cbn. ring. Qed.
Lemma det2_mid : det2 mid = C1.
Proof. unfold det2, mid; cbn. ring. Qed.

Global Instance det3_proper : Proper (meq 3 ==> eq) det3.
Proof. intros A B H. unfold det3. rewrite !H by lia. reflexivity. Qed.
Global Instance det2_proper : Proper (meq 2 ==> eq) det2.
Proof. intros A B H. unfold det2. rewrite !H by lia. reflexivity. Qed.

Lemma SU3_mmul : forall U V, SU3 U -> SU3 V -> SU3 (mmul 3 U V).
Proof.
  intros U V [U1 U2] [V1 V2]; split; [now apply unitary_mmul|].
  rewrite det3_mmul, U2, V2; ring.
Qed.
Lemma SU3_dag : forall U, SU3 U -> SU3 (dag U).
Proof. intros U [U1 U2]; split; [now apply unitary_dag|]. rewrite det3_dag, U2. apply conj_1. Qed.
Lemma SU3_mid : SU3 mid.
Proof. split; [apply unitary_mid|apply det3_mid]. Qed.
Lemma SU2_mmul : forall U V, SU2 U -> SU2 V -> SU2 (mmul 2 U V).
Proof.
  intros U V [U1 U2] [V1 V2]; split; [now apply unitary_mmul|].
  rewrite det2_mmul, U2, V2; ring.
Qed.
Lemma SU2_dag : forall U, SU2 U -> SU2 (dag U).
Proof. intros U [U1 U2]; split; [now apply unitary_dag|]. rewrite det2_dag, U2. apply conj_1. Qed.
Lemma SU2_mid : SU2 mid.
Proof. split; [apply unitary_mid|apply det2_mid]. Qed.
Lemma SU3_meq : forall U V, meq 3 U V -> SU3 U -> SU3 V.
Proof. intros U V H [U1 U2]; split; [now rewrite <- H|now rewrite <- H]. Qed.
Lemma SU2_meq : forall U V, meq 2 U V -> SU2 U -> SU2 V.
Proof. intros U V H [U1 U2]; split; [now rewrite <- H|now rewrite <- H]. Qed.

(** the classical adjoint: adj3 A * A = det A * 1 *)
Definition adj3 (A : mat) : mat := fun i j =>
  let i1 := Nat.modulo (i + 1) 3 in let i2 := Nat.modulo (i + 2) 3 in
  let j1 := Nat.modulo (j + 1) 3 in let j2 := Nat.modulo (j + 2) 3 in
  A j1 i1 * A j2 i2 - A j1 i2 * A j2 i1.

Lemma adj3_mmul : forall A, meq 3 (mmul 3 (adj3 A) A) (mscale (det3 A) mid).
Proof.
  intro A. split3; unfold mmul, adj3, mscale, mid, det3; cbn; ring.
Qed.
Lemma mmul_adj3 : forall A, meq 3 (mmul 3 A (adj3 A)) (mscale (det3 A) mid).
Proof.
  intro A. split3; unfold mmul, adj3, mscale, mid, det3; cbn; ring.
Qed.

Lemma mscale_1 : forall n A, meq n (mscale C1 A) A.
Proof. intros n A i j _ _. unfold mscale. ring. Qed.

Lemma SU3_adj : forall U, SU3 U -> meq 3 (dag U) (adj3 U).
Proof.
  intros U [[H _] D].
  rewrite <- (mmul_1_r 3 (adj3 U)), <- H, <- mmul_assoc, adj3_mmul, D, mscale_1, mmul_1_l.
  reflexivity.
Qed.

(** one sided unitarity and determinant one are enough *)
Lemma SU3_half : forall U, meq 3 (mmul 3 U (dag U)) mid -> det3 U = C1 -> SU3 U.
Proof.
  intros U H D.
  assert (E : meq 3 (dag U) (adj3 U)).
  { rewrite <- (mmul_1_r 3 (adj3 U)), <- H, <- mmul_assoc, adj3_mmul, D, mscale_1, mmul_1_l.
    reflexivity. }
  split; [split; [exact H|]|exact D].
  rewrite E, adj3_mmul, D. apply mscale_1.
Qed.

(** the last row of an SU(3) matrix *)
Lemma SU3_row2 : forall U j, SU3 U -> (j < 3)%nat ->
  U 2%nat j = conj (U 0%nat (Nat.modulo (j + 1) 3) * U 1%nat (Nat.modulo (j + 2) 3)
                    - U 0%nat (Nat.modulo (j + 2) 3) * U 1%nat (Nat.modulo (j + 1) 3)).
Proof.
  intros U j H Hj. pose proof (SU3_adj U H j 2%nat Hj ltac:(lia)) as E.
  unfold dag, adj3 in E. cbn in E. rewrite <- (conj_conj (U 2%nat j)), E.
  f_equal.
Qed.

(** an SU(2) matrix is ((a, b), (-conj b, conj a)) *)
Lemma SU2_form : forall U, SU2 U ->
  U 1%nat 0%nat = - conj (U 0%nat 1%nat) /\ U 1%nat 1%nat = conj (U 0%nat 0%nat).
Proof.
  intros U [[H H'] D].
  assert (E : forall i j, (i < 2)%nat -> (j < 2)%nat ->
    dag U i j = (fun i j => match i, j with
       | 0, 0 => U 1%nat 1%nat | 0, _ => - U 0%nat 1%nat
       | _, 0 => - U 1%nat 0%nat | _, _ => U 0%nat 0%nat end)%nat i j).
  { set (A := fun i j => match i, j with
       | 0, 0 => U 1%nat 1%nat | 0, _ => - U 0%nat 1%nat
       | _, 0 => - U 1%nat 0%nat | _, _ => U 0%nat 0%nat end%nat).
    assert (K : meq 2 (mmul 2 A U) mid).
    { split2; unfold mmul, A, mid; cbn; try rewrite <- D; unfold det2; ring. }
    change (meq 2 (dag U) A).
    rewrite <- (mmul_1_r 2 A), <- H, <- mmul_assoc, K, mmul_1_l. reflexivity. }
  split.
  - pose proof (E 1%nat 0%nat ltac:(lia) ltac:(lia)) as E1. unfold dag in E1.
    cbn in E1. rewrite E1. ring.
  - pose proof (E 0%nat 0%nat ltac:(lia) ltac:(lia)) as E1. unfold dag in E1. auto.
Qed.
