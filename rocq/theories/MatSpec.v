(** What the matrix routines are specified by.  Only the array vocabulary of
    Arr.v and the matrix algebra of CMat.v are used. *)
From Coq Require Import PeanoNat.
From Verif Require Export CMat Arr.
Local Open Scope C_scope.

(** The matrix held in a flat array of NC*NC complex numbers. *)
Definition mx (n : nat) (a : arr) : mat := fun i j => a (j + n*i)%nat.

(** [r] agrees with [a] outside the first [k] entries *)
Definition frame (k : nat) (r a : arr) : Prop := forall x, (k <= x)%nat -> r x = a x.

(** A flat array [r] holds the n x n matrix [M] and nothing else of [a] has
    been touched. *)
Definition holds (n : nat) (r a : arr) (M : mat) : Prop := meq n (mx n r) M /\ frame (n*n) r a.

Definition vec (a : arr) : nat -> C := a.

(** the k-th power *)
Fixpoint mpow (n : nat) (A : mat) (k : nat) : mat :=
  match k with O => mid | S k => mmul n (mpow n A k) A end.

Definition traceless (n : nat) (A : mat) : Prop := mtr n A = C0.

(** The packed form of a traceless hermitian (or antihermitian) matrix: the
    upper triangle row by row, without the last diagonal entry.  [off n i] is
    the position of the diagonal entry of row i. *)
Fixpoint off (n i : nat) : nat := match i with O => O | S k => (off n k + (n - k))%nat end.
Definition packed (n : nat) (p : arr) (A : mat) : Prop :=
  forall i j, (i < n - 1)%nat -> (i <= j < n)%nat -> p (off n i + (j - i))%nat = A i j.
