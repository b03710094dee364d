(* OpenMP work sharing as used by GLU.
   "parallel for reduction(op:x)": the iterations are distributed over threads; each thread
   runs its iterations in some order on a private copy that starts at the neutral element of op, and
   the private copies are combined into the original variable in some order.
   A schedule is the list of the threads' iteration lists, in the order in which they are combined. *)
From Coq Require Import Permutation.
From Verif Require Import CInt.

Definition schedule := list (list nat).
(* every iteration 0..n-1 is executed exactly once *)
Definition is_schedule (n : nat) (s : schedule) : Prop := Permutation (concat s) (seq 0 n).

Section Reduce.
Context {A : Type} (op : A -> A -> A) (neutral : A) (body : nat -> option A).

(* one thread; None if some iteration has undefined behaviour *)
Fixpoint omp_thread (acc : A) (its : list nat) : option A :=
  match its with
  | [] => Some acc
  | i :: r => do v <- body i; omp_thread (op acc v) r
  end.
Fixpoint omp_reduce (x : A) (s : schedule) : option A :=
  match s with
  | [] => Some x
  | its :: r => do p <- omp_thread neutral its; omp_reduce (op x p) r
  end.
End Reduce.

(* "parallel for" whose iteration i only writes element i of a shared array: [order] is the order in
   which the iterations take effect *)
Fixpoint omp_fill {A} (body : nat -> option A) (order : list nat) (arr : list A) : option (list A) :=
  match order with
  | [] => Some arr
  | i :: r => do v <- body i; do arr' <- set_nth arr i v; omp_fill body r arr'
  end.
