(** The matrix exponential, as the limit of the partial sums of its series. *)
From Coq Require Import PeanoNat Reals Factorial.
From Verif Require Import CMat MatSpec.
Local Open Scope C_scope.

(** convergence of complex sequences *)
Definition Ccv (u : nat -> C) (l : C) : Prop :=
  Un_cv (fun k => re (u k)) (re l) /\ Un_cv (fun k => im (u k)) (im l).

(** E is the exponential of the n by n matrix A: sum over k of A^k / k! *)
Definition is_exp (n : nat) (A E : mat) : Prop := forall i j, (i < n)%nat -> (j < n)%nat ->
  Ccv (fun N => csum (S N) (fun k => mpow n A k i j * RtoC (/ INR (fact k)))) (E i j).
