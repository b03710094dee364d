(** What a step of the gauge fixing makes of 1 + alpha X. *)
From Verif Require Import CInt Cplx CMat Det.
Local Open Scope C_scope.

(** Gram-Schmidt: row i of g is a combination of the rows 0 to i of u, with a positive coefficient of the
    last.  Together with orthonormality this determines the first m rows of g. *)
Definition schmidt (m n : nat) (u g : mat) : Prop :=
  forall i, (i < m)%nat -> exists a : nat -> C, im (a i) = 0%R /\ (0 < re (a i))%R /\ forall c, (c < n)%nat -> g i c = csum (S i) (fun j => a j * u j c).
(** g is M brought back to SU(N), from its columns for SU(2) and SU(3), else from its rows; the last one
    is given by the determinant *)
Definition reunitarised (n : nat) (M g : mat) : Prop :=
  SUn n g /\ match n with 2%nat | 3%nat => schmidt (n - 1) n (tr_ M) (tr_ g) | _ => schmidt (n - 1) n M g end.

(** * The length of a step *)
(** f0, f1, f2 at 0, 0.15, 0.30: the top of the parabola through them, if it opens downwards *)
Definition best_step (f0 f1 f2 a : R) : Prop :=
  (0 <= a <= 30/100 /\ forall c1 c2, f0 + 15/100 * c1 + 15/100 * (15/100) * c2 = f1 -> f0 + 30/100 * c1 + 30/100 * (30/100) * c2 = f2 -> c2 < 0 ->
    let m := - c1 / (2 * c2) in (0 <= m <= 30/100 -> a = m) /\ (30/100 < m -> a = 30/100) /\ (m < 0 -> a = 8/100))%R.
