(** Specification: the instantaneous propagators.  sd: the spatial extents, t the time slice. *)
From Verif Require Import CInt Cplx CMat Arr MatSpec GeomSpec QtopSpec ProjProofs.
From Verif Require Import SmearModel FftModel GluonSpec.
Local Open Scope Z_scope.

(** Fourier mode of one time slice *)
Definition slice_mode (sd : list Z) (A : nat -> nat -> mat) (k : list Z) (t mu : nat) : mat := fun a b =>
  csum (nsites sd) (fun x => (cis (2 * PI * dot sd k (coords sd x)) * A (x + nsites sd * t)%nat mu a b)%C).
(** the sum over time slices of |A_mu(p,t)|^2 *)
Definition slices_sum (n T : nat) (sd : list Z) (A : nat -> nat -> mat) (k : list Z) (mu : nat) : R :=
  dsum T (fun t => norm2 n (slice_mode sd A k t mu)).
