(** Specification: correlations in time of the gluon field at zero spatial momentum.  sd: the spatial
    extents, T the number of time slices, n the size of the matrices. *)
From Verif Require Import CInt Cplx CMat Arr MatSpec GeomSpec QtopSpec.
From Verif Require Import SmearModel GluonSpec.
Local Open Scope Z_scope.

(** the field summed over a time slice *)
Definition slice_total (sd : list Z) (A : nat -> nat -> mat) (mu t : nat) : mat := fun a b => csum (nsites sd) (fun x => A (x + nsites sd * t)%nat mu a b).
(** Re tr M N^dagger *)
Definition inner (n : nat) (M N : mat) : R := re (mtr n (mmul n M (dag N))).
(** all pairs of time slices at distance t *)
Definition time_corr (n T : nat) (sd : list Z) (A : nat -> nat -> mat) (mu t : nat) : R :=
  dsum T (fun tau => inner n (slice_total sd A mu tau) (slice_total sd A mu ((tau + t) mod T))).
(** the sites of a slice all of whose coordinates are multiples of k *)
Definition sparse (sd : list Z) (k : Z) : list nat := filter (fun x => forallb (fun c => c mod k =? 0) (coords sd x)) (sites sd).
Definition sparse_total (sd : list Z) (k : Z) (A : nat -> nat -> mat) (mu t : nat) : mat := fun a b =>
  fold_right (fun x s => (A (x + nsites sd * t)%nat mu a b + s)%C) C0 (sparse sd k).
