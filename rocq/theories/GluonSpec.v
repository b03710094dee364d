(** Specification: the gluon propagator.  A momentum is given by integers k, p_mu = 2 pi k_mu / L_mu. *)
From Verif Require Import CInt Cplx CMat Arr MatSpec GeomSpec QtopSpec ProjProofs.
From Verif Require Import SmearModel FftModel.
Local Open Scope Z_scope.

(** the gauge field: traceless hermitian part of the links *)
Definition gauge_field (n : nat) (U : field arr) (x mu : nat) : mat := trf n (herm (mx n (U x mu))).
(** p.x in units of 2 pi *)
Definition dot (ds k x : list Z) : R := fold_right Rplus 0%R (map (fun p => IZR (fst (snd p)) * IZR (snd (snd p)) / IZR (fst p))%R (combine ds (combine k x))).
Definition half (ds k : list Z) (mu : nat) : R := (IZR (nth mu k 0%Z) / (2 * IZR (nth mu ds 1%Z)))%R.
(** Fourier mode, the field A_mu living half way between x and x + mu *)
Definition mode (ds : list Z) (A : nat -> nat -> mat) (k : list Z) (mu : nat) : mat := fun a b =>
  csum (nsites ds) (fun x => (cis (2 * PI * (dot ds k (coords ds x) + half ds k mu)) * A x mu a b)%C).
(** momentum on the lattice *)
Definition khat (ds k : list Z) (mu : nat) : R := (2 * sin (PI * IZR (nth mu k 0%Z) / IZR (nth mu ds 1%Z)))%R.
Definition kcont (ds k : list Z) (mu : nat) : R := (2 * PI * IZR (nth mu k 0%Z) / IZR (nth mu ds 1%Z))%R.
Definition dsum (n : nat) (f : nat -> R) : R := fold_right (fun i s => f i + s)%R 0%R (seq 0 n).
Definition square (n : nat) (p : nat -> R) : R := dsum n (fun mu => p mu * p mu)%R.
Definition msums (n : nat) (f : nat -> mat) : mat := fun a b => csum n (fun mu => f mu a b).
(** |M|^2 *)
Definition norm2 (n : nat) (M : mat) : R := re (mtr n (mmul n M (dag M))).
(** with N directions: all polarisations, and the part along p *)
Definition all_pol (n N : nat) (A : nat -> mat) : R := dsum N (fun mu => norm2 n (A mu)).
Definition along (n N : nat) (p : nat -> R) (A : nat -> mat) : R := norm2 n (msums N (fun mu => mscale (RtoC (p mu)) (A mu))).
Definition longitudinal (n N : nat) (p : nat -> R) (A : nat -> mat) : R := (along n N p A / square N p)%R.
Definition transverse (n N : nat) (p : nat -> R) (A : nat -> mat) : R := (all_pol n N A - longitudinal n N p A)%R.
(** Landau gauge: no divergence at any site; back x mu is the neighbour of x in direction -mu *)
Definition landau (n N V : nat) (back : nat -> nat -> nat) (A : nat -> nat -> mat) : Prop :=
  forall x, (x < V)%nat -> meq n (msums N (fun mu => msub (A x mu) (A (back x mu) mu))) mzero.
(** the neighbour of a site in direction -mu *)
Definition behind (ds : list Z) (x mu : nat) : nat := Z.to_nat (index_of ds (translate ds (coords ds x) (unit_sep ds mu (-1)))).
