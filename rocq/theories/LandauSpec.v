(** What Landau gauge fixing is specified by: the lattice divergence of the gauge field
    A_mu(x) = (U - U^dag)/2i without its trace, and fields of traceless antihermitian matrices. *)
From Verif Require Import CInt GeomSpec Cplx CMat MatSpec MatProofs ProjProofs GluonSpec FieldModel FieldProofs QtopSpec U1Spec.
Local Open Scope C_scope.

Definition msum (n : nat) (f : nat -> mat) : mat := fun i j => csum n (fun k => f k i j).
(** D(x) = sum_mu A_mu(x-mu) - A_mu(x) *)
Definition divergence (n ND : nat) (lat : lattice) (x : nat) : mat :=
  msum ND (fun mu => msub (trf n (herm (lnk n lat (bck (lat x) mu) mu))) (trf n (herm (lnk n lat x mu)))).
(** sum_x Tr D(x)^2 *)
Definition violation (n ND V : nat) (lat : lattice) : R :=
  dsum V (fun x => re (mtr n (mmul n (divergence n ND lat x) (divergence n ND lat x)))).
(** sum_(x,mu) Re Tr U_mu(x) *)
Definition functional (n ND V : nat) (lat : lattice) : R :=
  dsum V (fun x => dsum ND (fun mu => re (mtr n (lnk n lat x mu)))).
(** the Lie algebra *)
Definition tangent (n : nat) (X : mat) : Prop := antihermitian n X /\ traceless n X.
(** The matrix X in the storage of the gauge fixing: SU(3) keeps both diagonal entries in one complex
    number, i.e. -im X11 + i im X00, then X01, X02, X12; else the packed upper triangle. *)
Definition carries (n : nat) (f : nat -> nat -> C) (x : nat) (X : mat) : Prop :=
  match n with
  | 3%nat => f 0%nat x = (- im (X 1%nat 1%nat), im (X 0%nat 0%nat))%R /\ f 1%nat x = X 0%nat 1%nat /\ f 2%nat x = X 0%nat 2%nat /\ f 3%nat x = X 1%nat 2%nat
  | _ => packed n (fun c => f c x) X
  end.

(** * The Fourier acceleration *)
(** 4 d / p^2 per site, with 1 for p^2 at zero momentum *)
Definition propagator (ds : list Z) (p : nat) : R :=
  (4 * INR (length ds) / INR (nsites ds) / (if Req_EM_T (phat2 ds p) 0 then 1 else phat2 ds p))%R.
(** into momentum space, times the propagator, and back *)
Definition accelerated (ds : list Z) (X : nat -> mat) (x : nat) : mat := fun i j =>
  csum (nsites ds) (fun p => csum (nsites ds) (fun y => X y i j * wave ds p y) * RtoC (propagator ds p) * conj (wave ds p x)).

(** * The functional along a direction *)
(** sum_(x,mu) Re Tr ( (1 + a X(x)) U_mu(x) (1 + a X(x+mu))^dag ) *)
Definition along (n ND V : nat) (lat : lattice) (X : nat -> mat) (a : R) : R :=
  dsum V (fun x => dsum ND (fun mu => re (mtr n (mmul n (mmul n (madd mid (mscale (RtoC a) (X x))) (lnk n lat x mu)) (dag (madd mid (mscale (RtoC a) (X (nbr (lat x) mu))))))))).

