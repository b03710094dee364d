(* Specification of the momentum cuts. *)
From Coq Require Import Reals List ZArith.
From Verif Require Import CInt.
Open Scope R_scope.

Fixpoint ssum (n : nat) (f : nat -> R) : R := match n with O => 0 | S m => ssum m f + f m end.

(* m is the smallest of the first D extents *)
Definition is_small (dims : list Z) (D : nat) (m : Z) : Prop :=
  In m (firstn D dims) /\ forall L, In L (firstn D dims) -> (m <= L)%Z.

(* the momentum k mu / L mu in units of 2 pi *)
Definition frac (dims k : list Z) (mu : nat) : R := IZR (nth mu k 0%Z) / IZR (nth mu dims 0%Z).
(* the lattice momentum 2 sin( pi k / L ) *)
Definition lat_mom (dims k : list Z) (mu : nat) : R := 2 * sin (PI * frac dims k mu).

(* a body diagonal of the D dimensional cube *)
Definition body_diagonal (D : nat) (s : nat -> R) : Prop := forall mu, (mu < D)%nat -> s mu = 1 \/ s mu = -1.
Definition norm2v (D : nat) (q : nat -> R) : R := ssum D (fun mu => q mu * q mu).
Definition dotv (D : nat) (q s : nat -> R) : R := ssum D (fun mu => q mu * s mu).
(* q is within w of the line along s *)
Definition near_line (D : nat) (q s : nat -> R) (w : R) : Prop :=
  0 <= w /\ exists t, norm2v D (fun mu => q mu - t * s mu) <= w * w.
(* the angle between q and s is at most a (0 <= a <= pi) *)
Definition angle_within (D : nat) (q s : nat -> R) (a : R) : Prop :=
  cos a * (sqrt (norm2v D q) * sqrt (norm2v D s)) <= dotv D q s.
