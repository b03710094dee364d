(** The instanton configuration, Geometry/BPST_config.c (four dimensions, the singular gauge that is compiled).

    Real numbers for floating point numbers; the loops over the entries of a matrix are written entry by entry.  The iterations
    of the parallel loop touch different sites. *)
From Verif Require Import CInt GeomModel Cplx CMat Arr MatModel ProjModel ExpModel FieldModel.
Import ListNotations.
Local Open Scope R_scope.

(** C's atan2( y , x ) = carg( x + I y ) *)
Definition atan2 (y x : R) : R := carg (x, y).
(** 32-44 *)
Definition Asing (y : nat -> R) (rho : R) (mu : nat) : R :=
  let '(sumr, sum) := fold_left (fun (s : R * R) nu => let '(sumr, sum) := s in
    (sumr + (y nu * y nu + y nu), if Nat.eqb nu mu then sum else sum + y nu * y nu)) (seq 0 4) (0, 0) in
  let sum := sqrt (sum + rho * rho) in
  let sumr := sumr + rho * rho in
  atan2 sum sumr / sum.
(** 55-61: the Pauli matrices in the first two rows and columns *)
Definition pauli (NC a k : nat) : C :=
  match a with
  | 0%nat => if Nat.eqb k 1 then C1 else if Nat.eqb k NC then C1 else C0
  | 1%nat => if Nat.eqb k 1 then (- Ci)%C else if Nat.eqb k NC then Ci else C0
  | _ => if Nat.eqb k 0 then C1 else if Nat.eqb k (NC + 1) then (- C1)%C else C0
  end.
(** 63-64 *)
Definition rho : R := 4.
Definition sign : R := 1.
(** 87-91 *)
Definition b_of (y : nat -> R) (nu : nat) : R * R * R :=
  match nu with
  | 0%nat => (- sign * y 3%nat, y 2%nat, - y 1%nat)
  | 1%nat => (- y 2%nat, - sign * y 3%nat, y 0%nat)
  | 2%nat => (y 1%nat, - y 0%nat, - sign * y 3%nat)
  | _ => (sign * y 0%nat, sign * y 1%nat, sign * y 2%nat)
  end.
(** 105 *)
Definition coefficient (y : nat -> R) (nu : nat) : R := Asing y 0 nu - Asing y rho nu.
(** 95-111 *)
Definition exponent (NC : nat) (junk : arr) (y : nat -> R) (nu : nat) : arr := fun k =>
  if (k <? NC * NC)%nat then
    let '(b0, b1, b2) := b_of y nu in
    ((C0 + RtoC b0 * pauli NC 0 k + RtoC b1 * pauli NC 1 k + RtoC b2 * pauli NC 2 k) * RtoC (coefficient y nu))%C
  else junk k.
(** 66-69 and 75-84 *)
Definition centre (L : Z) : R := IZR (L / 2) - / 2.
Definition position (dims x : list Z) (nu : nat) : R := IZR (nth nu x 0%Z) - centre (nth nu dims 0%Z).
(** 73-114: the new links of the site i *)
Definition instanton_site (NC : nat) (junk : arr) (dims : list Z) (lat : lattice) (i nu : nat) : option arr :=
  do x <- get_mom_2piBZ dims (Z.of_nat i) 4;
  exponentiate NC (O (lat i) nu) (exponent NC junk (position dims x) nu).
