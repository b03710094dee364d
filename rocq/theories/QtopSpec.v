(** Specification: sums of a density over parts of a periodic lattice.  Sites are numbers, coordinate
    0 running fastest. *)
From Coq Require Import Reals.
From Verif Require Import CInt GeomSpec.
Local Open Scope Z_scope.

(** the number of sites, the coordinate mu of a site, all its coordinates *)
Definition nsites (ds : list Z) : nat := Z.to_nat (prodZ ds).
Definition coord (ds : list Z) (mu i : nat) : Z := (Z.of_nat i / prodZ (firstn mu ds)) mod nth mu ds 1.
Definition coords (ds : list Z) (i : nat) : list Z := map (fun mu => coord ds mu i) (seq 0 (length ds)).
(** the site at x + r, coordinate by coordinate modulo the extents *)
Definition plus_site (ds : list Z) (x r : nat) : nat := Z.to_nat (index_of ds (translate ds (coords ds x) (coords ds r))).
(** the sum of p over a list of sites *)
Definition sum_over (p : nat -> R) (l : list nat) : R := fold_right (fun i s => p i + s)%R 0%R l.
Definition sites (ds : list Z) : list nat := seq 0 (nsites ds).
(** the slab of T1 slices in direction dir starting at T0 (periodic), one slice *)
Definition slab (ds : list Z) (dir : nat) (T0 T1 : Z) : list nat :=
  filter (fun i => (coord ds dir i - T0) mod nth dir ds 1 <? T1) (sites ds).
Definition slice (ds : list Z) (dir : nat) (t : Z) : list nat := filter (fun i => coord ds dir i =? t) (sites ds).
(** the correlation at distance r: sum_x p(x) p(x+r) *)
Definition correlation (ds : list Z) (p : nat -> R) (r : nat) : R := sum_over (fun x => (p x * p (plus_site ds x r))%R) (sites ds).

(** the times -L/2 < t < L/2, and sums over a list of times *)
Definition near_times (L : Z) : list Z := map (fun k => Z.of_nat k - L / 2 + 1) (seq 0 (Z.to_nat (2 * (L / 2) - 1))).
Definition sum_times (f : Z -> R) (l : list Z) : R := fold_right (fun t s => f t + s)%R 0%R l.
(** n! *)
Fixpoint factorial (n : nat) : Z := match n with O => 1 | S m => Z.of_nat n * factorial m end.
(** the real sign that stands for i^n: + + - - *)
Definition unit_sign (n : nat) : R := if Nat.ltb (n mod 4) 2 then 1%R else (-1)%R.
