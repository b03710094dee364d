(** Specification: U(1) fields on a periodic lattice.  A mu x: the angle of the link of direction mu at
    site x. *)
From Coq Require Import Reals.
From Verif Require Import CInt Cplx CMat Arr MatSpec GeomSpec QtopSpec SmearModel GluonSpec.
Local Open Scope Z_scope.

(** the next site in direction mu, and the site with the opposite coordinates *)
Definition ahead (ds : list Z) (x mu : nat) : nat := Z.to_nat (index_of ds (translate ds (coords ds x) (unit_sep ds mu 1))).
Definition mirror (ds : list Z) (x : nat) : nat := Z.to_nat (index_of ds (translate ds (zero_sep ds) (neg_sep (coords ds x)))).

(** * Momentum space *)
(** the square of the lattice momentum, sum of (2 sin (pi p / L))^2 *)
Definition phat2 (ds : list Z) (p : nat) : R :=
  dsum (length ds) (fun mu => let s := (2 * sin (PI * IZR (coord ds mu p) / IZR (nth mu ds 1%Z)))%R in (s * s)%R).
(** all coordinates but the last one are 0 *)
Definition spatially_zero (ds : list Z) (p : nat) : bool := forallb (fun mu => coord ds mu p =? 0) (seq 0 (length ds - 1)).
(** the propagator's square root without the spatial zero modes (QED_L) *)
Definition weight (ds : list Z) (p : nat) : R := if spatially_zero ds p then 0%R else (1 / sqrt (phat2 ds p))%R.
(** the modes of a real field made of the noise: one of p, -p from the noise, the other one conjugate *)
Definition mode_of (ds : list Z) (noise : nat -> C) (p : nat) : C :=
  let h := fun p => (RtoC (weight ds p) * noise p)%C in
  if Nat.eqb p (mirror ds p) then RtoC (re (h p)) else if Nat.ltb p (mirror ds p) then h p else conj (h (mirror ds p)).
(** exp( - 2 pi i sum_mu p_mu x_mu / L_mu ) *)
Definition wave (ds : list Z) (p x : nat) : C :=
  let a := (2 * PI * dsum (length ds) (fun mu => IZR (coord ds mu p) * IZR (coord ds mu x) / IZR (nth mu ds 1%Z)))%R in (cos a, (- sin a)%R).

(** * Angles *)
Definition face (ds : list Z) (A : nat -> nat -> R) (x mu nu : nat) : R := (A mu x + A nu (ahead ds x mu) - A mu (ahead ds x nu) - A nu x)%R.
(** sum over the pairs nu < mu of n directions *)
Definition pairs (n : nat) (f : nat -> nat -> R) : R := dsum n (fun mu => dsum mu (fun nu => f mu nu)).
(** average over all sites and planes *)
Definition average (ds : list Z) (f : nat -> nat -> nat -> R) : R :=
  (dsum (nsites ds) (fun x => pairs (length ds) (f x)) / (INR (nsites ds) * INR (length ds) * (INR (length ds) - 1) / 2))%R.
(** the flux through two faces next to each other *)
Definition long_face (ds : list Z) (A : nat -> nat -> R) (x mu nu : nat) : R := (face ds A x mu nu + face ds A (ahead ds x mu) mu nu)%R.
Definition tall_face (ds : list Z) (A : nat -> nat -> R) (x mu nu : nat) : R := (face ds A x mu nu + face ds A (ahead ds x nu) mu nu)%R.
(** F_01 F_23 - F_02 F_13 + F_03 F_12 *)
Definition naive_charge (ds : list Z) (A : nat -> nat -> R) (x : nat) : R :=
  (face ds A x 0 1 * face ds A x 2 3 - face ds A x 0 2 * face ds A x 1 3 + face ds A x 0 3 * face ds A x 1 2)%R.
(** gauge transformations *)
Definition transformed (ds : list Z) (A A' : nat -> nat -> R) : Prop := exists a : nat -> R, forall mu x, (x < nsites ds)%nat -> (mu < length ds)%nat -> A' mu x = (A mu x + a x - a (ahead ds x mu))%R.

(** * Monopoles: n x mu nu the winding of a face *)
(** the flux of n out of the cube at x in the directions a < b < c *)
Definition cube_flux (ds : list Z) (n : nat -> nat -> nat -> Z) (x a b c : nat) : Z :=
  (n (ahead ds x a) b c - n x b c) - (n (ahead ds x b) a c - n x a c) + (n (ahead ds x c) a b - n x a b).
Definition others (mu : nat) : list nat := filter (fun d => negb (Nat.eqb d mu)) (seq 0 4).
Definition monopoles (ds : list Z) (n : nat -> nat -> nat -> Z) : Z :=
  fold_right Z.add 0 (map (fun mu => fold_right Z.add 0 (map (fun x =>
    match others mu with [a; b; c] => Z.abs (cube_flux ds n x a b c) | _ => 0 end) (seq 0 (nsites ds)))) (seq 0 4)).
(** windings that come from integers m on the links *)
Definition from_links (ds : list Z) (m : nat -> nat -> Z) (x mu nu : nat) : Z := m mu x + m nu (ahead ds x mu) - m mu (ahead ds x nu) - m nu x.
(** the field of the modes *)
Definition photon (ds : list Z) (noise : nat -> C) (x : nat) : C :=
  (RtoC (1 / sqrt (INR (nsites ds))) * csum (nsites ds) (fun p => mode_of ds noise p * wave ds p x))%C.
(** sums of integers; the area of the sheets: windings of all faces *)
Definition zsum (l : list nat) (f : nat -> Z) : Z := fold_right (fun i s => f i + s) 0 l.
Definition sheet_area (ds : list Z) (n : nat -> nat -> nat -> Z) : Z :=
  zsum (seq 0 (nsites ds)) (fun x => zsum (seq 0 (length ds)) (fun mu => zsum (seq 0 mu) (fun nu => Z.abs (n x mu nu)))).
(** k full turns in the angle theta *)
Definition turns (theta : R) (k : Z) : Prop :=
  (0 <= IZR k * theta /\ Rabs (IZR k) * (2 * PI) <= Rabs theta < (Rabs (IZR k) + 1) * (2 * PI))%R.
