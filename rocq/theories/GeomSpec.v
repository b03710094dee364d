(* Specification of lattice geometry, independent of the code. *)
From Verif Require Import CInt.

Definition prodZ (l : list Z) : Z := fold_right Z.mul 1 l.

(* a lattice the code supports: positive extents that fit in an int, and a
   time-slice volume that fits in an int ("int subvol", geometry.c:109) *)
Definition lattice_ok (dims : list Z) : Prop :=
  dims <> [] /\ Forall (fun L => 0 < L < two31) dims /\ prodZ (removelast dims) < two31.

(* coordinates inside the lattice *)
Definition in_box (dims x : list Z) : Prop := Forall2 (fun L c => 0 <= c < L) dims x.

(* lexicographic index with coordinate 0 fastest: sum_mu x_mu * prod_{nu<mu} L_nu *)
Definition index_of (dims x : list Z) : Z :=
  fold_right Z.add 0
    (map (fun mu => nth mu x 0 * prodZ (firstn mu dims)) (seq 0 (length dims))).

Definition sumsq (x : list Z) : Z := fold_right Z.add 0 (map (fun c => c * c) x).

(* specification of one step on the torus: coordinate mu moves by s modulo L *)
Definition stepped (ds x y : list Z) (mu : nat) (s : Z) : Prop :=
  length y = length x /\
  forall k, nth_error y k =
    if Nat.eqb k mu then
      match nth_error x k, nth_error ds k with
      | Some c, Some L => Some ((c + s) mod L)
      | _, _ => None
      end
    else nth_error x k.

Fixpoint iter_opt {A} (n : nat) (f : A -> option A) (x : A) : option A :=
  match n with O => Some x | S n' => do y <- f x; iter_opt n' f y end.

Definition hirep_order {A} (d : A) (l : list A) : list A := rev (removelast l) ++ [last l d].

(* the only coordinates for which the shift leaves the box: L odd and c = L/2 *)
Definition zone_ok (ds x : list Z) : Prop :=
  Forall2 (fun L c => Z.even L = true \/ c <> L / 2) ds x.

(* specification: p is the representative of x in the symmetric zone *)
Definition zone_rep (ds x p : list Z) : Prop :=
  Forall2 (fun L q => - (L / 2) <= q < L - L / 2) ds p /\
  Forall2 (fun L d => d mod L = 0) ds (map (fun q => fst q - snd q) (combine x p)) /\
  length p = length ds.

Definition sep_ok (ds sep : list Z) : Prop :=
  Forall2 (fun L s => - L <= s /\ L + s <= two31) ds sep.
Definition translate (ds x sep : list Z) : list Z :=
  map (fun p => (fst (snd p) + snd (snd p)) mod fst p) (combine ds (combine x sep)).

Definition zero_sep (ds : list Z) : list Z := map (fun _ => 0) ds.
Definition add_sep (s t : list Z) : list Z := map (fun p => fst p + snd p) (combine s t).
Definition neg_sep (s : list Z) : list Z := map Z.opp s.

(* unit displacement in direction mu *)
Definition unit_sep (ds : list Z) (mu : nat) (s : Z) : list Z :=
  map (fun k => if Nat.eqb k mu then s else 0) (seq 0 (length ds)).

Definition image_of (ds x r : list Z) : Prop := Forall2 (fun p c => (c - snd p) mod fst p = 0) (combine ds x) r
   /\ length r = length ds.

(* extents for which the two/three colouring separates neighbours *)
Definition race_free_extents (ds : list Z) : Prop :=
  Forall (fun L => L mod 2 = 0 \/ L = 1 \/ L mod 3 <> 1) ds.
