(** Loops of links for glueballs, Field/balls.c: link_path, GLUball_lattice and the plaquette GLU_balls prints.

    Real numbers for floating point numbers.  The smearing before and the correlator of the loops are not
    modelled, nor overflow of the sum of a path (int).  None = undefined behaviour: an entry of the path that is not a direction (reads
    outside the links), no entry (reads path[0]) or one entry (link_path does not set its result).  The
    iterations of the parallel loop touch different sites. *)
From Verif Require Import CInt Cplx CMat Arr MatModel MmulModel FieldModel.
Import ListNotations.
Local Open Scope R_scope.

Definition direction (ND : nat) (p : Z) : bool := ((1 <=? Z.abs p) && (Z.abs p <=? Z.of_nat ND))%Z%bool.
(** balls.c:14-46: (size_t)abs( path[j] ) - 1 *)
Definition axis (p : Z) : nat := (Z.to_nat (Z.abs p) - 1)%nat.
Definition first_link (NC : nat) (tmp : arr) (lat : lattice) (i : nat) (p : Z) : arr * nat :=
  if (p <? 0)%Z then let k := bck (lat i) (axis p) in (dagger NC tmp (O (lat k) (axis p)), k)
  else (equiv NC tmp (O (lat i) (axis p)), nbr (lat i) (axis p)).
(** 32-43: temp, k and result *)
Definition next_link (NC : nat) (lat : lattice) (s : arr * nat * arr) (p : Z) : arr * nat * arr :=
  let '(temp, k, result) := s in
  if (p <? 0)%Z then
    let k := bck (lat k) (axis p) in
    let result := multab_dag_suNC NC result temp (O (lat k) (axis p)) in (equiv NC temp result, k, result)
  else
    let result := multab_suNC NC result temp (O (lat k) (axis p)) in (equiv NC temp result, nbr (lat k) (axis p), result).
Definition link_path (NC ND : nat) (tmp : arr) (lat : lattice) (path : list Z) (i : nat) : option arr :=
  if negb (forallb (direction ND) path) then None else
  match path with
  | p :: q :: rest => let '(temp, k) := first_link NC tmp lat i p in Some (snd (fold_left (next_link NC lat) (q :: rest) (temp, k, tmp)))
  | _ => None
  end.
(** 49-72 GLUball_lattice: success, and the result *)
Definition GLUball_lattice (NC ND V : nat) (tmp : arr) (lat : lattice) (path : list Z) (result : nat -> C) : option (bool * (nat -> C)) :=
  if (fold_left Z.add path 0 =? 0)%Z then
    do result <- fold_left (fun r i => do r <- r; do temp <- link_path NC ND tmp lat path i; Some (fun x => if Nat.eqb x i then (r x + trace NC temp)%C else r x)) (seq 0 V) (Some result);
    Some (true, result)
  else Some (false, result).
(** 144-163 GLU_balls: the loops over i and j and the plaquette printed *)
Definition planes (ND : nat) : list (nat * nat) := flat_map (fun i => map (fun j => (i, j)) (seq (i + 1) (ND - 1 - (i + 1)))) (seq 0 (ND - 1)).
Definition plaquette_path (p : nat * nat) : list Z := let i := Z.of_nat (fst p) in let j := Z.of_nat (snd p) in [i + 1; j + 1; - i - 1; - j - 1]%Z.
Definition GLU_balls (NC ND V : nat) (tmp : arr) (lat : lattice) : option (R * (nat -> C)) :=
  do result <- fold_left (fun r p => do r <- r; do ' (_, r) <- GLUball_lattice NC ND V tmp lat (plaquette_path p) r; Some r) (planes ND) (Some (fun _ => C0));
  Some (fold_left (fun sum i => sum + re (result i)) (seq 0 V) 0 / INR (V * 18), result).
