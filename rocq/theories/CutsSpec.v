(* Specification of momentum lists, independent of the code. *)
From Coq Require Import Sorted.
From Verif Require Import CInt GeomSpec.

(* the symmetric zone: one representative of every residue class *)
Definition zone (ds p : list Z) : Prop := Forall2 (fun L q => - (L / 2) <= q < L - L / 2) ds p.

(* order of the list: the last coordinate is the most significant one *)
Fixpoint rlex (p q : list Z) : Prop :=
  match p, q with
  | a :: p', b :: q' => rlex p' q' \/ (p' = q' /\ a < b)
  | _, _ => False
  end.

(* coordinates reduced modulo the extents *)
Definition residues (ds p : list Z) : list Z := map (fun x => snd x mod fst x) (combine ds p).

(* a coordinate on the edge of the zone: its negative is not in the zone *)
Definition edge (ds p : list Z) : Prop := exists mu L, nth_error ds mu = Some L /\ nth_error p mu = Some (- (L / 2)) /\ Z.even L = true.

Definition zeros (ts : list Z) : list Z := map (fun _ => 0) ts.

(* l has entries in strictly increasing order, so each once *)
Definition increasing_by {A} (R : A -> A -> Prop) (l : list A) : Prop := StronglySorted R l.
