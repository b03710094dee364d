(** Specification: correlators of straight lines of links in the time direction.  A site is (y, s):
    y numbers the sites of a time slice, s the slice. *)
From Verif Require Import CInt Cplx CMat Arr MatSpec QtopSpec.
From Verif Require FieldModel.
Local Open Scope Z_scope.

Section Spec.
Variables (n : nat) (lat : FieldModel.lattice) (sd : list Z) (L : Z).
Let N := nsites sd.
Let T := Z.to_nat L.
(** the product of t links in the time direction, the first one that of (y, s) *)
Fixpoint time_line (t y s : nat) : mat :=
  match t with
  | 0%nat => mid
  | S t => mmul n (time_line t y s) (mx n (FieldModel.O (lat (y + N * ((s + t) mod T))%nat) (length sd)))
  end.
(** summed over all sites: tr W(y+r) W(y)^dag, and tr W(y+r) (tr W(y))^* *)
Definition line_pairs (t r : nat) : C :=
  csum T (fun s => csum N (fun y => mtr n (mmul n (time_line t (plus_site sd y r) s) (dag (time_line t y s))))).
Definition loop_pairs (t r : nat) : C :=
  csum T (fun s => csum N (fun y => (mtr n (time_line t (plus_site sd y r) s) * conj (mtr n (time_line t y s)))%C)).
(** ... and tr W(y+r) tr W(y), without the complex conjugation *)
Definition same_pairs (t r : nat) : C :=
  csum T (fun s => csum N (fun y => (mtr n (time_line t (plus_site sd y r) s) * mtr n (time_line t y s))%C)).
End Spec.
