(** What the report on a gauge fixed field is specified by. *)
From Verif Require Import CInt Cplx CMat MatSpec ProjProofs GluonSpec FieldModel FieldProofs LandauSpec.
Local Open Scope C_scope.

(** sum over the sites of time slice t of the temporal gauge field (U - U^dag)/2i without its trace *)
Definition slice_charge (n ND LCU : nat) (lat : lattice) (t : nat) : mat :=
  msum LCU (fun i => trf n (herm (lnk n lat (LCU * t + i) (ND - 1)))).
(** in Landau gauge the divergence is 0 at every site *)
Definition landau_gauge (n ND V : nat) (lat : lattice) : Prop := forall x, (x < V)%nat -> meq n (divergence n ND lat x) mzero.
Definition largest (l : list R) : R := List.fold_right Rmax 0%R l.

(** the sum of the absolute values of the entries of a difference; of those of SU(3) only the upper triangle without its last *)
Definition counted (n i j : nat) : bool := match n with 3%nat => (Nat.leb i j && Nat.ltb i 2)%bool | _ => true end.
Definition entries_apart (n : nat) (A B : mat) : R :=
  dsum n (fun i => dsum n (fun j => if counted n i j then sqrt (re (A i j - B i j) ^ 2 + im (A i j - B i j) ^ 2) else 0))%R.
