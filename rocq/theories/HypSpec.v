(** Hypercubic fat links (Hasenfratz and Knechtli): a link of direction mu is fattened in one
    direction, then these in a second, then in the third, each time by a projection of the
    staples built from the links of the previous level. *)
From Coq Require Import PeanoNat List Reals.
From Verif Require Import CMat MatSpec Det ExpSpec.
Import ListNotations.
Local Open Scope C_scope.

(** sum of matrices *)
Definition msum {A} (l : list A) (f : A -> mat) : mat := fold_right (fun a M => madd (f a) M) mzero l.

Section Spec.
(** n colours; V sites; nb i mu, bk i mu: the sites one step forwards and backwards *)
Variables (n V : nat) (nb bk : nat -> nat -> nat).
(** K sa al S U R: the projection of the sum of staples S, weight sa, and the link U, weight al, is R *)
Variable K : R -> R -> mat -> mat -> mat -> Prop.

(** the two staples around the link of direction mu at i; sides A, of direction nu, and B opposite *)
Definition around (A B : nat -> mat) (i mu nu : nat) : mat :=
  madd (mmul n (mmul n (A i) (B (nb i nu))) (dag (A (nb i mu))))
       (mmul n (mmul n (dag (A (bk i nu))) (B (bk i nu))) (A (nb (bk i nu) mu))).
(** the directions below D other than those given *)
Definition except (D : nat) (l : list nat) : list nat := filter (fun d => negb (existsb (Nat.eqb d) l)) (seq 0 D).

(** Four directions.  V1 mu sg: link mu fattened in direction sg; V2 mu nu: fattened in the two
    directions other than mu, nu; U': in all three.  The directions not yet used for the link
    mu at level 2 are nu and, of rho and sg = 6 - mu - nu - rho (0+1+2+3 = 6), the other. *)
Definition hyp_step (a : nat -> R) (U U' : nat -> nat -> mat) : Prop :=
  exists V1 V2 : nat -> nat -> nat -> mat,
  (forall i mu sg, (i < V)%nat -> (mu < 4)%nat -> (sg < 4)%nat -> mu <> sg ->
     K (a 2%nat / 2) (1 - a 2%nat) (around (fun s => U s sg) (fun s => U s mu) i mu sg) (U i mu) (V1 mu sg i)) /\
  (forall i mu nu, (i < V)%nat -> (mu < 4)%nat -> (nu < 4)%nat -> mu <> nu ->
     K (a 1%nat / 4) (1 - a 1%nat)
       (msum (except 4 [mu; nu]) (fun rho => let sg := (6 - mu - nu - rho)%nat in around (V1 rho sg) (V1 mu sg) i mu rho))
       (U i mu) (V2 mu nu i)) /\
  (forall i mu, (i < V)%nat -> (mu < 4)%nat ->
     K (a 0%nat / 6) (1 - a 0%nat) (msum (except 4 [mu]) (fun nu => around (V2 nu mu) (V2 mu nu) i mu nu)) (U i mu) (U' i mu)).

(** Three directions, the fourth link untouched *)
Definition hyp3_step (a : nat -> R) (U U' : nat -> nat -> mat) : Prop :=
  exists V1 : nat -> nat -> nat -> mat,
  (forall i mu sg, (i < V)%nat -> (mu < 3)%nat -> (sg < 3)%nat -> mu <> sg ->
     K (a 1%nat / 4) (1 - a 1%nat) (around (fun s => U s sg) (fun s => U s mu) i mu sg) (U i mu) (V1 mu sg i)) /\
  (forall i mu, (i < V)%nat -> (mu < 3)%nat ->
     K (a 0%nat / 6) (1 - a 0%nat)
       (msum (except 3 [mu]) (fun nu => let sg := (3 - mu - nu)%nat in around (V1 nu sg) (V1 mu sg) i mu nu)) (U i mu) (U' i mu)) /\
  (forall i, (i < V)%nat -> meq n (U' i 3%nat) (U i 3%nat)).
End Spec.
