(** C arrays of complex numbers and counted loops, the vocabulary in which
    the Matrix_Ops code is transcribed.

    A GLU_complex array is a function from indices to values; a store is [upd].
    The size of the array is not part of it: theorems about a function state
    that nothing outside the array's size is written. *)
From Coq Require Import PeanoNat Lia.
From Verif Require Export Cplx.

Definition arr := nat -> C.
Definition upd (a : arr) (i : nat) (v : C) : arr :=
  fun k => if Nat.eqb k i then v else a k.

(** for( i = 0 ; i < n ; i++ ) { s = body( i , s ) } *)
Fixpoint for_ {S : Type} (n : nat) (body : nat -> S -> S) (s : S) : S :=
  match n with
  | O => s
  | Datatypes.S m => body m (for_ m body s)
  end.

(** creal and cimag used inside a complex expression *)
Definition creal (z : C) : C := RtoC (re z).
Definition cimag (z : C) : C := RtoC (im z).

Lemma upd_eq : forall a i v, upd a i v i = v.
Proof. intros; unfold upd; now rewrite Nat.eqb_refl. Qed.
Lemma upd_neq : forall a i v k, k <> i -> upd a i v k = a k.
Proof. intros; unfold upd. now rewrite (proj2 (Nat.eqb_neq k i)). Qed.

Lemma for_ind : forall {S} (P : nat -> S -> Prop) n body s,
  P O s -> (forall i t, (i < n)%nat -> P i t -> P (Datatypes.S i) (body i t)) ->
  P n (for_ n body s).
Proof.
  intros S P n body s H0 Hs.
  assert (G : forall k, (k <= n)%nat -> P k (for_ k body s)).
  { induction k; intro L; cbn; [exact H0|]. apply Hs; [lia|apply IHk; lia]. }
  apply G; lia.
Qed.

Lemma for_ext : forall {S} n (b1 b2 : nat -> S -> S) s,
  (forall i t, (i < n)%nat -> b1 i t = b2 i t) -> for_ n b1 s = for_ n b2 s.
Proof.
  induction n; intros b1 b2 s H; cbn; [reflexivity|].
  rewrite (IHn b1 b2 s), H by (intros; try apply H; lia). reflexivity.
Qed.
