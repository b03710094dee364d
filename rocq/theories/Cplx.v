(** Complex numbers over the real numbers of the standard library.

    GLU_complex (/repo/src/Headers/GLU_definitions.h and Mainfile.h: a C99
    "double complex" or "float complex") is modelled by pairs of exact reals:
    rounding, overflow, infinities and NaNs are not modelled (DESIGN.md). *)
From Coq Require Export Reals Lra.
From Coq Require Import Field Ring.
Local Open Scope R_scope.

Definition C : Type := (R * R)%type.
Declare Scope C_scope.
Delimit Scope C_scope with C.
Bind Scope C_scope with C.

(** creal, cimag, conj of <complex.h> *)
Definition re (z : C) : R := fst z.
Definition im (z : C) : R := snd z.
Definition conj (z : C) : C := (re z, - im z).
Definition RtoC (x : R) : C := (x, 0).
Definition C0 : C := (0, 0).
Definition C1 : C := (1, 0).
(** the imaginary unit I *)
Definition Ci : C := (0, 1).
Definition Cadd (x y : C) : C := (re x + re y, im x + im y).
Definition Copp (x : C) : C := (- re x, - im x).
Definition Csub (x y : C) : C := Cadd x (Copp y).
Definition Cmul (x y : C) : C :=
  (re x * re y - im x * im y, re x * im y + im x * re y).
Definition norm2 (z : C) : R := re z * re z + im z * im z.
Definition Cinv (z : C) : C := (re z / norm2 z, - im z / norm2 z).
Definition Cdiv (x y : C) : C := Cmul x (Cinv y).

Infix "+" := Cadd : C_scope.
Infix "-" := Csub : C_scope.
Infix "*" := Cmul : C_scope.
Infix "/" := Cdiv : C_scope.
Notation "- x" := (Copp x) : C_scope.

Lemma C_eq : forall z w : C, re z = re w -> im z = im w -> z = w.
Proof. intros [a b] [c d]; simpl; intros -> ->; reflexivity. Qed.

Ltac cdestruct :=
  repeat match goal with z : C |- _ => destruct z as [? ?] end.

Ltac cunfold :=
  unfold Csub, Cadd, Copp, Cmul, conj, RtoC, C0, C1, Ci in *; cbn [re im fst snd] in *.

Ltac cring := apply C_eq;
  lazy beta iota delta [re im fst snd Cadd Cmul Csub Copp conj RtoC Ci C0 C1]; ring.

Lemma C_ring_theory : ring_theory C0 C1 Cadd Cmul Csub Copp eq.
Proof. constructor; intros; unfold Csub; apply C_eq; cunfold; ring. Qed.
Add Ring C_ring : C_ring_theory.

Lemma norm2_nonneg : forall z, 0 <= norm2 z.
Proof. intros [a b]; unfold norm2; cbn. nra. Qed.

Lemma norm2_zero : forall z, norm2 z = 0 <-> z = C0.
Proof.
  intros [a b]; unfold norm2, C0; cbn; split; intro H.
  - assert (a = 0) by nra. assert (b = 0) by nra. subst; reflexivity.
  - injection H as -> ->; ring.
Qed.

Lemma norm2_pos : forall z, z <> C0 -> 0 < norm2 z.
Proof.
  intros z H. destruct (Rle_lt_or_eq_dec _ _ (norm2_nonneg z)) as [L|E]; [exact L|].
  exfalso; apply H, norm2_zero; auto.
Qed.

Lemma C_field_theory : field_theory C0 C1 Cadd Cmul Csub Copp Cdiv Cinv eq.
Proof.
  constructor.
  - exact C_ring_theory.
  - unfold C0, C1; intro H; injection H; lra.
  - reflexivity.
  - intros z Hz. apply norm2_pos in Hz. unfold Cinv.
    apply C_eq; cunfold; unfold norm2 in *; cbn [re im fst snd] in *; field; lra.
Qed.
Add Field C_field : C_field_theory.

Lemma conj_add : forall x y, conj (x + y)%C = (conj x + conj y)%C.
Proof. intros; cring. Qed.
Lemma conj_sub : forall x y, conj (x - y)%C = (conj x - conj y)%C.
Proof. intros; cring. Qed.
Lemma conj_opp : forall x, conj (- x)%C = (- conj x)%C.
Proof. intros; cring. Qed.
Lemma conj_mul : forall x y, conj (x * y)%C = (conj x * conj y)%C.
Proof. intros; cring. Qed.
Lemma conj_conj : forall x, conj (conj x) = x.
Proof. intros [a b]; cring. Qed.
Lemma conj_0 : conj C0 = C0.
Proof. cring. Qed.
Lemma conj_1 : conj C1 = C1.
Proof. cring. Qed.
Lemma conj_RtoC : forall x, conj (RtoC x) = RtoC x.
Proof. intros; cring. Qed.

Global Hint Rewrite conj_add conj_sub conj_opp conj_mul conj_conj conj_0 conj_1 conj_RtoC : conj.

Lemma conj_inj : forall x y, conj x = conj y -> x = y.
Proof. intros x y H. rewrite <- (conj_conj x), H. apply conj_conj. Qed.

Lemma mul_conj : forall x, (x * conj x)%C = RtoC (norm2 x).
Proof. intros [a b]; unfold norm2; cring. Qed.

Lemma norm2_mul : forall x y, norm2 (x * y)%C = norm2 x * norm2 y.
Proof. intros [a b] [c d]; unfold norm2; cunfold; ring. Qed.

Lemma norm2_conj : forall x, norm2 (conj x) = norm2 x.
Proof. intros [a b]; unfold norm2; cunfold; ring. Qed.

Lemma RtoC_add : forall x y, RtoC (x + y) = (RtoC x + RtoC y)%C.
Proof. intros; cring. Qed.
Lemma RtoC_mul : forall x y, RtoC (x * y) = (RtoC x * RtoC y)%C.
Proof. intros; cring. Qed.
Lemma RtoC_sub : forall x y, RtoC (x - y) = (RtoC x - RtoC y)%C.
Proof. intros; cring. Qed.
Lemma RtoC_opp : forall x, RtoC (- x) = (- RtoC x)%C.
Proof. intros; cring. Qed.
Lemma RtoC_inj : forall x y, RtoC x = RtoC y -> x = y.
Proof. intros x y H; injection H; auto. Qed.
Lemma C_re_im : forall z, z = (RtoC (re z) + Ci * RtoC (im z))%C.
Proof. intros [a b]; cring. Qed.
