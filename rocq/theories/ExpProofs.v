(** Proofs about ExpModel.v. *)
From Coq Require Import PeanoNat Reals Lra Lia Factorial.
From Verif Require Import CMat MatSpec MmulModel MmulProofs MatModel MatProofs MatProofs2 Det ProjModel ProjProofs ExpModel ExpSpec SpecCalc.
Local Open Scope C_scope.

(** ** Traceless 3x3 matrices *)
Lemma traceless3 : forall A, traceless 3 A -> A 2%nat 2%nat = - A 0%nat 0%nat - A 1%nat 1%nat.
Proof. intros A T. pose proof (mtr_last 3 A ltac:(lia) T) as L. cbn [Nat.sub csum] in L. rewrite L. ring. Qed.
Lemma cayley3 : forall A, traceless 3 A ->
  meq 3 (mmul 3 A (mmul 3 A A)) (madd (mscale (mtr 3 (mmul 3 A A) * RtoC (/2)) A) (mscale (det3 A) mid)).
Proof.
  intros A T. pose proof (traceless3 A T) as L.
  assert (H : RtoC (/2) + RtoC (/2) = C1) by (apply C_eq; cunfold; lra).
  assert (K : forall x, (x + x) * RtoC (/2) = x) by (intro x; transitivity (x * (RtoC (/2) + RtoC (/2))); [ring|rewrite H; ring]).
  assert (T2 : mtr 3 (mmul 3 A A) * RtoC (/2) = A 0%nat 0%nat * A 0%nat 0%nat + A 0%nat 0%nat * A 1%nat 1%nat + A 1%nat 1%nat * A 1%nat 1%nat
     + A 0%nat 1%nat * A 1%nat 0%nat + A 0%nat 2%nat * A 2%nat 0%nat + A 1%nat 2%nat * A 2%nat 1%nat).
  { rewrite <- K. f_equal. unfold mtr, mmul. cbn [csum]. rewrite L. ring. }
  rewrite T2. clear H K T2.
  split3; unfold madd, mscale, mmul, det3, mid; cbn [csum Nat.eqb]; rewrite L; ring.
Qed.
Lemma det3_trace : forall A,
  let t k := mtr 3 (mpow 3 A k) in
  (C1+C1+C1+C1+C1+C1) * det3 A = t 1%nat * t 1%nat * t 1%nat - (C1+C1+C1) * t 1%nat * t 2%nat + (C1+C1) * t 3%nat.
Proof.
  intros A. cbv zeta beta.
  assert (M1 : meq 3 (mpow 3 A 1) A) by (cbn [mpow]; apply mmul_1_l).
  assert (M2 : meq 3 (mpow 3 A 2) (mmul 3 A A)) by (change (mpow 3 A 2) with (mmul 3 (mpow 3 A 1) A); now rewrite M1).
  assert (M3 : meq 3 (mpow 3 A 3) (mmul 3 (mmul 3 A A) A)) by (change (mpow 3 A 3) with (mmul 3 (mpow 3 A 2) A); now rewrite M2).
  rewrite M1, M2, M3. unfold mtr, mmul, det3. cbn [csum]. ring.
Qed.
Lemma six_cancel : forall x y, (C1+C1+C1+C1+C1+C1) * x = (C1+C1+C1+C1+C1+C1) * y -> x = y.
Proof.
  intros x y H. unfold C1 in H. cunfold. inversion H as [[H1 H2]]. apply C_eq; cbn; lra.
Qed.
(** the determinant of a matrix whose first three power sums are those of a, b, c *)
Lemma det3_powers : forall A a b c, (forall k, mtr 3 (mpow 3 A k) = Cpow a k + Cpow b k + Cpow c k) -> det3 A = a * b * c.
Proof.
  intros A a b c H. apply six_cancel. rewrite det3_trace. rewrite !H. cbn [Cpow]. ring.
Qed.

(** ** Polynomials in A, where A^3 = p A + q *)
Definition rpol (A : mat) (x0 x1 x2 : R) : mat :=
  madd (mscale (RtoC x0) mid) (madd (mscale (RtoC x1) A) (mscale (RtoC x2) (mmul 3 A A))).
Lemma rpol_ext : forall n A x0 x1 x2 y0 y1 y2, x0 = y0 -> x1 = y1 -> x2 = y2 -> meq n (rpol A x0 x1 x2) (rpol A y0 y1 y2).
Proof. intros; subst; reflexivity. Qed.
Lemma rpol_mul : forall A p q x0 x1 x2 y0 y1 y2,
  meq 3 (mmul 3 A (mmul 3 A A)) (madd (mscale (RtoC p) A) (mscale (RtoC q) mid)) ->
  meq 3 (mmul 3 (rpol A x0 x1 x2) (rpol A y0 y1 y2))
    (rpol A (x0*y0 + q*(x1*y2+x2*y1)) (x0*y1+x1*y0 + p*(x1*y2+x2*y1) + q*(x2*y2)) (x0*y2+x1*y1+x2*y0 + p*(x2*y2)))%R.
Proof.
  intros A p q x0 x1 x2 y0 y1 y2 H.
  assert (H2 : meq 3 (mmul 3 (mmul 3 A A) A) (madd (mscale (RtoC p) A) (mscale (RtoC q) mid))) by (rewrite mmul_assoc; exact H).
  assert (H3 : meq 3 (mmul 3 (mmul 3 A A) (mmul 3 A A)) (madd (mscale (RtoC p) (mmul 3 A A)) (mscale (RtoC q) A))).
  { rewrite mmul_assoc, H. rewrite mmul_add_r, !mmul_scale_r, mmul_1_r. reflexivity. }
  unfold rpol.
  repeat first [rewrite mmul_add_l | rewrite mmul_add_r | rewrite mmul_scale_l | rewrite mmul_scale_r | rewrite mmul_1_l | rewrite mmul_1_r].
  rewrite H, H2, H3.
  intros i j _ _. unfold madd, mscale. set (m := mmul 3 A A i j). set (a := A i j). set (d := mid i j). clearbody m a d.
  rewrite ?RtoC_add, ?RtoC_mul, ?RtoC_add, ?RtoC_mul, ?RtoC_add, ?RtoC_mul. ring.
Qed.
Lemma rpol_herm : forall A x0 x1 x2, hermitian 3 A -> hermitian 3 (rpol A x0 x1 x2).
Proof.
  intros A x0 x1 x2 H. unfold hermitian, rpol.
  rewrite !dag_add, !dag_scale, !conj_RtoC, dag_mid, dag_mmul. unfold hermitian in H. rewrite !H. reflexivity.
Qed.
Lemma rpol_tr : forall A x0 x1 x2, traceless 3 A ->
  mtr 3 (rpol A x0 x1 x2) = RtoC (3 * x0) + RtoC x2 * mtr 3 (mmul 3 A A).
Proof.
  intros A x0 x1 x2 T. unfold rpol. rewrite !mtr_add, !mtr_scale, T, mtr_mid.
  cbn [INR]. apply C_eq; cunfold; ring.
Qed.
Lemma rpol_id : forall A, meq 3 (rpol A 1 0 0) mid.
Proof. intros A i j _ _. unfold rpol, madd, mscale. apply C_eq; cunfold; ring. Qed.
Lemma rpol_A : forall A, meq 3 (rpol A 0 1 0) A.
Proof. intros A i j _ _. unfold rpol, madd, mscale. apply C_eq; cunfold; ring. Qed.
Lemma rpol_0 : forall A, meq 3 (rpol A 0 0 0) mzero.
Proof. intros A i j _ _. unfold rpol, madd, mscale, mzero. apply C_eq; cunfold; ring. Qed.

(** Hermitian traceless A: the two coefficients *)
Definition cc1 (A : mat) : R := (re (mtr 3 (mmul 3 A A)) / 6)%R.
Definition cc0 (A : mat) : R := re (det3 A).
Section Herm3.
Variable A : mat.
Hypothesis HA : hermitian 3 A.
Hypothesis TA : traceless 3 A.
Lemma trAA : mtr 3 (mmul 3 A A) = RtoC (6 * cc1 A).
Proof.
  apply C_eq; cbn [re im fst snd RtoC].
  - unfold cc1. change (fst (mtr 3 (mmul 3 A A))) with (re (mtr 3 (mmul 3 A A))). field.
  - now apply herm_tr_real.
Qed.
Lemma detA : det3 A = RtoC (cc0 A).
Proof.
  apply C_eq; [reflexivity|]. cbn [re im fst snd RtoC].
  pose proof (det3_dag A) as D. unfold hermitian in HA. rewrite HA in D. apply (f_equal im) in D.
  unfold conj in D. cbn [re im fst snd] in D. unfold im in *. lra.
Qed.
Lemma cubeA : meq 3 (mmul 3 A (mmul 3 A A)) (madd (mscale (RtoC (3 * cc1 A)) A) (mscale (RtoC (cc0 A)) mid)).
Proof.
  rewrite (cayley3 A TA), trAA, detA, <- RtoC_mul.
  replace (6 * cc1 A * / 2)%R with (3 * cc1 A)%R by field. reflexivity.
Qed.
Lemma cc1_nonneg : (0 <= cc1 A)%R.
Proof.
  unfold cc1. assert (0 <= re (mtr 3 (mmul 3 A A)))%R; [|lra].
  unfold mtr, mmul. apply re_csum. intros i Hi. apply re_csum. intros k Hk.
  rewrite <- (HA k i Hk Hi). unfold dag. rewrite mul_conj. apply norm2_nonneg.
Qed.
Lemma cc1_zero : cc1 A = 0%R -> meq 3 A mzero.
Proof.
  intros E i j Hi Hj. unfold mzero. apply norm2_zero.
  assert (L : (norm2 (A i j) <= re (mmul 3 A A i i))%R).
  { assert (M : meq 3 (mmul 3 A (dag A)) (mmul 3 A A)) by (unfold hermitian in HA; now rewrite HA).
    rewrite <- (M i i Hi Hi). now apply row_norm. }
  assert (M : (re (mmul 3 A A i i) <= re (mtr 3 (mmul 3 A A)))%R).
  { unfold mtr. apply (re_csum_one 3 (fun i => mmul 3 A A i i) i Hi). intros k Hk. unfold mmul. apply re_csum.
    intros l Hl. rewrite <- (HA l k Hl Hk). unfold dag. rewrite mul_conj. apply norm2_nonneg. }
  rewrite trAA, E in M. change (re (RtoC (6*0))) with (6*0)%R in M. pose proof (norm2_nonneg (A i j)). lra.
Qed.
(** the discriminant: c0^2 <= 4 c1^3 *)
Lemma discriminant : (cc0 A * cc0 A <= 4 * (cc1 A * cc1 A * cc1 A))%R.
Proof.
  pose proof cc1_nonneg as N. destruct (Req_dec (cc1 A) 0) as [E|E].
  - rewrite E. unfold cc0. rewrite (det3_proper _ _ (cc1_zero E)).
    unfold det3, mzero. cbn. lra.
  - set (c1 := cc1 A) in *. set (c0 := cc0 A) in *.
    set (S := rpol A (-4*(c1*c1)) (- c0) (2*c1)).
    assert (P : (0 <= re (mtr 3 (mmul 3 S S)))%R).
    { unfold mtr. apply re_csum. intros i Hi. unfold mmul. apply re_csum. intros k Hk.
      pose proof (rpol_herm A (-4*(c1*c1)) (- c0) (2*c1) HA k i Hk Hi) as HS. fold S in HS. rewrite <- HS. unfold dag. rewrite mul_conj. apply norm2_nonneg. }
    assert (V : mtr 3 (mmul 3 S S) = RtoC (6 * c1 * (4 * (c1*c1*c1) - c0*c0))).
    { unfold S. rewrite (rpol_mul A _ _ _ _ _ _ _ _ cubeA). rewrite (rpol_tr A _ _ _ TA), trAA.
      rewrite <- RtoC_mul, <- RtoC_add. f_equal. fold c1 c0. ring. }
    rewrite V in P. cbn [re fst RtoC] in P.
    assert (0 < c1)%R by lra. nra.
Qed.
(** the resolution for three different eigenvalues *)
Definition lag (x y z : R) : mat := rpol A (y*z / ((x-y)*(x-z))) (-(y+z) / ((x-y)*(x-z))) (1 / ((x-y)*(x-z))).
Definition lag3 (l : nat -> R) (a : nat) : mat :=
  match a with 0 => lag (l 0%nat) (l 1%nat) (l 2%nat) | 1 => lag (l 1%nat) (l 2%nat) (l 0%nat) | _ => lag (l 2%nat) (l 0%nat) (l 1%nat) end%nat.
Definition roots (x y z : R) : Prop :=
  (x + y + z = 0 /\ 3 * cc1 A = - (x*y + x*z + y*z) /\ cc0 A = x*y*z)%R.
Lemma lag_sq : forall x y z, roots x y z -> x <> y -> x <> z -> meq 3 (mmul 3 (lag x y z) (lag x y z)) (lag x y z).
Proof.
  intros x y z (S & P & Q) N1 N2. unfold lag. rewrite (rpol_mul A _ _ _ _ _ _ _ _ cubeA).
  rewrite P, Q. assert (z = - x - y)%R by lra. subst z.
  assert (x - y <> 0)%R by lra. assert (x - (-x-y) <> 0)%R by lra.
  apply rpol_ext; field; split; assumption.
Qed.
Lemma lag_orth : forall x y z, roots x y z -> x <> y -> x <> z -> y <> z -> meq 3 (mmul 3 (lag x y z) (lag y z x)) mzero.
Proof.
  intros x y z (S & P & Q) N1 N2 N3. unfold lag. rewrite (rpol_mul A _ _ _ _ _ _ _ _ cubeA).
  rewrite P, Q. rewrite <- (rpol_0 A). assert (z = - x - y)%R by lra. subst z.
  assert (x - y <> 0)%R by lra. assert (x - (-x-y) <> 0)%R by lra. assert (y - (-x-y) <> 0)%R by lra.
  assert (y - x <> 0)%R by lra.
  apply rpol_ext; field; auto.
Qed.
Lemma lag_orth' : forall x y z, roots x y z -> x <> y -> x <> z -> y <> z -> meq 3 (mmul 3 (lag y z x) (lag x y z)) mzero.
Proof.
  intros x y z (S & P & Q) N1 N2 N3. unfold lag. rewrite (rpol_mul A _ _ _ _ _ _ _ _ cubeA).
  rewrite P, Q. rewrite <- (rpol_0 A). assert (z = - x - y)%R by lra. subst z.
  assert (x - y <> 0)%R by lra. assert (x - (-x-y) <> 0)%R by lra. assert (y - (-x-y) <> 0)%R by lra.
  assert (y - x <> 0)%R by lra.
  apply rpol_ext; field; auto.
Qed.
Lemma lag_tr : forall x y z, roots x y z -> x <> y -> x <> z -> mtr 3 (lag x y z) = C1.
Proof.
  intros x y z (S & P & Q) N1 N2. unfold lag. rewrite (rpol_tr A _ _ _ TA), trAA.
  replace (6 * cc1 A)%R with (2 * (3 * cc1 A))%R by ring. rewrite P, <- RtoC_mul, <- RtoC_add.
  assert (z = - x - y)%R by lra. subst z.
  assert (x - y <> 0)%R by lra. assert (x - (-x-y) <> 0)%R by lra.
  change C1 with (RtoC 1). f_equal. field. auto.
Qed.
Lemma distinct_resolution : forall l : nat -> R, roots (l 0%nat) (l 1%nat) (l 2%nat) ->
  l 0%nat <> l 1%nat -> l 0%nat <> l 2%nat -> l 1%nat <> l 2%nat ->
  resolution 3 3 (lag3 l) /\ meq 3 A (fcalc 3 (lag3 l) (fun a => RtoC (l a))) /\
  (forall a, (a < 3)%nat -> mtr 3 (lag3 l a) = C1).
Proof.
  intros l Rt N1 N2 N3. set (x := l 0%nat) in *. set (y := l 1%nat) in *. set (z := l 2%nat) in *.
  assert (R1 : roots y z x) by (destruct Rt as (? & ? & ?); unfold roots; lra).
  assert (R2 : roots z x y) by (destruct Rt as (? & ? & ?); unfold roots; lra).
  assert (M1 : y <> x) by auto. assert (M2 : z <> x) by auto. assert (M3 : z <> y) by auto.
  split; [split; [|split]|split].
  - intros a b Ha Hb. destruct a as [|[|[|]]]; try lia; destruct b as [|[|[|]]]; try lia; cbn [Nat.eqb lag3]; fold x y z;
      auto using lag_sq, lag_orth, lag_orth'.
  - intros a Ha. destruct a as [|[|]]; apply rpol_herm; exact HA.
  - intros i j _ _. unfold fcalc. cbn [csum lag3]. fold x y z.
    assert (z = - x - y)%R by (destruct Rt; lra). clearbody x y z. subst z.
    assert (x - y <> 0)%R by lra. assert (x - (-x-y) <> 0)%R by lra. assert (y - (-x-y) <> 0)%R by lra.
    assert (y - x <> 0)%R by lra. assert (-x-y-x <> 0)%R by lra. assert (-x-y-y <> 0)%R by lra.
    unfold lag, rpol, madd, mscale. set (m := mmul 3 A A i j). set (a := A i j). set (d := mid i j). clearbody m a d.
    apply C_eq; cunfold; field; auto 10.
  - intros i j _ _. unfold fcalc. cbn [csum lag3]. fold x y z.
    assert (z = - x - y)%R by (destruct Rt; lra). clearbody x y z. subst z.
    assert (x - y <> 0)%R by lra. assert (x - (-x-y) <> 0)%R by lra. assert (y - (-x-y) <> 0)%R by lra.
    assert (y - x <> 0)%R by lra. assert (-x-y-x <> 0)%R by lra. assert (-x-y-y <> 0)%R by lra.
    unfold lag, rpol, madd, mscale. set (m := mmul 3 A A i j). set (a := A i j). set (d := mid i j). clearbody m a d.
    symmetry. apply C_eq; cunfold; field; auto 10.
  - intros a Ha. destruct a as [|[|[|]]]; try lia; cbn [lag3]; fold x y z; auto using lag_tr.
Qed.
(** the resolution for a double eigenvalue *)
Definition lag2 (x y : R) (a : nat) : mat :=
  match a with 0 => rpol A (- y / (x-y)) (1/(x-y)) 0 | _ => rpol A (- x / (y-x)) (1/(y-x)) 0 end%nat.
Lemma double_zero : forall x y, roots x y y -> meq 3 (rpol A (x*y) (-(x+y)) 1) mzero.
Proof.
  intros x y (S & P & Q).
  set (N := rpol A (x*y) (-(x+y)) 1).
  assert (H : meq 3 (mmul 3 N N) mzero).
  { unfold N. rewrite (rpol_mul A _ _ _ _ _ _ _ _ cubeA), P, Q, <- (rpol_0 A).
    assert (x = -2*y)%R by lra. subst x. apply rpol_ext; ring. }
  assert (HN : hermitian 3 N) by (apply rpol_herm; exact HA).
  intros i j Hi Hj. unfold mzero. apply norm2_zero.
  pose proof (row_norm 3 N i j Hj) as L.
  assert (E : meq 3 (mmul 3 N (dag N)) mzero) by (unfold hermitian in HN; now rewrite HN).
  rewrite (E i i Hi Hi) in L. cbn [mzero re fst C0] in L. pose proof (norm2_nonneg (N i j)). lra.
Qed.
Lemma double_square : forall x y i j, roots x y y -> (i < 3)%nat -> (j < 3)%nat ->
  mmul 3 A A i j = RtoC (x+y) * A i j - RtoC (x*y) * mid i j.
Proof.
  intros x y i j Rt Hi Hj. pose proof (double_zero x y Rt i j Hi Hj) as Z.
  unfold rpol, madd, mscale, mzero in Z. rewrite RtoC_opp in Z. change (RtoC 1) with C1 in Z.
  set (m := mmul 3 A A i j) in *. set (a := A i j) in *. set (d := mid i j) in *.
  transitivity (m - (RtoC (x*y) * d + (- RtoC (x+y) * a + C1 * m))); [rewrite Z; ring|ring].
Qed.
Definition two_of (x y : R) (a : nat) : R := match a with 0%nat => x | _ => y end.
Lemma double_resolution : forall x y, roots x y y -> x <> y ->
  resolution 3 2 (lag2 x y) /\ meq 3 A (fcalc 2 (lag2 x y) (fun a => RtoC (two_of x y a))) /\
  mtr 3 (lag2 x y 0) = C1 /\ mtr 3 (lag2 x y 1) = C1 + C1.
Proof.
  intros x y Rt N.
  pose proof (fun i j => double_square x y i j Rt) as Sq. destruct Rt as (S & P & Q).
  assert (x = -2*y)%R by lra. subst x.
  assert (-2*y - y <> 0)%R by lra. assert (y - -2*y <> 0)%R by lra.
  split; [split; [|split]|split; [|split]].
  - assert (G : forall x0 x1 y0 y1 z0 z1, (x0*y0 + 2*y*y*(x1*y1) = z0 -> x0*y1+x1*y0 - y*(x1*y1) = z1 ->
      meq 3 (mmul 3 (rpol A x0 x1 0) (rpol A y0 y1 0)) (rpol A z0 z1 0))%R).
    { intros x0 x1 y0 y1 z0 z1 E0 E1. rewrite (rpol_mul A _ _ _ _ _ _ _ _ cubeA).
      intros i j Hi Hj. unfold rpol, madd, mscale. rewrite (Sq i j Hi Hj). set (a := A i j). set (d := mid i j). clearbody a d.
      rewrite <- E0, <- E1. apply C_eq; cunfold; ring. }
    intros a b Ha Hb. destruct a as [|[|]]; try lia; destruct b as [|[|]]; try lia; cbn [Nat.eqb lag2];
      rewrite <- ?(rpol_0 A); apply G; field; auto.
  - intros a Ha. destruct a as [|]; apply rpol_herm; exact HA.
  - intros i j Hi Hj. unfold fcalc. cbn [csum lag2].
    unfold rpol, madd, mscale. set (m := mmul 3 A A i j). set (a := A i j). set (d := mid i j). clearbody m a d.
    apply C_eq; cunfold; field; auto.
  - intros i j Hi Hj. unfold fcalc. cbn [csum lag2 two_of].
    unfold rpol, madd, mscale. set (m := mmul 3 A A i j). set (a := A i j). set (d := mid i j). clearbody m a d.
    symmetry. apply C_eq; cunfold; field; auto.
  - cbn [lag2]. rewrite (rpol_tr A _ _ _ TA). apply C_eq; cunfold; field; auto.
  - cbn [lag2]. rewrite (rpol_tr A _ _ _ TA). apply C_eq; cunfold; field; auto.
Qed.
(** both together *)
Lemma spectral : forall x y z, roots x y z -> x <> y -> x <> z ->
  exists m P l, resolution 3 m P /\ meq 3 A (fcalc m P (fun a => RtoC (l a))) /\
    (forall a, (a < m)%nat -> l a = x \/ l a = y \/ l a = z) /\
    (forall g : R -> C, mtr 3 (fcalc m P (fun a => g (l a))) = g x + g y + g z).
Proof.
  intros x y z Rt N1 N2. destruct (Req_dec y z) as [E|N3].
  - subst z. destruct (double_resolution x y Rt N1) as (R & EA & T0 & T1).
    exists 2%nat, (lag2 x y), (two_of x y). split; [exact R|]. split; [exact EA|]. split.
    + intros a Ha. destruct a; cbn; auto.
    + intros g. rewrite fcalc_tr. cbn [csum]. rewrite T0, T1. cbn [two_of]. ring.
  - set (l := fun a : nat => match a with 0 => x | 1 => y | _ => z end%nat).
    destruct (distinct_resolution l Rt N1 N2 N3) as (R & EA & T).
    exists 3%nat, (lag3 l), l. split; [exact R|]. split; [exact EA|]. split.
    + intros a Ha. destruct a as [|[|]]; cbn; auto.
    + intros g. rewrite fcalc_tr. cbn [csum]. rewrite !T by lia. cbn [l]. ring.
Qed.
End Herm3.

(** ** The coefficients f0, f1, f2 *)
Lemma cos_triple : forall t, (cos (3 * t) = 4 * (cos t * cos t * cos t) - 3 * cos t)%R.
Proof.
  intros t. replace (3*t)%R with (2*t + t)%R by ring. rewrite cos_plus, cos_2a, sin_2a.
  pose proof (sin2_cos2 t) as H. unfold Rsqr in H.
  replace (2 * sin t * cos t * sin t)%R with (2 * cos t * (sin t * sin t))%R by ring.
  replace (sin t * sin t)%R with (1 - cos t * cos t)%R by lra. ring.
Qed.
Definition esin (w : R) : R := if Rlt_dec (Rabs w) SINTOL then taylor_sinc (w*w) else (sin w / w)%R.
Definition val (f0 f1 f2 : C) (t : R) : C := f0 + f1 * RtoC t + f2 * RtoC (t*t).
Lemma exp_coeffs_ok : forall c0 c1, (0 < c1)%R -> (c0*c0 <= 4*(c1*c1*c1))%R ->
  exists f0 f1 f2 x y z w, exp_coeffs c0 c1 = Some (f0, f1, f2) /\
    (x + y + z = 0 /\ 3 * c1 = - (x*y + x*z + y*z) /\ c0 = x*y*z)%R /\ x <> y /\ x <> z /\ (0 <= w)%R /\
    (w * w = (y - z) * (y - z) / 4)%R /\
    val f0 f1 f2 x = Cexpi x /\
    norm2 (val f0 f1 f2 y - Cexpi y) = Rsqr (w * esin w - sin w) /\
    norm2 (val f0 f1 f2 z - Cexpi z) = Rsqr (w * esin w - sin w).
Proof.
  intros c0 c1 Hc D. unfold exp_coeffs.
  set (flag := if Rlt_dec c0 0 then (-1)%R else 1%R).
  assert (F2 : (flag * flag = 1)%R) by (unfold flag; destruct (Rlt_dec c0 0); ring).
  assert (Fp : (0 <= c0 * flag)%R) by (unfold flag; destruct (Rlt_dec c0 0); lra).
  assert (Fc : (flag = 1 \/ flag = -1)%R) by (unfold flag; destruct (Rlt_dec c0 0); auto).
  clearbody flag.
  assert (Hr : (0 < sqrt c1)%R) by now apply sqrt_lt_R0.
  assert (Hs : (sqrt c1 * sqrt c1 = c1)%R) by (apply sqrt_sqrt; lra).
  set (r := sqrt c1) in *. clearbody r.
  assert (Hm : (0 < 2 * r * c1)%R) by (apply Rmult_lt_0_compat; lra).
  unfold divo at 1. destruct (Req_EM_T (2 * r * c1) 0) as [E|_]; [lra|].
  set (X := (c0 * flag / (2 * r * c1))%R).
  assert (X0 : (0 <= X)%R) by (apply Rmult_le_pos; [lra|left; now apply Rinv_0_lt_compat]).
  assert (EX : (X * (2 * r * c1) = c0 * flag)%R) by (unfold X; field; lra).
  assert (X1 : (X <= 1)%R).
  { apply Rmult_le_reg_r with (2 * r * c1)%R; [lra|]. rewrite EX, Rmult_1_l.
    apply Rsqr_incr_0_var; [|lra]. unfold Rsqr.
    replace (c0 * flag * (c0 * flag))%R with (c0 * c0 * (flag * flag))%R by ring. rewrite F2.
    replace (2 * r * c1 * (2 * r * c1))%R with (4 * (r * r) * c1 * c1)%R by ring. rewrite Hs. lra. }
  unfold acoso. destruct (Rle_dec (Rabs X) 1) as [_|N]; [|exfalso; apply N; rewrite Rabs_pos_eq; assumption].
  clearbody X.
  set (th := (acos X / 3)%R).
  assert (C3 : (4 * (cos th * cos th * cos th) - 3 * cos th = X)%R).
  { rewrite <- cos_triple. unfold th. replace (3 * (acos X / 3))%R with (acos X) by field. apply cos_acos. lra. }
  pose proof (acos_bound X) as B. pose proof PI_RGT_0.
  assert (Cp : (0 < cos th)%R) by (apply cos_gt_0; unfold th; lra).
  assert (Sp : (0 <= sin th)%R) by (apply sin_ge_0; unfold th; lra).
  pose proof (sin2_cos2 th) as SC. unfold Rsqr in SC.
  set (co := cos th) in *. set (si := sin th) in *. clearbody co si. clear th B.
  assert (C34 : (3 <= 4 * (co * co))%R).
  { destruct (Rlt_le_dec (4 * (co*co)) 3) as [L|L]; [exfalso|lra].
    replace (4 * (co*co*co) - 3*co)%R with (co * (4 * (co*co) - 3))%R in C3 by ring. nra. }
  assert (S3 : (sqrt 3 * sqrt 3 = 3)%R) by (apply sqrt_sqrt; lra).
  assert (S3p : (0 <= sqrt 3)%R) by apply sqrt_pos.
  set (u := (r * co)%R). set (w := (sqrt 3 * r * si)%R).
  assert (W0 : (0 <= w)%R) by (unfold w; apply Rmult_le_pos; [apply Rmult_le_pos; lra|lra]).
  assert (U0 : (0 < u)%R) by (unfold u; now apply Rmult_lt_0_compat).
  assert (WW : (w * w = 3 * c1 * (si * si))%R).
  { unfold w. transitivity ((sqrt 3 * sqrt 3) * (r*r) * (si*si))%R; [ring|]. rewrite S3, Hs. ring. }
  assert (UU : (u * u = c1 * (co * co))%R).
  { unfold u. transitivity ((r*r) * (co*co))%R; [ring|]. now rewrite Hs. }
  assert (E1 : (u*u + w*w / 3 = c1)%R).
  { rewrite WW, UU. transitivity (c1 * (si*si + co*co))%R; [field|]. rewrite SC. ring. }
  assert (E2 : (2 * u * (u*u - w*w) = c0 * flag)%R).
  { rewrite <- EX, <- C3, WW, UU. unfold u. replace (si*si)%R with (1 - co*co)%R by lra. ring. }
  assert (DP : (0 < 9 * (u*u) - w*w)%R).
  { rewrite WW, UU. replace (si*si)%R with (1 - co*co)%R by lra. nra. }
  clearbody u w. clear WW UU C34 C3 EX X0 X1 Hm Hs Hr SC Sp Cp S3 S3p X co si r.
  unfold divo. destruct (Req_EM_T (9 * (u*u) - w*w) 0) as [E|Dn]; [lra|].
  fold (esin w).
  assert (One : (RtoC (cos u) - Ci * RtoC (sin u))%C = Cexpi (- u)).
  { unfold Cexpi. rewrite cos_neg, sin_neg. apply C_eq; cunfold; ring. }
  rewrite !One.
  assert (Two : conj (Cexpi (- u)) * conj (Cexpi (- u)) = Cexpi (2 * u)).
  { rewrite <- Cexpi_opp, Cexpi_add. f_equal. ring. }
  rewrite !Two.
  set (f0 := RtoC (u*u - w*w) * Cexpi (2*u) + Cexpi (-u) * (RtoC (8 * (u*u) * cos w) + Ci * RtoC (2 * u * (3 * (u*u) + w*w) * esin w))).
  set (f1 := RtoC (2*u) * Cexpi (2*u) - Cexpi (-u) * (RtoC (2 * u * cos w) - Ci * RtoC ((3 * (u*u) - w*w) * esin w))).
  set (f2 := Cexpi (2*u) - Cexpi (-u) * (RtoC (cos w) + Ci * RtoC (3 * u * esin w))).
  do 3 eexists. exists (flag * (2*u))%R, (flag * (-u+w))%R, (flag * (-u-w))%R, w.
  split; [reflexivity|].
  set (d := (1 / (9 * (u*u) - w*w))%R).
  assert (Fl : forall t, val (RtoC d * (RtoC (re f0) + Ci * RtoC (im f0 * flag))) (RtoC d * (RtoC (flag * re f1) + Ci * RtoC (im f1)))
      (RtoC d * (RtoC (re f2) + Ci * RtoC (im f2 * flag))) (flag * t) =
      (d * re (f0 + f1 * RtoC t + f2 * RtoC (t*t)), flag * (d * im (f0 + f1 * RtoC t + f2 * RtoC (t*t))))%R).
  { intros t. unfold val. clearbody f0 f1 f2. destruct f0 as [a0 b0], f1 as [a1 b1], f2 as [a2 b2].
    replace (flag * t * (flag * t))%R with (flag * flag * (t*t))%R by ring. rewrite F2.
    destruct Fc as [Ef|Ef]; rewrite Ef in *; apply C_eq; cunfold; ring. }
  rewrite !Fl. clear Fl.
  assert (Fe : forall t, Cexpi (flag * t) = (cos t, flag * sin t)%R).
  { intros t. unfold Cexpi. destruct Fc as [Ef|Ef]; rewrite Ef.
    - rewrite !Rmult_1_l. reflexivity.
    - replace (-1 * t)%R with (- t)%R by ring. rewrite cos_neg, sin_neg. f_equal. ring. }
  rewrite !Fe. clear Fe.
  assert (Ew : forall s, (s = 1 \/ s = -1)%R ->
     f0 + f1 * RtoC (-u + s*w) + f2 * RtoC ((-u + s*w)*(-u + s*w)) =
     RtoC (9 * (u*u) - w*w) * (Cexpi (-u) * (RtoC (cos w) + Ci * RtoC (s * (w * esin w))))).
  { intros s Hs. unfold f0, f1, f2. set (t := Cexpi (2*u)). set (o := Cexpi (-u)). set (e := esin w). set (c := cos w). clearbody t o e c.
    destruct Hs as [Es|Es]; rewrite Es; apply C_eq; cunfold; ring. }
  assert (E2u : f0 + f1 * RtoC (2*u) + f2 * RtoC (2*u*(2*u)) = RtoC (9 * (u*u) - w*w) * Cexpi (2*u)).
  { unfold f0, f1, f2. set (t := Cexpi (2*u)). set (o := Cexpi (-u)). set (e := esin w). set (c := cos w). clearbody t o e c.
    apply C_eq; cunfold; ring. }
  assert (Dd : (d * (9 * (u*u) - w*w) = 1)%R) by (unfold d; field; exact Dn).
  assert (Val : forall s, (s = 1 \/ s = -1)%R ->
     norm2 ((d * re (f0 + f1 * RtoC (-u + s*w) + f2 * RtoC ((-u + s*w)*(-u + s*w))),
             flag * (d * im (f0 + f1 * RtoC (-u + s*w) + f2 * RtoC ((-u + s*w)*(-u + s*w)))))%R
            - (cos (-u + s*w), flag * sin (-u + s*w))%R) = Rsqr (w * esin w - sin w)).
  { intros s Hs. rewrite (Ew s Hs). set (e := esin w). clearbody e.
    set (G := Cexpi (-u) * (RtoC (cos w) + Ci * RtoC (s * (w*e)))).
    replace (d * re (RtoC (9 * (u*u) - w*w) * G))%R with (re G).
    2:{ transitivity (d * (9 * (u*u) - w*w) * re G)%R; [rewrite Dd; ring|destruct G; cunfold; ring]. }
    replace (d * im (RtoC (9 * (u*u) - w*w) * G))%R with (im G).
    2:{ transitivity (d * (9 * (u*u) - w*w) * im G)%R; [rewrite Dd; ring|destruct G; cunfold; ring]. }
    unfold G, Cexpi, norm2. rewrite cos_plus, sin_plus.
    replace (cos (s*w)) with (cos w). 2:{ destruct Hs as [Es|Es]; rewrite Es; [f_equal; ring|]. replace (-1*w)%R with (-w)%R by ring. now rewrite cos_neg. }
    replace (sin (s*w)) with (s * sin w)%R. 2:{ destruct Hs as [Es|Es]; rewrite Es; [rewrite !Rmult_1_l; reflexivity|]. replace (-1*w)%R with (-w)%R by ring. rewrite sin_neg. ring. }
    pose proof (sin2_cos2 (-u)) as SC. unfold Rsqr in *. set (sm := sin (-u)) in *. set (cm := cos (-u)) in *. set (sw := sin w). set (cw := cos w).
    clearbody sm cm sw cw. cunfold.
    transitivity ((s*s) * ((w*e - sw)*(w*e - sw)) * (sm*sm + flag*flag * (cm*cm)))%R.
    - assert (s*s = 1)%R by (destruct Hs as [Es|Es]; rewrite Es; ring). ring.
    - replace (s*s)%R with 1%R by (destruct Hs as [Es|Es]; rewrite Es; ring). rewrite F2.
      replace (sm*sm + 1*(cm*cm))%R with 1%R by lra. ring. }
  split; [split; [|split]|split; [|split; [|split; [|split; [|split; [|split]]]]]].
  - ring.
  - rewrite <- E1. transitivity (flag * flag * (3*(u*u) + w*w))%R; [rewrite F2; field|ring].
  - transitivity (c0 * (flag*flag))%R; [rewrite F2; ring|]. rewrite <- Rmult_assoc, <- E2.
    transitivity (flag * flag * flag * (2 * u * (u*u - w*w)))%R; [rewrite F2; ring|ring].
  - intro E. assert (3*u = w)%R by (destruct Fc as [Ef|Ef]; rewrite Ef in E; lra). subst w. lra.
  - intro E. assert (3*u = -w)%R by (destruct Fc as [Ef|Ef]; rewrite Ef in E; lra). lra.
  - exact W0.
  - transitivity (flag*flag*(w*w))%R; [rewrite F2; ring|field].
  - rewrite E2u. apply C_eq; cbn [re im fst snd].
    + transitivity (d * (9 * (u*u) - w*w) * cos (2*u))%R; [unfold Cexpi; cunfold; ring|]. rewrite Dd; ring.
    + transitivity (flag * (d * (9 * (u*u) - w*w) * sin (2*u)))%R; [unfold Cexpi; cunfold; ring|]. rewrite Dd; ring.
  - replace (-u+w)%R with (-u+1*w)%R by ring. apply Val. auto.
  - replace (-u-w)%R with (-u+(-1)*w)%R by ring. apply Val. auto.
Qed.

(** the Taylor branch *)
Lemma sinc_bound : forall w, (0 <= w <= 1)%R -> (0 <= sin w - w * taylor_sinc (w*w) <= w^9 / 362880)%R.
Proof.
  intros w [H0 H1].
  assert (HP : (w <= PI)%R) by (pose proof PI2_3_2; unfold PI in *; lra).
  destruct (sin_bound w 1 H0 HP) as [L U]. unfold sin_approx in L, U.
  cbn [Nat.add Nat.mul sum_f_R0] in L, U. unfold sin_term in L, U. cbn [Nat.add Nat.mul pow] in L, U.
  unfold taylor_sinc.
  assert (F1 : INR (fact 1) = 1%R) by (cbn; lra).
  assert (F3 : INR (fact 3) = 6%R) by (cbn; lra).
  assert (F5 : INR (fact 5) = 120%R) by (rewrite INR_IZR_INZ; reflexivity).
  assert (F7 : INR (fact 7) = 5040%R) by (rewrite INR_IZR_INZ; reflexivity).
  assert (F9 : INR (fact 9) = 362880%R).
  { change (fact 9) with (9 * (8 * fact 7))%nat. rewrite !mult_INR, F7. cbn [INR]. lra. }
  change (fact (2*0+1)) with (fact 1) in *.
  rewrite F1, F3, F5, F7, F9 in *. split; [|cbn [pow]]; lra.
Qed.
Definition tolerance : R := (/ 10^17)%R.
Lemma tol_sqr : forall w, (0 <= w < SINTOL)%R -> (Rsqr (w * taylor_sinc (w*w) - sin w) <= tolerance * tolerance)%R.
Proof.
  intros w [H0 H1]. unfold SINTOL in H1.
  destruct (sinc_bound w ltac:(lra)) as [L U].
  replace (w * taylor_sinc (w*w) - sin w)%R with (- (sin w - w * taylor_sinc (w*w)))%R by ring.
  rewrite <- Rsqr_neg. fold (Rsqr tolerance). apply Rsqr_incr_1; [|lra|unfold tolerance; left; apply Rinv_0_lt_compat, pow_lt; lra].
  eapply Rle_trans; [exact U|].
  assert (P : (w^9 <= (5/100)^9)%R) by (apply pow_incr; lra).
  assert (N : ((5/100)^9 / 362880 <= tolerance)%R).
  { unfold tolerance. apply Rmult_le_reg_r with (362880 * 10^17)%R; [apply Rmult_lt_0_compat; [lra|apply pow_lt; lra]|].
    replace (/ 10^17 * (362880 * 10^17))%R with 362880%R by (field; apply pow_nonzero; lra).
    replace ((5/100)^9 / 362880 * (362880 * 10^17))%R with ((5/100)^9 * 10^17)%R by field.
    replace (10^17)%R with (10^9 * 10^8)%R by (rewrite <- pow_add; reflexivity).
    rewrite <- Rmult_assoc, <- Rpow_mult_distr. lra. }
  unfold Rdiv in *. lra.
Qed.
Lemma esin_exact : forall w, (w = 0 \/ SINTOL <= w)%R -> (w * esin w - sin w = 0)%R.
Proof.
  intros w H. destruct (Req_dec w 0) as [->|Hw]; [rewrite sin_0; ring|].
  destruct H as [H|H]; [contradiction|]. unfold esin.
  assert (0 < SINTOL)%R by (unfold SINTOL; lra).
  destruct (Rlt_dec (Rabs w) SINTOL) as [L|_]; [rewrite Rabs_pos_eq in L; lra|]. field. exact Hw.
Qed.
Lemma esin_close : forall w, (0 <= w)%R -> (Rsqr (w * esin w - sin w) <= tolerance * tolerance)%R.
Proof.
  intros w H. unfold esin. destruct (Rlt_dec (Rabs w) SINTOL) as [L|L].
  - rewrite Rabs_pos_eq in L by lra. apply tol_sqr. lra.
  - destruct (Req_dec w 0) as [E|E]; [exfalso; apply L; rewrite E, Rabs_R0; unfold SINTOL; lra|].
    replace (w * (sin w / w) - sin w)%R with 0%R by (field; exact E). rewrite Rsqr_0.
    unfold tolerance. left. apply Rmult_lt_0_compat; apply Rinv_0_lt_compat, pow_lt; lra.
Qed.

(** ** The result of exponentiate is f0 + f1 Q + f2 Q^2 *)
Definition qpol (A : mat) (f0 f1 f2 : C) : mat :=
  madd (mscale f0 mid) (madd (mscale f1 A) (mscale f2 (mmul 3 A A))).
Lemma qpol_fcalc : forall A m P l f0 f1 f2, resolution 3 m P -> meq 3 A (fcalc m P (fun a => RtoC (l a))) ->
  meq 3 (qpol A f0 f1 f2) (fcalc m P (fun a => val f0 f1 f2 (l a))).
Proof.
  intros A m P l f0 f1 f2 R E. unfold qpol.
  assert (E2 : meq 3 (mmul 3 A A) (fcalc m P (fun a => RtoC (l a * l a)))).
  { rewrite E, (fcalc_mul 3 m P _ _ R). apply fcalc_ext. intros a _. now rewrite RtoC_mul. }
  assert (E0 : meq 3 mid (fcalc m P (fun _ => C1))) by (symmetry; now apply fcalc_1).
  intros i j Hi Hj. unfold madd, mscale. rewrite (E0 i j Hi Hj), (E i j Hi Hj), (E2 i j Hi Hj).
  unfold fcalc. rewrite <- !csum_mul_l, <- !csum_add. apply csum_ext. intros a _. unfold val. ring.
Qed.
Lemma cc0_code : forall A, hermitian 3 A -> cc0 A =
  let q0 := re (A 0%nat 0%nat) in let r1 := re (A 0%nat 1%nat) in let i1 := im (A 0%nat 1%nat) in
  let r2 := re (A 0%nat 2%nat) in let i2 := im (A 0%nat 2%nat) in let q4 := re (A 1%nat 1%nat) in
  let r5 := re (A 1%nat 2%nat) in let i5 := im (A 1%nat 2%nat) in let q8 := re (A 2%nat 2%nat) in
  (q0 * (q4*q8 - r5*r5 - i5*i5) - r1 * (r1*q8 - r5*r2 - i5*i2) + i1 * (- i1*q8 + r5*i2 - i5*r2)
   + r2 * (- q4 * r2 + r1 * r5 - i1 * i5) - i2 * (q4 * i2 - r1 * i5 - i1 * r5))%R.
Proof.
  intros A H. unfold cc0, det3.
  pose proof (H 1 0 ltac:(lia) ltac:(lia))%nat as H10. pose proof (H 2 0 ltac:(lia) ltac:(lia))%nat as H20.
  pose proof (H 2 1 ltac:(lia) ltac:(lia))%nat as H21. unfold dag in *.
  rewrite <- H10, <- H20, <- H21.
  pose proof (f_equal im (H 0 0 ltac:(lia) ltac:(lia)))%nat as D0. pose proof (f_equal im (H 1 1 ltac:(lia) ltac:(lia)))%nat as D1.
  pose proof (f_equal im (H 2 2 ltac:(lia) ltac:(lia)))%nat as D2. unfold dag in *.
  destruct (A 0%nat 0%nat) as [a0 b0], (A 1%nat 1%nat) as [a4 b4], (A 2%nat 2%nat) as [a8 b8], (A 0%nat 1%nat) as [a1 b1], (A 0%nat 2%nat) as [a2 b2], (A 1%nat 2%nat) as [a5 b5].
  cunfold. assert (b0 = 0)%R by lra. assert (b4 = 0)%R by lra. assert (b8 = 0)%R by lra. subst. ring.
Qed.
Lemma cc1_code : forall A, hermitian 3 A -> traceless 3 A -> cc1 A =
  let q0 := re (A 0%nat 0%nat) in let r1 := re (A 0%nat 1%nat) in let i1 := im (A 0%nat 1%nat) in
  let r2 := re (A 0%nat 2%nat) in let i2 := im (A 0%nat 2%nat) in let q4 := re (A 1%nat 1%nat) in
  let r5 := re (A 1%nat 2%nat) in let i5 := im (A 1%nat 2%nat) in
  ((q0 * q0 + q0 * q4 + q4 * q4 + r1 * r1 + i1 * i1 + r2 * r2 + i2 * i2 + r5 * r5 + i5 * i5) / 3)%R.
Proof.
  intros A H T. unfold cc1, mtr, mmul. cbn [csum]. rewrite (traceless3 A T).
  pose proof (H 1 0 ltac:(lia) ltac:(lia))%nat as H10. pose proof (H 2 0 ltac:(lia) ltac:(lia))%nat as H20.
  pose proof (H 2 1 ltac:(lia) ltac:(lia))%nat as H21. unfold dag in *.
  rewrite <- H10, <- H20, <- H21.
  pose proof (f_equal im (H 0 0 ltac:(lia) ltac:(lia)))%nat as D0. pose proof (f_equal im (H 1 1 ltac:(lia) ltac:(lia)))%nat as D1. unfold dag in *.
  destruct (A 0%nat 0%nat) as [a0 b0], (A 1%nat 1%nat) as [a4 b4], (A 0%nat 1%nat) as [a1 b1], (A 0%nat 2%nat) as [a2 b2], (A 1%nat 2%nat) as [a5 b5].
  cunfold. assert (b0 = 0)%R by lra. assert (b4 = 0)%R by lra. subst. field.
Qed.
Lemma exponentiate_3_form : forall U Q, let A := mx 3 Q in hermitian 3 A -> traceless 3 A ->
  (cc1 A < DBL_MIN -> exists r, exponentiate_3 U Q = Some r /\ holds 3 r U mid)%R /\
  (forall f0 f1 f2, ~ (cc1 A < DBL_MIN)%R -> exp_coeffs (cc0 A) (cc1 A) = Some (f0, f1, f2) ->
     exists r, exponentiate_3 U Q = Some r /\ holds 3 r U (qpol A f0 f1 f2)).
Proof.
  intros U Q A H T. pose proof (cc0_code A H) as E0. pose proof (cc1_code A H T) as E1. cbv zeta in E0, E1.
  remember (cc0 A) as k0. remember (cc1 A) as k1. clear Heqk0 Heqk1.
  unfold A, mx in E0, E1. cbn [Nat.add Nat.mul] in E0, E1.
  unfold exponentiate_3. rewrite <- E1. split.
  - intro L. destruct (Rlt_dec k1 DBL_MIN) as [_|N]; [|contradiction].
    exists (id3 U). split; [reflexivity|]. split; [split3; reflexivity|]. intros k Hk. unfold id3. rewrite !upd_neq by lia. reflexivity.
  - intros f0 f1 f2 L Ef. destruct (Rlt_dec k1 DBL_MIN) as [N|_]; [contradiction|].
    rewrite <- E0. rewrite Ef. eexists. split; [reflexivity|]. clear E0 E1 Ef L.
    split; [|intros k Hk; rewrite !upd_neq by lia; reflexivity].
    pose proof (traceless3 A T) as L.
    pose proof (H 1 0 ltac:(lia) ltac:(lia))%nat as H10. pose proof (H 2 0 ltac:(lia) ltac:(lia))%nat as H20.
    pose proof (H 2 1 ltac:(lia) ltac:(lia))%nat as H21.
    pose proof (f_equal im (H 0 0 ltac:(lia) ltac:(lia)))%nat as D0. pose proof (f_equal im (H 1 1 ltac:(lia) ltac:(lia)))%nat as D1.
    unfold dag in *. unfold A, mx in *. cbn [Nat.add Nat.mul] in *.
    split3; unfold qpol, madd, mscale, mmul, mid, mx; cbn [csum Nat.add Nat.mul Nat.eqb];
     repeat (rewrite upd_neq by discriminate); rewrite ?upd_eq; rewrite ?L, <- ?H10, <- ?H20, <- ?H21;
     clear H T L H10 H20 H21;
     destruct (Q 0%nat) as [a0 b0], (Q 4%nat) as [a4 b4], (Q 1%nat) as [a1 b1], (Q 2%nat) as [a2 b2], (Q 5%nat) as [a5 b5], f0, f1, f2;
     cunfold; assert (b0 = 0)%R by lra; assert (b4 = 0)%R by lra; subst; f_equal; ring.
Qed.

(** ** exponentiate for NC = 3 *)
Lemma one_minus_cos : forall t, (2 - 2 * cos t <= t * t)%R.
Proof.
  intros t. replace t with (2 * (t/2))%R at 1 by field. rewrite cos_2a_sin. set (h := (t/2)%R).
  assert (L : (sin h * sin h <= h * h)%R).
  { assert (P : forall x, (0 <= x -> sin x * sin x <= x * x)%R).
    { intros x Hx. destruct (Req_dec x 0) as [->|N]; [rewrite sin_0; lra|].
      destruct (Rle_lt_dec x 1) as [L1|L1].
      - assert (sin x < x)%R by (apply sin_lt_x; lra).
        assert (0 <= sin x)%R by (apply sin_ge_0; [lra|pose proof PI2_3_2; unfold PI in *; lra]). nra.
      - pose proof (SIN_bound x). nra. }
    destruct (Rle_lt_dec 0 h) as [L|L]; [now apply P|].
    pose proof (P (-h)%R ltac:(lra)) as Q. rewrite sin_neg in Q. lra. }
  unfold h in *. replace (t*t)%R with (4 * (t/2*(t/2)))%R by field. lra.
Qed.
Lemma norm2_one_expi : forall t, (norm2 (C1 - Cexpi t) <= t * t)%R.
Proof.
  intros t. eapply Rle_trans; [|apply one_minus_cos]. right. unfold norm2, Cexpi. cunfold.
  pose proof (sin2_cos2 t) as S. unfold Rsqr in S.
  transitivity (1 - 2 * cos t + (sin t * sin t + cos t * cos t))%R; [ring|]. rewrite S. ring.
Qed.
Lemma roots_bound : forall c1 x y z, (x + y + z = 0)%R -> (3 * c1 = - (x*y + x*z + y*z))%R -> (x*x <= 4*c1)%R.
Proof. intros c1 x y z S P. assert (z = -x-y)%R by lra. subst z. pose proof (Rle_0_sqr (x + 2*y)) as Q. unfold Rsqr in Q. nra. Qed.
Lemma DBL_MIN_small : (4 * DBL_MIN <= tolerance * tolerance)%R.
Proof.
  unfold DBL_MIN, tolerance.
  assert (P : forall n, (0 < 2^n)%R) by (intro; apply pow_lt; lra).
  replace 1022%nat with (114 + (2 + 906))%nat by reflexivity. rewrite !pow_add.
  rewrite !Rinv_mult. replace (2^2)%R with 4%R by ring.
  assert (R4 : forall a b, (4 * (a * (/ 4 * b)) = a * b)%R) by (intros; field). rewrite R4. clear R4.
  assert (A1 : (/ 2^906 <= 1)%R).
  { rewrite <- Rinv_1. apply Rinv_le_contravar; [lra|]. apply pow_R1_Rle. lra. }
  assert (A2 : (/ 2^114 <= / 10^17 * / 10^17)%R).
  { rewrite <- Rinv_mult. apply Rinv_le_contravar; [apply Rmult_lt_0_compat; apply pow_lt; lra|].
    replace 114%nat with (57+57)%nat by reflexivity. rewrite pow_add.
    assert (10^17 <= 2^57)%R. { rewrite !pow_IZR. apply IZR_le. vm_compute. discriminate. }
    assert (0 < 10^17)%R by (apply pow_lt; lra). nra. }
  assert (0 < / 2^114)%R by (apply Rinv_0_lt_compat, P). assert (0 < / 2^906)%R by (apply Rinv_0_lt_compat, P). nra.
Qed.
(** t is an eigenvalue of A *)
Definition eigen3 (A : mat) (t : R) : Prop := det3 (msub A (mscale (RtoC t) mid)) = C0.
(** different eigenvalues differ by at least 1/10 *)
Definition separated (A : mat) : Prop := forall s t, eigen3 A s -> eigen3 A t -> s = t \/ (1/10 <= Rabs (s - t))%R.
Lemma charpoly : forall A t, hermitian 3 A -> traceless 3 A ->
  det3 (msub A (mscale (RtoC t) mid)) = RtoC (cc0 A + 3 * cc1 A * t - t*t*t).
Proof.
  intros A t H T. pose proof (detA A H) as D. pose proof (trAA A H) as P.
  rewrite RtoC_sub, RtoC_add, !RtoC_mul, <- D.
  assert (E : RtoC 3 * RtoC (cc1 A) = A 0%nat 0%nat * A 0%nat 0%nat + A 0%nat 0%nat * A 1%nat 1%nat + A 1%nat 1%nat * A 1%nat 1%nat
     + A 0%nat 1%nat * A 1%nat 0%nat + A 0%nat 2%nat * A 2%nat 0%nat + A 1%nat 2%nat * A 2%nat 1%nat).
  { assert (E6 : RtoC (6 * cc1 A) = RtoC 3 * RtoC (cc1 A) + RtoC 3 * RtoC (cc1 A)) by (rewrite <- RtoC_mul, <- RtoC_add; f_equal; ring).
    rewrite E6 in P. unfold mtr, mmul in P. cbn [csum] in P. rewrite (traceless3 A T) in P.
    set (k := RtoC 3 * RtoC (cc1 A)) in *. clearbody k.
    set (S := A 0%nat 0%nat * A 0%nat 0%nat + A 0%nat 0%nat * A 1%nat 1%nat + A 1%nat 1%nat * A 1%nat 1%nat
     + A 0%nat 1%nat * A 1%nat 0%nat + A 0%nat 2%nat * A 2%nat 0%nat + A 1%nat 2%nat * A 2%nat 1%nat).
    assert (PS : k + k = S + S) by (rewrite <- P; unfold S; ring).
    apply C_eq; [apply (f_equal re) in PS|apply (f_equal im) in PS]; cbn [re im fst snd Cadd] in PS; lra. }
  rewrite E. unfold det3, msub, mscale, mid. cbn [Nat.eqb]. rewrite (traceless3 A T). ring.
Qed.
Lemma roots_eigen : forall A x y z, hermitian 3 A -> traceless 3 A -> roots A x y z -> eigen3 A x /\ eigen3 A y /\ eigen3 A z.
Proof.
  intros A x y z H T (S & P & Q). unfold eigen3. rewrite !charpoly by assumption. rewrite P, Q.
  assert (z = -x-y)%R by lra. subst z. change C0 with (RtoC 0). repeat split; f_equal; ring.
Qed.
Lemma fcalc_exp_SU3 : forall m P l x y z, resolution 3 m P -> (x + y + z = 0)%R ->
  (forall g : R -> C, mtr 3 (fcalc m P (fun a => g (l a))) = g x + g y + g z) ->
  SU3 (fcalc m P (fun a => Cexpi (l a))).
Proof.
  intros m P l x y z R S T. split.
  - apply fcalc_unitary; [exact R|]. intros. apply Cexpi_conj.
  - rewrite (det3_powers _ (Cexpi x) (Cexpi y) (Cexpi z)).
    + rewrite !Cexpi_add, S. apply Cexpi_0.
    + intros k. rewrite (fcalc_pow 3 m P _ k R). rewrite (T (fun t => Cpow (Cexpi t) k)). reflexivity.
Qed.
Lemma zero_exp : forall n A, meq n A mzero -> is_exp n (mscale Ci A) mid.
Proof.
  intros n A E.
  assert (R : resolution n 1 (fun _ => mid)).
  { split; [|split].
    - intros a b Ha Hb. replace a with 0%nat by lia. replace b with 0%nat by lia. apply mmul_1_l.
    - intros a _. apply dag_mid.
    - intros i j _ _. unfold fcalc. cbn [csum]. ring. }
  eapply is_exp_ext; [| |exact (fcalc_exp n 1 (fun _ => mid) (fun _ => 0%R) R)].
  - rewrite E. intros i j _ _. unfold mscale, fcalc, mzero. cbn [csum]. change (RtoC 0) with C0. ring.
  - intros i j _ _. unfold fcalc. cbn [csum]. rewrite Cexpi_0. ring.
Qed.
Lemma exponentiate_3_ok : forall U Q, hermitian 3 (mx 3 Q) -> traceless 3 (mx 3 Q) ->
  exists r E, exponentiate_3 U Q = Some r /\ frame 9 r U /\ is_exp 3 (mscale Ci (mx 3 Q)) E /\ SU3 E /\
    (forall i j, (i < 3)%nat -> (j < 3)%nat -> (norm2 (mx 3 r i j - E i j) <= tolerance * tolerance)%R) /\
    (separated (mx 3 Q) -> (cc1 (mx 3 Q) = 0 \/ DBL_MIN <= cc1 (mx 3 Q))%R -> meq 3 (mx 3 r) E).
Proof.
  intros U Q H T. set (A := mx 3 Q) in *.
  destruct (exponentiate_3_form U Q H T) as [Form1 Form2]. fold A in Form1, Form2.
  pose proof (cc1_nonneg A H) as N0.
  assert (Tp : (0 <= tolerance * tolerance)%R) by (fold (Rsqr tolerance); apply Rle_0_sqr).
  destruct (Req_dec (cc1 A) 0) as [Z|NZ].
  - destruct Form1 as (r & Er & M & F).
    { rewrite Z. unfold DBL_MIN. apply Rinv_0_lt_compat, pow_lt. lra. }
    exists r, mid. split; [exact Er|]. split; [exact F|]. split; [apply zero_exp; now apply cc1_zero|].
    split; [apply SU3_mid|]. split; [|intros _ _; exact M].
    intros i j Hi Hj. rewrite (M i j Hi Hj). replace (mid i j - mid i j) with C0 by ring. unfold norm2, C0. cbn. lra.
  - assert (Pos : (0 < cc1 A)%R) by lra.
    destruct (exp_coeffs_ok (cc0 A) (cc1 A) Pos (discriminant A H T)) as (f0 & f1 & f2 & x & y & z & w & Ef & Rt & Nxy & Nxz & W0 & Ew & Vx & Vy & Vz).
    destruct (spectral A H T x y z Rt Nxy Nxz) as (m & P & l & R & EA & Hl & Tr).
    set (E := fcalc m P (fun a => Cexpi (l a))).
    assert (IE : is_exp 3 (mscale Ci A) E).
    { eapply is_exp_ext; [|reflexivity|exact (fcalc_exp 3 m P l R)]. now rewrite EA. }
    assert (SE : SU3 E) by (apply (fcalc_exp_SU3 m P l x y z R); [apply Rt|exact Tr]).
    destruct (Rlt_dec (cc1 A) DBL_MIN) as [L|L].
    + destruct (Form1 L) as (r & Er & M & F). exists r, E. split; [exact Er|]. split; [exact F|]. split; [exact IE|]. split; [exact SE|].
      split; [|intros _ [D|D]; lra].
      intros i j Hi Hj. rewrite (M i j Hi Hj).
      assert (ED : mid i j - E i j = fcalc m P (fun a => C1 - Cexpi (l a)) i j).
      { rewrite <- (fcalc_1 3 m P (fun _ => C1) R (fun _ _ => eq_refl) i j Hi Hj). unfold E, fcalc. rewrite <- csum_sub. apply csum_ext. intros; ring. }
      rewrite ED. apply (fcalc_bound 3 m P _ _ i j R Hi Hj). intros a Ha.
      eapply Rle_trans; [apply norm2_one_expi|]. eapply Rle_trans; [|apply DBL_MIN_small].
      destruct Rt as (S1 & S2 & _).
      assert (l a * l a <= 4 * cc1 A)%R; [|lra].
      destruct (Hl a Ha) as [Q1|[Q1|Q1]]; rewrite Q1.
      * apply (roots_bound _ x y z); assumption.
      * apply (roots_bound _ y x z); lra.
      * apply (roots_bound _ z x y); lra.
    + destruct (Form2 f0 f1 f2 L Ef) as (r & Er & M & F). exists r, E. split; [exact Er|]. split; [exact F|]. split; [exact IE|]. split; [exact SE|].
      assert (M' : meq 3 (mx 3 r) (fcalc m P (fun a => val f0 f1 f2 (l a)))) by (rewrite M; now apply qpol_fcalc).
      assert (Dev : forall a, (a < m)%nat -> (norm2 (val f0 f1 f2 (l a) - Cexpi (l a)) <= Rsqr (w * esin w - sin w))%R).
      { intros a Ha. destruct (Hl a Ha) as [Q1|[Q1|Q1]]; rewrite Q1; [rewrite Vx|rewrite Vy; lra|rewrite Vz; lra].
        replace (Cexpi x - Cexpi x) with C0 by ring. unfold norm2, C0. cbn. pose proof (Rle_0_sqr (w * esin w - sin w)). lra. }
      split.
      * intros i j Hi Hj. rewrite (M' i j Hi Hj).
        assert (ED : fcalc m P (fun a => val f0 f1 f2 (l a)) i j - E i j = fcalc m P (fun a => val f0 f1 f2 (l a) - Cexpi (l a)) i j).
        { unfold E, fcalc. rewrite <- csum_sub. apply csum_ext. intros; ring. }
        rewrite ED. apply (fcalc_bound 3 m P _ _ i j R Hi Hj). intros a Ha.
        eapply Rle_trans; [now apply Dev|]. now apply esin_close.
      * intros Sep _. rewrite M'. apply fcalc_ext. intros a Ha.
        assert (Ex : (w * esin w - sin w = 0)%R).
        { apply esin_exact. destruct (roots_eigen A x y z H T Rt) as (_ & E1 & E2).
          assert (Hw : (w = Rabs (y - z) / 2)%R).
          { apply Rsqr_inj; [exact W0|pose proof (Rabs_pos (y-z)); lra|].
            unfold Rsqr. rewrite Ew. replace (Rabs (y-z) / 2 * (Rabs (y-z) / 2))%R with (Rabs (y-z) * Rabs (y-z) / 4)%R by field.
            rewrite <- Rabs_mult, Rabs_pos_eq by apply Rle_0_sqr. reflexivity. }
          destruct (Sep y z E1 E2) as [Eq|Ge]; rewrite Hw.
          - left. rewrite Eq, Rminus_diag_eq, Rabs_R0 by reflexivity. lra.
          - right. unfold SINTOL. lra. }
        pose proof (Dev a Ha) as D. rewrite Ex, Rsqr_0 in D.
        pose proof (norm2_nonneg (val f0 f1 f2 (l a) - Cexpi (l a))) as D'.
        assert (D0 : val f0 f1 f2 (l a) - Cexpi (l a) = C0) by (apply norm2_zero; lra).
        transitivity (val f0 f1 f2 (l a) - Cexpi (l a) + Cexpi (l a)); [ring|rewrite D0; ring].
Qed.
