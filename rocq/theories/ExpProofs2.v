(** Further proofs about ExpModel.v: the packed form, NC = 2, covariance, stout links. *)
From Coq Require Import PeanoNat Reals Lra Lia List.
From Verif Require Import CMat MatSpec MmulModel MmulProofs MatModel MatProofs MatProofs2 Det MatEx ProjModel ProjProofs ExpModel ExpSpec SpecCalc ExpProofs FieldModel FieldProofs FieldProofs2.
Local Open Scope C_scope.

(** ** exponentiate_short *)
Definition unpack3 (Q : arr) : arr := rebuild_hermitian 3 (fun _ => C0) Q.
Lemma short_3_is : forall U Q A, packed 3 Q A -> hermitian 3 A -> traceless 3 A ->
  exists q, meq 3 (mx 3 q) A /\ exponentiate_short_3 U Q = exponentiate_3 U q.
Proof.
  intros U Q A HP H T. exists (fun k => mx 3 (fun i => A (i / 3)%nat (i mod 3)%nat) 0%nat k).
  split; [split3; reflexivity|].
  destruct (packed3 Q A HP) as (P0 & P1 & P2 & P3 & P4).
  unfold exponentiate_short_3, exponentiate_3.
  set (q := fun k => mx 3 (fun i => A (i / 3)%nat (i mod 3)%nat) 0%nat k).
  assert (Q0 : q 0%nat = Q 0%nat) by (rewrite P0; reflexivity).
  assert (Q1 : q 1%nat = Q 1%nat) by (rewrite P1; reflexivity).
  assert (Q2 : q 2%nat = Q 2%nat) by (rewrite P2; reflexivity).
  assert (Q4 : q 4%nat = Q 3%nat) by (rewrite P3; reflexivity).
  assert (Q5 : q 5%nat = Q 4%nat) by (rewrite P4; reflexivity).
  assert (Q3 : q 3%nat = conj (Q 1%nat)) by (rewrite P1; symmetry; apply (H 1 0)%nat; lia).
  assert (Q6 : q 6%nat = conj (Q 2%nat)) by (rewrite P2; symmetry; apply (H 2 0)%nat; lia).
  assert (Q7 : q 7%nat = conj (Q 4%nat)) by (rewrite P4; symmetry; apply (H 2 1)%nat; lia).
  assert (Q8 : re (q 8%nat) = (- (re (Q 0%nat) + re (Q 3%nat)))%R).
  { change (q 8%nat) with (A 2%nat 2%nat). rewrite (traceless3 A T), P0, P3. cbn. unfold re. ring. }
  rewrite Q0, Q1, Q2, Q3, Q4, Q5, Q6, Q7, Q8.
  set (a0 := re (Q 0%nat)). set (a4 := re (Q 3%nat)).
  replace (- a0 * - (a0 + a4) + a4 * a4)%R with (a0*a0 + a0*a4 + a4*a4)%R by ring. reflexivity.
Qed.
Lemma exponentiate_short_3_ok : forall U Q A, packed 3 Q A -> hermitian 3 A -> traceless 3 A ->
  exists r E, exponentiate_short_3 U Q = Some r /\ frame 9 r U /\ is_exp 3 (mscale Ci A) E /\ SU3 E /\
    (forall i j, (i < 3)%nat -> (j < 3)%nat -> (norm2 (mx 3 r i j - E i j) <= tolerance * tolerance)%R) /\
    (separated A -> (cc1 A = 0 \/ DBL_MIN <= cc1 A)%R -> meq 3 (mx 3 r) E).
Proof.
  intros U Q A HP H T. destruct (short_3_is U Q A HP H T) as (q & Eq & Es).
  assert (H' : hermitian 3 (mx 3 q)) by (unfold hermitian in *; now rewrite Eq).
  assert (T' : traceless 3 (mx 3 q)) by (unfold traceless in *; now rewrite Eq).
  destruct (exponentiate_3_ok U q H' T') as (r & E & Er & F & X & S & N & Ex).
  exists r, E. rewrite Es. split; [exact Er|]. split; [exact F|]. split.
  { eapply is_exp_ext; [|reflexivity|exact X]. now rewrite Eq. }
  split; [exact S|]. split; [exact N|]. intros Sep D. apply Ex.
  - intros s t Hs Ht. apply Sep; unfold eigen3 in *; [now rewrite Eq in Hs|now rewrite Eq in Ht].
  - replace (cc1 (mx 3 q)) with (cc1 A); [exact D|]. unfold cc1. now rewrite Eq.
Qed.

(** ** NC = 2 *)
Definition lin2 (A : mat) (c f : R) : mat := madd (mscale (RtoC c) mid) (mscale (Ci * RtoC f) A).
Definition zz (A : mat) : R := (- re (det2 A))%R.
Lemma herm2_parts : forall A, hermitian 2 A -> traceless 2 A ->
  im (A 0%nat 0%nat) = 0%R /\ A 1%nat 0%nat = conj (A 0%nat 1%nat) /\ A 1%nat 1%nat = - A 0%nat 0%nat.
Proof.
  intros A H T. split; [|split].
  - pose proof (f_equal im (H 0 0 ltac:(lia) ltac:(lia)))%nat as D. unfold dag in D. destruct (A 0%nat 0%nat). cbn in *. lra.
  - symmetry. apply (H 1 0)%nat; lia.
  - pose proof (mtr_last 2 A ltac:(lia) T) as L. cbn [Nat.sub csum] in L. rewrite L. ring.
Qed.
Lemma zz_is : forall A, hermitian 2 A -> traceless 2 A ->
  zz A = (re (A 0%nat 0%nat) * re (A 0%nat 0%nat) + re (A 0%nat 1%nat) * re (A 0%nat 1%nat) + im (A 0%nat 1%nat) * im (A 0%nat 1%nat))%R.
Proof.
  intros A H T. destruct (herm2_parts A H T) as (I0 & E10 & E11). unfold zz, det2. rewrite E10, E11.
  destruct (A 0%nat 0%nat) as [a b], (A 0%nat 1%nat). cbn in I0. subst b. cunfold. ring.
Qed.
Lemma square2 : forall A, hermitian 2 A -> traceless 2 A -> meq 2 (mmul 2 A A) (mscale (RtoC (zz A)) mid).
Proof.
  intros A H T. rewrite (zz_is A H T). destruct (herm2_parts A H T) as (I0 & E10 & E11).
  split2; unfold mmul, mscale, mid; cbn [csum Nat.eqb]; rewrite ?E10, ?E11;
    destruct (A 0%nat 0%nat) as [a b], (A 0%nat 1%nat); cbn in I0; subst b; cring.
Qed.
Lemma zz_nonneg : forall A, hermitian 2 A -> traceless 2 A -> (0 <= zz A)%R.
Proof. intros A H T. rewrite (zz_is A H T). nra. Qed.
Lemma entry2 : forall A i j, hermitian 2 A -> traceless 2 A -> (i < 2)%nat -> (j < 2)%nat -> (norm2 (A i j) <= zz A)%R.
Proof.
  intros A i j H T Hi Hj. pose proof (row_norm 2 A i j Hj) as L.
  assert (E : meq 2 (mmul 2 A (dag A)) (mscale (RtoC (zz A)) mid)) by (unfold hermitian in H; rewrite H; now apply square2).
  rewrite (E i i Hi Hi) in L. unfold mscale, mid in L. rewrite Nat.eqb_refl in L. cbn in L. lra.
Qed.
Lemma lin2_mul : forall A c f, hermitian 2 A -> traceless 2 A ->
  meq 2 (mmul 2 (lin2 A c f) (dag (lin2 A c f))) (mscale (RtoC (c*c + f*f*zz A)) mid) /\
  meq 2 (mmul 2 (dag (lin2 A c f)) (lin2 A c f)) (mscale (RtoC (c*c + f*f*zz A)) mid) /\
  det2 (lin2 A c f) = RtoC (c*c + f*f*zz A).
Proof.
  intros A c f H T. rewrite (zz_is A H T). destruct (herm2_parts A H T) as (I0 & E10 & E11).
  split; [|split]; [split2|split2|]; unfold det2, lin2, madd, mmul, mscale, dag, mid; cbn [csum Nat.eqb]; rewrite ?E10, ?E11;
    destruct (A 0%nat 0%nat) as [a b], (A 0%nat 1%nat); cbn in I0; subst b; cring.
Qed.
Lemma lin2_SU2 : forall A c f, hermitian 2 A -> traceless 2 A -> (c*c + f*f*zz A = 1)%R -> SU2 (lin2 A c f).
Proof.
  intros A c f H T E. destruct (lin2_mul A c f H T) as (M1 & M2 & D). rewrite E in *.
  split; [split|exact D].
  - rewrite M1. apply mscale_1.
  - rewrite M2. apply mscale_1.
Qed.
Lemma exp2 : forall A, hermitian 2 A -> traceless 2 A ->
  is_exp 2 (mscale Ci A) (lin2 A (cos (sqrt (zz A))) (if Req_EM_T (zz A) 0 then 1 else sin (sqrt (zz A)) / sqrt (zz A))%R).
Proof.
  intros A H T. pose proof (zz_nonneg A H T) as Z. destruct (Req_EM_T (zz A) 0) as [E|E].
  - assert (A0 : meq 2 A mzero).
    { intros i j Hi Hj. apply norm2_zero. pose proof (entry2 A i j H T Hi Hj). pose proof (norm2_nonneg (A i j)). lra. }
    eapply is_exp_ext; [reflexivity| |apply zero_exp; exact A0].
    rewrite E, sqrt_0, cos_0. intros i j Hi Hj. unfold lin2, madd, mscale. rewrite (A0 i j Hi Hj). unfold mzero.
    change (RtoC 1) with C1. ring.
  - assert (S2 : (sqrt (zz A) * sqrt (zz A) = zz A)%R) by now apply sqrt_sqrt.
    assert (S0 : (sqrt (zz A) <> 0)%R) by (intro E0; rewrite E0 in S2; lra).
    set (z := sqrt (zz A)) in *.
    set (P := fun a : nat => let s := match a with 0%nat => (1 / (2*z))%R | _ => (- (1 / (2*z)))%R end in
                madd (mscale (RtoC (1/2)) mid) (mscale (RtoC s) A)).
    set (l := fun a : nat => match a with 0%nat => z | _ => (-z)%R end).
    assert (G : forall x y, meq 2 (mmul 2 (madd (mscale (RtoC (1/2)) mid) (mscale (RtoC x) A)) (madd (mscale (RtoC (1/2)) mid) (mscale (RtoC y) A)))
        (madd (mscale (RtoC (1/4 + x*y*(z*z))) mid) (mscale (RtoC ((x+y)/2)) A))).
    { intros x y. rewrite mmul_add_l, !mmul_add_r, !mmul_scale_l, !mmul_scale_r, mmul_1_l, mmul_1_l, mmul_1_r, (square2 A H T), <- S2.
      intros i j _ _. unfold madd, mscale. set (d := mid i j). set (a := A i j). clearbody d a.
      apply C_eq; cunfold; field. }
    assert (R : resolution 2 2 P).
    { split; [|split].
      - intros a b Ha Hb. destruct a as [|[|]]; try lia; destruct b as [|[|]]; try lia; unfold P; cbn [Nat.eqb]; rewrite G;
          intros i j _ _; unfold madd, mscale, mzero; set (d := mid i j); set (a := A i j); clearbody d a; apply C_eq; cunfold; field; exact S0.
      - intros a _. unfold hermitian, P. rewrite dag_add, !dag_scale, dag_mid, !conj_RtoC. unfold hermitian in H. now rewrite H.
      - intros i j _ _. unfold fcalc, P, madd, mscale. cbn [csum]. set (d := mid i j). set (a := A i j). clearbody d a. apply C_eq; cunfold; field; exact S0. }
    eapply is_exp_ext; [| |exact (fcalc_exp 2 2 P l R)].
    + intros i j _ _. unfold fcalc, P, l, madd, mscale. cbn [csum]. set (d := mid i j). set (a := A i j). clearbody d a. apply C_eq; cunfold; field; exact S0.
    + intros i j _ _. unfold fcalc, P, l, lin2, madd, mscale. cbn [csum]. rewrite Cexpi_opp. unfold Cexpi. set (d := mid i j). set (a := A i j). clearbody d a. apply C_eq; cunfold; field; exact S0.
Qed.
Lemma exponentiate_2_form : forall U Q, hermitian 2 (mx 2 Q) -> traceless 2 (mx 2 Q) ->
  holds 2 (exponentiate_2 U Q) U (lin2 (mx 2 Q) (cos (sqrt (zz (mx 2 Q)))) (su2_f1 (sqrt (zz (mx 2 Q))))).
Proof.
  intros U Q H T. rewrite (zz_is _ H T). destruct (herm2_parts _ H T) as (I0 & E10 & E11).
  unfold mx in *. cbn [Nat.add Nat.mul] in *. unfold exponentiate_2.
  set (z := sqrt _). split; [|framed2].
  split2; unfold lin2, madd, mscale, mx, mid, upd; cbn [Nat.add Nat.mul Nat.eqb]; rewrite ?E10, ?E11;
    destruct (Q 0%nat) as [a b], (Q 1%nat); cbn in I0; subst b; cring.
Qed.
Lemma exponentiate_short_2_form : forall U Q A, packed 2 Q A -> hermitian 2 A -> traceless 2 A ->
  holds 2 (exponentiate_short_2 U Q) U (lin2 A (cos (sqrt (zz A))) (su2_f1 (sqrt (zz A)))).
Proof.
  intros U Q A HP H T. rewrite (zz_is _ H T). destruct (herm2_parts _ H T) as (I0 & E10 & E11).
  destruct (packed2 Q A HP) as (P0 & P1). unfold exponentiate_short_2. rewrite P0, P1.
  set (z := sqrt _). split; [|framed2].
  split2; unfold lin2, madd, mscale, mx, mid, upd; cbn [Nat.add Nat.mul Nat.eqb]; rewrite ?E10, ?E11;
    destruct (A 0%nat 0%nat) as [a b], (A 0%nat 1%nat); cbn in I0; subst b; cring.
Qed.
Definition tolerance2 : R := (2 / 10^9)%R.
Lemma su2_dev : forall z, (0 < z < SINTOLSU2)%R ->
  (z*z/6 * (9/10) <= sin z - z * taylor_sinc z <= tolerance2)%R.
Proof.
  intros z [Z0 Z1]. unfold SINTOLSU2 in Z1.
  destruct (sinc_bound z ltac:(lra)) as [L Up]. unfold taylor_sinc in *.
  assert (Z2 : (z*z <= z/10000)%R) by nra. assert (0 < z*z)%R by nra.
  assert (P9 : (z^9 <= z^2)%R).
  { replace (z^9)%R with (z^2 * z^7)%R by (rewrite <- pow_add; reflexivity).
    assert (z^7 <= 1)%R by (rewrite <- (pow1 7); apply pow_incr; lra). assert (0 <= z^2)%R by (cbn; nra). nra. }
  cbn [pow] in P9. set (y := (z*z)%R) in *.
  assert (B1 : (0 <= y <= / 10^8)%R).
  { split; [lra|]. replace (/ 10^8)%R with (1/10000 * (1/10000))%R by field. unfold y. nra. }
  replace (/ 10^8)%R with (1/100000000)%R in B1 by field.
  assert (T1 : (0 <= y / 20 * (1 - y/42) <= 1/100000)%R) by nra.
  assert (T2 : (0 <= z / 20 * (1 - z/42) <= 1/100000)%R) by nra.
  set (t1 := (y / 20 * (1 - y/42))%R) in *. set (t2 := (z / 20 * (1 - z/42))%R) in *.
  unfold tolerance2.
  assert (Df : (z * (1 - y/6*(1-t1)) - z * (1 - z/6*(1-t2)) = y/6 * ((1-t2) - z*(1-t1)))%R) by (unfold y; field).
  assert (Q1 : (9/10 <= (1-t2) - z*(1-t1))%R) by nra.
  assert (Q2 : ((1-t2) - z*(1-t1) <= 1)%R) by nra.
  assert (Q3 : (z^9 <= y)%R) by (cbn [pow]; unfold y; lra).
  set (k := ((1-t2) - z*(1-t1))%R) in *. clearbody k t1 t2.
  assert (Q4 : (y/6*(9/10) <= y/6*k <= y/6)%R) by nra.
  replace (2/10^9)%R with (2/1000000000)%R by field.
  split; lra.
Qed.
Lemma su2_exact : forall z, (z <> 0)%R -> (SINTOLSU2 <= z)%R -> su2_f1 z = (sin z / z)%R.
Proof.
  intros z N L. unfold su2_f1. destruct (Rlt_dec (Rabs z) SINTOLSU2) as [B|_]; [|reflexivity].
  assert (0 < SINTOLSU2)%R by (unfold SINTOLSU2; lra). rewrite Rabs_pos_eq in B; lra.
Qed.
(** r is a result for A: close to the exponential, and equal to it when A = 0 or -det A >= 1e-8 *)
Definition good2 (A : mat) (r : arr) : Prop :=
  exists E, is_exp 2 (mscale Ci A) E /\ SU2 E /\
    (forall i j, (i < 2)%nat -> (j < 2)%nat -> (norm2 (mx 2 r i j - E i j) <= tolerance2 * tolerance2)%R) /\
    ((zz A = 0 \/ SINTOLSU2 * SINTOLSU2 <= zz A)%R -> meq 2 (mx 2 r) E).
Lemma good2_ok : forall A r, hermitian 2 A -> traceless 2 A ->
  meq 2 (mx 2 r) (lin2 A (cos (sqrt (zz A))) (su2_f1 (sqrt (zz A)))) -> good2 A r.
Proof.
  intros A r H T M. pose proof (zz_nonneg A H T) as Z.
  eexists. split; [apply (exp2 A H T)|].
  assert (S2 : (sqrt (zz A) * sqrt (zz A) = zz A)%R) by now apply sqrt_sqrt.
  pose proof (sqrt_pos (zz A)) as Sp.
  destruct (Req_EM_T (zz A) 0) as [E|E].
  - split; [|split].
    + apply lin2_SU2; auto. rewrite E, sqrt_0, cos_0. ring.
    + intros i j Hi Hj. rewrite (M i j Hi Hj). rewrite E, sqrt_0. unfold su2_f1, taylor_sinc.
      destruct (Rlt_dec (Rabs 0) SINTOLSU2) as [L|L]; [|exfalso; apply L; rewrite Rabs_R0; unfold SINTOLSU2; lra].
      replace (1 - 0 / 6 * (1 - 0 / 20 * (1 - 0 / 42)))%R with 1%R by field.
      match goal with |- (norm2 (?a - ?a) <= _)%R => replace (a - a) with C0 by ring end.
      unfold norm2, C0. cbn [re im fst snd]. fold (Rsqr tolerance2). pose proof (Rle_0_sqr tolerance2). lra.
    + intros _. rewrite M, E, sqrt_0. unfold su2_f1, taylor_sinc.
      destruct (Rlt_dec (Rabs 0) SINTOLSU2) as [L|L]; [|exfalso; apply L; rewrite Rabs_R0; unfold SINTOLSU2; lra].
      replace (1 - 0 / 6 * (1 - 0 / 20 * (1 - 0 / 42)))%R with 1%R by field. reflexivity.
  - assert (S0 : (sqrt (zz A) <> 0)%R) by (intro E0; rewrite E0 in S2; lra).
    set (z := sqrt (zz A)) in *.
    split; [|split].
    + apply lin2_SU2; auto. rewrite <- S2. pose proof (sin2_cos2 z) as SC. unfold Rsqr in SC.
      transitivity (sin z * sin z + cos z * cos z)%R; [field; exact S0|exact SC].
    + intros i j Hi Hj. rewrite (M i j Hi Hj).
      assert (D : lin2 A (cos z) (su2_f1 z) i j - lin2 A (cos z) (sin z / z) i j = Ci * RtoC (su2_f1 z - sin z / z) * A i j).
      { unfold lin2, madd, mscale. rewrite RtoC_sub. ring. }
      rewrite D, !norm2_mul. replace (norm2 Ci) with 1%R by (unfold norm2, Ci; cbn; ring).
      replace (norm2 (RtoC (su2_f1 z - sin z / z))) with (Rsqr (su2_f1 z - sin z / z)) by (unfold norm2, RtoC, Rsqr; cbn; ring).
      pose proof (entry2 A i j H T Hi Hj) as En. rewrite <- S2 in En.
      apply Rle_trans with (Rsqr (z * su2_f1 z - sin z)).
      { replace (z * su2_f1 z - sin z)%R with (z * (su2_f1 z - sin z / z))%R by (field; exact S0). rewrite Rsqr_mult. unfold Rsqr at 2.
        pose proof (Rle_0_sqr (su2_f1 z - sin z / z)). nra. }
      fold (Rsqr tolerance2). unfold su2_f1. destruct (Rlt_dec (Rabs z) SINTOLSU2) as [L|L].
      * rewrite Rabs_pos_eq in L by exact Sp. destruct (su2_dev z ltac:(lra)) as [D1 D2].
        replace (z * taylor_sinc z - sin z)%R with (- (sin z - z * taylor_sinc z))%R by ring. rewrite <- Rsqr_neg.
        apply Rsqr_incr_1; [exact D2| |unfold tolerance2; apply Rmult_le_pos; [lra|left; apply Rinv_0_lt_compat, pow_lt; lra]].
        eapply Rle_trans; [|exact D1]. nra.
      * replace (z * (sin z / z) - sin z)%R with 0%R by (field; exact S0). rewrite Rsqr_0. apply Rle_0_sqr.
    + intros [E0|L]; [lra|]. rewrite M. rewrite su2_exact; [reflexivity|exact S0|].
      rewrite <- S2 in L. unfold SINTOLSU2 in *. nra.
Qed.
Lemma exponentiate_2_ok : forall U Q, hermitian 2 (mx 2 Q) -> traceless 2 (mx 2 Q) ->
  good2 (mx 2 Q) (exponentiate_2 U Q) /\ frame 4 (exponentiate_2 U Q) U.
Proof. intros U Q H T. destruct (exponentiate_2_form U Q H T) as [M F]. split; [now apply good2_ok|exact F]. Qed.
Lemma exponentiate_short_2_ok : forall U Q A, packed 2 Q A -> hermitian 2 A -> traceless 2 A ->
  good2 A (exponentiate_short_2 U Q) /\ frame 4 (exponentiate_short_2 U Q) U.
Proof. intros U Q A HP H T. destruct (exponentiate_short_2_form U Q A HP H T) as [M F]. split; [now apply good2_ok|exact F]. Qed.
(** diag( 1/20000 , -1/20000 ): the result is not in SU(2) and further than 1e-10 from the exponential *)
Definition tiny2 : arr := lst (RtoC (1/20000) :: C0 :: C0 :: RtoC (-1/20000) :: nil).
Lemma tiny2_herm : hermitian 2 (mx 2 tiny2) /\ traceless 2 (mx 2 tiny2).
Proof.
  split; [split2|]; unfold traceless, mtr, dag, mx, tiny2, lst; cbn [csum Nat.add Nat.mul nth]; apply C_eq; cunfold; lra.
Qed.
Lemma exponentiate_2_fails : forall U, ~ SU2 (mx 2 (exponentiate_2 U tiny2)) /\
  forall E, is_exp 2 (mscale Ci (mx 2 tiny2)) E -> (/ 10^10 * / 10^10 < norm2 (mx 2 (exponentiate_2 U tiny2) 0%nat 0%nat - E 0%nat 0%nat))%R.
Proof.
  intros U. destruct tiny2_herm as [H T]. set (A := mx 2 tiny2) in *.
  destruct (exponentiate_2_form U tiny2 H T) as [M _]. fold A in M.
  assert (Z : zz A = (1/20000 * (1/20000))%R).
  { rewrite (zz_is A H T). unfold A, mx, tiny2, lst. cbn [Nat.add Nat.mul nth]. cunfold. lra. }
  assert (Sz : sqrt (zz A) = (1/20000)%R) by (rewrite Z; apply sqrt_square; lra).
  set (z := (1/20000)%R) in *. assert (Zp : (0 < z < SINTOLSU2)%R) by (unfold z, SINTOLSU2; lra).
  assert (F : su2_f1 z = taylor_sinc z).
  { unfold su2_f1. destruct (Rlt_dec (Rabs z) SINTOLSU2) as [|N]; [reflexivity|]. exfalso. apply N. rewrite Rabs_pos_eq; lra. }
  rewrite Sz, F in M. destruct (su2_dev z Zp) as [D _].
  assert (Tp : (0 < z * taylor_sinc z)%R) by (unfold taylor_sinc, z; lra).
  split.
  - intros [_ Dt]. rewrite M in Dt. destruct (lin2_mul A (cos z) (taylor_sinc z) H T) as (_ & _ & Dl). rewrite Dl, Z in Dt.
    apply (f_equal re) in Dt. cbn [re fst RtoC C1] in Dt.
    pose proof (sin2_cos2 z) as SC. unfold Rsqr in SC.
    assert (z * taylor_sinc z < sin z)%R by (assert (0 < z*z)%R by nra; lra). nra.
  - intros E IE. pose proof (is_exp_unique _ _ _ _ IE (exp2 A H T)) as EE.
    rewrite (EE 0 0 ltac:(lia) ltac:(lia))%nat, (M 0 0 ltac:(lia) ltac:(lia))%nat, Sz.
    destruct (Req_EM_T (zz A) 0) as [E0|_]; [rewrite Z in E0; unfold z in E0; lra|].
    assert (A00 : A 0%nat 0%nat = RtoC z) by reflexivity.
    assert (Df : lin2 A (cos z) (taylor_sinc z) 0%nat 0%nat - lin2 A (cos z) (sin z / z) 0%nat 0%nat = Ci * RtoC (z * taylor_sinc z - sin z)).
    { unfold lin2, madd, mscale. rewrite A00. transitivity (Ci * RtoC ((taylor_sinc z - sin z / z) * z)).
      - rewrite RtoC_mul, RtoC_sub. ring.
      - f_equal. f_equal. field. unfold z. lra. }
    rewrite Df, norm2_mul. replace (norm2 Ci) with 1%R by (unfold norm2, Ci; cbn; ring).
    unfold norm2, RtoC. cbn [re im fst snd].
    assert (1/5000000000 <= sin z - z * taylor_sinc z)%R by (unfold z in *; lra).
    replace (/ 10^10)%R with (1/10000000000)%R by field. nra.
Qed.

(** ** Covariance *)
Lemma herm_conjugate : forall n g A B, unitary n g -> meq n B (mmul n (mmul n g A) (dag g)) -> hermitian n A -> hermitian n B.
Proof.
  intros n g A B Ug E H. unfold hermitian in *. rewrite E, !dag_mmul, dag_dag, H. now rewrite mmul_assoc.
Qed.
Lemma conjugate_mul : forall n g A B, unitary n g ->
  meq n (mmul n (mmul n (mmul n g A) (dag g)) (mmul n (mmul n g B) (dag g))) (mmul n (mmul n g (mmul n A B)) (dag g)).
Proof. intros n g A B Ug. rewrite !mmul_assoc. now rewrite (unitary_cancel_l n g _ Ug). Qed.
Lemma conjugate_tr : forall n g A, unitary n g -> mtr n (mmul n (mmul n g A) (dag g)) = mtr n A.
Proof. intros n g A [_ Ug]. rewrite mtr_cyc, <- mmul_assoc, Ug. now rewrite mmul_1_l. Qed.
Lemma conjugate_id : forall n g, unitary n g -> meq n (mmul n (mmul n g mid) (dag g)) mid.
Proof. intros n g [Ug _]. now rewrite mmul_1_r. Qed.
Lemma conjugate_det : forall n g A, unitary n g -> mdet n (mmul n (mmul n g A) (dag g)) = mdet n A.
Proof.
  intros n g A [Ug _]. rewrite !mdet_mmul.
  transitivity (mdet n A * (mdet n g * mdet n (dag g))); [ring|]. rewrite <- mdet_mmul, (mdet_ext n _ _ Ug), mdet_mid. ring.
Qed.
Lemma exponentiate_covariant : forall n g U U' Q Q', (n = 2 \/ n = 3)%nat -> unitary n g ->
  hermitian n (mx n Q) -> traceless n (mx n Q) -> meq n (mx n Q') (mmul n (mmul n g (mx n Q)) (dag g)) ->
  exists r r', exponentiate n U Q = Some r /\ exponentiate n U' Q' = Some r' /\
    meq n (mx n r') (mmul n (mmul n g (mx n r)) (dag g)).
Proof.
  intros n g U U' Q Q' Hn Ug H T E.
  assert (H' : hermitian n (mx n Q')) by (now apply (herm_conjugate n g (mx n Q))).
  assert (T' : traceless n (mx n Q')) by (unfold traceless in *; now rewrite E, conjugate_tr).
  destruct Hn as [Hn|Hn]; subst n; cbn [exponentiate].
  - do 2 eexists. split; [reflexivity|]. split; [reflexivity|].
    destruct (exponentiate_2_form U Q H T) as [M _]. destruct (exponentiate_2_form U' Q' H' T') as [M' _].
    assert (Z : zz (mx 2 Q') = zz (mx 2 Q)).
    { unfold zz. rewrite <- !mdet_2, (mdet_ext 2 _ _ E), conjugate_det by assumption. reflexivity. }
    rewrite M, M', Z. unfold lin2. rewrite mmul_add_r, mmul_add_l, !mmul_scale_r, !mmul_scale_l, (conjugate_id 2 g Ug), <- E. reflexivity.
  - destruct (exponentiate_3_form U Q H T) as [F1 F2]. destruct (exponentiate_3_form U' Q' H' T') as [F1' F2'].
    assert (Z1 : cc1 (mx 3 Q') = cc1 (mx 3 Q)) by (unfold cc1; now rewrite E, conjugate_mul, conjugate_tr).
    assert (Z0 : cc0 (mx 3 Q') = cc0 (mx 3 Q)).
    { unfold cc0. rewrite <- !mdet_3, (mdet_ext 3 _ _ E), conjugate_det by assumption. reflexivity. }
    rewrite Z1, Z0 in *. destruct (Rlt_dec (cc1 (mx 3 Q)) DBL_MIN) as [L|L].
    + destruct (F1 L) as (r & Er & M & _). destruct (F1' L) as (r' & Er' & M' & _).
      exists r, r'. split; [exact Er|]. split; [exact Er'|]. now rewrite M, M', conjugate_id.
    + assert (P : (0 < cc1 (mx 3 Q))%R).
      { pose proof (Rinv_0_lt_compat (2^1022) ltac:(apply pow_lt; lra)). unfold DBL_MIN in L. lra. }
      destruct (exp_coeffs_ok _ _ P (discriminant _ H T)) as (f0 & f1 & f2 & _ & _ & _ & _ & Ef & _).
      destruct (F2 f0 f1 f2 L Ef) as (r & Er & M & _). destruct (F2' f0 f1 f2 L Ef) as (r' & Er' & M' & _).
      exists r, r'. split; [exact Er|]. split; [exact Er'|]. rewrite M, M'. unfold qpol.
      rewrite !mmul_add_r, !mmul_add_l, !mmul_scale_r, !mmul_scale_l, (conjugate_id 3 g Ug), E, (conjugate_mul 3 g _ _ Ug). reflexivity.
Qed.

(** ** Stout links *)
(** the exponential of A is computed exactly: no expansion in a small quantity is used *)
Definition exp_exact (n : nat) (A : mat) : Prop :=
  match n with
  | 3 => separated A /\ (cc1 A = 0 \/ DBL_MIN <= cc1 A)%R
  | _ => (zz A = 0 \/ SINTOLSU2 * SINTOLSU2 <= zz A)%R
  end.
Lemma exponentiate_exact : forall n U Q, (n = 2 \/ n = 3)%nat -> hermitian n (mx n Q) -> traceless n (mx n Q) ->
  exp_exact n (mx n Q) -> exists r, exponentiate n U Q = Some r /\ frame (n*n) r U /\
    is_exp n (mscale Ci (mx n Q)) (mx n r) /\ SUn n (mx n r).
Proof.
  intros n U Q Hn H T X. destruct Hn as [Hn|Hn]; subst n; cbn [exponentiate].
  - destruct (exponentiate_2_ok U Q H T) as ((E & IE & SE & _ & Ex) & F). specialize (Ex X).
    eexists. split; [reflexivity|]. split; [exact F|]. split.
    + eapply is_exp_ext; [reflexivity|symmetry; exact Ex|exact IE].
    + apply SUn_2. eapply SU2_meq; [symmetry; exact Ex|exact SE].
  - destruct (exponentiate_3_ok U Q H T) as (r & E & Er & F & IE & SE & _ & Ex). destruct X as [X1 X2]. specialize (Ex X1 X2).
    exists r. split; [exact Er|]. split; [exact F|]. split.
    + eapply is_exp_ext; [reflexivity|symmetry; exact Ex|exact IE].
    + apply SUn_3. eapply SU3_meq; [symmetry; exact Ex|exact SE].
Qed.
Definition stout_q (n : nat) (al : R) (S U : mat) : mat := mscale (RtoC al) (trf n (herm (mmul n S (dag U)))).
Lemma stout_q_ok : forall n al S U, (0 < n)%nat -> hermitian n (stout_q n al S U) /\ traceless n (stout_q n al S U).
Proof.
  intros n al S U Hn. split.
  - unfold hermitian, stout_q. rewrite dag_scale, conj_RtoC. pose proof (trf_herm_hermitian n (mmul n S (dag U)) Hn) as H.
    unfold hermitian in H. now rewrite H.
  - unfold traceless, stout_q. rewrite mtr_scale. rewrite (trf_traceless n _ Hn). ring.
Qed.
Lemma exponentiate_ext : forall n U Q Q', (forall k, (k < n*n)%nat -> Q k = Q' k) -> (n = 2 \/ n = 3)%nat -> exponentiate n U Q = exponentiate n U Q'.
Proof.
  intros n U Q Q' E [Hn|Hn]; subst n; cbn [exponentiate].
  - unfold exponentiate_2. rewrite !E by lia. reflexivity.
  - unfold exponentiate_3. rewrite !E by lia. reflexivity.
Qed.
Lemma stout_form : forall n sl S U al be, (n = 2 \/ n = 3)%nat -> shaped n (mmul n (mx n S) (dag (mx n U))) ->
  exists q, meq n (mx n q) (stout_q n al (mx n S) (mx n U)) /\
    project_STOUT n sl S U al be = match exponentiate n (multab_dag n (fun _ => C0) S U) q with None => None | Some b => Some (multab_suNC n sl b U) end.
Proof.
  intros n sl S U al be Hn Sh. unfold project_STOUT.
  destruct (multab_dag_ok n (fun _ => C0) S U) as [Eb _]. set (b := multab_dag n (fun _ => C0) S U) in *.
  set (a0 := upd (fun _ => C0) 0 (RtoC be)).
  assert (Hp : (0 < n)%nat) by lia.
  assert (Sb : shaped n (mx n b)).
  { intro E. destruct (Sh E) as [S1 S2]. subst n. split; rewrite !(Eb _ _) by lia; assumption. }
  destruct (Hermitian_proj_ok n a0 b Hp Sb) as [Ea _].
  set (h := Hermitian_proj n a0 b) in *.
  assert (Eh : meq n (mx n h) (trf n (herm (mmul n (mx n S) (dag (mx n U)))))).
  { rewrite Ea. assert (He : meq n (herm (mx n b)) (herm (mmul n (mx n S) (dag (mx n U))))) by (unfold herm, aherm; now rewrite Eb).
    assert (Et : mtr n (herm (mx n b)) = mtr n (herm (mmul n (mx n S) (dag (mx n U))))) by now rewrite He.
    unfold trf. rewrite Et. now rewrite He. }
  pose proof (trf_herm_hermitian n (mmul n (mx n S) (dag (mx n U))) Hp) as HH.
  pose proof (trf_traceless n (herm (mmul n (mx n S) (dag (mx n U)))) Hp) as TT.
  unfold hermitian in HH. unfold traceless in TT. rewrite <- Eh in HH, TT.
  eexists. split; [|reflexivity].
  transitivity (mscale (RtoC al) (mx n h)); [|unfold stout_q; now rewrite Eh].
  clear Ea Eh Sb. clearbody h. destruct Hn as [Hn|Hn]; subst n.
  - destruct (herm2_parts (mx 2 h) HH TT) as (_ & E10 & E11). unfold mx in E10, E11. cbn [Nat.add Nat.mul] in E10, E11.
    split2; unfold mscale, mx, upd; cbn [Nat.add Nat.mul Nat.eqb]; rewrite ?E10, ?E11; autorewrite with conj; ring.
  - pose proof (traceless3 (mx 3 h) TT) as L.
    pose proof (HH 1 0 ltac:(lia) ltac:(lia))%nat as H10. pose proof (HH 2 0 ltac:(lia) ltac:(lia))%nat as H20.
    pose proof (HH 2 1 ltac:(lia) ltac:(lia))%nat as H21. unfold dag, mx in *. cbn [Nat.add Nat.mul] in *.
    split3; unfold mscale, mx, upd; cbn [Nat.add Nat.mul Nat.eqb]; rewrite ?L, <- ?H10, <- ?H20, <- ?H21; autorewrite with conj; ring.
Qed.
Lemma stout_ok : forall n sl S U al be, (n = 2 \/ n = 3)%nat -> SUn n (mx n U) -> shaped n (mmul n (mx n S) (dag (mx n U))) ->
  exp_exact n (stout_q n al (mx n S) (mx n U)) ->
  exists r E, project_STOUT n sl S U al be = Some r /\ is_exp n (mscale Ci (stout_q n al (mx n S) (mx n U))) E /\ SUn n E /\
    holds n r sl (mmul n E (mx n U)).
Proof.
  intros n sl S U al be Hn HU Sh X. destruct (stout_form n sl S U al be Hn Sh) as (q & Eq & Ep). rewrite Ep.
  destruct (stout_q_ok n al (mx n S) (mx n U) ltac:(lia)) as [H T].
  assert (H' : hermitian n (mx n q)) by (unfold hermitian in *; now rewrite Eq).
  assert (T' : traceless n (mx n q)) by (unfold traceless in *; now rewrite Eq).
  assert (X' : exp_exact n (mx n q)).
  { destruct Hn as [Hn|Hn]; subst n; cbn [exp_exact] in *.
    - unfold zz in *. now rewrite Eq.
    - destruct X as [X1 X2]. split; [|unfold cc1 in *; now rewrite Eq].
      intros s t Hs Ht. apply X1; unfold eigen3 in *; [now rewrite Eq in Hs|now rewrite Eq in Ht]. }
  destruct (exponentiate_exact n (multab_dag n (fun _ => C0) S U) q Hn H' T' X') as (b & Er & _ & IE & SE). rewrite Er.
  do 2 eexists. split; [reflexivity|]. split; [eapply is_exp_ext; [now rewrite <- Eq|reflexivity|exact IE]|].
  split; [exact SE|]. now apply multab_suNC_ok.
Qed.
(** the projected staple transforms like a matrix at the site of the link *)
Lemma aherm_conj : forall n g A, meq n (aherm (mmul n (mmul n g A) (dag g))) (mmul n (mmul n g (aherm A)) (dag g)).
Proof.
  intros n g A. unfold aherm. rewrite mmul_scale_r, mmul_scale_l, mmul_sub_r, mmul_sub_l.
  assert (E : meq n (dag (mmul n (mmul n g A) (dag g))) (mmul n (mmul n g (dag A)) (dag g))).
  { rewrite !dag_mmul, dag_dag. now rewrite mmul_assoc. }
  now rewrite E.
Qed.
Lemma stout_q_conj : forall n g h al S U S' U', unitary n g -> unitary n h ->
  meq n S' (mmul n (mmul n g S) (dag h)) -> meq n U' (mmul n (mmul n g U) (dag h)) ->
  meq n (mmul n S' (dag U')) (mmul n (mmul n g (mmul n S (dag U))) (dag g)) /\
  meq n (stout_q n al S' U') (mmul n (mmul n g (stout_q n al S U)) (dag g)).
Proof.
  intros n g h al S U S' U' Ug Uh ES EU.
  assert (E : meq n (mmul n S' (dag U')) (mmul n (mmul n g (mmul n S (dag U))) (dag g))).
  { rewrite ES, EU, !dag_mmul, dag_dag, !mmul_assoc. now rewrite (unitary_cancel_l n h _ Uh). }
  split; [exact E|].
  assert (Eh : meq n (herm (mmul n S' (dag U'))) (mmul n (mmul n g (herm (mmul n S (dag U)))) (dag g))).
  { unfold herm. rewrite mmul_scale_r, mmul_scale_l, <- aherm_conj. unfold aherm. now rewrite E. }
  unfold stout_q. rewrite mmul_scale_r, mmul_scale_l. unfold trf.
  assert (Et : mtr n (herm (mmul n S' (dag U'))) = mtr n (herm (mmul n S (dag U)))) by (rewrite Eh; now apply conjugate_tr).
  rewrite Et, Eh. rewrite mmul_sub_r, mmul_sub_l, mmul_scale_r, mmul_scale_l, conjugate_id by assumption.
  reflexivity.
Qed.
(** sums of SU(2) matrices *)
Lemma quat_add : forall A B, quaternionic A -> quaternionic B -> quaternionic (madd A B).
Proof. intros A B [A1 A2] [B1 B2]. unfold quaternionic, madd. rewrite A1, A2, B1, B2. autorewrite with conj. split; ring. Qed.
Lemma quat_mul : forall A B, quaternionic A -> quaternionic B -> quaternionic (mmul 2 A B).
Proof.
  intros A B [A1 A2] [B1 B2]. unfold quaternionic, mmul. cbn [csum]. rewrite A1, A2, B1, B2. autorewrite with conj. split; ring.
Qed.
Lemma quat_dag : forall A, quaternionic A -> quaternionic (dag A).
Proof. intros A [A1 A2]. unfold quaternionic, dag. rewrite A1, A2. autorewrite with conj. split; ring. Qed.
Lemma quat_zero : quaternionic mzero.
Proof. unfold quaternionic, mzero. rewrite conj_0. split; ring. Qed.
Lemma quat_SU2 : forall A, SUn 2 A -> quaternionic A.
Proof. intros A H. apply SUn_2, SU2_form in H. destruct H as [H1 H2]. split; assumption. Qed.
Lemma quat_ext : forall A B, meq 2 A B -> quaternionic B -> quaternionic A.
Proof. intros A B E [H1 H2]. split; rewrite !E by lia; assumption. Qed.
Lemma quat_staple : forall ND V lat i mu dir, geom_ok ND V lat -> group_field 2 ND V lat -> (i < V)%nat -> (mu < dir)%nat -> (dir <= ND)%nat ->
  quaternionic (staple_sum 2 lat i mu dir).
Proof.
  intros ND V lat i mu dir G F Hi Hm Hd. unfold staple_sum.
  assert (A : forall nu, In nu (others mu dir) -> (nu < dir)%nat).
  { intros nu H. unfold others in H. apply filter_In in H. destruct H as [H _]. apply in_seq in H. lia. }
  induction (others mu dir) as [|nu l IH]; cbn [map msum fold_right].
  - apply quat_zero.
  - apply quat_add; [|apply IH; intros; apply A; now right].
    assert (Hn : (nu < ND)%nat) by (specialize (A nu (or_introl eq_refl)); lia).
    assert (Q : forall j k, (j < V)%nat -> (k < ND)%nat -> quaternionic (lnk 2 lat j k)) by (intros; now apply quat_SU2, F).
    assert (Hm' : (mu < ND)%nat) by lia.
    pose proof (g_nbr _ _ _ G) as GN. pose proof (g_bck _ _ _ G) as GB.
    unfold staple. apply quat_add; repeat apply quat_mul; try apply quat_dag; apply Q; auto.
Qed.
Lemma stout_lattice : forall n ND V g lat lat' al be sl sl' S S' i mu dir, (n = 2 \/ n = 3)%nat ->
  geom_ok ND V lat -> group_field n ND V lat -> group_gauge n V g -> gauged n ND V g lat lat' ->
  (i < V)%nat -> (mu < dir)%nat -> (dir <= ND)%nat ->
  meq n (mx n S) (staple_sum n lat i mu dir) -> meq n (mx n S') (staple_sum n lat' i mu dir) ->
  exp_exact n (stout_q n al (mx n S) (lnk n lat i mu)) ->
  exists r r', project_STOUT n sl S (O (lat i) mu) al be = Some r /\ project_STOUT n sl' S' (O (lat' i) mu) al be = Some r' /\
    SUn n (mx n r) /\ meq n (mx n r') (mmul n (mmul n (g i) (mx n r)) (dag (g (nbr (lat i) mu)))).
Proof.
  intros n ND V g lat lat' al be sl sl' S S' i mu dir Hn G F Gg Ga Hi Hm Hd ES ES' X.
  assert (Hmu : (mu < ND)%nat) by lia.
  assert (Hj : (nbr (lat i) mu < V)%nat) by now apply (g_nbr _ _ _ G).
  assert (G' : geom_ok ND V lat') by (eapply geom_ok_same; [apply Ga|exact G]).
  pose proof (gauged_group n ND V g lat lat' (g_nbr _ _ _ G) Gg F Ga) as F'.
  assert (Ug : unitary n (g i)) by apply (Gg i Hi). assert (Uh : unitary n (g (nbr (lat i) mu))) by apply (Gg _ Hj).
  assert (EU : meq n (mx n (O (lat' i) mu)) (mmul n (mmul n (g i) (mx n (O (lat i) mu))) (dag (g (nbr (lat i) mu))))) by (apply Ga; assumption).
  assert (EST : meq n (mx n S') (mmul n (mmul n (g i) (mx n S)) (dag (g (nbr (lat i) mu))))).
  { rewrite ES, ES'. apply (staple_sum_gauged n ND V); try assumption. intros j Hj'. apply (Gg j Hj'). }
  destruct (stout_q_conj n (g i) (g (nbr (lat i) mu)) al (mx n S) (mx n (O (lat i) mu)) (mx n S') (mx n (O (lat' i) mu)) Ug Uh EST EU) as [_ EQ].
  assert (Sh : shaped n (mmul n (mx n S) (dag (mx n (O (lat i) mu))))).
  { intro E2. subst n. apply quat_mul; [|apply quat_dag, quat_SU2, (F i mu Hi Hmu)].
    eapply quat_ext; [exact ES|]. eapply quat_staple; eassumption. }
  assert (Sh' : shaped n (mmul n (mx n S') (dag (mx n (O (lat' i) mu))))).
  { intro E2. subst n. apply quat_mul; [|apply quat_dag, quat_SU2, (F' i mu Hi Hmu)].
    eapply quat_ext; [exact ES'|]. eapply quat_staple; eassumption. }
  destruct (stout_form n sl S (O (lat i) mu) al be Hn Sh) as (q & Eq & Ep).
  destruct (stout_form n sl' S' (O (lat' i) mu) al be Hn Sh') as (q' & Eq' & Ep').
  destruct (stout_q_ok n al (mx n S) (mx n (O (lat i) mu)) ltac:(lia)) as [H T].
  assert (H1 : hermitian n (mx n q)) by (unfold hermitian in *; now rewrite Eq).
  assert (T1 : traceless n (mx n q)) by (unfold traceless in *; now rewrite Eq).
  assert (X1 : exp_exact n (mx n q)).
  { unfold lnk in X. destruct Hn as [Hn|Hn]; subst n; cbn [exp_exact] in *.
    - unfold zz in *. now rewrite Eq.
    - destruct X as [X1 X2]. split; [|unfold cc1 in *; now rewrite Eq].
      intros s t Hs Ht. apply X1; unfold eigen3 in *; [now rewrite Eq in Hs|now rewrite Eq in Ht]. }
  assert (EC : meq n (mx n q') (mmul n (mmul n (g i) (mx n q)) (dag (g i)))) by (rewrite Eq, Eq'; exact EQ).
  destruct (exponentiate_covariant n (g i) (multab_dag n (fun _ => C0) S (O (lat i) mu)) (multab_dag n (fun _ => C0) S' (O (lat' i) mu)) q q' Hn Ug H1 T1 EC)
    as (b & b' & Eb & Eb' & Cov).
  destruct (exponentiate_exact n (multab_dag n (fun _ => C0) S (O (lat i) mu)) q Hn H1 T1 X1) as (b2 & Eb2 & _ & _ & SE).
  rewrite Eb in Eb2. inversion Eb2; subst b2.
  assert (SE' : SUn n (mx n b')).
  { eapply SUn_ext; [symmetry; exact Cov|]. apply SUn_mmul; [apply SUn_mmul; [apply Gg; exact Hi|exact SE]|apply SUn_dag, Gg; exact Hi]. }
  exists (multab_suNC n sl b (O (lat i) mu)), (multab_suNC n sl' b' (O (lat' i) mu)).
  rewrite Ep, Ep', Eb, Eb'. split; [reflexivity|]. split; [reflexivity|].
  destruct (multab_suNC_ok n sl b (O (lat i) mu) SE (F i mu Hi Hmu)) as [M1 _].
  destruct (multab_suNC_ok n sl' b' (O (lat' i) mu) SE' (F' i mu Hi Hmu)) as [M2 _].
  split; [eapply SUn_ext; [symmetry; exact M1|]; apply SUn_mmul; [exact SE|now apply F]|].
  rewrite M1, M2, Cov, EU, !mmul_assoc. now rewrite (unitary_cancel_l n (g i) _ Ug).
Qed.
