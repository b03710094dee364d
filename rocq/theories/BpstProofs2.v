(** The links of the instanton configuration. *)
From Coq Require Import Lia Lra.
From Verif Require Import CInt GeomModel GeomSpec GeomProofs Cplx CMat Det Arr MatModel MatSpec MatProofs ProjModel ProjProofs SpecCalc ExpModel ExpSpec ExpProofs ExpProofs2 FieldModel FieldProofs BpstModel BpstProofs.
Import ListNotations.
Local Open Scope R_scope.

(** * Specification: the potential of the instanton, eta^a_(mu nu) y_nu sigma_a, in the first two colours *)
Definition eps (i j k : nat) : R := (INR j - INR i) * (INR k - INR j) * (INR k - INR i) / 2.
Definition hooft (a mu nu : nat) : R :=
  if Nat.eqb mu 3 then (if Nat.eqb nu a then 1 else 0) else if Nat.eqb nu 3 then (if Nat.eqb mu a then -1 else 0) else eps mu a nu.
Definition direction_of (y : nat -> R) (mu a : nat) : R := hooft a mu 0 * y 0%nat + hooft a mu 1 * y 1%nat + hooft a mu 2 * y 2%nat + hooft a mu 3 * y 3%nat.
Definition algebra (c : R) (b : nat -> R) : mat := fun i j =>
  match i, j with
  | 0%nat, 0%nat => RtoC (c * b 2%nat) | 0%nat, 1%nat => (c * b 0%nat, - (c * b 1%nat))
  | 1%nat, 0%nat => (c * b 0%nat, c * b 1%nat) | 1%nat, 1%nat => RtoC (- (c * b 2%nat))
  | _, _ => C0
  end.

Lemma b_hooft y mu : (mu < 4)%nat -> b_of y mu = (direction_of y mu 0, direction_of y mu 1, direction_of y mu 2).
Proof.
  intro H. destruct mu as [|[|[|[|mu]]]]; try lia; unfold b_of, direction_of, hooft, eps, sign; cbn [Nat.eqb]; f_equal; [f_equal| |f_equal| |f_equal| |f_equal|]; cbn [INR]; field.
Qed.
Lemma exponent_mx n junk y mu : (n = 2 \/ n = 3)%nat -> (mu < 4)%nat -> meq n (mx n (exponent n junk y mu)) (algebra (coefficient y mu) (direction_of y mu)).
Proof.
  intros Hn H i j Hi Hj. unfold mx, exponent. assert (L : (j + n * i < n * n)%nat) by nia. rewrite (proj2 (Nat.ltb_lt _ _) L), (b_hooft y mu H).
  set (c := coefficient y mu). set (b0 := direction_of y mu 0). set (b1 := direction_of y mu 1). set (b2 := direction_of y mu 2). clearbody c.
  destruct Hn; subst n; destruct i as [|[|[|i]]]; try lia; destruct j as [|[|[|j]]]; try lia; cbn [Nat.add Nat.mul]; unfold pauli; cbn [Nat.eqb Nat.add]; unfold algebra; fold b0 b1 b2; clearbody b0 b1 b2; unfold RtoC; apply C_eq; cunfold; ring.
Qed.
Lemma algebra_ok n c b : (n = 2 \/ n = 3)%nat -> hermitian n (algebra c b) /\ traceless n (algebra c b).
Proof.
  intro Hn. split.
  - intros i j Hi Hj. unfold dag. destruct Hn; subst n; destruct i as [|[|[|i]]]; try lia; destruct j as [|[|[|j]]]; try lia; unfold algebra; cring.
  - unfold traceless, mtr. destruct Hn; subst n; cbn [csum]; unfold algebra; cring.
Qed.
Lemma site_ok n junk ds lat i mu x : (n = 2 \/ n = 3)%nat -> (mu < 4)%nat -> get_mom_2piBZ ds (Z.of_nat i) 4 = Some x ->
  exists r, instanton_site n junk ds lat i mu = Some r /\
  let A := algebra (coefficient (position ds x) mu) (direction_of (position ds x) mu) in
  (exp_exact n A -> is_exp n (mscale Ci A) (mx n r) /\ SUn n (mx n r)).
Proof.
  intros Hn H E. unfold instanton_site. rewrite E. cbv zeta. pose proof (exponent_mx n junk (position ds x) mu Hn H) as M. set (A := algebra _ _) in *. destruct (algebra_ok n (coefficient (position ds x) mu) (direction_of (position ds x) mu) Hn) as [Hh Ht]. fold A in Hh, Ht. set (Q := exponent n junk (position ds x) mu) in *.
  assert (Hh' : hermitian n (mx n Q)) by (unfold hermitian in *; now rewrite M). assert (Ht' : traceless n (mx n Q)) by (unfold traceless in *; now rewrite M).
  assert (So : exists r, exponentiate n (O (lat i) mu) Q = Some r).
  { destruct Hn; subst n; cbn [exponentiate]; [eauto|]. destruct (exponentiate_3_ok (O (lat i) mu) Q Hh' Ht') as (r & _ & Er & _). eauto. }
  destruct So as [r Er]. exists r. split; [exact Er|]. intro X.
  assert (X' : exp_exact n (mx n Q)).
  { destruct Hn; subst n; cbn [exp_exact] in *.
    - unfold zz, det2 in *. rewrite !(M _ _) by lia. exact X.
    - destruct X as [X1 X2]. assert (Ed : forall z, det3 (msub (mx 3 Q) (mscale (RtoC z) mid)) = det3 (msub A (mscale (RtoC z) mid))) by (intro z; unfold det3, msub; rewrite !(M _ _) by lia; reflexivity).
      assert (Ec : cc1 (mx 3 Q) = cc1 A) by (unfold cc1; now rewrite M). rewrite Ec. split; [|exact X2]. unfold separated, eigen3 in *. intros s t S T. rewrite Ed in S, T. now apply X1. }
  destruct (exponentiate_exact n (O (lat i) mu) Q Hn Hh' Ht' X') as (r' & Er' & _ & Ex & Su). rewrite Er in Er'. injection Er' as <-. split; [|exact Su].
  eapply is_exp_ext; [|reflexivity|exact Ex]. now rewrite M.
Qed.
(** no site is at the centre or in line with it *)
Lemma half_sq k : / 4 <= (IZR k + / 2) * (IZR k + / 2).
Proof. destruct (Z_le_gt_dec 0 k) as [G|L]; [apply IZR_le in G; nra|]. assert (k <= -1)%Z by lia. apply IZR_le in H. nra. Qed.
Lemma position_away ds x mu : (mu < 4)%nat -> 0 < away2 (position ds x) mu.
Proof.
  intro H. assert (P : forall nu, / 4 <= position ds x nu * position ds x nu).
  { intro nu. unfold position, centre. pose proof (half_sq (nth nu x 0 - nth nu ds 0 / 2)%Z) as S. rewrite minus_IZR in S. lra. }
  pose proof (P 0%nat). pose proof (P 1%nat). pose proof (P 2%nat). pose proof (P 3%nat). unfold away2, dist2. destruct mu as [|[|[|[|mu]]]]; try lia; cbn [Nat.eqb]; nra.
Qed.
Lemma trace_exp A E : hermitian 2 A -> traceless 2 A -> is_exp 2 (mscale Ci A) E -> re (mtr 2 E) = 2 * cos (sqrt (zz A)).
Proof.
  intros H T X. pose proof (is_exp_unique 2 _ _ _ X (exp2 A H T)) as M. destruct (herm2_parts _ H T) as (I0 & _ & E11).
  unfold mtr. cbn [csum]. rewrite !(M _ _) by lia. unfold lin2, madd, mscale, mid. cbn [Nat.eqb]. rewrite E11. destruct (A 0%nat 0%nat) as [u v]. cbn in I0. subst v. cunfold. cbn. ring.
Qed.
Lemma zz_algebra c b : zz (algebra c b) = c * c * (b 0%nat * b 0%nat + b 1%nat * b 1%nat + b 2%nat * b 2%nat).
Proof. unfold zz, det2, algebra. cunfold. cbn. ring. Qed.
Lemma integral_unique f u v : integral01 f u -> integral01 f v -> u = v.
Proof.
  intros (F & DF & ->) (G & DG & ->). set (D := fun t => F t - G t).
  assert (P : forall t, derivable_pt_lim D t 0) by (intro t; replace 0 with (f t - f t) by ring; now apply (derivable_pt_lim_minus F G)).
  assert (pr : derivable D) by (intro t; exists 0; apply P).
  assert (K : constant D). { apply (null_derivative_1 D pr). intro t. apply derive_pt_eq_0, P. }
  specialize (K 1 0). unfold D in K. lra.
Qed.
