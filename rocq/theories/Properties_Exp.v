(** C35: exponentials of traceless hermitian matrices; C33: stout smeared links.

    [is_exp n A E] (ExpSpec.v): the partial sums of the series of A^k / k! converge to E. *)
From Coq Require Import PeanoNat Reals Lra Lia List ZArith.
From Verif Require Import CMat MatSpec Det MmulModel MatModel MatEx MatProofs MmulProofs ProjModel ProjProofs ExpModel ExpSpec SpecCalc ExpProofs ExpProofs2 FieldModel FieldProofs FieldProofs2 Properties_Field.
Import ListNotations.
Local Open Scope C_scope.

(** ** C35, NC = 3 *)
(** Every traceless hermitian matrix: the call is defined (no division by zero, no acos
    outside its domain), only the nine entries of U are written, and every entry of the result
    is within 1e-17 of the exponential of i Q, which is special unitary. *)
Theorem C35_su3 : forall U Q, hermitian 3 (mx 3 Q) -> traceless 3 (mx 3 Q) ->
  exists r E, exponentiate 3 U Q = Some r /\ frame 9 r U /\ is_exp 3 (mscale Ci (mx 3 Q)) E /\ SU3 E /\
    forall i j, (i < 3)%nat -> (j < 3)%nat -> (norm2 (mx 3 r i j - E i j) <= / 10^17 * / 10^17)%R.
Proof.
  intros U Q H T. destruct (exponentiate_3_ok U Q H T) as (r & E & Er & F & X & S & N & _).
  exists r, E. auto.
Qed.
Print Assumptions C35_su3.
(** It is the exponential when the matrix is zero, or not denormally small and different
    eigenvalues differ by at least 1/10 (double eigenvalues are allowed). *)
Theorem C35_su3_exact : forall U Q, hermitian 3 (mx 3 Q) -> traceless 3 (mx 3 Q) ->
  (forall s t, det3 (msub (mx 3 Q) (mscale (RtoC s) mid)) = C0 -> det3 (msub (mx 3 Q) (mscale (RtoC t) mid)) = C0 ->
     s = t \/ (1/10 <= Rabs (s - t))%R) ->
  (re (mtr 3 (mmul 3 (mx 3 Q) (mx 3 Q))) / 6 = 0 \/ / 2^1022 <= re (mtr 3 (mmul 3 (mx 3 Q) (mx 3 Q))) / 6)%R ->
  exists r, exponentiate 3 U Q = Some r /\ frame 9 r U /\ is_exp 3 (mscale Ci (mx 3 Q)) (mx 3 r) /\ SU3 (mx 3 r).
Proof.
  intros U Q H T S D. destruct (exponentiate_exact 3 U Q (or_intror eq_refl) H T) as (r & Er & F & X & G).
  - split; [exact S|exact D].
  - exists r. split; [exact Er|]. split; [exact F|]. split; [exact X|]. now apply SUn_3.
Qed.
Print Assumptions C35_su3_exact.
(** The packed version agrees with the full one *)
Theorem C35_su3_short : forall U Q A, packed 3 Q A -> hermitian 3 A -> traceless 3 A ->
  exists r E, exponentiate_short 3 U Q = Some r /\ frame 9 r U /\ is_exp 3 (mscale Ci A) E /\ SU3 E /\
    forall i j, (i < 3)%nat -> (j < 3)%nat -> (norm2 (mx 3 r i j - E i j) <= / 10^17 * / 10^17)%R.
Proof.
  intros U Q A P H T. destruct (exponentiate_short_3_ok U Q A P H T) as (r & E & Er & F & X & S & N & _).
  exists r, E. auto.
Qed.
Print Assumptions C35_su3_short.
Theorem C35_su3_short_same : forall U Q q, packed 3 Q (mx 3 q) -> hermitian 3 (mx 3 q) -> traceless 3 (mx 3 q) ->
  exponentiate_short 3 U Q = exponentiate 3 U q.
Proof.
  intros U Q q P H T. destruct (short_3_is U Q (mx 3 q) P H T) as (q' & E & Es). cbn [exponentiate_short]. rewrite Es.
  apply (exponentiate_ext 3); [|now right]. intros k Hk. pose proof (E (k / 3) (k mod 3))%nat as Ek.
  unfold mx in Ek. rewrite (Nat.add_comm (k mod 3)), <- Nat.div_mod in Ek by lia.
  apply Ek; [apply Nat.div_lt_upper_bound; lia|apply Nat.mod_upper_bound; lia].
Qed.
Print Assumptions C35_su3_short_same.

(** ** C35, NC = 2 *)
Theorem C35_su2_partial : forall U Q, hermitian 2 (mx 2 Q) -> traceless 2 (mx 2 Q) ->
  exists r E, exponentiate 2 U Q = Some r /\ frame 4 r U /\ is_exp 2 (mscale Ci (mx 2 Q)) E /\ SU2 E /\
    (forall i j, (i < 2)%nat -> (j < 2)%nat -> (norm2 (mx 2 r i j - E i j) <= 2 / 10^9 * (2 / 10^9))%R) /\
    ((- re (det2 (mx 2 Q)) = 0 \/ 1 / 10000 * (1 / 10000) <= - re (det2 (mx 2 Q)))%R -> meq 2 (mx 2 r) E).
Proof.
  intros U Q H T. destruct (exponentiate_2_ok U Q H T) as ((E & X & S & N & Ex) & F).
  exists (exponentiate_2 U Q), E. repeat (split; [first [reflexivity|assumption]|]). exact Ex.
Qed.
Print Assumptions C35_su2_partial.
Theorem C35_su2_short_partial : forall U Q A, packed 2 Q A -> hermitian 2 A -> traceless 2 A ->
  exists r E, exponentiate_short 2 U Q = Some r /\ frame 4 r U /\ is_exp 2 (mscale Ci A) E /\ SU2 E /\
    (forall i j, (i < 2)%nat -> (j < 2)%nat -> (norm2 (mx 2 r i j - E i j) <= 2 / 10^9 * (2 / 10^9))%R) /\
    ((- re (det2 A) = 0 \/ 1 / 10000 * (1 / 10000) <= - re (det2 A))%R -> meq 2 (mx 2 r) E).
Proof.
  intros U Q A P H T. destruct (exponentiate_short_2_ok U Q A P H T) as ((E & X & S & N & Ex) & F).
  exists (exponentiate_short_2 U Q), E. repeat (split; [first [reflexivity|assumption]|]). exact Ex.
Qed.
Print Assumptions C35_su2_short_partial.
(** For matrices close to zero, but not zero, the NC = 2 expansion uses z in place of z^2: the
    result is not special unitary, and the error exceeds 1e-10. *)
Theorem C35_su2_refuted : exists Q, hermitian 2 (mx 2 Q) /\ traceless 2 (mx 2 Q) /\
  forall U, exists r, exponentiate 2 U Q = Some r /\ ~ SU2 (mx 2 r) /\
    forall E, is_exp 2 (mscale Ci (mx 2 Q)) E -> (/ 10^10 * / 10^10 < norm2 (mx 2 r 0%nat 0%nat - E 0%nat 0%nat))%R.
Proof.
  exists tiny2. split; [apply tiny2_herm|]. split; [apply tiny2_herm|].
  intros U. eexists. split; [reflexivity|]. apply exponentiate_2_fails.
Qed.
Print Assumptions C35_su2_refuted.
(** the exponential is unique, so the E of the theorems above is the exponential *)
Theorem C35_unique : forall n A E F, is_exp n A E -> is_exp n A F -> meq n E F.
Proof. exact is_exp_unique. Qed.
Print Assumptions C35_unique.

(** examples: ex_h3 and ex_h2 are traceless hermitian (MatEx.v); diag(1,0,-1) has well separated eigenvalues *)
Example C35_ex : hermitian 3 (mx 3 ex_h3) /\ traceless 3 (mx 3 ex_h3) /\ hermitian 2 (mx 2 ex_h2) /\ traceless 2 (mx 2 ex_h2).
Proof. split; [apply ex_h3_ok|]. split; [apply ex_h3_ok|]. apply ex_h2_ok. Qed.
Definition dg3 : arr := lst [C1; C0; C0; C0; C0; C0; C0; C0; - C1].
Example C35_ex_exact : hermitian 3 (mx 3 dg3) /\ traceless 3 (mx 3 dg3) /\
  (forall s t, det3 (msub (mx 3 dg3) (mscale (RtoC s) mid)) = C0 -> det3 (msub (mx 3 dg3) (mscale (RtoC t) mid)) = C0 ->
     s = t \/ (1/10 <= Rabs (s - t))%R) /\
  (/ 2^1022 <= re (mtr 3 (mmul 3 (mx 3 dg3) (mx 3 dg3))) / 6)%R.
Proof.
  assert (D : forall s, det3 (msub (mx 3 dg3) (mscale (RtoC s) mid)) = C0 -> (s = 0 \/ s = 1 \/ s = -1)%R).
  { intros s H. apply (f_equal re) in H. unfold det3, msub, mscale, mid, mx, dg3, lst in H. cbn [Nat.eqb Nat.add Nat.mul nth] in H. cunfold.
    assert (E : (s * ((s - 1) * (s + 1)) = 0)%R) by lra.
    apply Rmult_integral in E. destruct E as [E|E]; [now left|]. apply Rmult_integral in E. destruct E as [E|E]; right; [left|right]; lra. }
  split; [split3; unfold dag, mx, dg3, lst; cbn [Nat.add Nat.mul nth]; apply C_eq; cunfold; lra|].
  split; [unfold traceless, mtr, mx, dg3, lst; cbn [csum Nat.add Nat.mul nth]; apply C_eq; cunfold; lra|].
  split.
  - intros s t Hs Ht. unfold Rabs. destruct (D s Hs) as [E1|[E1|E1]], (D t Ht) as [E2|[E2|E2]]; rewrite E1, E2; destruct (Rcase_abs _); lra.
  - unfold mtr, mmul, mx, dg3, lst. cbn [csum Nat.add Nat.mul nth]. cunfold.
    apply Rle_trans with (/4)%R; [|lra]. apply Rinv_le_contravar; [lra|]. replace 1022%nat with (2 + 1020)%nat by reflexivity.
    rewrite pow_add. assert (1 <= 2^1020)%R by (apply pow_R1_Rle; lra). lra.
Qed.

(** ** C33: stout smearing *)
(** the smeared link is exp(i rho Omega) U with Omega the traceless hermitian part of (staple U^dag)/i,
    and lies in the group, whenever the exponential is computed exactly (see C35) *)
Theorem C33_stout_partial : forall n sl S U rho be, (n = 2 \/ n = 3)%nat -> SUn n (mx n U) -> shaped n (mmul n (mx n S) (dag (mx n U))) ->
  let A := mscale (RtoC rho) (trf n (herm (mmul n (mx n S) (dag (mx n U))))) in
  exp_exact n A ->
  exists r E, project_STOUT n sl S U rho be = Some r /\ is_exp n (mscale Ci A) E /\ SUn n E /\
    holds n r sl (mmul n E (mx n U)) /\ SUn n (mx n r).
Proof.
  intros n sl S U rho be Hn HU Sh A X. destruct (stout_ok n sl S U rho be Hn HU Sh X) as (r & E & Er & IE & SE & M).
  exists r, E. split; [exact Er|]. split; [exact IE|]. split; [exact SE|]. split; [exact M|].
  eapply SUn_ext; [symmetry; apply M|]. now apply SUn_mmul.
Qed.
Print Assumptions C33_stout_partial.
(** gauge covariance of the smeared link computed from the staples of all_staples *)
Theorem C33_stout_covariant_partial : forall n ds g lat lat' rho be a1 a2 b1 b2 sl sl' z i mu dir, (n = 2 \/ n = 3)%nat ->
  GeomSpec.lattice_ok ds -> navig ds lat ->
  let ND := length ds in let V := volume ds in
  group_field n ND V lat -> group_gauge n V g -> gauged n ND V g lat lat' -> (forall k, (k < n*n)%nat -> z k = C0) ->
  (i < V)%nat -> (mu < dir)%nat -> (dir <= ND)%nat ->
  let S := all_staples n a1 a2 z lat i mu dir in
  let S' := all_staples n b1 b2 z lat' i mu dir in
  exp_exact n (mscale (RtoC rho) (trf n (herm (mmul n (mx n S) (dag (lnk n lat i mu)))))) ->
  exists r r', project_STOUT n sl S (O (lat i) mu) rho be = Some r /\ project_STOUT n sl' S' (O (lat' i) mu) rho be = Some r' /\
    SUn n (mx n r) /\ meq n (mx n r') (mmul n (mmul n (g i) (mx n r)) (dag (g (nbr (lat i) mu)))).
Proof.
  intros n ds g lat lat' rho be a1 a2 b1 b2 sl sl' z i mu dir Hn Hok Nav ND V F G Ga Hz Hi Hm Hd S S' X.
  pose proof (navig_geom ds lat Hok Nav) as Geo. fold ND V in Geo.
  assert (Geo' : geom_ok ND V lat') by (eapply geom_ok_same; [apply Ga|exact Geo]).
  pose proof (gauged_group n ND V g lat lat' (g_nbr _ _ _ Geo) G F Ga) as F'.
  assert (Z : meq n (mx n z) mzero) by (intros p q Hp Hq; apply Hz; unfold mx; nia).
  destruct (all_staples_ok n ND V a1 a2 z lat i mu dir Geo F Hi Hm Hd) as [E1 _].
  destruct (all_staples_ok n ND V b1 b2 z lat' i mu dir Geo' F' Hi Hm Hd) as [E2 _].
  rewrite Z, madd_0_l in E1, E2.
  apply (stout_lattice n ND V g lat lat' rho be sl sl' S S' i mu dir); assumption.
Qed.
Print Assumptions C33_stout_covariant_partial.
(** an SU(2) link 1 with staple diag(i,-i) *)
Example C33_stout_ex : let S := lst [Ci; C0; C0; - Ci] in let U := lst [C1; C0; C0; C1] in
  SUn 2 (mx 2 U) /\ shaped 2 (mmul 2 (mx 2 S) (dag (mx 2 U))) /\
  exp_exact 2 (mscale (RtoC (1/2)) (trf 2 (herm (mmul 2 (mx 2 S) (dag (mx 2 U)))))).
Proof.
  cbv zeta. split; [|split].
  - apply SUn_2. split; [split; split2|]; unfold det2, mmul, dag, mx, mid, lst; cbn [csum Nat.add Nat.mul nth Nat.eqb]; apply C_eq; cunfold; lra.
  - intros _. split; unfold mmul, dag, mx, lst; cbn [csum Nat.add Nat.mul nth]; apply C_eq; cunfold; lra.
  - right. set (M := mmul 2 _ _).
    assert (M00 : M 0%nat 0%nat = Ci) by (unfold M, mmul, dag, mx, lst; cbn [csum Nat.add Nat.mul nth]; apply C_eq; cunfold; lra).
    assert (M01 : M 0%nat 1%nat = C0) by (unfold M, mmul, dag, mx, lst; cbn [csum Nat.add Nat.mul nth]; apply C_eq; cunfold; lra).
    assert (M10 : M 1%nat 0%nat = C0) by (unfold M, mmul, dag, mx, lst; cbn [csum Nat.add Nat.mul nth]; apply C_eq; cunfold; lra).
    assert (M11 : M 1%nat 1%nat = - Ci) by (unfold M, mmul, dag, mx, lst; cbn [csum Nat.add Nat.mul nth]; apply C_eq; cunfold; lra).
    clearbody M.
    assert (H00 : trf 2 (herm M) 0%nat 0%nat = C1).
    { rewrite trf_herm_at by lia. unfold herm, aherm, msub, mscale, dag, mid. cbn [rsum Nat.eqb INR]. rewrite M00, M11. apply C_eq; cunfold; lra. }
    assert (H11 : trf 2 (herm M) 1%nat 1%nat = - C1).
    { rewrite trf_herm_at by lia. unfold herm, aherm, msub, mscale, dag, mid. cbn [rsum Nat.eqb INR]. rewrite M00, M11. apply C_eq; cunfold; lra. }
    assert (H01 : trf 2 (herm M) 0%nat 1%nat = C0).
    { rewrite trf_herm_at by lia. unfold herm, aherm, msub, mscale, dag, mid. cbn [rsum Nat.eqb INR]. rewrite M01, M10. apply C_eq; cunfold; lra. }
    unfold zz, det2, mscale, SINTOLSU2. rewrite H00, H01, H11. cunfold. lra.
Qed.
