(** Proofs about givens_reunit, continued: what it does and does not maximise. *)
From Coq Require Import PeanoNat Lia List Reals Lra.
From Verif Require Import CMat Det Arr MatSpec MmulModel MatModel MmulProofs MatProofs InvProofs Su2Model Su2Proofs GramModel GramProofs FieldProofs AxialModel AxialProofs AxialProofs2 GivensProofs.
Import ListNotations.
Local Open Scope C_scope.

(** * Two colours: the maximum over SU(2) *)
Lemma SU2_embed : forall X, SUn 2 X -> meq 2 X (embed 0 1 (X 0%nat 0%nat) (X 0%nat 1%nat)) /\ unit2 (X 0%nat 0%nat) (X 0%nat 1%nat).
Proof.
  intros X H. pose proof H as H'. apply SUn_2, SU2_form in H'. destruct H' as [R1 R0].
  split; [split2; cbn; congruence|].
  destruct H as [[U1 _] _]. specialize (U1 0%nat 0%nat ltac:(lia) ltac:(lia)). unfold mmul, dag in U1.
  cbn [csum] in U1. unfold unit2. change (mid 0%nat 0%nat) with C1 in U1.
  destruct (X 0%nat 0%nat), (X 0%nat 1%nat). apply (f_equal re) in U1. unfold norm2. cunfold. lra.
Qed.
Lemma cauchy4 : forall a b c d p q r s : R, (a*a + b*b + (c*c + d*d) = 1)%R ->
  ((a*p + b*q + c*r + d*s) * (a*p + b*q + c*r + d*s) <= p*p + q*q + (r*r + s*s))%R.
Proof.
  intros a b c d p q r s H.
  assert (E : ((p*p + q*q + (r*r + s*s)) * (a*a + b*b + (c*c + d*d)) - (a*p + b*q + c*r + d*s) * (a*p + b*q + c*r + d*s) =
    (a*q - b*p)*(a*q - b*p) + (a*r - c*p)*(a*r - c*p) + (a*s - d*p)*(a*s - d*p) + (b*r - c*q)*(b*r - c*q) + (b*s - d*q)*(b*s - d*q) + (c*s - d*r)*(c*s - d*r))%R) by ring.
  rewrite H in E. assert (Q : forall x : R, (0 <= x*x)%R) by (intro; nra).
  pose proof (Q (a*q - b*p)%R). pose proof (Q (a*r - c*p)%R). pose proof (Q (a*s - d*p)%R).
  pose proof (Q (b*r - c*q)%R). pose proof (Q (b*s - d*q)%R). pose proof (Q (c*s - d*r)%R). lra.
Qed.
Lemma overlap_bound : forall s0 s1 p q, unit2 p q -> (re (conj p * s0 + conj q * s1)%C <= sqrt (norm2 s0 + norm2 s1))%R.
Proof.
  intros [s0 s0'] [s1 s1'] [a b] [c d] H. unfold unit2, norm2 in H. unfold norm2. cunfold.
  match goal with |- (?l <= _)%R => replace l with (a*s0 + b*s0' + c*s1 + d*s1')%R by ring end.
  pose proof (cauchy4 a b c d s0 s0' s1 s1' H) as K. revert K. set (x := (a*s0 + b*s0' + c*s1 + d*s1')%R). intro K.
  apply Rle_trans with (Rabs x); [apply Rle_abs|]. rewrite <- sqrt_Rsqr_abs. apply sqrt_le_1_alt. exact K.
Qed.
Lemma SU2_overlap : forall U W X, SUn 2 W -> SUn 2 X -> let T := mmul 2 U (dag W) in
  let s0 := T 0%nat 0%nat + conj (T 1%nat 1%nat) in let s1 := T 0%nat 1%nat - conj (T 1%nat 0%nat) in
  exists p q, unit2 p q /\ meq 2 X (mmul 2 (embed 0 1 p q) W) /\ overlap 2 U X = re (conj p * s0 + conj q * s1).
Proof.
  intros U W X HW HX T s0 s1. assert (HP : SUn 2 (mmul 2 X (dag W))) by (apply SUn_mmul; [assumption|now apply SUn_dag]).
  destruct (SU2_embed _ HP) as [E U2]. eexists _, _. split; [exact U2|]. 
  assert (EX : meq 2 X (mmul 2 (embed 0 1 (mmul 2 X (dag W) 0%nat 0%nat) (mmul 2 X (dag W) 0%nat 1%nat)) W)).
  { rewrite <- E, mmul_assoc. destruct HW as [[_ I] _]. now rewrite I, mmul_1_r. }
  split; [exact EX|]. revert EX. set (p := mmul 2 X (dag W) 0%nat 0%nat). set (q := mmul 2 X (dag W) 0%nat 1%nat). intro EX.
  unfold overlap. rewrite EX, dag_mmul, <- mmul_assoc. fold T. rewrite re_mtr_embed_dag by lia. fold s0 s1.
  replace (re (mtr 2 T)) with (re s0); [lra|]. unfold s0, mtr. cbn [csum]. destruct (T 0%nat 0%nat), (T 1%nat 1%nat). cunfold. ring.
Qed.
Lemma givens_two_max : forall tol tmp U r, leading 2 (mx 2 U) -> givens_reunit 2 tol tmp U = Some r ->
  forall X, SUn 2 X -> (overlap 2 (mx 2 U) X <= overlap 2 (mx 2 U) (mx 2 r))%R /\
    (overlap 2 (mx 2 U) X = overlap 2 (mx 2 U) (mx 2 r) -> meq 2 X (mx 2 r)).
Proof.
  intros tol tmp U r L E X HX. destruct (givens_two_tracks tol tmp U L) as [W G].
  set (w := gram_reunit 2 (equiv 2 tmp U)) in *. cbv zeta in G.
  destruct (SU2_overlap (mx 2 U) (mx 2 w) X W HX) as (p & q & PQ & EX & OX). cbv zeta in OX.
  set (T := mmul 2 (mx 2 U) (dag (mx 2 w))) in *.
  set (s0 := T 0%nat 0%nat + conj (T 1%nat 1%nat)) in *. set (s1 := T 0%nat 1%nat - conj (T 1%nat 0%nat)) in *.
  pose proof (givens_su2_ok s0 s1) as K.
  destruct (givens_su2 s0 s1) as [[t0 t1]|]; [|congruence].
  destruct G as (r' & E' & F & U2 & M). rewrite E in E'. injection E' as <-. cbv zeta in K. destruct K as (D & _ & K0 & K1).
  assert (OR : overlap 2 (mx 2 U) (mx 2 r) = sqrt (norm2 s0 + norm2 s1)).
  { unfold overlap. rewrite M, dag_mmul, <- mmul_assoc. fold T. rewrite re_mtr_embed_dag by lia. fold s0 s1.
    rewrite (rot_gain s0 s1 t0 t1 _ U2 K0 K1).
    replace (re (mtr 2 T)) with (re s0); [lra|]. unfold s0, mtr. cbn [csum]. destruct (T 0%nat 0%nat), (T 1%nat 1%nat). cunfold. ring. }
  rewrite OR, OX. split; [now apply overlap_bound|]. intro Q.
  set (d := sqrt (norm2 s0 + norm2 s1)) in *. rewrite K0, K1 in Q.
  assert (Z : p = t0 /\ q = t1).
  { clear - Q PQ U2 D. unfold unit2, norm2 in *. destruct p as [a b], q as [c e], t0 as [a' b'], t1 as [c' e']. cunfold.
    assert (S : (a*a' + b*b' + c*c' + e*e' = 1)%R).
    { apply (Rmult_eq_reg_l d); [|lra]. lra. }
    assert (N : ((a-a')*(a-a') + (b-b')*(b-b') + (c-c')*(c-c') + (e-e')*(e-e') = 0)%R) by lra.
    assert (a = a' /\ b = b' /\ c = c' /\ e = e') as (-> & -> & -> & ->).
    { assert (forall x y z w : R, x*x + y*y + z*z + w*w = 0 -> x = 0 /\ y = 0 /\ z = 0 /\ w = 0)%R by (intros; repeat split; nra).
      apply H in N. lra. }
    split; reflexivity. }
  destruct Z as [-> ->]. now rewrite EX, M.
Qed.

(** * Three colours *)
Definition dg (a b c : R) : arr := fun x => match x with 0%nat => RtoC a | 4%nat => RtoC b | 8%nat => RtoC c | _ => C0 end.
Lemma dg_one : meq 3 (mx 3 (dg 1 1 1)) mid.
Proof. split3; reflexivity. Qed.
Lemma gram_dg : forall c, meq 3 (mx 3 (gram_reunit 3 (dg 1 1 c))) mid.
Proof.
  intro c. assert (S : SUn 3 (mx 3 (dg 1 1 1))) by (apply (SUn_ext 3 mid); [now rewrite dg_one|apply SUn_mid]).
  destruct (gram_reunit_ok 3 (dg 1 1 1) ltac:(lia)) as (_ & _ & I). specialize (I S). rewrite dg_one in I. rewrite <- I.
  cbn [gram_reunit]. destruct (gram_3_form (dg 1 1 c)) as (_ & A0 & A1 & A2). destruct (gram_3_form (dg 1 1 1)) as (_ & B0 & B1 & B2).
  set (r := gram_reunit_3 (dg 1 1 c)) in *. set (s := gram_reunit_3 (dg 1 1 1)) in *.
  assert (E0 : forall i, (i < 3)%nat -> mx 3 r i 0%nat = mx 3 s i 0%nat).
  { intros i Hi. rewrite A0, B0 by assumption. unfold nrm, rnorm, col, mx, dg. destruct i as [|[|[|i]]]; [| | |lia]; reflexivity. }
  assert (E1 : forall i, (i < 3)%nat -> mx 3 r i 1%nat = mx 3 s i 1%nat).
  { intros i Hi. rewrite A1, B1 by assumption. unfold nrm at 1 2. 
    assert (E : forall k, (k < 3)%nat -> second (dg 1 1 c) k = second (dg 1 1 1) k).
    { intros k Hk. unfold second, dot, nrm, rnorm, col, mx, dg. destruct k as [|[|[|k]]]; [| | |lia]; reflexivity. }
    rewrite (E i Hi). unfold rnorm. cbn [rsum]. rewrite !E by lia. reflexivity. }
  intros i j Hi Hj. destruct j as [|[|[|j]]]; [now apply E0|now apply E1| |lia].
  rewrite A2, B2 by assumption. f_equal. unfold cofactor. f_equal. apply mdet_ext. intros x y Hx Hy. cbn [Nat.sub] in Hx, Hy. unfold minor.
  assert (K : (skip i x < 3)%nat) by (unfold skip; destruct (Nat.ltb_spec x i); lia).
  destruct y as [|[|y]]; [apply (E0 _ K)|apply (E1 _ K)|lia].
Qed.
Lemma dg_leading : forall c, leading 3 (mx 3 (dg 1 1 c)).
Proof.
  intros c a H i Hi. pose proof (H 0%nat ltac:(lia)) as H0. pose proof (H 1%nat ltac:(lia)) as H1.
  unfold tr_, mx, dg in H0, H1. cbn [csum Nat.add Nat.mul] in H0, H1.
  destruct i as [|[|i]]; [| |lia].
  - rewrite <- H0. cring.
  - rewrite <- H1. cring.
Qed.
(** the product the loop starts with *)
Lemma dg_start : forall tmp c, let U := dg 1 1 c in
  meq 3 (mx 3 (multab_dag 3 U (equiv 3 tmp U) (gram_reunit 3 (equiv 3 tmp U)))) (mx 3 U).
Proof.
  intros tmp c U. destruct (multab_dag_ok 3 U (equiv 3 tmp U) (gram_reunit 3 (equiv 3 tmp U))) as [-> _].
  rewrite (gram_equiv 3 tmp U) by lia. destruct (equiv_ok 3 tmp U) as [-> _]. unfold U. rewrite gram_dg, dag_mid. now rewrite mmul_1_r.
Qed.
Lemma givens_su2_pos : forall x, (0 < x)%R -> givens_su2 (RtoC x) C0 = Some (C1, C0).
Proof.
  intros x H. unfold givens_su2. cunfold. destruct (Req_EM_T _ _) as [Z|N]; [nra|].
  match goal with |- context [sqrt ?y] => replace y with (x * x)%R by ring end.
  rewrite sqrt_square by lra. f_equal. f_equal; apply C_eq; cunfold; field; lra.
Qed.
Lemma givens_su2_zero : givens_su2 C0 C0 = None.
Proof. unfold givens_su2. cunfold. destruct (Req_EM_T _ _) as [Z|N]; [reflexivity|lra]. Qed.

Lemma dg_entries : forall U c, meq 3 (mx 3 U) (mx 3 (dg 1 1 c)) -> U 0%nat = C1 /\ U 4%nat = C1 /\ U 8%nat = RtoC c /\
  U 1%nat = C0 /\ U 2%nat = C0 /\ U 3%nat = C0 /\ U 5%nat = C0 /\ U 6%nat = C0 /\ U 7%nat = C0.
Proof.
  intros U c E. apply agree_mx in E. rewrite !E by lia. repeat (split; [reflexivity|]). reflexivity.
Qed.
Lemma same_rot : forall a b r U w c, (a < 3)%nat -> (b < 3)%nat -> a <> b -> rotates 3 a b r -> meq 3 (mx 3 U) (mx 3 (dg 1 1 c)) -> 
  meq 3 (mx 3 w) mid -> (exists x, (0 < x)%R /\ mx 3 (dg 1 1 c) a a + conj (mx 3 (dg 1 1 c) b b) = RtoC x) ->
  exists U' w', r U w = Some (U', w') /\ meq 3 (mx 3 U') (mx 3 (dg 1 1 c)) /\ meq 3 (mx 3 w') mid.
Proof.
  intros a b r U w c Ha Hb N R EU EW (x & Hx & X). specialize (R U w). rewrite !EU, X in R by assumption.
  assert (Z : mx 3 (dg 1 1 c) a b - conj (mx 3 (dg 1 1 c) b a) = C0).
  { clear - Ha Hb N. unfold mx, dg. destruct a as [|[|[|a]]]; try lia; destruct b as [|[|[|b]]]; try lia; cbn; cring. }
  rewrite Z, givens_su2_pos in R by assumption. destruct R as (U' & w' & R1 & R2 & R3). exists U', w'. split; [exact R1|].
  rewrite R2, R3, embed_one, EU, EW, dag_mid. split; [apply mmul_1_r|apply mmul_1_l].
Qed.
Lemma dg_two : forall c, mx 3 (dg 1 1 c) 0%nat 0%nat + conj (mx 3 (dg 1 1 c) 1%nat 1%nat) = RtoC 2.
Proof. intro. cbn. apply C_eq; cunfold; ring. Qed.
Lemma dg_mixed : forall c, mx 3 (dg 1 1 c) 1%nat 1%nat + conj (mx 3 (dg 1 1 c) 2%nat 2%nat) = RtoC (1 + c).
Proof. intro. cbn. apply C_eq; cunfold; ring. Qed.
Lemma dg_mixed' : forall c, mx 3 (dg 1 1 c) 2%nat 2%nat + conj (mx 3 (dg 1 1 c) 0%nat 0%nat) = RtoC (1 + c).
Proof. intro. cbn. apply C_eq; cunfold; ring. Qed.

Lemma loop_none : forall n tol fuel old U w, rotations (sweep n) U w = None -> givens_loop n tol (S fuel) old U w = None.
Proof. intros n tol fuel old U w E. cbn [givens_loop]. now rewrite E. Qed.
(** the loop divides by zero at diag(1,1,-1) *)
Lemma givens_undefined : forall tol tmp, givens_reunit 3 tol tmp (dg 1 1 (-1)) = None.
Proof.
  intros tol tmp. pose proof (dg_start tmp (-1)) as S. cbv zeta in S. unfold givens_reunit.
  set (w := gram_reunit 3 (equiv 3 tmp (dg 1 1 (-1)))) in *. set (U1 := multab_dag 3 _ _ w) in *.
  assert (W : meq 3 (mx 3 w) mid) by (unfold w; rewrite gram_equiv by lia; apply gram_dg).
  assert (Q : rotations (sweep 3) U1 w = None); [|now rewrite (loop_none 3 tol 74 _ U1 w Q)].
  unfold sweep. cbn [rotations].
  destruct (same_rot 0 1 rotation1 U1 w (-1) ltac:(lia) ltac:(lia) ltac:(lia) rotation1_ok S W) as (U2 & w2 & -> & S2 & _).
  { exists 2%R. split; [lra|apply dg_two]. }
  pose proof (rotation2_ok U2 w2) as R. rewrite !S2, dg_mixed in R by lia.
  replace (mx 3 (dg 1 1 (-1)) 1%nat 2%nat - conj (mx 3 (dg 1 1 (-1)) 2%nat 1%nat)) with C0 in R by (cbn; cring).
  replace (RtoC (1 + -1)) with C0 in R by (apply C_eq; cunfold; ring). rewrite givens_su2_zero in R. now rewrite R.
Qed.

(** a fixed point of the loop need not be the maximum *)
Lemma givens_stuck : forall tol tmp c, (-1 < c)%R -> (0 < tol)%R ->
  exists r, givens_reunit 3 tol tmp (dg 1 1 c) = Some r /\ meq 3 (mx 3 r) mid.
Proof.
  intros tol tmp c Hc Ht. pose proof (dg_start tmp c) as S. cbv zeta in S. unfold givens_reunit.
  set (w := gram_reunit 3 (equiv 3 tmp (dg 1 1 c))) in *. set (U1 := multab_dag 3 _ _ w) in *.
  assert (W : meq 3 (mx 3 w) mid) by (unfold w; rewrite gram_equiv by lia; apply gram_dg).
  assert (G : forall fuel old U w, meq 3 (mx 3 U) (mx 3 (dg 1 1 c)) -> meq 3 (mx 3 w) mid ->
    exists w', givens_loop 3 tol fuel old U w = Some w' /\ meq 3 (mx 3 w') mid).
  { clear - Hc. induction fuel as [|fuel IH]; intros old U w S W; cbn [givens_loop]; [exists w; split; [reflexivity|assumption]|].
    unfold sweep. cbn [rotations].
    destruct (same_rot 0 1 rotation1 U w c ltac:(lia) ltac:(lia) ltac:(lia) rotation1_ok S W) as (U2 & w2 & -> & S2 & W2).
    { exists 2%R. split; [lra|apply dg_two]. }
    destruct (same_rot 1 2 rotation2 U2 w2 c ltac:(lia) ltac:(lia) ltac:(lia) rotation2_ok S2 W2) as (U3 & w3 & -> & S3 & W3).
    { exists (1 + c)%R. split; [lra|apply dg_mixed]. }
    destruct (same_rot 2 0 rotation3 U3 w3 c ltac:(lia) ltac:(lia) ltac:(lia) rotation3_ok S3 W3) as (U4 & w4 & -> & S4 & W4).
    { exists (1 + c)%R. split; [lra|apply dg_mixed']. }
    destruct (Req_EM_T _ _); [now apply IH|]. destruct (Rlt_dec _ _); [now exists w4|now apply IH]. }
  destruct (G 75%nat (speed_trace_Re 3 U1) U1 w S W) as (w' & -> & E). eexists. split; [reflexivity|].
  destruct (equiv_ok 3 (dg 1 1 c) w') as [-> _]. exact E.
Qed.
(** diag(z, z, 1/z^2) for the sixth root of unity z *)
Definition zz : C := (1/2, sqrt 3 / 2)%R.
Definition dz : mat := fun i j => if Nat.eqb i j then (if Nat.eqb i 2 then - zz else zz) else C0.

Lemma zz_unit : zz * conj zz = C1.
Proof. unfold zz. pose proof (sqrt_sqrt 3 ltac:(lra)) as Q. apply C_eq; cunfold; nra. Qed.
Lemma zz_cube : zz * zz * (- zz) = C1.
Proof. unfold zz. pose proof (sqrt_sqrt 3 ltac:(lra)) as Q. set (q := sqrt 3) in *. apply C_eq; cunfold.
  - transitivity (- (1/8) + 3/8 * (q*q))%R; [field|rewrite Q; field].
  - transitivity (- (3/8) * q + 1/8 * q * (q*q))%R; [field|rewrite Q; field].
Qed.
Lemma dz_SUn : SUn 3 dz.
Proof.
  pose proof zz_unit as Z. assert (Z' : conj zz * zz = C1) by (rewrite <- Z; ring).
  split; [split|].
  - split3; unfold mmul, dag, dz, mid; cbn [csum Nat.eqb]; autorewrite with conj; try (rewrite <- Z at 1; ring); try ring; cring.
  - split3; unfold mmul, dag, dz, mid; cbn [csum Nat.eqb]; autorewrite with conj; try (rewrite <- Z at 1; ring); try ring; cring.
  - rewrite <- zz_cube. unfold mdet, cofactor, minor, skip, dz, sgn. cbn -[Cadd Cmul Copp C1 C0 zz conj]. ring.
Qed.
Lemma givens_not_max : forall tol tmp r, (0 < tol)%R -> givens_reunit 3 tol tmp (dg 1 1 (-3/4)) = Some r ->
  (overlap 3 (mx 3 (dg 1 1 (-3/4))) (mx 3 r) < overlap 3 (mx 3 (dg 1 1 (-3/4))) dz)%R.
Proof.
  intros tol tmp r Ht E. destruct (givens_stuck tol tmp (-3/4) ltac:(lra) Ht) as (r' & E' & M). rewrite E in E'. injection E' as <-.
  rewrite (overlap_ext 3 _ _ _ M). unfold overlap, mtr, mmul, dag, dz, mx, dg, mid.
  cbn [csum Nat.eqb Nat.add Nat.mul]. unfold zz. cunfold. lra.
Qed.
