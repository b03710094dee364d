(** givens_reunit improves whenever a rotation in one SU(2) subgroup would. *)
From Coq Require Import PeanoNat Lia List ZArith Reals Lra Setoid.
From Verif Require Import CMat Det Arr MatSpec MmulModel MmulProofs MatModel MatProofs MatProofs2 Su2Model Su2Proofs GramModel GramProofs AxialModel GivensProofs GivensProofs2.
Import ListNotations.
Local Open Scope C_scope.

(** no rotation of the plane a, b makes the trace larger *)
Definition best (n a b : nat) (U : mat) : Prop := forall t0 t1, unit2 t0 t1 ->
  (re (mtr n (mmul n U (dag (embed a b t0 t1)))) <= re (mtr n U))%R.
Lemma best_ext : forall n a b U V, meq n U V -> best n a b U -> best n a b V.
Proof. intros n a b U V E H t0 t1 Ht. rewrite <- E. now apply H. Qed.
Lemma embed_swap : forall n a b t0 t1, a <> b -> meq n (embed a b t0 t1) (embed b a (conj t0) (- conj t1)).
Proof.
  intros n a b t0 t1 N i j _ _. unfold embed. eqbs; try reflexivity; try congruence;
    destruct t0, t1; apply C_eq; cunfold; ring.
Qed.
Lemma best_swap : forall n a b U, a <> b -> best n b a U -> best n a b U.
Proof.
  intros n a b U N H t0 t1 Ht. rewrite (embed_swap n a b t0 t1 N). apply H.
  unfold unit2, norm2 in *. destruct t0, t1. cunfold. cbn in Ht. lra.
Qed.

Lemma rotate_still : forall n a b r U w U' w', (a < n)%nat -> (b < n)%nat -> a <> b -> rotates n a b r -> r U w = Some (U', w') ->
  (re (mtr n (mx n U')) <= re (mtr n (mx n U)))%R -> meq n (mx n U') (mx n U) /\ best n a b (mx n U).
Proof.
  intros n a b r U w U' w' Ha Hb N R E L. specialize (R U w).
  pose proof (givens_su2_ok (mx n U a a + conj (mx n U b b)) (mx n U a b - conj (mx n U b a))) as G.
  destruct (givens_su2 _ _) as [[t0 t1]|]; [|congruence]. destruct R as (U1 & w1 & R1 & R2 & R3).
  rewrite E in R1. injection R1 as <- <-. cbv zeta in G. destruct G as (D & U2 & G0 & G1).
  set (d := sqrt _) in *.
  rewrite R2, re_mtr_embed_dag in L by assumption. rewrite (rot_gain _ _ t0 t1 d U2 G0 G1) in L.
  assert (T : t0 = C1 /\ t1 = C0).
  { rewrite G0 in L. clear G0 G1 R2 R3. unfold unit2, norm2 in U2. destruct t0 as [p q], t1 as [x y]. cunfold. cbn in U2.
    assert (P : (1 <= p)%R) by nra. split; apply C_eq; cbn; nra. }
  destruct T as [-> ->]. split.
  - rewrite R2, embed_one, dag_mid. apply mmul_1_r.
  - intros s0 s1 Hs. rewrite re_mtr_embed_dag by assumption. rewrite G0, G1. clear - Hs D. unfold unit2, norm2 in Hs.
    destruct s0 as [p q], s1 as [x y]. cunfold. cbn in Hs. assert (p <= 1)%R by nra. nra.
Qed.
Lemma rotations_still : forall n rs U w U' w', (2 <= n)%nat -> (forall r, In r rs -> a_rotation n r) -> forall U0, tracks n U0 U w ->
  rotations rs U w = Some (U', w') -> (re (mtr n (mx n U')) <= re (mtr n (mx n U)))%R ->
  forall a b r, In r rs -> (a < n)%nat -> (b < n)%nat -> a <> b -> rotates n a b r -> best n a b (mx n U).
Proof.
  intros n rs. induction rs as [|r rs IH]; intros U w U' w' Hn HR U0 T E L a b r1 I Ha Hb N Rr; [destruct I|]. cbn [rotations] in E.
  destruct (r U w) as [[U1 w1]|] eqn:E1; [|discriminate].
  destruct (rotate_tracks n U0 r U w U1 w1 Hn (HR r (or_introl eq_refl)) T E1) as [T1 L1].
  destruct (rotations_tracks n U0 rs U1 w1 U' w' Hn (fun r H => HR r (or_intror H)) T1 E) as [T2 L2].
  destruct (HR r (or_introl eq_refl)) as (a' & b' & Ha' & Hb' & N' & R').
  destruct (rotate_still n a' b' r U w U1 w1 Ha' Hb' N' R' E1 ltac:(lra)) as [S _].
  destruct I as [->|I].
  - apply (rotate_still n a b r1 U w U1 w1); try assumption. lra.
  - apply (best_ext n a b (mx n U1)); [assumption|].
    apply (IH U1 w1 U' w' Hn (fun r H => HR r (or_intror H)) U0 T1 E) with r1; try assumption. lra.
Qed.
(** every plane is visited in a sweep *)
Lemma sweep_onto : forall n a b, (3 <= n)%nat -> (a < n)%nat -> (b < n)%nat -> a <> b ->
  exists r, In r (sweep n) /\ (rotates n a b r \/ rotates n b a r).
Proof.
  assert (G : forall n a b, (a < b < n)%nat -> exists r, In r (map (rotation_n n) (seq 0 (NSU2SUBGROUPS n))) /\ rotates n a b r).
  { intros n a b H. destruct (su2_pair_onto n a b H) as (k & Hk & E). exists (rotation_n n k). split.
    - apply in_map_iff. exists k. split; [reflexivity|]. apply in_seq. lia.
    - pose proof (rotation_n_ok n k Hk) as R. now rewrite E in R. }
  intros n a b Hn Ha Hb N. destruct (Nat.eq_dec n 3) as [->|N3].
  - cbn [sweep]. pose proof rotation1_ok. pose proof rotation2_ok. pose proof rotation3_ok.
    destruct a as [|[|[|a]]], b as [|[|[|b]]]; try lia; try (exists rotation1; split; [now left|tauto]);
      try (exists rotation2; split; [now (right; left)|tauto]); (exists rotation3; split; [now (right; right; left)|tauto]).
  - assert (E : sweep n = map (rotation_n n) (seq 0 (NSU2SUBGROUPS n))) by (destruct n as [|[|[|[|n]]]]; try lia; reflexivity).
    rewrite E. destruct (Nat.lt_total a b) as [L|[L|L]]; [|lia|].
    + destruct (G n a b ltac:(lia)) as (r & I & R). exists r. tauto.
    + destruct (G n b a ltac:(lia)) as (r & I & R). exists r. tauto.
Qed.
Lemma givens_loop_still : forall n tol fuel U0 old U w w', (3 <= n)%nat -> tracks n U0 U w ->
  givens_loop n tol (S fuel) old U w = Some w' -> (overlap n U0 (mx n w') <= overlap n U0 (mx n w))%R ->
  forall a b, (a < n)%nat -> (b < n)%nat -> a <> b -> best n a b (mx n U).
Proof.
  intros n tol fuel U0 old U w w' Hn T E L a b Ha Hb N. cbn [givens_loop] in E.
  destruct (rotations (sweep n) U w) as [[U1 w1]|] eqn:E1; [|discriminate].
  destruct (rotations_tracks n U0 _ U w U1 w1 ltac:(lia) (sweep_ok n) T E1) as [T1 L1].
  assert (L2 : (overlap n U0 (mx n w1) <= overlap n U0 (mx n w'))%R).
  { assert (K : forall o, givens_loop n tol fuel o U1 w1 = Some w' -> (overlap n U0 (mx n w1) <= overlap n U0 (mx n w'))%R).
    { intros o Ho. now apply (givens_loop_ok n tol fuel U0 o U1 w1 w' ltac:(lia) T1). }
    cbv zeta in E. destruct (Req_EM_T _ _); [now apply K in E|]. destruct (Rlt_dec _ _); [|now apply K in E]. injection E as <-. lra. }
  pose proof (tracks_overlap n U0 U w T) as O1. pose proof (tracks_overlap n U0 U1 w1 T1) as O2.
  assert (L3 : (re (mtr n (mx n U1)) <= re (mtr n (mx n U)))%R) by lra.
  destruct (sweep_onto n a b Hn Ha Hb N) as (r & I & [R|R]).
  - now apply (rotations_still n (sweep n) U w U1 w1 ltac:(lia) (sweep_ok n) U0 T E1 L3 a b r).
  - apply best_swap; [assumption|]. now apply (rotations_still n (sweep n) U w U1 w1 ltac:(lia) (sweep_ok n) U0 T E1 L3 b a r); auto.
Qed.
Lemma givens_reunit_improves : forall n tol tmp U r a b t0 t1, (2 <= n)%nat -> leading n (mx n U) -> givens_reunit n tol tmp U = Some r ->
  (a < n)%nat -> (b < n)%nat -> a <> b -> unit2 t0 t1 ->
  let G := mx n (gram_reunit n U) in
  (overlap n (mx n U) G < overlap n (mx n U) (mmul n (embed a b t0 t1) G))%R ->
  (overlap n (mx n U) G < overlap n (mx n U) (mx n r))%R.
Proof.
  intros n tol tmp U r a b t0 t1 Hn L E Ha Hb N Ht G H. unfold G in *. clear G.
  set (w := gram_reunit n (equiv n tmp U)). pose proof (gram_equiv n tmp U Hn) as EG. fold w in EG.
  destruct (unit_case n) as [->|N2].
  - destruct (givens_two_max tol tmp U r L E (mmul 2 (embed a b t0 t1) (mx 2 (gram_reunit 2 U)))) as [M _]; [|lra].
    apply SUn_mmul; [now apply embed_SUn|]. apply gram_reunit_ok; [lia|assumption].
  - pose proof (givens_start n tmp U Hn L) as T. fold w in T.
    assert (E2 : exists w', givens_loop n tol 75 (speed_trace_Re n (multab_dag n U (equiv n tmp U) w)) (multab_dag n U (equiv n tmp U) w) w = Some w'
       /\ r = equiv n U w').
    { unfold givens_reunit in E. fold w in E. destruct n as [|[|[|n]]]; try lia;
      (destruct (givens_loop _ _ _ _ _ _) as [w'|]; [|discriminate]; exists w'; split; [reflexivity|now injection E as <-]). }
    destruct E2 as (w' & E2 & ->). destruct (equiv_ok n U w') as [Q _]. rewrite (overlap_ext n _ _ _ Q).
    apply Rnot_le_lt. intro Le. rewrite <- (overlap_ext n _ _ _ EG) in Le.
    pose proof (givens_loop_still n tol 74 _ _ _ _ _ ltac:(lia) T E2 Le a b Ha Hb N t0 t1 Ht) as B.
    rewrite (tracks_overlap _ _ _ _ T) in B. rewrite (overlap_ext n _ _ _ EG) in B. destruct T as [_ T]. rewrite T in B.
    apply (Rlt_not_le _ _ H). eapply Rle_trans; [|exact B]. apply Req_le. unfold overlap. rewrite dag_mmul, EG. now rewrite mmul_assoc.
Qed.
