(** Hypercubic smearing: the stout and APE projections, gauge covariance, existence. *)
From Coq Require Import PeanoNat List Reals Lia Lra Permutation Bool Setoid.
From Verif Require GeomModel GeomSpec.
From Verif Require Import CMat MatSpec MmulModel MmulProofs MatModel MatProofs MatProofs2 Det ProjProofs FieldModel FieldProofs FieldProofs2
  ExpSpec SpecCalc ExpModel ExpProofs ExpProofs2 ApeModel ApeProofs HypModel HypSpec HypProofs HypProofs3.
Import ListNotations.
Local Open Scope C_scope.

(** ** the projections *)
(** exp(i Q) U with Q the weighted traceless hermitian part of the staples times U^dag; no
    expansion in a small quantity is used (see C35) *)
Definition stout_K (n : nat) (sa al : R) (S U M : mat) : Prop :=
  let Q := mscale (RtoC sa) (trf n (herm (mmul n S (dag U)))) in
  exp_exact n Q /\ exists E, is_exp n (mscale Ci Q) E /\ meq n M (mmul n E U).
(** two colours: a positive multiple of the result is al U + sa S *)
Definition ape_K (sa al : R) (S U M : mat) : Prop :=
  exists d, (0 < d)%R /\ SUn 2 M /\ meq 2 (madd (mscale (RtoC al) U) (mscale (RtoC sa) S)) (mscale (RtoC d) M).

Lemma exp_exact_ext : forall n A B, (n = 2 \/ n = 3)%nat -> meq n A B -> exp_exact n A -> exp_exact n B.
Proof.
  intros n A B [E|E] EA H; subst n; cbn [exp_exact] in *.
  - unfold zz in *. rewrite <- !mdet_2 in *. now rewrite <- (mdet_ext 2 A B EA).
  - destruct H as [H1 H2]. split; [|unfold cc1 in *; now rewrite <- EA].
    intros s t Hs Ht. apply H1; unfold eigen3 in *; rewrite <- mdet_3 in *.
    + rewrite (mdet_ext 3 (msub A (mscale (RtoC s) mid)) (msub B (mscale (RtoC s) mid))); [exact Hs|now rewrite EA].
    + rewrite (mdet_ext 3 (msub A (mscale (RtoC t) mid)) (msub B (mscale (RtoC t) mid))); [exact Ht|now rewrite EA].
Qed.
Lemma exp_exact_conj : forall n g A, (n = 2 \/ n = 3)%nat -> unitary n g -> exp_exact n A -> exp_exact n (mmul n (mmul n g A) (dag g)).
Proof.
  intros n g A [E|E] Ug H; subst n; cbn [exp_exact] in *.
  - unfold zz in *. rewrite <- !mdet_2 in *. now rewrite conjugate_det.
  - destruct H as [H1 H2].
    assert (Ei : forall t, eigen3 (mmul 3 (mmul 3 g A) (dag g)) t -> eigen3 A t).
    { intros t Ht. unfold eigen3 in *. rewrite <- mdet_3 in *. rewrite <- Ht. rewrite <- (conjugate_det 3 g) by assumption. apply mdet_ext.
      rewrite mmul_sub_r, mmul_sub_l, mmul_scale_r, mmul_scale_l, conjugate_id by assumption. reflexivity. }
    split; [intros s t Hs Ht; apply H1; now apply Ei|]. unfold cc1 in *. now rewrite conjugate_mul, conjugate_tr.
Qed.
Lemma mpow_conj : forall n g A k, unitary n g -> meq n (mpow n (mmul n (mmul n g A) (dag g)) k) (mmul n (mmul n g (mpow n A k)) (dag g)).
Proof.
  intros n g A k Ug. induction k as [|k IH]; cbn [mpow]; [now rewrite conjugate_id|]. rewrite IH. now apply conjugate_mul.
Qed.
Lemma is_exp_conj : forall n g A E, unitary n g -> is_exp n A E -> is_exp n (mmul n (mmul n g A) (dag g)) (mmul n (mmul n g E) (dag g)).
Proof.
  intros n g A E Ug H i j Hi Hj.
  assert (Q : forall X : mat, mmul n (mmul n g X) (dag g) i j = csum n (fun b => csum n (fun a => X a b * (g i a * conj (g j b))))).
  { intro X. unfold mmul, dag. apply csum_ext. intros b Hb. rewrite <- csum_mul_r. apply csum_ext. intros a Ha. ring. }
  rewrite Q.
  apply (Ccv_ext (fun N => csum n (fun b => csum n (fun a => csum (S N) (fun k => mpow n A k a b * RtoC (/ INR (fact k))) * (g i a * conj (g j b)))))).
  - intro N. transitivity (csum (S N) (fun k => csum n (fun b => csum n (fun a => mpow n A k a b * (g i a * conj (g j b)))) * RtoC (/ INR (fact k)))).
    + transitivity (csum n (fun b => csum (S N) (fun k => csum n (fun a => mpow n A k a b * RtoC (/ INR (fact k)) * (g i a * conj (g j b)))))).
      * apply csum_ext. intros b Hb. rewrite csum_swap. apply csum_ext. intros a Ha. now rewrite csum_mul_r.
      * rewrite csum_swap. apply csum_ext. intros k Hk. rewrite <- csum_mul_r. apply csum_ext. intros b Hb. rewrite <- csum_mul_r. apply csum_ext. intros a Ha. ring.
    + apply csum_ext. intros k Hk. rewrite <- Q. f_equal. symmetry. now apply mpow_conj.
  - apply Ccv_sum. intros b Hb. apply Ccv_sum. intros a Ha. apply Ccv_mul_r. now apply H.
Qed.

Lemma stout_Kext : forall n sa al S S' U U' M, (n = 2 \/ n = 3)%nat -> meq n S S' -> meq n U U' -> stout_K n sa al S U M -> stout_K n sa al S' U' M.
Proof.
  intros n sa al S S' U U' M Hn ES EU (X & E & IE & EM).
  assert (Q : meq n (stout_q n sa S U) (stout_q n sa S' U')).
  { assert (Ep : meq n (mmul n S (dag U)) (mmul n S' (dag U'))) by now rewrite ES, EU.
    assert (Eh : meq n (herm (mmul n S (dag U))) (herm (mmul n S' (dag U')))) by (unfold herm, aherm; now rewrite Ep).
    unfold stout_q, trf. assert (Et : mtr n (herm (mmul n S (dag U))) = mtr n (herm (mmul n S' (dag U')))) by now rewrite Eh. rewrite Et. now rewrite Eh. }
  split; [eapply exp_exact_ext; eassumption|]. exists E. split; [|now rewrite <- EU].
  eapply is_exp_ext; [|reflexivity|exact IE]. unfold stout_q in Q. now rewrite Q.
Qed.
Lemma stout_Kcomp : forall n sl S U sa al M, (n = 2 \/ n = 3)%nat -> SUn n (mx n U) -> shaped n (mx n S) -> stout_K n sa al (mx n S) (mx n U) M ->
  exists r, project_STOUT n sl S U sa al = Some r /\ meq n (mx n r) M /\ SUn n M.
Proof.
  intros n sl S U sa al M Hn HU Sh (X & E & IE & EM).
  assert (Sh' : shaped n (mmul n (mx n S) (dag (mx n U)))).
  { intro E2. subst n. apply quat_mul; [now apply Sh|now apply quat_dag, quat_SU2]. }
  destruct (stout_ok n sl S U sa al Hn HU Sh' X) as (r & E' & Er & IE' & SE & [M1 _]).
  pose proof (is_exp_unique n _ _ _ IE IE') as EE. exists r. split; [exact Er|]. split.
  - now rewrite M1, EM, EE.
  - eapply SUn_ext; [symmetry; rewrite EM, EE; reflexivity|]. now apply SUn_mmul.
Qed.
Lemma stout_Kcov : forall n g h sa al S U M, (n = 2 \/ n = 3)%nat -> SUn n g -> SUn n h -> stout_K n sa al S U M ->
  stout_K n sa al (mmul n (mmul n g S) (dag h)) (mmul n (mmul n g U) (dag h)) (mmul n (mmul n g M) (dag h)).
Proof.
  intros n g h sa al S U M Hn [Ug _] [Uh _] (X & E & IE & EM).
  destruct (stout_q_conj n g h sa S U (mmul n (mmul n g S) (dag h)) (mmul n (mmul n g U) (dag h)) Ug Uh) as [_ EQ]; [reflexivity|reflexivity|].
  split.
  - eapply exp_exact_ext; [exact Hn|symmetry; exact EQ|]. now apply exp_exact_conj.
  - exists (mmul n (mmul n g E) (dag g)). split.
    + pose proof (is_exp_conj n g _ _ Ug IE) as IC. eapply is_exp_ext; [|reflexivity|exact IC].
      rewrite mmul_scale_r, mmul_scale_l. unfold stout_q in EQ. now rewrite EQ.
    + rewrite EM, !mmul_assoc. now rewrite (unitary_cancel_l n g _ Ug).
Qed.

Lemma qn_scaled : forall d M, SUn 2 M -> qn (mscale (RtoC d) M) = (d * d)%R.
Proof.
  intros d M H. pose proof (quat_square M (quat_SU2 M H)) as Q. destruct H as [[U1 _] _]. pose proof (U1 0 0 ltac:(lia) ltac:(lia))%nat as E1.
  pose proof (Q 0 0 ltac:(lia) ltac:(lia))%nat as E2. rewrite E1 in E2. unfold mid, mscale in E2. cbn [Nat.eqb] in E2.
  apply (f_equal re) in E2. assert (E : qn M = 1%R) by (cunfold; lra). clear E1 E2 Q U1.
  unfold qn, norm2 in *. unfold mscale. destruct (M 0%nat 0%nat), (M 0%nat 1%nat). cunfold. nra.
Qed.
Lemma ape_Kext : forall sa al S S' U U' M, meq 2 S S' -> meq 2 U U' -> ape_K sa al S U M -> ape_K sa al S' U' M.
Proof. intros sa al S S' U U' M ES EU (d & Hd & HM & E). exists d. split; [exact Hd|]. split; [exact HM|]. now rewrite <- ES, <- EU. Qed.
Lemma ape_Kcomp : forall tol tmp sl S U sa al M, SUn 2 (mx 2 U) -> shaped 2 (mx 2 S) -> ape_K sa al (mx 2 S) (mx 2 U) M ->
  exists r, project_APE 2 tol tmp sl S U sa al = Some r /\ meq 2 (mx 2 r) M /\ SUn 2 M.
Proof.
  intros tol tmp sl S U sa al M HU Sh (d & Hd & HM & E).
  assert (Eq : qn (blend al sa (mx 2 U) (mx 2 S)) = (d * d)%R) by (unfold blend; rewrite (qn_ext _ _ E); now apply qn_scaled).
  destruct (ape_two tol tmp sl S U sa al) as (r & Er & [M1 _] & _); [now apply quat_SU2|now apply Sh|rewrite Eq; nra|].
  exists r. split; [exact Er|]. split; [|exact HM]. rewrite M1. unfold qunit. rewrite Eq, sqrt_square by lra. unfold blend. rewrite E.
  intros i j _ _. unfold mscale. destruct (M i j). apply C_eq; cunfold; field; lra.
Qed.
Lemma ape_Kcov : forall g h sa al S U M, SUn 2 g -> SUn 2 h -> ape_K sa al S U M ->
  ape_K sa al (mmul 2 (mmul 2 g S) (dag h)) (mmul 2 (mmul 2 g U) (dag h)) (mmul 2 (mmul 2 g M) (dag h)).
Proof.
  intros g h sa al S U M Hg Hh (d & Hd & HM & E). exists d. split; [exact Hd|]. split.
  - apply SUn_mmul; [now apply SUn_mmul|now apply SUn_dag].
  - pose proof (blend_gauged 2 al sa g h U S) as B. unfold blend in B. rewrite B, E. now rewrite mmul_scale_r, mmul_scale_l.
Qed.

(** ** gauge covariance *)
Definition gauge_links (n : nat) (nb : nat -> nat -> nat) (g : nat -> mat) (mu : nat) (A : nat -> mat) (i : nat) : mat :=
  mmul n (mmul n (g i) (A i)) (dag (g (nb i mu))).
Section Cov.
Variables (n ND V : nat) (geo : lattice).
Hypothesis G : geom_ok ND V geo.
Let nb (i mu : nat) := nbr (geo i) mu.
Let bk (i mu : nat) := bck (geo i) mu.
Variable g : nat -> mat.
Hypothesis Hg : group_gauge n V g.
Variable K : R -> R -> mat -> mat -> mat -> Prop.
Hypothesis Kext : forall sa al S S' U U' M, meq n S S' -> meq n U U' -> K sa al S U M -> K sa al S' U' M.
Hypothesis Kcov : forall g h sa al S U M, SUn n g -> SUn n h -> K sa al S U M ->
  K sa al (mmul n (mmul n g S) (dag h)) (mmul n (mmul n g U) (dag h)) (mmul n (mmul n g M) (dag h)).
Let gl := gauge_links n nb g.
Lemma around_gauged : forall A B i mu nu, (i < V)%nat -> (mu < ND)%nat -> (nu < ND)%nat ->
  meq n (around n nb bk (gl nu A) (gl mu B) i mu nu) (mmul n (mmul n (g i) (around n nb bk A B i mu nu)) (dag (g (nb i mu)))).
Proof.
  intros A B i mu nu Hi Hm Hn. unfold around, gl, gauge_links.
  pose proof (g_nbr _ _ _ G i mu Hi Hm) as B1. pose proof (g_nbr _ _ _ G i nu Hi Hn) as B2. pose proof (g_bck _ _ _ G i nu Hi Hn) as B3.
  fold (nb i mu) in B1. fold (nb i nu) in B2. fold (bk i nu) in B3.
  pose proof (g_nbr _ _ _ G (nb i nu) mu B2 Hm) as B4. fold (nb (nb i nu) mu) in B4.
  pose proof (g_nbr _ _ _ G (bk i nu) mu B3 Hm) as B5. fold (nb (bk i nu) mu) in B5.
  assert (E1 : nb (nb i mu) nu = nb (nb i nu) mu) by (apply (g_nn _ _ _ G); assumption).
  assert (E2 : nb (bk i nu) nu = i) by (apply (g_nb _ _ _ G); assumption).
  assert (E3 : nb (nb (bk i nu) mu) nu = nb i mu).
  { unfold nb at 2, bk. rewrite (g_bnc _ _ _ G) by assumption. apply (g_nb _ _ _ G); assumption. }
  rewrite E1, E2, E3.
  assert (Ca : forall j X, (j < V)%nat -> meq n (mmul n (dag (g j)) (mmul n (g j) X)) X).
  { intros j X Hj. destruct (Hg j Hj) as [[_ U2] _]. rewrite <- mmul_assoc, U2. apply mmul_1_l. }
  rewrite mmul_add_r, mmul_add_l. rewrite !dag_mmul, !dag_dag, !mmul_assoc.
  rewrite !Ca by assumption. reflexivity.
Qed.
Lemma msum_gauged : forall (a b : mat) (l : list nat) (f f' : nat -> mat), (forall d, In d l -> meq n (f' d) (mmul n (mmul n a (f d)) b)) ->
  meq n (msum l f') (mmul n (mmul n a (msum l f)) b).
Proof.
  intros a b l f f' H. induction l as [|d l IH]; cbn [msum fold_right].
  - intros i j Hi Hj. unfold mmul, mzero. symmetry. erewrite csum_ext; [apply csum_0|]. intros k Hk. cbv beta.
    erewrite csum_ext; [rewrite csum_0; ring|]. intros; cbv beta; ring.
  - fold (msum l f). fold (msum l f'). rewrite mmul_add_r, mmul_add_l. rewrite <- H by now left.
    rewrite <- IH by (intros e He; apply H; now right). reflexivity.
Qed.
Lemma hyp_step_cov : forall a U U', ND = 4%nat -> hyp_step n V nb bk K a U U' ->
  hyp_step n V nb bk K a (fun i mu => gl mu (fun s => U s mu) i) (fun i mu => gl mu (fun s => U' s mu) i).
Proof.
  intros a U U' H4 (V1 & V2 & K1 & K2 & K3).
  exists (fun mu sg i => gl mu (V1 mu sg) i), (fun mu nu i => gl mu (V2 mu nu) i).
  assert (HV : forall i mu, (i < V)%nat -> (mu < 4)%nat -> SUn n (g i) /\ SUn n (g (nb i mu))).
  { intros i mu Hi Hm. split; apply Hg; [assumption|]. apply (g_nbr _ _ _ G); [assumption|lia]. }
  split; [|split].
  - intros i mu sg Hi Hm Hs Hne. destruct (HV i mu Hi Hm) as [G1 G2].
    eapply Kext; [symmetry; apply (around_gauged (fun s => U s sg) (fun s => U s mu) i mu sg); lia|reflexivity|].
    unfold gl, gauge_links. apply Kcov; auto.
  - intros i mu nu Hi Hm Hs Hne. destruct (HV i mu Hi Hm) as [G1 G2].
    eapply Kext; [symmetry; apply (msum_gauged (g i) (dag (g (nb i mu))))|reflexivity|].
    + intros d Hd. apply in_except in Hd. cbv zeta. apply around_gauged; lia.
    + unfold gl, gauge_links. apply Kcov; auto.
  - intros i mu Hi Hm. destruct (HV i mu Hi Hm) as [G1 G2].
    eapply Kext; [symmetry; apply (msum_gauged (g i) (dag (g (nb i mu))))|reflexivity|].
    + intros d Hd. apply in_except in Hd. apply around_gauged; lia.
    + unfold gl, gauge_links. apply Kcov; auto.
Qed.
Lemma hyp3_step_cov : forall a U U', ND = 4%nat -> hyp3_step n V nb bk K a U U' ->
  hyp3_step n V nb bk K a (fun i mu => gl mu (fun s => U s mu) i) (fun i mu => gl mu (fun s => U' s mu) i).
Proof.
  intros a U U' H4 (V1 & K1 & K2 & K3).
  exists (fun mu sg i => gl mu (V1 mu sg) i).
  assert (HV : forall i mu, (i < V)%nat -> (mu < 4)%nat -> SUn n (g i) /\ SUn n (g (nb i mu))).
  { intros i mu Hi Hm. split; apply Hg; [assumption|]. apply (g_nbr _ _ _ G); [assumption|lia]. }
  split; [|split].
  - intros i mu sg Hi Hm Hs Hne. destruct (HV i mu Hi ltac:(lia)) as [G1 G2].
    eapply Kext; [symmetry; apply (around_gauged (fun s => U s sg) (fun s => U s mu) i mu sg); lia|reflexivity|].
    unfold gl, gauge_links. apply Kcov; auto.
  - intros i mu Hi Hm. destruct (HV i mu Hi ltac:(lia)) as [G1 G2].
    eapply Kext; [symmetry; apply (msum_gauged (g i) (dag (g (nb i mu))))|reflexivity|].
    + intros d Hd. apply in_except in Hd. cbv zeta. apply around_gauged; lia.
    + unfold gl, gauge_links. apply Kcov; auto.
  - intros i Hi. unfold gl, gauge_links. now rewrite (K3 i Hi).
Qed.
End Cov.
