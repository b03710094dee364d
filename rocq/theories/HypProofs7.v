(** Two colours, parameters below 1/2: the hypercubic links exist. *)
From Coq Require Import PeanoNat List Reals Lia Lra Permutation Bool Setoid.
From Verif Require GeomModel GeomSpec.
From Verif Require Import CMat MatSpec MmulModel MmulProofs MatModel MatProofs MatProofs2 Det ProjProofs FieldModel FieldProofs FieldProofs2
  ExpSpec SpecCalc ExpModel ExpProofs ExpProofs2 ApeModel ApeProofs HypModel HypSpec HypProofs HypProofs3 HypProofs6.
Import ListNotations.
Local Open Scope C_scope.

Definition ip (U M : mat) : R := re (mtr 2 (mmul 2 (dag U) M)).
Lemma ip_ext : forall U M N, meq 2 M N -> ip U M = ip U N.
Proof. intros U M N E. unfold ip. now rewrite E. Qed.
Lemma ip_add : forall U M N, ip U (madd M N) = (ip U M + ip U N)%R.
Proof. intros U M N. unfold ip. rewrite mmul_add_r. unfold mtr, madd. cbn [csum]. cunfold. ring. Qed.
Lemma ip_scale : forall U d M, ip U (mscale (RtoC d) M) = (d * ip U M)%R.
Proof. intros U d M. unfold ip. rewrite mmul_scale_r, mtr_scale. destruct (mtr 2 (mmul 2 (dag U) M)). cunfold. ring. Qed.
Lemma ip_self : forall U, SUn 2 U -> ip U U = 2%R.
Proof. intros U [[_ H] _]. unfold ip. rewrite H. unfold mtr, mid. cbn [csum Nat.eqb]. cunfold. ring. Qed.
Lemma ip_low : forall U X, SUn 2 U -> SUn 2 X -> (-2 <= ip U X)%R.
Proof.
  intros U X HU HX. assert (HW : SUn 2 (mmul 2 (dag U) X)) by (apply SUn_mmul; [now apply SUn_dag|assumption]). unfold ip.
  set (W := mmul 2 (dag U) X) in *. clearbody W. pose proof (quat_SU2 W HW) as [_ Q2]. destruct HW as [[W1 _] _].
  pose proof (W1 0 0 ltac:(lia) ltac:(lia))%nat as E. unfold mmul, dag, mid in E. cbn [csum Nat.eqb] in E. apply (f_equal re) in E.
  unfold mtr. cbn [csum]. rewrite Q2. destruct (W 0%nat 0%nat) as [a b], (W 0%nat 1%nat) as [c d]. cunfold. nra.
Qed.
Lemma ip_sum : forall U (l : list nat) f m, (forall d, In d l -> (- m <= ip U (f d))%R) -> (- m * INR (length l) <= ip U (msum l f))%R.
Proof.
  intros U l f m H. induction l as [|d l IH].
  - unfold msum, ip, mtr, mmul, mzero. cbn [fold_right csum length INR]. cunfold. lra.
  - cbn [msum fold_right]. fold (msum l f). rewrite ip_add. change (length (d :: l)) with (S (length l)). rewrite S_INR.
    pose proof (H d (or_introl eq_refl)). specialize (IH ltac:(intros e He; apply H; now right)). nra.
Qed.
Lemma ape_exists : forall sa al S U, SUn 2 U -> quaternionic S -> (0 < 2 * al + sa * ip U S)%R -> ape_K sa al S U (qunit (blend al sa U S)) /\ SUn 2 (qunit (blend al sa U S)).
Proof.
  intros sa al S U HU QS H. pose proof (quat_SU2 U HU) as QU. pose proof (quat_blend al sa U S QU QS) as QB.
  assert (I : ip U (blend al sa U S) = (2 * al + sa * ip U S)%R) by (unfold blend; rewrite ip_add, !ip_scale, ip_self by assumption; ring).
  assert (P : (0 < qn (blend al sa U S))%R).
  { destruct (Rle_lt_or_eq_dec 0 _ (qn_pos (blend al sa U S))) as [L|L]; [exact L|exfalso].
    set (M := blend al sa U S) in *. clearbody M. destruct QB as [B1 B2].
    assert (Z : meq 2 M mzero).
    { unfold qn, norm2 in L. assert (Z0 : M 0%nat 0%nat = C0 /\ M 0%nat 1%nat = C0).
      { destruct (M 0%nat 0%nat) as [p q], (M 0%nat 1%nat) as [r s]. cbn [re im] in L. split; apply C_eq; cunfold; nra. }
      destruct Z0 as [Z1 Z2]. rewrite Z1 in B2. rewrite Z2 in B1. split2; unfold mzero; rewrite ?B1, ?B2, ?Z1, ?Z2; autorewrite with conj; try reflexivity; ring. }
    assert (Z0 : ip U mzero = 0%R) by (unfold ip, mtr, mmul, mzero; cbn [csum]; cunfold; ring).
    rewrite (ip_ext U M mzero Z), Z0 in I. lra. }
  pose proof (qunit_SUn _ QB P) as SU. split; [|exact SU]. exists (sqrt (qn (blend al sa U S))). split; [now apply sqrt_lt_R0|]. split; [exact SU|].
  exact (qunit_scale _ P).
Qed.

Lemma low_ok : forall a c x, (0 <= a < 1/2)%R -> (0 < c)%R -> (- (2 * c) <= x)%R -> (0 < 2 * (1 - a) + a / c * x)%R.
Proof.
  intros a c x Ha Hc Hx. assert (P : (0 <= a / c)%R) by (apply Rmult_le_pos; [lra|left; now apply Rinv_0_lt_compat]).
  pose proof (Rmult_le_pos (a / c) (x + 2 * c) P ltac:(lra)) as Q. replace (a / c * (x + 2 * c))%R with (a / c * x + 2 * a)%R in Q by (field; lra). lra.
Qed.
Section Exist.
Variables (ND V : nat) (geo : lattice).
Hypothesis G : geom_ok ND V geo.
Let nb (i mu : nat) := nbr (geo i) mu.
Let bk (i mu : nat) := bck (geo i) mu.
Hypothesis H4 : ND = 4%nat.
Variable a : nat -> R.
Hypothesis Ha : forall k, (k < 3)%nat -> (0 <= a k < 1/2)%R.
Lemma around_low : forall U A B i mu nu, (i < V)%nat -> (mu < 4)%nat -> (nu < 4)%nat -> SUn 2 U ->
  (forall s, (s < V)%nat -> SUn 2 (A s)) -> (forall s, (s < V)%nat -> SUn 2 (B s)) ->
  (- 4 <= ip U (around 2 nb bk A B i mu nu))%R /\ quaternionic (around 2 nb bk A B i mu nu).
Proof.
  intros U A B i mu nu Hi Hm Hn HU HA HB. unfold around. rewrite <- H4 in Hm, Hn.
  pose proof (g_nbr _ _ _ G i mu Hi Hm) as B1. pose proof (g_nbr _ _ _ G i nu Hi Hn) as B2. pose proof (g_bck _ _ _ G i nu Hi Hn) as B3.
  fold (nb i mu) in B1. fold (nb i nu) in B2. fold (bk i nu) in B3.
  pose proof (g_nbr _ _ _ G (bk i nu) mu B3 Hm) as B5. fold (nb (bk i nu) mu) in B5.
  set (M1 := mmul 2 (mmul 2 (A i) (B (nb i nu))) (dag (A (nb i mu)))). set (M2 := mmul 2 (mmul 2 (dag (A (bk i nu))) (B (bk i nu))) (A (nb (bk i nu) mu))).
  assert (S1 : SUn 2 M1) by (apply SUn_mmul; [apply SUn_mmul; auto|apply SUn_dag; auto]).
  assert (S2 : SUn 2 M2) by (apply SUn_mmul; [apply SUn_mmul; [apply SUn_dag; auto|auto]|auto]).
  clearbody M1 M2. split; [|apply quat_add; now apply quat_SU2]. rewrite ip_add. pose proof (ip_low U M1 HU S1). pose proof (ip_low U M2 HU S2). lra.
Qed.
Lemma quat_sum : forall (l : list nat) f, (forall d, In d l -> quaternionic (f d)) -> quaternionic (msum l f).
Proof.
  intros l f. induction l as [|d l IH]; intro H; cbn [msum fold_right]; [apply quat_zero|]. apply quat_add; [apply H; now left|]. apply IH. intros e He. apply H. now right.
Qed.
Lemma len_except1 : forall mu, (mu < 4)%nat -> length (except 4 [mu]) = 3%nat.
Proof. intros mu H. destruct mu as [|[|[|[|?]]]]; try lia; reflexivity. Qed.
Lemma len_except2 : forall mu nu, (mu < 4)%nat -> (nu < 4)%nat -> mu <> nu -> length (except 4 [mu; nu]) = 2%nat.
Proof. intros mu nu H H' N. destruct mu as [|[|[|[|?]]]]; try lia; destruct nu as [|[|[|[|?]]]]; try lia; reflexivity. Qed.
Lemma len_except3 : forall mu, (mu < 3)%nat -> length (except 3 [mu]) = 2%nat.
Proof. intros mu H. destruct mu as [|[|[|?]]]; try lia; reflexivity. Qed.

Lemma hyp_exists : forall U, (forall i mu, (i < V)%nat -> (mu < 4)%nat -> SUn 2 (U i mu)) ->
  exists U', hyp_step 2 V nb bk ape_K a U U' /\ forall i mu, (i < V)%nat -> (mu < 4)%nat -> SUn 2 (U' i mu).
Proof.
  intros U HU. pose proof (Ha 0%nat ltac:(lia)) as A0. pose proof (Ha 1%nat ltac:(lia)) as A1. pose proof (Ha 2%nat ltac:(lia)) as A2.
  set (V1 := fun mu sg i => qunit (blend (1 - a 2%nat) (a 2%nat / 2) (U i mu) (around 2 nb bk (fun s => U s sg) (fun s => U s mu) i mu sg))).
  assert (E1 : forall i mu sg, (i < V)%nat -> (mu < 4)%nat -> (sg < 4)%nat -> mu <> sg ->
     ape_K (a 2%nat / 2) (1 - a 2%nat) (around 2 nb bk (fun s => U s sg) (fun s => U s mu) i mu sg) (U i mu) (V1 mu sg i) /\ SUn 2 (V1 mu sg i)).
  { intros i mu sg Hi Hm Hs Hne. destruct (around_low (U i mu) (fun s => U s sg) (fun s => U s mu) i mu sg Hi Hm Hs (HU i mu Hi Hm)) as [L Q]; [auto|auto|].
    apply ape_exists; [auto|exact Q|]. apply low_ok; [assumption|lra|lra]. }
  set (S2 := fun mu nu i => msum (except 4 [mu; nu]) (fun rho => let sg := (6 - mu - nu - rho)%nat in around 2 nb bk (V1 rho sg) (V1 mu sg) i mu rho)).
  set (V2 := fun mu nu i => qunit (blend (1 - a 1%nat) (a 1%nat / 4) (U i mu) (S2 mu nu i))).
  assert (E2 : forall i mu nu, (i < V)%nat -> (mu < 4)%nat -> (nu < 4)%nat -> mu <> nu ->
     ape_K (a 1%nat / 4) (1 - a 1%nat) (S2 mu nu i) (U i mu) (V2 mu nu i) /\ SUn 2 (V2 mu nu i)).
  { intros i mu nu Hi Hm Hn Hne.
    assert (X : forall rho, In rho (except 4 [mu; nu]) -> let sg := (6 - mu - nu - rho)%nat in (- 4 <= ip (U i mu) (around 2 nb bk (V1 rho sg) (V1 mu sg) i mu rho))%R /\
       quaternionic (around 2 nb bk (V1 rho sg) (V1 mu sg) i mu rho)).
    { intros rho Hr sg. apply in_except in Hr. destruct Hr as [Hr Nr]. cbn [In] in Nr.
      assert (N1 : mu <> rho) by (intro; subst; tauto). assert (N2 : nu <> rho) by (intro; subst; tauto).
      destruct (fourth_is mu nu rho Hm Hn Hr Hne N1 N2) as (_ & F1 & F2 & F3 & F4). fold sg in F1, F2, F3, F4.
      apply around_low; try assumption; [auto| |]; intros s Hs; apply E1; auto. }
    assert (Q : quaternionic (S2 mu nu i)) by (apply quat_sum; intros d Hd; now apply X).
    apply ape_exists; [auto|exact Q|]. pose proof (ip_sum (U i mu) (except 4 [mu; nu]) (fun rho => let sg := (6 - mu - nu - rho)%nat in around 2 nb bk (V1 rho sg) (V1 mu sg) i mu rho) 4 (fun d Hd => proj1 (X d Hd))) as B.
    rewrite len_except2 in B by assumption. change (msum _ _) with (S2 mu nu i) in B. change (INR 2) with (1 + 1)%R in B; change (INR 3) with (1 + 1 + 1)%R in B. apply low_ok; [assumption|lra|lra]. }
  set (S3 := fun mu i => msum (except 4 [mu]) (fun nu => around 2 nb bk (V2 nu mu) (V2 mu nu) i mu nu)).
  assert (E3 : forall i mu, (i < V)%nat -> (mu < 4)%nat ->
     ape_K (a 0%nat / 6) (1 - a 0%nat) (S3 mu i) (U i mu) (qunit (blend (1 - a 0%nat) (a 0%nat / 6) (U i mu) (S3 mu i))) /\ SUn 2 (qunit (blend (1 - a 0%nat) (a 0%nat / 6) (U i mu) (S3 mu i)))).
  { intros i mu Hi Hm.
    assert (X : forall nu, In nu (except 4 [mu]) -> (- 4 <= ip (U i mu) (around 2 nb bk (V2 nu mu) (V2 mu nu) i mu nu))%R /\
       quaternionic (around 2 nb bk (V2 nu mu) (V2 mu nu) i mu nu)).
    { intros nu Hr. apply in_except in Hr. destruct Hr as [Hr Nr]. cbn [In] in Nr. assert (N1 : mu <> nu) by (intro; subst; tauto).
      apply around_low; try assumption; [auto| |]; intros s Hs; apply E2; auto. }
    assert (Q : quaternionic (S3 mu i)) by (apply quat_sum; intros d Hd; now apply X).
    apply ape_exists; [auto|exact Q|]. pose proof (ip_sum (U i mu) (except 4 [mu]) (fun nu => around 2 nb bk (V2 nu mu) (V2 mu nu) i mu nu) 4 (fun d Hd => proj1 (X d Hd))) as B.
    rewrite len_except1 in B by assumption. change (msum _ _) with (S3 mu i) in B. change (INR 2) with (1 + 1)%R in B; change (INR 3) with (1 + 1 + 1)%R in B. apply low_ok; [assumption|lra|lra]. }
  exists (fun i mu => qunit (blend (1 - a 0%nat) (a 0%nat / 6) (U i mu) (S3 mu i))). split; [|intros i mu Hi Hm; now apply E3].
  exists V1, V2. split; [|split]; intros; [now apply E1|now apply E2|now apply E3].
Qed.
Lemma hyp3_exists : forall U, (forall i mu, (i < V)%nat -> (mu < 4)%nat -> SUn 2 (U i mu)) ->
  exists U', hyp3_step 2 V nb bk ape_K a U U' /\ forall i mu, (i < V)%nat -> (mu < 4)%nat -> SUn 2 (U' i mu).
Proof.
  intros U HU. pose proof (Ha 0%nat ltac:(lia)) as A0. pose proof (Ha 1%nat ltac:(lia)) as A1.
  set (V1 := fun mu sg i => qunit (blend (1 - a 1%nat) (a 1%nat / 4) (U i mu) (around 2 nb bk (fun s => U s sg) (fun s => U s mu) i mu sg))).
  assert (E1 : forall i mu sg, (i < V)%nat -> (mu < 3)%nat -> (sg < 3)%nat -> mu <> sg ->
     ape_K (a 1%nat / 4) (1 - a 1%nat) (around 2 nb bk (fun s => U s sg) (fun s => U s mu) i mu sg) (U i mu) (V1 mu sg i) /\ SUn 2 (V1 mu sg i)).
  { intros i mu sg Hi Hm Hs Hne. destruct (around_low (U i mu) (fun s => U s sg) (fun s => U s mu) i mu sg Hi ltac:(lia) ltac:(lia) (HU i mu Hi ltac:(lia))) as [L Q]; [intros; apply HU; lia|intros; apply HU; lia|].
    apply ape_exists; [apply HU; lia|exact Q|]. apply low_ok; [assumption|lra|lra]. }
  set (S2 := fun mu i => msum (except 3 [mu]) (fun nu => let sg := (3 - mu - nu)%nat in around 2 nb bk (V1 nu sg) (V1 mu sg) i mu nu)).
  set (W := fun i mu => if Nat.eqb mu 3 then U i mu else qunit (blend (1 - a 0%nat) (a 0%nat / 6) (U i mu) (S2 mu i))).
  assert (E2 : forall i mu, (i < V)%nat -> (mu < 3)%nat -> ape_K (a 0%nat / 6) (1 - a 0%nat) (S2 mu i) (U i mu) (W i mu) /\ SUn 2 (W i mu)).
  { intros i mu Hi Hm.
    assert (X : forall nu, In nu (except 3 [mu]) -> let sg := (3 - mu - nu)%nat in (- 4 <= ip (U i mu) (around 2 nb bk (V1 nu sg) (V1 mu sg) i mu nu))%R /\
       quaternionic (around 2 nb bk (V1 nu sg) (V1 mu sg) i mu nu)).
    { intros nu Hr sg. apply in_except in Hr. destruct Hr as [Hr Nr]. cbn [In] in Nr. assert (N1 : mu <> nu) by (intro; subst; tauto).
      destruct (third_is mu nu Hm Hr N1) as (_ & F1 & F2 & F3). fold sg in F1, F2, F3.
      apply around_low; try assumption; [lia|lia|apply HU; lia| |]; intros s Hs; apply E1; auto. }
    assert (Q : quaternionic (S2 mu i)) by (apply quat_sum; intros d Hd; now apply X).
    unfold W. destruct (Nat.eqb_spec mu 3); [lia|]. apply ape_exists; [apply HU; lia|exact Q|].
    pose proof (ip_sum (U i mu) (except 3 [mu]) (fun nu => let sg := (3 - mu - nu)%nat in around 2 nb bk (V1 nu sg) (V1 mu sg) i mu nu) 4 (fun d Hd => proj1 (X d Hd))) as B.
    rewrite len_except3 in B by assumption. change (msum _ _) with (S2 mu i) in B. change (INR 2) with (1 + 1)%R in B; change (INR 3) with (1 + 1 + 1)%R in B. apply low_ok; [assumption|lra|lra]. }
  exists W. split.
  - exists V1. split; [|split]; intros; [now apply E1|now apply E2|]. unfold W. cbn [Nat.eqb]. reflexivity.
  - intros i mu Hi Hm. unfold W. destruct (Nat.eqb_spec mu 3) as [E|E]; [now apply HU|]. pose proof (E2 i mu Hi ltac:(lia)) as [_ X]. unfold W in X. apply Nat.eqb_neq in E. now rewrite E in X.
Qed.
(** any number of steps *)
Lemma chain_exists : forall (R' : (nat -> nat -> mat) -> (nat -> nat -> mat) -> Prop) (P : (nat -> nat -> mat) -> Prop) k U,
  (forall U, P U -> exists U', R' U U' /\ P U') -> P U -> exists Us : nat -> nat -> nat -> mat, Us 0%nat = U /\ (forall s, (s < k)%nat -> R' (Us s) (Us (S s))) /\ P (Us k).
Proof.
  intros R' P k U H HU. induction k as [|k IH].
  - exists (fun _ => U). split; [reflexivity|]. split; [lia|exact HU].
  - destruct IH as (Us & E & Hs & HP). destruct (H _ HP) as (U' & R1 & P1). exists (fun s => if Nat.leb s k then Us s else U'). split; [exact E|]. split.
    + intros s Hs'. destruct (Nat.leb_spec s k) as [X|X]; [|lia]. destruct (Nat.leb_spec (S s) k) as [Y|Y]; [now apply Hs|].
      assert (s = k) by lia. subst s. exact R1.
    + destruct (Nat.leb_spec (S k) k); [lia|exact P1].
Qed.
End Exist.
