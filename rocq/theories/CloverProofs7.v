(** Threads and arrays: the three routines of clover.c agree. *)
From Coq Require Import PeanoNat Lia List ZArith Reals Lra Setoid Morphisms Permutation.
From Verif Require Import CMat Det Arr MatSpec MmulModel MmulProofs MatModel MatProofs MatProofs2 Su2Model Su2Proofs FieldModel FieldProofs FieldProofs2 FieldProofs3 ProjModel ProjProofs CloverModel CloverProofs CloverProofs2 CloverProofs3 CloverProofs4 CloverProofs5 CloverProofs6.
Import ListNotations.
Local Open Scope R_scope.

Definition share (CLINE o N : nat) (red : nat -> R) : R := rsum N (fun t => red (o + CLINE * t)%nat).
Lemma share_set : forall CLINE o N red t x, (0 < CLINE)%nat -> (t < N)%nat ->
  share CLINE o N (rset red (o + CLINE * t) x) = share CLINE o N red - red (o + CLINE * t)%nat + x.
Proof.
  intros CLINE o N red t x HC. unfold share. induction N as [|N IH]; intro Ht; [lia|]. cbn [rsum].
  destruct (Nat.eq_dec t N) as [-> |Ne].
  - unfold rset at 2. rewrite Nat.eqb_refl.
    rewrite (rsum_ext N _ (fun t => red (o + CLINE * t)%nat)); [lra|].
    intros k Hk. unfold rset. destruct (Nat.eqb_spec (o + CLINE * k) (o + CLINE * N)); [nia|reflexivity].
  - rewrite IH by lia. unfold rset. destruct (Nat.eqb_spec (o + CLINE * N) (o + CLINE * t)); [nia|lra].
Qed.
Lemma share_other : forall CLINE o o' N red t x, (o < CLINE)%nat -> (o' < CLINE)%nat -> o <> o' ->
  share CLINE o N (rset red (o' + CLINE * t) x) = share CLINE o N red.
Proof.
  intros CLINE o o' N red t x H1 H2 Hne. unfold share. apply rsum_ext. intros k Hk. unfold rset.
  destruct (Nat.eqb_spec (o + CLINE * k) (o' + CLINE * t)) as [E|]; [|reflexivity]. exfalso.
  destruct (Nat.lt_trichotomy k t) as [L|[-> |L]]; [|lia|]; nia.
Qed.
Lemma rset_same : forall red k x, rset red k x k = x.
Proof. intros. unfold rset. now rewrite Nat.eqb_refl. Qed.
Lemma rset_diff : forall red k j x, j <> k -> rset red k x j = red j.
Proof. intros red k j x H. unfold rset. destruct (Nat.eqb_spec j k); [contradiction|reflexivity]. Qed.

Section th.
Variables (n V : nat) (lat : lattice) (b : build) (w : nat -> arr) (CLINE N : nat).
Hypothesis Geo : geom_ok 4 V lat.
Hypothesis Grp : group_field n 4 V lat.
Hypothesis Fit : fits b n.
Hypothesis HC : (2 <= CLINE)%nat.
Lemma add_ok : forall red th x y, (th < N)%nat ->
  let red1 := rset red (0 + CLINE*th) (red (0 + CLINE*th)%nat + x) in
  let red2 := rset red1 (1 + CLINE*th) (red1 (1 + CLINE*th)%nat + y) in
  share CLINE 0 N red2 = share CLINE 0 N red + x /\ share CLINE 1 N red2 = share CLINE 1 N red + y.
Proof.
  intros red th x y Ht red1 red2. unfold red2, red1. split.
  - rewrite share_other by lia. rewrite share_set by lia. lra.
  - rewrite share_set by lia. rewrite share_other by lia. lra.
Qed.
Lemma th_fold : forall sched red, (forall t i, In (t, i) sched -> (t < N)%nat /\ (i < V)%nat) ->
  let red' := fold_left (Gmunu_th_site b n lat w CLINE) sched red in
  share CLINE 0 N red' = share CLINE 0 N red + lsum (map (fun p => energy n lat b (snd p)) sched) /\
  share CLINE 1 N red' = share CLINE 1 N red + -/8 * lsum (map (fun p => charge n lat b (snd p)) sched).
Proof.
  induction sched as [|[th i] sched IH]; intros red H; [cbn; split; lra|].
  destruct (H th i (or_introl eq_refl)) as [Ht Hi]. cbn [fold_left map lsum snd].
  set (red3 := Gmunu_th_site b n lat w CLINE red (th, i)).
  assert (D : red3 = Gmunu_th_site b n lat w CLINE red (th, i)) by reflexivity. unfold Gmunu_th_site in D.
  rewrite !(kernel_is n V lat b w Geo Grp Fit) in D by (try assumption; lia). cbv zeta beta iota in D.
  assert (G : share CLINE 0 N red3 = share CLINE 0 N red + energy n lat b i /\
              share CLINE 1 N red3 = share CLINE 1 N red + -/8 * charge n lat b i).
  { rewrite D.
    match goal with |- share _ _ _ (rset (rset ?r _ _) _ _) = _ /\ _ => set (red2 := r) end.
    destruct (add_ok red2 th (part n lat b i 0 1 + part n lat b i 3 2) (re (pair_trace n lat b i 3 2 0 1)) Ht) as [E1 E2].
    rewrite E1, E2. unfold red2. clear E1 E2 red2.
    match goal with |- share _ _ _ (rset (rset ?r _ _) _ _) + _ = _ /\ _ => set (red1 := r) end.
    destruct (add_ok red1 th (part n lat b i 2 0 + part n lat b i 3 1) (re (pair_trace n lat b i 3 1 2 0)) Ht) as [E1 E2].
    rewrite E1, E2. unfold red1. clear E1 E2 red1.
    destruct (add_ok red th (part n lat b i 1 2 + part n lat b i 3 0) (re (pair_trace n lat b i 3 0 1 2)) Ht) as [E1 E2].
    rewrite E1, E2.
    rewrite (energy_is n V lat b Geo) by assumption. rewrite (charge_is n V lat b Geo) by assumption. split; lra. }
  destruct G as [G1 G2]. destruct (IH red3) as [F1 F2]. { intros t j Hj. apply H. now right. }
  cbv zeta in F1, F2. rewrite F1, F2, G1, G2. clear. split; lra.
Qed.
Lemma zero_fold : forall red, share CLINE 0 N (for_ N (fun i red => rset (rset red (0 + i*CLINE) 0) (1 + i*CLINE) 0) red) = 0 /\
  share CLINE 1 N (for_ N (fun i red => rset (rset red (0 + i*CLINE) 0) (1 + i*CLINE) 0) red) = 0.
Proof.
  intro red. assert (G : forall M, forall t, (t < M)%nat -> 
    for_ M (fun i red => rset (rset red (0 + i*CLINE) 0) (1 + i*CLINE) 0) red (0 + CLINE * t)%nat = 0 /\
    for_ M (fun i red => rset (rset red (0 + i*CLINE) 0) (1 + i*CLINE) 0) red (1 + CLINE * t)%nat = 0).
  { induction M as [|M IH]; intros t Ht; [lia|]. cbn [for_]. destruct (Nat.eq_dec t M) as [-> |Ne].
    - rewrite (Nat.mul_comm CLINE M). rewrite rset_same. rewrite rset_diff by lia. now rewrite rset_same.
    - destruct (IH t ltac:(lia)) as [E F]. rewrite !rset_diff by nia. now split. }
  split; unfold share; (rewrite (rsum_ext N _ (fun _ => 0)); [clear; induction N; cbn; lra|]); intros k Hk; now apply G.
Qed.
Lemma scale_fold : forall red,
  let red' := for_ N (fun i red =>
      let red := rset red (0 + i*CLINE) (red (0 + i*CLINE)%nat * 16) in
      rset red (1 + i*CLINE) (red (1 + i*CLINE)%nat * 16)) red in
  share CLINE 0 N red' = 16 * share CLINE 0 N red /\ share CLINE 1 N red' = 16 * share CLINE 1 N red.
Proof.
  intro red. cbv zeta. set (f := fun (i : nat) (red : nat -> R) => _).
  assert (G : forall M t o, (o = 0 \/ o = 1)%nat -> for_ M f red (o + CLINE * t)%nat = if (t <? M)%nat then 16 * red (o + CLINE * t)%nat else red (o + CLINE * t)%nat).
  { induction M as [|M IH]; intros t o Ho; [reflexivity|]. cbn [for_]. unfold f at 1.
    destruct (Nat.eq_dec t M) as [-> |Ne].
    - replace (M <? S M)%nat with true by (symmetry; apply Nat.ltb_lt; lia). rewrite (Nat.mul_comm CLINE M).
      assert (Q : forall o, (o = 0 \/ o = 1)%nat -> for_ M f red (o + M * CLINE)%nat = red (o + M * CLINE)%nat).
      { intros o' Ho'. specialize (IH M o' Ho'). rewrite Nat.ltb_irrefl, (Nat.mul_comm CLINE M) in IH. exact IH. }
      destruct Ho as [-> | ->].
      + rewrite rset_diff by lia. rewrite rset_same, Q by tauto. lra.
      + rewrite rset_same. rewrite rset_diff by lia. rewrite Q by tauto. lra.
    - rewrite !rset_diff by (destruct Ho; subst o; nia). rewrite IH by assumption.
      destruct (Nat.ltb_spec t M), (Nat.ltb_spec t (S M)); try lia; reflexivity. }
  split; unfold share.
  - rewrite (rsum_ext N _ (fun t => 16 * red (0 + CLINE * t)%nat)).
    + clear. induction N; cbn [rsum]; lra.
    + intros k Hk. rewrite G by tauto. replace (k <? N)%nat with true by (symmetry; now apply Nat.ltb_lt). reflexivity.
  - rewrite (rsum_ext N _ (fun t => 16 * red (1 + CLINE * t)%nat)).
    + clear. induction N; cbn [rsum]; lra.
    + intros k Hk. rewrite G by tauto. replace (k <? N)%nat with true by (symmetry; now apply Nat.ltb_lt). reflexivity.
Qed.
Lemma Gmunu_th_ok : forall sched red, (forall t i, In (t, i) sched -> (t < N)%nat) -> Permutation (map snd sched) (seq 0 V) ->
  share CLINE 0 N (compute_Gmunu_th b n lat w CLINE N sched red) = fst (compute_Gmunu b n lat w (seq 0 V)) /\
  share CLINE 1 N (compute_Gmunu_th b n lat w CLINE N sched red) = snd (compute_Gmunu b n lat w (seq 0 V)).
Proof.
  intros sched red Ht P. rewrite (Gmunu_ok n V lat b w Geo Grp Fit) by apply Permutation_refl. cbn [fst snd].
  unfold compute_Gmunu_th.
  set (red0 := for_ N _ red). set (red1 := fold_left _ sched red0). cbv zeta.
  assert (K : share CLINE 0 N red1 = lsum (map (energy n lat b) (seq 0 V)) /\ share CLINE 1 N red1 = -/8 * lsum (map (charge n lat b) (seq 0 V))).
  { destruct (th_fold sched red0) as [E F].
    { intros t i H. split; [now apply (Ht t i)|]. apply (in_map snd) in H. apply (Permutation_in _ P) in H. apply in_seq in H. cbn in H. lia. }
    cbv zeta in E, F. fold red1 in E, F. destruct (zero_fold red) as [Z1 Z2]. fold red0 in Z1, Z2. rewrite Z1 in E. rewrite Z2 in F.
    rewrite E, F. rewrite <- (map_map snd (energy n lat b)), <- (map_map snd (charge n lat b)).
    rewrite (NumProofs.lsum_perm _ _ (Permutation_map (energy n lat b) P)), (NumProofs.lsum_perm _ _ (Permutation_map (charge n lat b) P)). split; lra. }
  destruct K as [K1 K2]. destruct (scale_fold red1) as [S1 S2]. cbv zeta in S1, S2.
  destruct b; cbn [factor]; (try rewrite S1, S2); rewrite ?K1, ?K2; split; lra.
Qed.
Lemma flow_sums_ok : forall red, flow_sums CLINE N V red = (share CLINE 0 N red / (16 * INR V), share CLINE 1 N red * NORM).
Proof.
  intro red. unfold flow_sums. assert (G : for_ N (fun i '(GT, Q) => (GT + red (0 + CLINE*i)%nat, Q + red (1 + CLINE*i)%nat)) (0, 0) =
    (share CLINE 0 N red, share CLINE 1 N red)).
  { unfold share. induction N as [|M IH]; [reflexivity|]. cbn [for_ rsum]. rewrite IH. reflexivity. }
  now rewrite G.
Qed.
End th.

Section array.
Variables (n V : nat) (lat : lattice) (b : build) (w : nat -> arr).
Hypothesis Geo : geom_ok 4 V lat.
Hypothesis Grp : group_field n 4 V lat.
Hypothesis Fit : fits b n.
Lemma strength_hermitian : forall i mu nu, hermitian n (strength n lat b i mu nu).
Proof. intros. apply trf_herm_hermitian. destruct Fit. lia. Qed.
Lemma pair_real : forall i p q r s, pair_trace n lat b i p q r s = RtoC (re (pair_trace n lat b i p q r s)).
Proof. intros. apply C_eq; [reflexivity|]. apply mixed_real; apply strength_hermitian. Qed.
Lemma upd_same : forall (a : arr) k z, upd a k z k = z.
Proof. intros. unfold upd. now rewrite Nat.eqb_refl. Qed.
Lemma upd_diff : forall (a : arr) k j z, j <> k -> upd a k z j = a j.
Proof. intros a k j z H. unfold upd. destruct (Nat.eqb_spec j k); [contradiction|reflexivity]. Qed.
Lemma array_ok : forall order qtop, NoDup order -> (forall i, In i order -> (i < V)%nat) -> forall j,
  compute_Gmunu_array b n lat w order qtop j =
  if in_dec Nat.eq_dec j order then RtoC (factor b * (-/8 * charge n lat b j)) else qtop j.
Proof.
  induction order as [|i order IH]; intros qtop Nd H j; [reflexivity|]. inversion_clear Nd as [|? ? Ni Nd'].
  pose proof (H i (or_introl eq_refl)) as Hi.
  unfold compute_Gmunu_array. cbn [fold_left]. change (fold_left (Gmunu_array_site b n lat w) order) with (compute_Gmunu_array b n lat w order).
  set (q1 := Gmunu_array_site b n lat w qtop i).
  assert (Q1 : q1 i = RtoC (factor b * (-/8 * charge n lat b i)) /\ forall k, k <> i -> q1 k = qtop k).
  { unfold q1, Gmunu_array_site. rewrite !(compute_q_ok n V lat b w Geo Grp Fit) by (try assumption; lia).
    rewrite !upd_same. rewrite (charge_is n V lat b Geo) by assumption.
    split.
    - rewrite (pair_real i 3 0 1 2), (pair_real i 3 1 2 0), (pair_real i 3 2 0 1).
      destruct b; cbn [factor]; rewrite ?upd_same; apply C_eq; cunfold; cbn; lra.
    - intros k Hk. destruct b; rewrite !upd_diff by assumption; reflexivity. }
  destruct Q1 as [Q1 Q2]. rewrite IH by (try assumption; intros k Hk; apply H; now right).
  destruct (in_dec Nat.eq_dec j order) as [J|J], (in_dec Nat.eq_dec j (i :: order)) as [K|K]; try reflexivity.
  - exfalso. apply K. now right.
  - destruct K as [<-|K]; [exact Q1|contradiction].
  - apply Q2. intro E. apply K. now left.
Qed.
End array.
