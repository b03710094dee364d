(** Proofs about the projections and the reduced storage. *)
From Coq Require Import PeanoNat Lia List Reals Lra.
From Verif Require Import CMat Det Arr MatSpec MmulProofs MatModel MatProofs MatProofs2 InvProofs ProjModel.
Local Open Scope C_scope.

(** * Specification *)
(** (U - U^dag)/2 and (U - U^dag)/(2i) *)
Definition aherm (U : mat) : mat := mscale (RtoC (1/2)) (msub U (dag U)).
Definition herm (U : mat) : mat := mscale (- Ci) (aherm U).
(** remove the trace part *)
Definition trf (n : nat) (A : mat) : mat := msub A (mscale (Cdiv (mtr n A) (RtoC (INR n))) mid).
(** real multiples of SU(2) matrices and their sums *)
Definition quaternionic (U : mat) : Prop := U 1%nat 0%nat = - conj (U 0%nat 1%nat) /\ U 1%nat 1%nat = conj (U 0%nat 0%nat).
Definition shaped (n : nat) (U : mat) : Prop := n = 2%nat -> quaternionic U.

Lemma INR_C : forall n, (0 < n)%nat -> RtoC (INR n) <> C0.
Proof. intros n H E. apply (f_equal re) in E. cbn in E. apply lt_0_INR in H. lra. Qed.
Lemma mtr_mid : forall n, mtr n mid = RtoC (INR n).
Proof.
  intro n. unfold mtr. induction n; [reflexivity|]. cbn [csum]. rewrite IHn. unfold mid. rewrite Nat.eqb_refl, S_INR.
  apply C_eq; cunfold; ring.
Qed.
Lemma trf_traceless : forall n A, (0 < n)%nat -> traceless n (trf n A).
Proof.
  intros n A H. unfold traceless, trf. transitivity (mtr n A - mtr n (mscale (Cdiv (mtr n A) (RtoC (INR n))) mid)).
  { unfold mtr, msub. now rewrite csum_sub. }
  rewrite mtr_scale, mtr_mid. field. now apply INR_C.
Qed.
Lemma herm_hermitian : forall U i j, conj (herm U j i) = herm U i j.
Proof. intros. unfold herm, aherm, mscale, msub, dag. destruct (U i j), (U j i). cring. Qed.
Lemma aherm_anti : forall U i j, conj (aherm U j i) = - aherm U i j.
Proof. intros. unfold herm, aherm, mscale, msub, dag. destruct (U i j), (U j i). cring. Qed.
Lemma herm_diag : forall U i, herm U i i = RtoC (im (U i i)).
Proof. intros. unfold herm, aherm, mscale, msub, dag. destruct (U i i). apply C_eq; cunfold; field. Qed.
Lemma aherm_diag : forall U i, aherm U i i = Ci * RtoC (im (U i i)).
Proof. intros. unfold herm, aherm, mscale, msub, dag. destruct (U i i). apply C_eq; cunfold; field. Qed.
Lemma mtr_herm : forall n U, mtr n (herm U) = RtoC (rsum n (fun i => im (U i i))).
Proof.
  intros. unfold mtr. rewrite (csum_ext n _ (fun i => RtoC (im (U i i)))) by (intros; apply herm_diag).
  induction n; cbn [csum rsum]; [reflexivity|]. rewrite IHn. apply C_eq; cunfold; ring.
Qed.
Lemma mtr_aherm : forall n U, mtr n (aherm U) = Ci * mtr n (herm U).
Proof. intros. unfold mtr. rewrite <- csum_mul_l. apply csum_ext; intros. unfold herm, mscale. destruct (aherm U i i). cring. Qed.
Lemma mscale_hermitian : forall n x, hermitian n (mscale (RtoC x) mid).
Proof. intros n x i j _ _. unfold dag, mscale, mid. rewrite Nat.eqb_sym. destruct (Nat.eqb i j); cring. Qed.
Lemma trf_herm_hermitian : forall n U, (0 < n)%nat -> hermitian n (trf n (herm U)).
Proof.
  intros n U Hn i j Hi Hj. unfold dag, trf, msub. rewrite conj_sub, herm_hermitian. f_equal.
  rewrite mtr_herm. replace (Cdiv (RtoC (rsum n (fun i0 => im (U i0 i0)))) (RtoC (INR n)))
    with (RtoC (rsum n (fun i0 => im (U i0 i0)) / INR n)).
  - now apply mscale_hermitian with (n := n).
  - apply C_eq; unfold Cdiv, Cinv, norm2; cunfold; apply lt_0_INR in Hn; field; lra.
Qed.
Lemma Cdiv_R : forall x y, (y <> 0)%R -> Cdiv (RtoC x) (RtoC y) = RtoC (x / y).
Proof. intros. apply C_eq; unfold Cdiv, Cinv, norm2; cunfold; field; assumption. Qed.

(** * Full matrices *)
Lemma ahp_n_ok : forall n Q U, holds n (AntiHermitian_proj_n n Q U) Q (aherm (mx n U)).
Proof.
  intros n Q U. unfold AntiHermitian_proj_n.
  match goal with |- holds _ ?r _ _ => set (R := r) end.
  set (P := fun k (R : arr) => (forall i j, (i < k)%nat -> (j < n)%nat -> mx n R i j = aherm (mx n U) i j) /\ frame (n*n) R Q).
  assert (G : P n R).
  { unfold R. apply (for_ind P); [split; [intros; lia|intros x _; reflexivity]|].
    intros i t Hi [T1 T2].
    set (P' := fun k (R : arr) => (forall j, (j < k)%nat -> mx n R i j = aherm (mx n U) i j) /\
       (forall i' j, (i' < i)%nat -> (j < n)%nat -> mx n R i' j = aherm (mx n U) i' j) /\ frame (n*n) R Q).
    match goal with |- P _ ?t => assert (P' n t) as (A & B & D) end.
    { apply (for_ind P'); [split; [intros; lia|split; assumption]|].
      intros j s Hj (S1 & S2 & S3). split; [|split].
      - intros j' Hj'. destruct (Nat.eq_dec j' j) as [->|N].
        + rewrite <- mx', upd_eq. unfold aherm, mscale, msub, dag. rewrite <- !mx'. ring.
        + rewrite <- mx', upd_neq by (intro E; apply idx_inj' in E; lia). rewrite mx'. apply S1; lia.
      - intros i' j' Hi' Hj'. rewrite <- mx', upd_neq by (intro E; apply idx_inj' in E; lia). rewrite mx'. now apply S2.
      - intros x Hx. rewrite upd_neq by nia. now apply S3. }
    split; [|exact D]. intros i' j Hi' Hj. destruct (Nat.eq_dec i' i) as [->|N]; [now apply A|apply B; lia]. }
  exact G.
Qed.
Lemma sub_diag_ok : forall n Q c,
  holds n (for_ n (fun i Q => upd Q (i*(n+1)) (Q (i*(n+1))%nat - c)) Q) Q (msub (mx n Q) (mscale c mid)).
Proof.
  intros n Q c. match goal with |- holds _ ?r _ _ => set (R := r) end.
  set (P := fun k (R : arr) => (forall i j, (i < n)%nat -> (j < n)%nat ->
     mx n R i j = if andb (Nat.eqb i j) (Nat.ltb i k) then mx n Q i j - c else mx n Q i j) /\ frame (n*n) R Q).
  assert (G : P n R).
  { unfold R. apply (for_ind P); [split; [intros i j _ _; rewrite Bool.andb_false_r; reflexivity|intros x _; reflexivity]|].
    intros k t Hk [T1 T2]. split.
    - intros i j Hi Hj. rewrite !diag_index. unfold mx at 1. destruct (Nat.eq_dec i k) as [->|N].
      + destruct (Nat.eqb_spec k j) as [<-|N'].
        * rewrite upd_eq. change (t (k + n*k)%nat) with (mx n t k k). rewrite T1 by assumption.
          rewrite Nat.eqb_refl. rewrite (proj2 (Nat.ltb_ge k k)), (proj2 (Nat.ltb_lt k (S k))) by lia. reflexivity.
        * rewrite upd_neq by (intro E; apply idx_inj in E; lia). change (t (j + n*k)%nat) with (mx n t k j).
          rewrite T1 by assumption. rewrite (proj2 (Nat.eqb_neq k j)) by assumption. reflexivity.
      + rewrite upd_neq by (intro E; apply idx_inj in E; lia). change (t (j + n*i)%nat) with (mx n t i j).
        rewrite T1 by assumption. replace (Nat.ltb i (S k)) with (Nat.ltb i k); [reflexivity|].
        destruct (Nat.ltb_spec i k), (Nat.ltb_spec i (S k)); try lia; reflexivity.
    - intros x Hx. rewrite diag_index, upd_neq by nia. now apply T2. }
  destruct G as [G F]. split; [|exact F]. intros i j Hi Hj. rewrite G by assumption.
  rewrite (proj2 (Nat.ltb_lt i n)) by assumption. unfold msub, mscale, mid. destruct (Nat.eqb i j); cbn [andb]; ring.
Qed.
Lemma hp_n_ok : forall n Q U, (0 < n)%nat -> holds n (Hermitian_proj_n n Q U) Q (trf n (herm (mx n U))).
Proof.
  intros n Q U Hn. unfold Hermitian_proj_n.
  match goal with |- context [for_ n ?b (Q, 0%R)] => set (body := b) end.
  set (A := herm (mx n U)).
  set (P := fun k (s : arr * R) => (forall i j, (i < k)%nat -> (i <= j < n)%nat -> mx n (fst s) i j = A i j /\ mx n (fst s) j i = A j i)
     /\ frame (n*n) (fst s) Q /\ snd s = rsum k (fun i => im (mx n U i i))).
  assert (G : P n (for_ n body (Q, 0%R))).
  { apply (for_ind P); [split; [intros; lia|split; [intros x _; reflexivity|reflexivity]]|].
    intros i [t tr] Hi (T1 & T2 & T3). cbn [fst snd] in *. unfold body. cbv zeta. cbn [fst snd].
    set (t1 := upd t (i*(n+1)) (cimag (U (i*(n+1))%nat))).
    assert (D1 : mx n t1 i i = A i i).
    { unfold t1. rewrite diag_index. unfold mx at 1. rewrite upd_eq. unfold A. rewrite herm_diag. reflexivity. }
    assert (D2 : forall i' j', (i' < n)%nat -> (j' < n)%nat -> ~ (i' = i /\ j' = i) -> mx n t1 i' j' = mx n t i' j').
    { intros i' j' H1 H2 N. unfold t1. rewrite diag_index. unfold mx at 1. rewrite upd_neq; [reflexivity|].
      intro E; apply idx_inj in E; lia. }
    assert (D3 : frame (n*n) t1 Q).
    { intros x Hx. unfold t1. rewrite diag_index, upd_neq by nia. now apply T2. }
    set (P' := fun q (R : arr) => (forall i' j, (i' < i)%nat -> (i' <= j < n)%nat -> mx n R i' j = A i' j /\ mx n R j i' = A j i')
       /\ (forall h, (h <= q)%nat -> mx n R i (i+h)%nat = A i (i+h)%nat /\ mx n R (i+h)%nat i = A (i+h)%nat i) /\ frame (n*n) R Q).
    match goal with |- P _ (?t, _) => assert (P' (n - (i+1))%nat t) as (H1 & H2 & H3) end.
    { apply (for_ind P').
      - split; [|split; [|exact D3]].
        + intros i' j Hi' Hj. rewrite !D2 by lia. now apply T1.
        + intros h Hh. replace h with 0%nat by lia. rewrite Nat.add_0_r. split; exact D1.
      - intros q R Hq (S1 & S2 & S3). rewrite upd_eq.
        set (v := - Ci * (U (i + 1 + q + i * n)%nat - conj (U (i + (i + 1 + q) * n)%nat)) * RtoC (1/2)).
        assert (V1 : v = A i (i+1+q)%nat).
        { unfold v, A, herm, aherm, mscale, msub, dag. rewrite !mx'. ring. }
        assert (V2 : conj v = A (i+1+q)%nat i) by (rewrite V1; apply herm_hermitian).
        assert (NE : forall a b, (a < n)%nat -> (b < n)%nat -> ~ (a = i /\ b = i + 1 + q)%nat -> ~ (a = i + 1 + q /\ b = i)%nat ->
           mx n (upd (upd R (i + 1 + q + i*n) v) (i + (i + 1 + q)*n) (conj v)) a b = mx n R a b).
        { intros a b Ha Hb N1 N2. rewrite <- mx'. rewrite !upd_neq; [apply mx'| |]; intro E; apply idx_inj' in E; lia. }
        split; [|split].
        + intros i' j Hi' Hj. rewrite !NE by lia. now apply S1.
        + intros h Hh. destruct (Nat.eq_dec h (S q)) as [->|N].
          * replace (i + S q)%nat with (i + 1 + q)%nat by lia. split.
            -- rewrite <- mx', upd_neq, upd_eq by (intro E; apply idx_inj' in E; lia). exact V1.
            -- rewrite <- mx', upd_eq. exact V2.
          * rewrite !NE by lia. apply S2; lia.
        + intros x Hx. rewrite !upd_neq by nia. now apply S3. }
    split; [|split; [exact H3|]]; cbn [fst snd].
    - intros i' j Hi' Hj. destruct (Nat.eq_dec i' i) as [->|N]; [|apply H1; lia].
      specialize (H2 (j - i)%nat ltac:(lia)). replace (i + (j - i))%nat with j in H2 by lia. exact H2.
    - cbn [rsum]. rewrite T3. f_equal. unfold t1. rewrite upd_eq. unfold mx. now rewrite diag_index. }
  destruct (for_ n body (Q, 0%R)) as [R tr]. destruct G as (G1 & G2 & G3). cbn [fst snd] in *.
  destruct (sub_diag_ok n R (RtoC (tr / INR n))) as [E F]. split.
  - rewrite E. intros i j Hi Hj. unfold trf, msub. f_equal.
    + destruct (le_lt_dec i j); [apply (G1 i j); lia|apply (G1 j i); lia].
    + unfold A. rewrite mtr_herm, <- G3. unfold mscale. f_equal. symmetry. apply Cdiv_R. apply lt_0_INR in Hn. lra.
  - intros x Hx. rewrite F by assumption. now apply G2.
Qed.

Lemma trf_herm_at : forall n M i j, (0 < n)%nat ->
  trf n (herm M) i j = herm M i j - RtoC (rsum n (fun k => im (M k k)) / INR n) * mid i j.
Proof. intros. unfold trf, msub, mscale. rewrite mtr_herm, Cdiv_R; [reflexivity|]. apply lt_0_INR in H. lra. Qed.
Lemma trf_aherm_at : forall n M i j, (0 < n)%nat ->
  trf n (aherm M) i j = aherm M i j - Ci * RtoC (rsum n (fun k => im (M k k)) / INR n) * mid i j.
Proof.
  intros. unfold trf, msub, mscale. rewrite mtr_aherm, mtr_herm. f_equal. f_equal. unfold Cdiv.
  transitivity (Ci * Cdiv (RtoC (rsum n (fun k => im (M k k)))) (RtoC (INR n))); [unfold Cdiv; ring|].
  rewrite Cdiv_R; [reflexivity|]. apply lt_0_INR in H. lra.
Qed.
Ltac elem := unfold herm, aherm, mscale, msub, dag, mid, cimag, mx; cbn [Nat.eqb Nat.add Nat.mul rsum].
Ltac fin := apply C_eq; cunfold; cbn [INR]; field.
Ltac atm := rewrite ?trf_herm_at, ?trf_aherm_at by lia.
Lemma Hermitian_proj_ok : forall n Q U, (0 < n)%nat -> shaped n (mx n U) ->
  holds n (Hermitian_proj n Q U) Q (trf n (herm (mx n U))).
Proof.
  intros n Q U Hn S. destruct n as [|[|[|[|n]]]]; try lia; try (apply hp_n_ok; lia).
  - destruct (S eq_refl) as [S1 S2]. unfold mx in S1, S2. cbn in S1, S2.
    split; [|framed2]. split2; unfold Hermitian_proj, Hermitian_proj_2; unfold mx at 1; unfold upd; cbn [Nat.eqb Nat.add Nat.mul];
      atm; elem; rewrite ?S1, ?S2; fin.
  - split; [|framed]. split3; unfold Hermitian_proj, Hermitian_proj_3; unfold mx at 1; unfold upd; cbn [Nat.eqb Nat.add Nat.mul]; atm; elem; fin.
Qed.
Lemma AntiHermitian_proj_ok : forall n Q U, shaped n (mx n U) ->
  holds n (AntiHermitian_proj n Q U) Q (aherm (mx n U)).
Proof.
  intros n Q U S. destruct n as [|[|[|[|n]]]]; try apply ahp_n_ok.
  - destruct (S eq_refl) as [S1 S2]. unfold mx in S1, S2. cbn in S1, S2.
    split; [|framed2]. split2; unfold AntiHermitian_proj, AntiHermitian_proj_2; unfold mx at 1; unfold upd; cbn [Nat.eqb Nat.add Nat.mul];
      atm; elem; rewrite ?S1, ?S2; fin.
  - split; [|framed]. split3; unfold AntiHermitian_proj, AntiHermitian_proj_3; unfold mx at 1; unfold upd; cbn [Nat.eqb Nat.add Nat.mul]; atm; elem; fin.
Qed.
Lemma trf_AntiHermitian_proj_ok : forall n Q U, (0 < n)%nat -> shaped n (mx n U) ->
  holds n (trf_AntiHermitian_proj n Q U) Q (trf n (aherm (mx n U))).
Proof.
  assert (G : forall n Q U, (0 < n)%nat -> holds n (trf_AntiHermitian_proj_n n Q U) Q (trf n (aherm (mx n U)))).
  { intros n Q U Hn. unfold trf_AntiHermitian_proj_n. cbv zeta.
    destruct (ahp_n_ok n Q U) as [E F]. set (R := AntiHermitian_proj_n n Q U) in *.
    destruct (sub_diag_ok n R (Cdiv (trace n R) (RtoC (INR n)))) as [E' F']. split.
    - assert (T : mtr n (mx n R) = mtr n (aherm (mx n U))) by now rewrite E.
      rewrite E', trace_ok, T, E. reflexivity.
    - intros x Hx. rewrite F' by assumption. now apply F. }
  intros n Q U Hn S. destruct n as [|[|[|[|n]]]]; try lia; try (apply G; lia).
  - destruct (S eq_refl) as [S1 S2]. unfold mx in S1, S2. cbn in S1, S2.
    split; [|framed2]. split2; unfold trf_AntiHermitian_proj, trf_AntiHermitian_proj_2, AntiHermitian_proj_2; unfold mx at 1; unfold upd; cbn [Nat.eqb Nat.add Nat.mul];
      atm; elem; rewrite ?S1, ?S2; fin.
  - split; [|framed]. split3; unfold trf_AntiHermitian_proj, trf_AntiHermitian_proj_3; unfold mx at 1; unfold upd; cbn [Nat.eqb Nat.add Nat.mul]; atm; elem; fin.
Qed.

(** * Packed matrices *)
Lemma pack_gen_ok : forall n Q (f : nat -> nat -> C),
  packed n (fst (for_ (n-1) (fun i s => for_ (n - i) (fun h '(a, idx) => (upd a idx (f i h), S idx)) s) (Q, O)))
   (fun i j => f i (j - i)%nat).
Proof.
  intros n Q f.
  set (row := fun i s => for_ (n - i) (fun h '(a, idx) => (upd a idx (f i h), S idx)) s : arr * nat).
  set (P := fun k (s : arr * nat) => snd s = off n k /\
    forall i h, (i < k)%nat -> (h < n - i)%nat -> fst s (off n i + h)%nat = f i h).
  assert (G : P (n-1)%nat (for_ (n-1) row (Q, O))).
  { apply (for_ind P); [split; [reflexivity|intros; lia]|].
    intros k s Hk [S1 S2]. unfold row.
    set (W := fun q (t : arr * nat) => snd t = (off n k + q)%nat /\
      (forall i h, (i < k)%nat -> (h < n - i)%nat -> fst t (off n i + h)%nat = f i h) /\
      (forall h, (h < q)%nat -> fst t (off n k + h)%nat = f k h)).
    match goal with |- P _ ?t => assert (W (n-k)%nat t) as (Q1 & Q2 & Q3) end.
    { apply (for_ind W).
      - split; [lia|split; [exact S2|intros; lia]].
      - intros q [t idx] Hq (T1 & T2 & T3). cbn [fst snd] in *. subst idx. split; [cbn; lia|].
        split; cbn [fst snd].
        + intros i h Hi Hh. rewrite upd_neq; [now apply T2|]. intro E; apply off_inj in E; lia.
        + intros h Hh. destruct (Nat.eq_dec h q) as [->|N].
          * now rewrite upd_eq.
          * rewrite upd_neq by lia. apply T3; lia. }
    split; [rewrite Q1; reflexivity|].
    intros i h Hi Hh. destruct (Nat.eq_dec i k) as [->|N]; [now apply Q3|apply Q2; lia]. }
  destruct G as [_ G]. intros i j Hi Hj. now rewrite G by lia.
Qed.
Lemma for_S_first : forall {S} m (body : nat -> S -> S) s, for_ (Datatypes.S m) body s = for_ m (fun h => body (Datatypes.S h)) (body O s).
Proof. intros S m. induction m; intros body s; [reflexivity|]. cbn [for_] in *. now rewrite IHm. Qed.
Lemma hps_n_ok : forall n Q U, (0 < n)%nat -> packed n (Hermitian_proj_short_n n Q U) (trf n (herm (mx n U))).
Proof.
  intros n Q U Hn. unfold Hermitian_proj_short_n. rewrite for_rsum. cbv zeta.
  set (tr := ((0 + rsum n (fun i => im (U (i * (n+1))%nat))) / INR n)%R).
  set (f := fun i h => match h with O => RtoC (im (U (i*(n+1))%nat) - tr)
     | S h => - Ci * (U ((i+1+h) + n*i)%nat - conj (U (i + n*(i+1+h))%nat)) * RtoC (1/2) end).
  pose proof (pack_gen_ok n Q f) as G.
  match goal with |- packed n (fst ?x) _ => match type of G with packed n (fst ?y) _ => replace x with y end end.
  - intros i j Hi Hj. rewrite G by assumption. unfold f. destruct (j - i)%nat as [|h] eqn:E.
    + replace j with i by lia. unfold trf, msub, mscale, mid. rewrite Nat.eqb_refl, herm_diag, mtr_herm.
      rewrite Cdiv_R by (apply lt_0_INR in Hn; lra). unfold mx at 1. rewrite diag_index.
      rewrite RtoC_sub. f_equal. transitivity (RtoC tr); [reflexivity|].
      transitivity (RtoC tr * C1); [ring|]. f_equal. f_equal. unfold tr. rewrite Rplus_0_l. f_equal.
      apply rsum_ext; intros k _. unfold mx. now rewrite diag_index.
    + replace (i + 1 + h)%nat with j by lia. unfold trf, msub, mscale, mid. rewrite (proj2 (Nat.eqb_neq i j)) by lia.
      unfold herm, aherm, mscale, msub, dag, mx. ring.
  - apply for_ext. intros i [t idx] Hi. replace (n - i)%nat with (S (n - (i+1))) by lia. rewrite for_S_first.
    cbn [f]. apply for_ext. intros h [t' idx'] _. reflexivity.
Qed.
Lemma Hermitian_proj_short_ok : forall n Q U, (0 < n)%nat -> shaped n (mx n U) ->
  packed n (Hermitian_proj_short n Q U) (trf n (herm (mx n U))).
Proof.
  intros n Q U Hn S. destruct n as [|[|[|[|n]]]]; try lia; try (apply hps_n_ok; lia).
  - destruct (S eq_refl) as [S1 S2]. unfold mx in S1, S2. cbn in S1, S2.
    intros i j Hi Hj. replace i with 0%nat by lia. destruct j as [|[|j]]; try lia;
    unfold Hermitian_proj_short, Hermitian_proj_short_2; unfold upd; cbn [Nat.eqb Nat.add Nat.mul off Nat.sub];
      atm; elem; rewrite ?S1, ?S2; fin.
  - intros i j Hi Hj. destruct i as [|[|i]]; try lia; destruct j as [|[|[|j]]]; try lia;
    unfold Hermitian_proj_short, Hermitian_proj_short_3; unfold upd; cbn [Nat.eqb Nat.add Nat.mul off Nat.sub]; atm; elem; fin.
Qed.
Lemma AntiHermitian_proj_short_ok : forall n Q U, (n = 2 \/ n = 3)%nat -> shaped n (mx n U) ->
  packed n (AntiHermitian_proj_short n Q U) (trf n (aherm (mx n U))).
Proof.
  intros n Q U Hn S. destruct Hn as [E|E]; subst n.
  - destruct (S eq_refl) as [S1 S2]. unfold mx in S1, S2. cbn in S1, S2.
    intros i j Hi Hj. replace i with 0%nat by lia. destruct j as [|[|j]]; try lia;
    unfold AntiHermitian_proj_short, AntiHermitian_proj_short_2; unfold upd; cbn [Nat.eqb Nat.add Nat.mul off Nat.sub];
      atm; elem; rewrite ?S1, ?S2; fin.
  - intros i j Hi Hj. destruct i as [|[|i]]; try lia; destruct j as [|[|[|j]]]; try lia;
    unfold AntiHermitian_proj_short, AntiHermitian_proj_short_3; unfold upd; cbn [Nat.eqb Nat.add Nat.mul off Nat.sub]; atm; elem; fin.
Qed.
(** the general code subtracts the real number tr where i*tr is meant *)
Lemma AntiHermitian_proj_short_fails : forall n, (4 <= n)%nat -> exists Q U,
  ~ packed n (AntiHermitian_proj_short n Q U) (trf n (aherm (mx n U))).
Proof.
  intros n Hn. exists (fun _ => C0), (fun k => if Nat.eqb k 0 then Ci else C0).
  set (U := fun k => if Nat.eqb k 0 then Ci else C0). intro H.
  assert (D : AntiHermitian_proj_short n = AntiHermitian_proj_short_n n) by (destruct n as [|[|[|[|n]]]]; try lia; reflexivity).
  rewrite D in H. clear D. unfold AntiHermitian_proj_short_n in H. rewrite for_csum_from in H. cbv zeta in H.
  assert (T : csum n (fun i => cimag (U (i*(n+1))%nat)) = C1).
  { rewrite (csum_single n 0); [reflexivity|lia|]. intros i Hi N. unfold U.
    destruct (Nat.eqb_spec (i*(n+1)) 0) as [Z|Z]; [|reflexivity]. destruct i; [congruence|]. cbn in Z. lia. }
  rewrite T in H.
  set (tr := Cdiv (C0 + C1) (RtoC (INR n))) in H.
  pose proof (pack_gen_ok n (fun _ => C0) (fun i h => if negb (Nat.eqb i (i+h)) then
     (U (i + h + n * i)%nat - conj (U (i + n * (i + h))%nat)) * RtoC (1/2) else Ci * cimag (U (i + h + n*i)%nat) - tr)) as G.
  specialize (H 1%nat 1%nat ltac:(lia) ltac:(lia)). specialize (G 1%nat 1%nat ltac:(lia) ltac:(lia)). cbv beta zeta in G, H.
  rewrite G in H. clear G. cbn [Nat.sub Nat.add Nat.eqb negb] in H.
  apply (f_equal re) in H. unfold trf, msub in H. rewrite mtr_aherm, mtr_herm in H.
  assert (N0 : (0 < INR n)%R) by (apply lt_0_INR; lia).
  assert (TR : re tr = (/ INR n)%R) by (unfold tr, Cdiv, Cinv, norm2; cunfold; field; lra).
  rewrite aherm_diag in H.
  assert (E : re (Ci * cimag (U (S (n*1))%nat) - tr) = (- / INR n)%R) by (rewrite <- TR; unfold cimag; cunfold; ring).
  rewrite E in H. clear E. pose proof (Rinv_0_lt_compat _ N0).
  set (s := rsum n _) in H. unfold mscale, mid in H. cbn [Nat.eqb] in H.
  replace (mx n U 1 1) with C0 in H.
  - assert (X : re (Ci * RtoC (im C0) - Cdiv (Ci * RtoC s) (RtoC (INR n)) * C1) = 0%R).
    { unfold Cdiv, Cinv, norm2. cunfold. field. lra. }
    rewrite X in H. lra.
  - unfold mx, U. rewrite (proj2 (Nat.eqb_neq _ _)) by lia. reflexivity.
Qed.
(** for NC=2 a matrix that is not a quaternion is not projected *)
Lemma Hermitian_proj_2_fails : exists Q U, ~ meq 2 (mx 2 (Hermitian_proj 2 Q U)) (trf 2 (herm (mx 2 U))).
Proof.
  exists (fun _ => C0), (fun k => if Nat.eqb k 1 then C1 else C0). intro H.
  specialize (H 0%nat 1%nat ltac:(lia) ltac:(lia)). apply (f_equal im) in H. revert H.
  unfold Hermitian_proj, Hermitian_proj_2. unfold mx at 1. unfold upd. cbn [Nat.eqb Nat.add Nat.mul].
  unfold trf, herm, aherm, mscale, msub, dag, mtr, mid, mx. cbn [Nat.eqb csum INR Nat.add Nat.mul]. unfold Cdiv, Cinv, norm2; cunfold. lra.
Qed.

(** * Reduced storage *)
Lemma carg_spec : forall z, RtoC (sqrt (norm2 z)) * Cexpi (carg z) = z.
Proof.
  intro z. pose proof (norm2_nonneg z) as N. unfold carg. destruct (Req_EM_T (norm2 z) 0) as [Z|NZ].
  - rewrite Z, sqrt_0. apply norm2_zero in Z. subst. apply C_eq; unfold Cexpi; cunfold; ring.
  - assert (P : (0 < norm2 z)%R) by lra. pose proof (sqrt_lt_R0 _ P) as S. pose proof (sqrt_sqrt _ N) as SS.
    set (r := sqrt (norm2 z)) in *.
    assert (B : (-1 <= re z / r <= 1)%R).
    { assert (Q : (re z * re z <= r * r)%R) by (rewrite SS; unfold norm2; nra).
      assert (Q1 : (re z <= r)%R) by nra. assert (Q2 : (- r <= re z)%R) by nra.
      split; apply (Rmult_le_reg_r r); try assumption; unfold Rdiv; rewrite Rmult_assoc, Rinv_l by lra; lra. }
    assert (SI : (r * sqrt (1 - (re z / r)²) = Rabs (im z))%R).
    { assert (E : (1 - (re z / r)² = (im z / r)²)%R).
      { unfold Rsqr. transitivity ((r*r - re z * re z) * / (r*r))%R; [field; lra|].
        rewrite SS at 1. unfold norm2. field. lra. }
      rewrite E, sqrt_Rsqr_abs. unfold Rdiv. rewrite Rabs_mult, (Rabs_pos_eq (/ r)).
      - field. lra.
      - left. now apply Rinv_0_lt_compat. }
    destruct (Rle_dec 0 (im z)) as [I|I].
    + apply C_eq; unfold Cexpi; cunfold; rewrite ?cos_acos, ?sin_acos by assumption.
      * unfold re, im in *. field. lra.
      * fold (re z) (im z). rewrite SI, (Rabs_pos_eq _ I). ring.
    + apply C_eq; unfold Cexpi; cunfold; rewrite ?cos_neg, ?sin_neg, ?cos_acos, ?sin_acos by assumption.
      * unfold re, im in *. field. lra.
      * fold (re z) (im z). transitivity (- (r * sqrt (1 - (re z / r)²)))%R; [ring|]. rewrite SI, Rabs_left by lra. ring.
Qed.
Lemma mul_norm : forall z w t, (t <> 0)%R -> z = w * RtoC t -> z * RtoC (1 / t) = w.
Proof. intros z w t Ht ->. destruct w. apply C_eq; cunfold; field; assumption. Qed.
Lemma rebuild_3_ok : forall a p U, SU3 (mx 3 U) -> (DBL_MIN <= norm2 (U 1%nat) + norm2 (U 2%nat))%R ->
  holds 3 (rebuild_3 a (shorten_3 p U)) a (mx 3 U).
Proof.
  intros a p U HU HN. pose proof (SU3_adj _ HU) as A. destruct HU as [[R C] _].
  pose proof (R 0 0 ltac:(lia) ltac:(lia))%nat as R00. pose proof (C 0 0 ltac:(lia) ltac:(lia))%nat as C00.
  pose proof (R 1 0 ltac:(lia) ltac:(lia))%nat as R10. pose proof (R 2 0 ltac:(lia) ltac:(lia))%nat as R20.
  pose proof (A 0 2 ltac:(lia) ltac:(lia))%nat as A02. pose proof (A 0 1 ltac:(lia) ltac:(lia))%nat as A01.
  clear R C A.
  unfold mmul, mid, dag, adj3, mx in *. cbn [csum Nat.eqb Nat.add Nat.mul] in *.
  change (conj (U 6%nat) = U 1%nat * U 5%nat - U 2%nat * U 4%nat) in A02.
  change (conj (U 3%nat) = U 7%nat * U 2%nat - U 8%nat * U 1%nat) in A01.
  assert (D : (0 < DBL_MIN)%R) by (unfold DBL_MIN; apply Rinv_0_lt_compat, pow_lt; lra).
  remember (U 0%nat) as u0. remember (U 1%nat) as u1. remember (U 2%nat) as u2. remember (U 3%nat) as u3.
  remember (U 4%nat) as u4. remember (U 5%nat) as u5. remember (U 6%nat) as u6. remember (U 7%nat) as u7. remember (U 8%nat) as u8.
  set (t := (norm2 u1 + norm2 u2)%R) in *.
  assert (TC : RtoC t = u1 * conj u1 + u2 * conj u2).
  { unfold t, norm2. destruct u1, u2. apply C_eq; cunfold; ring. }
  assert (N0 : (1 - t = norm2 u0)%R).
  { apply (f_equal re) in R00. unfold t, norm2. destruct u0, u1, u2. cunfold. lra. }
  assert (N6 : (1 - norm2 u0 - norm2 u3 = norm2 u6)%R).
  { apply (f_equal re) in C00. unfold norm2. destruct u0, u3, u6. cunfold. lra. }
  assert (X : forall k, (k < 9)%nat -> rebuild_3 a (shorten_3 p U) k = U k).
  { unfold rebuild_3, shorten_3, rupd. cbn [Nat.eqb]. rewrite <- !Hequ0, <- !Hequ1, <- !Hequ2, <- !Hequ3, <- !Hequ6.
    replace (re u1 * re u1 + im u1 * im u1 + re u2 * re u2 + im u2 * im u2)%R with t by (unfold t, norm2; ring).
    destruct (Rlt_dec (Rabs t) DBL_MIN) as [L|L]; [exfalso; rewrite Rabs_pos_eq in L by lra; lra|]. clear L.
    replace (1 - (re u1 * re u1 + im u1 * im u1) - (re u2 * re u2 + im u2 * im u2))%R with (norm2 u0)
      by (rewrite <- N0; unfold t, norm2; ring).
    destruct (Rlt_dec (norm2 u0) 0) as [L|_]; [pose proof (norm2_nonneg u0); lra|].
    rewrite carg_spec.
    replace (1 - (re u0 * re u0 + im u0 * im u0) - (re u3 * re u3 + im u3 * im u3))%R with (norm2 u6)
      by (rewrite <- N6; unfold norm2; ring).
    destruct (Rlt_dec (norm2 u6) 0) as [L|_]; [pose proof (norm2_nonneg u6); lra|].
    rewrite carg_spec.
    change (re u1, im u1) with (fst u1, snd u1). change (re u2, im u2) with (fst u2, snd u2).
    change (re u3, im u3) with (fst u3, snd u3). rewrite <- !surjective_pairing.
    assert (T0 : t <> 0%R) by lra.
    intros k Hk. destruct k as [|[|[|[|[|[|[|[|[|k]]]]]]]]]; try lia; unfold upd; cbn [Nat.eqb]; try congruence; rewrite <- ?Hequ4, <- ?Hequ5, <- ?Hequ7, <- ?Hequ8;
    apply mul_norm; try exact T0; rewrite TC, ?conj_mul.
    - rewrite A02. match type of R10 with ?S = _ => transitivity (u4 * (u1 * conj u1 + u2 * conj u2) - u1 * S); [ring|rewrite R10; ring] end.
    - rewrite A02. match type of R10 with ?S = _ => transitivity (u5 * (u1 * conj u1 + u2 * conj u2) - u2 * S); [ring|rewrite R10; ring] end.
    - rewrite A01. match type of R20 with ?S = _ => transitivity (u7 * (u1 * conj u1 + u2 * conj u2) - u1 * S); [ring|rewrite R20; ring] end.
    - rewrite A01. match type of R20 with ?S = _ => transitivity (u8 * (u1 * conj u1 + u2 * conj u2) - u2 * S); [ring|rewrite R20; ring] end. }
  split.
  - intros i j Hi Hj. unfold mx. apply X. lia.
  - unfold rebuild_3. destruct (Rlt_dec _ _); [apply identity_ok|framed].
Qed.
(** the parametrisation is undefined when the rest of the first row vanishes:
    the result is then the identity *)
Lemma rebuild_3_degenerate : forall a p U, (norm2 (U 1%nat) + norm2 (U 2%nat) < DBL_MIN)%R ->
  holds 3 (rebuild_3 a (shorten_3 p U)) a mid.
Proof.
  intros a p U H. unfold rebuild_3, shorten_3, rupd. cbn [Nat.eqb].
  match goal with |- context[Rlt_dec (Rabs ?t) _] => replace t with (norm2 (U 1%nat) + norm2 (U 2%nat))%R by (unfold norm2; ring) end.
  destruct (Rlt_dec _ _) as [L|L]; [apply identity_ok|].
  exfalso. apply L. rewrite Rabs_pos_eq; [exact H|]. pose proof (norm2_nonneg (U 1%nat)). pose proof (norm2_nonneg (U 2%nat)). lra.
Qed.
Lemma rebuild_2_ok : forall a p U, SU2 (mx 2 U) -> holds 2 (rebuild_2 a (shorten_2 p U)) a (mx 2 U).
Proof.
  intros a p U [[R _] D].
  pose proof (R 0 0 ltac:(lia) ltac:(lia))%nat as R00. pose proof (R 1 0 ltac:(lia) ltac:(lia))%nat as R10. clear R.
  unfold mmul, mid, dag, det2, mx in *. cbn [csum Nat.eqb Nat.add Nat.mul] in *.
  remember (U 0%nat) as u0. remember (U 1%nat) as u1. remember (U 2%nat) as u2. remember (U 3%nat) as u3.
  assert (N0 : (1 - (re u1 * re u1 + im u1 * im u1) = norm2 u0)%R).
  { apply (f_equal re) in R00. unfold norm2. destruct u0, u1. cunfold. lra. }
  split; [|framed2].
  assert (X : forall k, (k < 4)%nat -> rebuild_2 a (shorten_2 p U) k = U k).
  { unfold rebuild_2, shorten_2, rupd. cbn [Nat.eqb]. rewrite <- !Hequ0, <- !Hequ1, N0, carg_spec.
    change (re u1, im u1) with (fst u1, snd u1). rewrite <- !surjective_pairing.
    intros k Hk. destruct k as [|[|[|[|k]]]]; try lia; unfold upd; cbn [Nat.eqb]; try congruence.
    - rewrite <- Hequ2. transitivity (- conj u1 * C1); [ring|]. rewrite <- D.
      match type of R10 with ?S = _ => match type of R00 with ?T = _ =>
        transitivity (u2 * T - u0 * S); [ring|rewrite R10, R00; ring] end end.
    - rewrite <- Hequ3. transitivity (conj u0 * C1); [ring|]. rewrite <- D.
      match type of R10 with ?S = _ => match type of R00 with ?T = _ =>
        transitivity (u3 * T - u1 * S); [ring|rewrite R10, R00; ring] end end. }
  intros i j Hi Hj. apply X. lia.
Qed.
(** diag( i, -i, 1 ) *)
Definition dg : arr := fun k => match k with 0 => Ci | 4 => - Ci | 8 => C1 | _ => C0 end.
Lemma dg_su3 : SU3 (mx 3 dg).
Proof.
  split; [split; split3|]; unfold det3, mmul, dag, mx, mid, dg; cbn [csum Nat.add Nat.mul Nat.eqb]; apply C_eq; cunfold; lra.
Qed.
Lemma rebuild_3_fails : forall a p, ~ meq 3 (mx 3 (rebuild_3 a (shorten_3 p dg))) (mx 3 dg).
Proof.
  intros a p H. destruct (rebuild_3_degenerate a p dg) as [E _].
  { unfold dg, norm2, DBL_MIN. cunfold. ring_simplify. apply Rinv_0_lt_compat, pow_lt. lra. }
  specialize (H 0 0 ltac:(lia) ltac:(lia))%nat. rewrite (E 0 0 ltac:(lia) ltac:(lia))%nat in H.
  apply (f_equal re) in H. unfold mid, mx, dg in H. cbn [Nat.eqb Nat.add Nat.mul] in H. cunfold. lra.
Qed.
