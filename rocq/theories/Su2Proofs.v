(** Proofs about SU(2) subgroup updates. *)
From Coq Require Import PeanoNat Lia List Reals Lra Permutation.
From Verif Require Import CMat Det Arr MatSpec MmulProofs MatProofs InvProofs Su2Model Lib.
Import ListNotations.
Local Open Scope C_scope.

Ltac peq := repeat match goal with |- (_, _) = (_, _) => apply f_equal2 end; first [reflexivity|lia].

(** * The enumeration of the pairs *)
Definition row_pairs (NC d : nat) : list (nat * nat) := map (fun i => (i, (i + d)%nat)) (seq 0 (NC - d)).
Definition pairs (NC : nat) : list (nat * nat) := flat_map (row_pairs NC) (seq 1 (NC - 1)).
Definition su2_pair (NC k : nat) : nat * nat :=
  let '(i1, d) := scan_del (NC-1) NC 0 0 0 k in (i1, (i1 + d)%nat).

Lemma nth_error_seq_map' : forall {A} (f : nat -> A) n k, (k < n)%nat -> nth_error (map f (seq 0 n)) k = Some (f k).
Proof.
  intros A f n k H. erewrite map_nth_error; [reflexivity|]. rewrite (nth_error_nth' _ 0%nat) by (now rewrite seq_length).
  now rewrite seq_nth.
Qed.
Lemma scan_i1_is : forall k i1 index su2, (index <= su2)%nat ->
  scan_i1 k i1 index su2 =
  if Nat.ltb (su2 - index) k then (true, (i1 + (su2 - index))%nat, su2) else (false, (i1 + k)%nat, (index + k)%nat).
Proof.
  induction k; intros i1 index su2 H; cbn [scan_i1].
  - cbn. f_equal; [f_equal|]; lia.
  - destruct (Nat.eqb_spec index su2) as [->|N].
    + rewrite Nat.sub_diag. cbn. f_equal; f_equal. lia.
    + rewrite IHk by lia. destruct (Nat.ltb_spec (su2 - S index) k), (Nat.ltb_spec (su2 - index) (S k)); try lia;
        peq.
Qed.
Lemma scan_del_is : forall fuel NC del index i1 su2, (fuel = NC - 1 - del)%nat -> (index <= su2)%nat ->
  (su2 - index < length (flat_map (row_pairs NC) (seq (S del) fuel)))%nat ->
  let '(i, d) := scan_del fuel NC del index i1 su2 in
  nth_error (flat_map (row_pairs NC) (seq (S del) fuel)) (su2 - index) = Some (i, (i + d)%nat).
Proof.
  induction fuel; intros NC del index i1 su2 Hf Hi Hl; [cbn in Hl; lia|].
  cbn [scan_del]. rewrite (proj2 (Nat.ltb_lt del (NC-1))) by lia. cbv zeta.
  rewrite scan_i1_is by assumption.
  cbn [seq flat_map] in *. rewrite app_length in Hl.
  assert (LR : length (row_pairs NC (S del)) = (NC - S del)%nat) by (unfold row_pairs; now rewrite map_length, seq_length).
  destruct (Nat.ltb_spec (su2 - index) (NC - S del)) as [L|L].
  - cbv iota beta. rewrite nth_error_app1 by lia. unfold row_pairs. now rewrite nth_error_seq_map' by lia.
  - cbv iota beta. rewrite nth_error_app2 by lia. rewrite LR in *.
    specialize (IHfuel NC (S del) (index + (NC - S del))%nat (0 + (NC - S del))%nat su2).
    replace (su2 - index - (NC - S del))%nat with (su2 - (index + (NC - S del)))%nat by lia.
    apply IHfuel; lia.
Qed.

Lemma pairs_in : forall NC a b, In (a, b) (pairs NC) <-> (a < b < NC)%nat.
Proof.
  intros NC a b. unfold pairs. rewrite in_flat_map. split.
  - intros (d & Hd & Hp). apply in_seq in Hd. unfold row_pairs in Hp. apply in_map_iff in Hp.
    destruct Hp as (i & E & Hi). apply in_seq in Hi. injection E as <- <-. lia.
  - intros H. exists (b - a)%nat. split; [apply in_seq; lia|]. unfold row_pairs. apply in_map_iff.
    exists a. split; [f_equal; lia|]. apply in_seq; lia.
Qed.
Lemma NoDup_flat_map_seq : forall {A} (f : nat -> list A) (g : A -> nat) n s,
  (forall d, NoDup (f d)) -> (forall d x, In x (f d) -> g x = d) -> NoDup (flat_map f (seq s n)).
Proof.
  intros A f g n. induction n; intros s H1 H2; cbn; [constructor|].
  apply NoDup_app_intro; [apply H1|now apply IHn|].
  intros x Hx Hy. apply in_flat_map in Hy. destruct Hy as (d & Hd & Hy). apply in_seq in Hd.
  apply H2 in Hx, Hy. lia.
Qed.
Lemma pairs_nodup : forall NC, NoDup (pairs NC).
Proof.
  intro NC. apply (NoDup_flat_map_seq _ (fun p => snd p - fst p)%nat).
  - intro d. unfold row_pairs. apply FinFun.Injective_map_NoDup; [|apply seq_NoDup].
    intros x y E. now injection E.
  - intros d [a b] H. unfold row_pairs in H. apply in_map_iff in H. destruct H as (i & E & _).
    injection E as <- <-. cbn. lia.
Qed.
Lemma pairs_length : forall NC, length (pairs NC) = NSU2SUBGROUPS NC.
Proof.
  intro NC. unfold pairs, NSU2SUBGROUPS.
  assert (G : forall m s, (m + s = NC)%nat -> (2 * length (flat_map (row_pairs NC) (seq s m)) = m * (m + 1))%nat).
  { induction m; intros s E; [reflexivity|]. cbn [seq flat_map]. rewrite app_length.
    specialize (IHm (S s) ltac:(lia)). unfold row_pairs at 1. rewrite map_length, seq_length.
    replace (NC - s)%nat with (S m) by lia. lia. }
  destruct NC as [|m]; [reflexivity|]. specialize (G m 1%nat ltac:(lia)). replace (S m - 1)%nat with m by lia.
  apply (Nat.div_unique _ 2 _ 0); lia.
Qed.
Lemma su2_pair_nth : forall NC k, (k < NSU2SUBGROUPS NC)%nat -> nth_error (pairs NC) k = Some (su2_pair NC k).
Proof.
  intros NC k Hk. rewrite <- pairs_length in Hk. unfold su2_pair, pairs in *.
  pose proof (scan_del_is (NC-1) NC 0 0 0 k ltac:(lia) ltac:(lia)) as H. rewrite Nat.sub_0_r in H.
  specialize (H Hk). destruct (scan_del (NC - 1) NC 0 0 0 k). exact H.
Qed.
Lemma su2_pair_lt : forall NC k, (k < NSU2SUBGROUPS NC)%nat -> (fst (su2_pair NC k) < snd (su2_pair NC k) < NC)%nat.
Proof.
  intros NC k Hk. apply su2_pair_nth, nth_error_In in Hk. destruct (su2_pair NC k). now apply pairs_in in Hk.
Qed.
Lemma su2_pair_onto : forall NC a b, (a < b < NC)%nat -> exists k, (k < NSU2SUBGROUPS NC)%nat /\ su2_pair NC k = (a, b).
Proof.
  intros NC a b H. apply pairs_in in H. apply In_nth_error in H. destruct H as [k Hk]. exists k.
  assert (L : (k < NSU2SUBGROUPS NC)%nat) by (rewrite <- pairs_length; apply nth_error_Some; congruence).
  split; [assumption|]. rewrite su2_pair_nth in Hk by assumption. congruence.
Qed.
Lemma su2_pair_inj : forall NC j k, (j < NSU2SUBGROUPS NC)%nat -> (k < NSU2SUBGROUPS NC)%nat ->
  su2_pair NC j = su2_pair NC k -> j = k.
Proof.
  intros NC j k Hj Hk E. apply (proj1 (NoDup_nth_error _) (pairs_nodup NC)).
  - now rewrite pairs_length.
  - now rewrite !su2_pair_nth, E by assumption.
Qed.
Lemma su2_data_is : forall NC k,
  su2_data NC k = let '(a, b) := su2_pair NC k in ((a + NC*a)%nat, (b + NC*a)%nat, (a + NC*b)%nat, (b + NC*b)%nat).
Proof. intros. unfold su2_data, su2_pair. destruct (scan_del (NC-1) NC 0 0 0 k). reflexivity. Qed.

(** * SU(2) elements embedded in n x n matrices *)
Definition embed (a b : nat) (s0 s1 : C) : mat := fun i j =>
  if Nat.eqb i a then (if Nat.eqb j a then s0 else if Nat.eqb j b then s1 else C0)
  else if Nat.eqb i b then (if Nat.eqb j a then - conj s1 else if Nat.eqb j b then conj s0 else C0)
  else mid i j.
Definition unit2 (s0 s1 : C) : Prop := (norm2 s0 + norm2 s1 = 1)%R.

Ltac eqbs := repeat match goal with |- context [Nat.eqb ?x ?y] => destruct (Nat.eqb_spec x y); subst; try lia end.
Lemma embed_mmul : forall n a b s0 s1 M, (a < n)%nat -> (b < n)%nat -> a <> b ->
  meq n (mmul n (embed a b s0 s1) M) (fun i j =>
    if Nat.eqb i a then s0 * M a j + s1 * M b j
    else if Nat.eqb i b then - conj s1 * M a j + conj s0 * M b j else M i j).
Proof.
  intros n a b s0 s1 M Ha Hb N i j Hi Hj. unfold mmul.
  destruct (Nat.eqb_spec i a) as [->|Na].
  - rewrite (csum_two n a b) by (try assumption; intros k _ K1 K2; unfold embed; rewrite Nat.eqb_refl; eqbs; ring).
    unfold embed. rewrite !Nat.eqb_refl. eqbs. reflexivity.
  - destruct (Nat.eqb_spec i b) as [->|Nb].
    + rewrite (csum_two n a b) by (try assumption; intros k _ K1 K2; unfold embed; eqbs; ring).
      unfold embed. eqbs. reflexivity.
    + rewrite (csum_ext n _ (fun k => mid i k * M k j)) by (intros k _; unfold embed; eqbs; reflexivity).
      now rewrite csum_delta_l.
Qed.
Lemma embed_dag : forall a b s0 s1, a <> b -> forall i j, dag (embed a b s0 s1) i j = embed a b (conj s0) (- s1) i j.
Proof.
  intros a b s0 s1 N i j. unfold dag, embed. rewrite mid_sym. unfold mid. eqbs; autorewrite with conj; try reflexivity; cring.
Qed.
Lemma unit2_C : forall s0 s1, unit2 s0 s1 -> s0 * conj s0 + s1 * conj s1 = C1.
Proof. intros s0 s1 H. rewrite !mul_conj, <- RtoC_add. unfold unit2 in H. now rewrite H. Qed.
Lemma embed_right_inv : forall n a b s0 s1, (a < n)%nat -> (b < n)%nat -> a <> b -> unit2 s0 s1 ->
  meq n (mmul n (embed a b s0 s1) (embed a b (conj s0) (- s1))) mid.
Proof.
  intros n a b s0 s1 Ha Hb N U. apply unit2_C in U. rewrite embed_mmul by assumption. intros i j Hi Hj.
  unfold embed, mid. eqbs; autorewrite with conj; try ring; try (rewrite <- U; ring).
Qed.
Lemma embed_unitary : forall n a b s0 s1, (a < n)%nat -> (b < n)%nat -> a <> b -> unit2 s0 s1 -> unitary n (embed a b s0 s1).
Proof.
  intros n a b s0 s1 Ha Hb N U.
  assert (E : meq n (dag (embed a b s0 s1)) (embed a b (conj s0) (- s1))) by (intros i j _ _; now apply embed_dag).
  assert (R : meq n (mmul n (embed a b s0 s1) (embed a b (conj s0) (- s1))) mid) by now apply embed_right_inv.
  split; rewrite E; [exact R|]. now apply left_inverse_right.
Qed.
Lemma embed_det : forall n a b s0 s1, (a < n)%nat -> (b < n)%nat -> a <> b ->
  mdet n (embed a b s0 s1) = s0 * conj s0 + s1 * conj s1.
Proof.
  intros n a b s0 s1 Ha Hb N.
  set (ea := fun j => mid a j). set (eb := fun j => mid b j).
  set (ra := fun j => s0 * ea j + s1 * eb j).
  rewrite (mdet_ext n _ (setrow (setrow mid a ra) b (fun j => - conj s1 * ea j + conj s0 * eb j))).
  2:{ intros i j _ _. unfold embed, setrow, ra, ea, eb, mid. eqbs; ring. }
  rewrite mdet_linear by assumption.
  assert (K : forall e, mdet n (setrow (setrow mid a ra) b e) =
      s0 * mdet n (setrow (setrow mid b e) a ea) + s1 * mdet n (setrow (setrow mid b e) a eb)).
  { intro e. rewrite <- mdet_linear by assumption. apply mdet_ext. intros i j _ _. unfold setrow. eqbs; reflexivity. }
  rewrite !K.
  rewrite (mdet_eq_rows' n (setrow (setrow mid b ea) a ea) a b) by
    (try assumption; intros j _; unfold setrow; rewrite Nat.eqb_refl; eqbs; reflexivity).
  rewrite (mdet_eq_rows' n (setrow (setrow mid b eb) a eb) a b) by
    (try assumption; intros j _; unfold setrow; rewrite Nat.eqb_refl; eqbs; reflexivity).
  rewrite (mdet_ext n (setrow (setrow mid b eb) a ea) mid) by
    (intros i j _ _; unfold setrow, ea, eb; eqbs; reflexivity).
  rewrite (mdet_ext n (setrow (setrow mid b ea) a eb) (swaprows mid a b)) by
    (intros i j _ _; unfold setrow, swaprows, ea, eb; eqbs; reflexivity).
  rewrite mdet_swap, mdet_mid by assumption. ring.
Qed.
Lemma embed_SUn : forall n a b s0 s1, (a < n)%nat -> (b < n)%nat -> a <> b -> unit2 s0 s1 -> SUn n (embed a b s0 s1).
Proof.
  intros. split; [now apply embed_unitary|]. rewrite embed_det by assumption. now apply unit2_C.
Qed.

(** * The multiplication routines *)
Lemma mxl : forall n (a : arr) i j, a (n*i + j)%nat = mx n a i j.
Proof. intros. unfold mx. f_equal. lia. Qed.
Lemma su2_multiply_ok : forall n w s0 s1 k, (k < NSU2SUBGROUPS n)%nat ->
  let '(a, b) := su2_pair n k in
  holds n (shortened_su2_multiply n w s0 s1 k) w (mmul n (embed a b s0 s1) (mx n w)).
Proof.
  intros n w s0 s1 k Hk. pose proof (su2_pair_lt n k Hk) as L. destruct (su2_pair n k) as [a b] eqn:E. cbn [fst snd] in L.
  unfold shortened_su2_multiply. rewrite su2_data_is, E.
  replace ((a + n*a) / n)%nat with a by (symmetry; apply mod_idx; lia).
  replace ((a + n*b) / n)%nat with b by (symmetry; apply mod_idx; lia).
  match goal with |- holds _ ?r _ _ => set (R := r) end.
  assert (P : (forall j, (j < n)%nat -> mx n R a j = s0 * mx n w a j + s1 * mx n w b j /\
                         mx n R b j = - conj s1 * mx n w a j + conj s0 * mx n w b j) /\
              (forall x, (forall j, (j < n)%nat -> x <> (n*a + j)%nat /\ x <> (n*b + j)%nat) -> R x = w x)).
  { unfold R. apply (for_ind (fun m R =>
       (forall j, (j < m)%nat -> mx n R a j = s0 * mx n w a j + s1 * mx n w b j /\
                         mx n R b j = - conj s1 * mx n w a j + conj s0 * mx n w b j) /\
              (forall x, (forall j, (j < m)%nat -> x <> (n*a + j)%nat /\ x <> (n*b + j)%nat) -> R x = w x))).
    - split; [intros; lia|reflexivity].
    - intros i t Hi [P1 P2].
      assert (D : forall j, (j < n)%nat -> (n*a + j <> n*b + i)%nat /\ (n*b + j <> n*a + i)%nat).
      { intros j Hj. split; intro X; [destruct (idx_inj' n a j b i)|destruct (idx_inj' n b j a i)]; try assumption; lia. }
      assert (T1 : t (n*a + i)%nat = mx n w a i).
      { rewrite P2; [apply mxl|]. intros j Hj. split; [lia|]. intro X. destruct (D j ltac:(lia)); lia. }
      assert (T2 : t (n*b + i)%nat = mx n w b i).
      { rewrite P2; [apply mxl|]. intros j Hj. split; [|lia]. intro X. destruct (D j ltac:(lia)); lia. }
      rewrite T1, T2. split.
      + intros j Hj. rewrite <- !mxl.
        destruct (Nat.eq_dec j i) as [->|Nj].
        * split; [rewrite upd_neq, upd_eq by (apply D; lia)|rewrite upd_eq]; reflexivity.
        * destruct (P1 j ltac:(lia)) as [Q1 Q2]. rewrite <- !mxl in Q1, Q2.
          destruct (D j ltac:(lia)). rewrite !upd_neq by lia. split; assumption.
      + intros x Hx. destruct (Hx i ltac:(lia)). rewrite !upd_neq by assumption. apply P2. intros; apply Hx; lia. }
  destruct P as [P1 P2]. split.
  - rewrite embed_mmul by lia. intros i j Hi Hj. destruct (P1 j Hj) as [Q1 Q2].
    destruct (Nat.eqb_spec i a) as [->|Na]; [exact Q1|]. destruct (Nat.eqb_spec i b) as [->|Nb]; [exact Q2|].
    unfold mx. apply P2. intros c Hc. split; intro X; [destruct (idx_inj' n i j a c)|destruct (idx_inj' n i j b c)];
      try assumption; lia.
  - intros x Hx. apply P2. intros j Hj. split; intro X; subst; nia.
Qed.
Lemma su2_multiply_dag_ok : forall n w s0 s1 k, (k < NSU2SUBGROUPS n)%nat ->
  let '(a, b) := su2_pair n k in
  holds n (shortened_su2_multiply_dag n w s0 s1 k) w (mmul n (mx n w) (dag (embed a b s0 s1))).
Proof.
  intros n w s0 s1 k Hk. pose proof (su2_pair_lt n k Hk) as L. destruct (su2_pair n k) as [a b] eqn:E. cbn [fst snd] in L.
  unfold shortened_su2_multiply_dag. rewrite su2_data_is, E.
  replace ((a + n*a) mod n)%nat with a by (symmetry; apply mod_idx; lia).
  replace ((b + n*a) mod n)%nat with b by (symmetry; apply mod_idx; lia).
  match goal with |- holds _ ?r _ _ => set (R := r) end.
  assert (P : (forall j, (j < n)%nat -> mx n R j a = mx n w j a * conj s0 + mx n w j b * conj s1 /\
                         mx n R j b = - mx n w j a * s1 + mx n w j b * s0) /\
              (forall x, (forall j, (j < n)%nat -> x <> (a + j*n)%nat /\ x <> (b + j*n)%nat) -> R x = w x)).
  { unfold R. apply (for_ind (fun m R =>
       (forall j, (j < m)%nat -> mx n R j a = mx n w j a * conj s0 + mx n w j b * conj s1 /\
                         mx n R j b = - mx n w j a * s1 + mx n w j b * s0) /\
              (forall x, (forall j, (j < m)%nat -> x <> (a + j*n)%nat /\ x <> (b + j*n)%nat) -> R x = w x))).
    - split; [intros; lia|reflexivity].
    - intros i t Hi [P1 P2].
      assert (D : forall j, (a + j*n <> b + i*n)%nat /\ (b + j*n <> a + i*n)%nat).
      { intros j. split; intro X; [destruct (idx_inj' n j a i b)|destruct (idx_inj' n j b i a)]; try assumption; lia. }
      assert (D' : forall j, j <> i -> (a + j*n <> a + i*n)%nat /\ (b + j*n <> b + i*n)%nat).
      { intros j N. split; intro X; [destruct (idx_inj' n j a i a)|destruct (idx_inj' n j b i b)]; try assumption; lia. }
      assert (T1 : t (a + i*n)%nat = mx n w i a).
      { rewrite P2; [apply mx'|]. intros j Hj. destruct (D j), (D' j); lia. }
      assert (T2 : t (b + i*n)%nat = mx n w i b).
      { rewrite P2; [apply mx'|]. intros j Hj. destruct (D j), (D' j); lia. }
      rewrite T1, T2. split.
      + intros j Hj. rewrite <- !mx'.
        destruct (Nat.eq_dec j i) as [->|Nj].
        * split; [rewrite upd_neq, upd_eq by (apply D; lia)|rewrite upd_eq]; reflexivity.
        * destruct (P1 j ltac:(lia)) as [Q1 Q2]. rewrite <- !mx' in Q1, Q2.
          destruct (D j), (D' j Nj). rewrite !upd_neq by lia. split; assumption.
      + intros x Hx. destruct (Hx i ltac:(lia)). rewrite !upd_neq by assumption. apply P2. intros; apply Hx; lia. }
  destruct P as [P1 P2]. split.
  - intros i j Hi Hj. destruct (P1 i Hi) as [Q1 Q2].
    assert (G : mmul n (mx n w) (dag (embed a b s0 s1)) i j =
       conj (mmul n (embed a b s0 s1) (dag (mx n w)) j i)).
    { unfold mmul. rewrite csum_conj. apply csum_ext; intros m _. unfold dag. autorewrite with conj. ring. }
    rewrite G, embed_mmul by lia. unfold dag.
    destruct (Nat.eqb_spec j a) as [->|Na]; [rewrite Q1; autorewrite with conj; ring|].
    destruct (Nat.eqb_spec j b) as [->|Nb]; [rewrite Q2; autorewrite with conj; ring|].
    rewrite conj_conj. rewrite <- !mx'. apply P2. intros c Hc. split; intro X; [destruct (idx_inj' n i j c a)|destruct (idx_inj' n i j c b)];
      try assumption; lia.
  - intros x Hx. apply P2. intros j Hj. split; intro X; subst; nia.
Qed.

(** the pair su2_rotate works on, in the orientation it uses *)
Definition rot_pair (NC k : nat) : nat * nat :=
  match NC with
  | 3 => match k mod 3 with 0 => (0, 1) | 1 => (1, 2) | _ => (2, 0) end
  | 2 => (0, 1)
  | _ => su2_pair NC k
  end%nat.
Lemma rot_pair_lt : forall n k, (2 <= n)%nat -> (k < NSU2SUBGROUPS n)%nat ->
  let '(a, b) := rot_pair n k in (a < n)%nat /\ (b < n)%nat /\ a <> b.
Proof.
  intros n k Hn Hk. pose proof (su2_pair_lt n k Hk) as L.
  destruct n as [|[|[|[|n]]]]; try lia; unfold rot_pair.
  - lia.
  - destruct (k mod 3) as [|[|m]]; lia.
  - destruct (su2_pair (S (S (S (S n)))) k). cbn [fst snd] in L. lia.
Qed.
Lemma su2_rotate_ok : forall n U s0 s1 k, (2 <= n)%nat -> (k < NSU2SUBGROUPS n)%nat -> (n = 2%nat -> SUn 2 (mx 2 U)) ->
  let '(a, b) := rot_pair n k in
  holds n (su2_rotate n U s0 s1 k) U (mmul n (embed a b s0 s1) (mx n U)).
Proof.
  intros n U s0 s1 k Hn Hk H2. destruct n as [|[|[|[|n]]]]; try lia; unfold rot_pair, su2_rotate.
  - specialize (H2 eq_refl). apply SUn_2, SU2_form in H2. destruct H2 as [F1 F2]. unfold mx in F1, F2. cbn in F1, F2.
    split; [|framed2]. rewrite embed_mmul by lia.
    split2; lazy beta delta [su2_rotate_2 upd Nat.eqb mx Nat.add Nat.mul] iota zeta; rewrite ?F1, ?F2;
      autorewrite with conj; ring.
  - unfold su2_rotate_3. destruct (k mod 3) as [|[|m]].
    + split; [|framed]. rewrite embed_mmul by lia.
      split3; lazy beta delta [upd Nat.eqb mx Nat.add Nat.mul] iota zeta; ring.
    + split; [|framed]. rewrite embed_mmul by lia.
      split3; lazy beta delta [upd Nat.eqb mx Nat.add Nat.mul] iota zeta; ring.
    + split; [|framed]. rewrite embed_mmul by lia.
      split3; lazy beta delta [upd Nat.eqb mx Nat.add Nat.mul] iota zeta; ring.
  - now apply su2_multiply_ok.
Qed.
Lemma su2_rotate_SUn : forall n U s0 s1 k, (2 <= n)%nat -> (k < NSU2SUBGROUPS n)%nat -> SUn n (mx n U) -> unit2 s0 s1 ->
  SUn n (mx n (su2_rotate n U s0 s1 k)).
Proof.
  intros n U s0 s1 k Hn Hk HU U2. pose proof (su2_rotate_ok n U s0 s1 k Hn Hk) as H. pose proof (rot_pair_lt n k Hn Hk) as L.
  destruct (rot_pair n k) as [a b]. destruct H as [H _]; [intros ->; assumption|].
  assert (S : SUn n (mmul n (embed a b s0 s1) (mx n U))) by (apply SUn_mmul; [now apply embed_SUn|assumption]).
  destruct S as [S D]. split; [now rewrite H|]. now rewrite (mdet_ext n _ _ H).
Qed.

(** * Subgroup projection and over-relaxation *)
Lemma subgroup_temps_ok : forall n U S k, (2 <= n)%nat -> (k < NSU2SUBGROUPS n)%nat ->
  let T := mmul n (mx n U) (dag (mx n S)) in
  let '(a, b) := rot_pair n k in subgroup_temps n U S k = (T a a, T a b, T b a, T b b).
Proof.
  intros n U S k Hn Hk T. pose proof (su2_pair_lt n k Hk) as L.
  destruct n as [|[|[|[|n]]]]; try lia; unfold rot_pair, subgroup_temps, T.
  - lazy beta delta [mmul mx dag csum Nat.add Nat.mul] iota zeta. repeat apply f_equal2; ring.
  - destruct (k mod 3) as [|[|m]]; lazy beta delta [mmul mx dag csum Nat.add Nat.mul] iota zeta; repeat apply f_equal2; ring.
  - set (n' := Datatypes.S (Datatypes.S (Datatypes.S (Datatypes.S n)))) in *. rewrite su2_data_is.
    destruct (su2_pair n' k) as [a b]. cbn [fst snd] in L.
    replace ((a + n'*a) / n')%nat with a by (symmetry; apply mod_idx; lia).
    replace ((b + n'*a) mod n')%nat with b by (symmetry; apply mod_idx; lia).
    assert (G : forall m, for_ m (fun i '(temp0, temp1, temp2, temp3) =>
      (temp0 + U (i + n'*a)%nat * conj (S (i + n'*a)%nat),
       temp1 + U (i + n'*a)%nat * conj (S (i + n'*b)%nat),
       temp2 + U (i + n'*b)%nat * conj (S (i + n'*a)%nat),
       temp3 + U (i + n'*b)%nat * conj (S (i + n'*b)%nat))) (C0, C0, C0, C0) =
      (csum m (fun c => mx n' U a c * dag (mx n' S) c a), csum m (fun c => mx n' U a c * dag (mx n' S) c b),
       csum m (fun c => mx n' U b c * dag (mx n' S) c a), csum m (fun c => mx n' U b c * dag (mx n' S) c b))).
    { induction m; [reflexivity|]. cbn [for_ csum]. rewrite IHm. reflexivity. }
    apply G.
Qed.
Local Open Scope R_scope.
Lemma sq4_nonneg : forall a b c d : R, 0 <= a*a + b*b + c*c + d*d.
Proof. intros. nra. Qed.
Lemma only_subgroup_ok : forall n U S k, (2 <= n)%nat -> (k < NSU2SUBGROUPS n)%nat ->
  let T := mmul n (mx n U) (dag (mx n S)) in
  let '(a, b) := rot_pair n k in
  let t0 := (T a a + conj (T b b))%C in let t1 := (T a b - conj (T b a))%C in
  match only_subgroup n U S k with
  | None => t0 = C0 /\ t1 = C0
  | Some (s0, s1, scale) => 0 < scale /\ unit2 s0 s1 /\ (t0 = RtoC (/ scale) * s0)%C /\ (t1 = RtoC (/ scale) * s1)%C
  end.
Proof.
  intros n U S k Hn Hk T. pose proof (subgroup_temps_ok n U S k Hn Hk) as H. fold T in H. cbv zeta in H.
  destruct (rot_pair n k) as [a b]. intros t0 t1. unfold only_subgroup. rewrite H. fold t0 t1. cbv zeta.
  clearbody t0 t1. clear. destruct t0 as [p q], t1 as [r s]. cunfold.
  destruct (Req_EM_T (p*p + q*q + r*r + s*s) 0) as [Z|N].
  - split; apply C_eq; cunfold; nra.
  - assert (P : 0 < p*p + q*q + r*r + s*s) by (pose proof (sq4_nonneg p q r s); lra).
    set (w := p*p + q*q + r*r + s*s) in *. pose proof (sqrt_lt_R0 w P) as Q. pose proof (sqrt_sqrt w ltac:(lra)) as QQ.
    split; [apply Rdiv_lt_0_compat; lra|].
    split; [|split; apply C_eq; cunfold; field; lra].
    unfold unit2, norm2. cunfold.
    transitivity ((p*p + q*q + r*r + s*s) * (/ (sqrt w * sqrt w))); [field; lra|]. rewrite QQ. unfold w. field. exact N.
Qed.
Lemma microcanonical_unit : forall s0 s1, unit2 s0 s1 -> let '(m0, m1) := microcanonical (s0, s1) in unit2 m0 m1.
Proof.
  intros [p q] [r s]. unfold unit2, norm2, microcanonical. cunfold. intro H.
  replace ((p * p - q * q - r * r - s * s - (0 * 0 - 1 * (2 * p * q) * 0 ))) with (p*p - q*q - r*r - s*s) by ring.
  assert (E : r*r = 1 - p*p - q*q - s*s) by lra.
  match goal with |- ?l = 1 => transitivity ((p*p - q*q - r*r - s*s)*(p*p - q*q - r*r - s*s) + 4*(p*p)*(q*q + r*r + s*s)); [ring|] end.
  rewrite E. ring.
Qed.
Lemma re_mtr_embed : forall n a b s0 s1 T, (a < n)%nat -> (b < n)%nat -> a <> b ->
  re (mtr n (mmul n (embed a b s0 s1) T)) =
  re (mtr n T) + re ((s0 - C1) * (T a a + conj (T b b)))%C - re (conj s1 * (T a b - conj (T b a)))%C.
Proof.
  intros n a b s0 s1 T Ha Hb N.
  assert (E : mtr n (mmul n (embed a b s0 s1) T) =
     (mtr n T + ((s0 * T a a + s1 * T b a - T a a) + (- conj s1 * T a b + conj s0 * T b b - T b b)))%C).
  { unfold mtr at 1. rewrite (csum_ext n _ (fun i => T i i + (mmul n (embed a b s0 s1) T i i - T i i))%C) by (intros; ring).
    rewrite csum_add. f_equal. rewrite (csum_two n a b); try assumption.
    - rewrite !embed_mmul by assumption. rewrite !Nat.eqb_refl. rewrite (proj2 (Nat.eqb_neq b a)) by lia. ring.
    - intros i Hi Na Nb. rewrite embed_mmul by assumption. rewrite !(proj2 (Nat.eqb_neq i _)) by assumption. ring. }
  rewrite E. destruct (mtr n T), (T a a), (T a b), (T b a), (T b b), s0, s1. cunfold. ring.
Qed.
Lemma overrelax_step : forall n U S k, (2 <= n)%nat -> (k < NSU2SUBGROUPS n)%nat -> SUn n (mx n U) ->
  match only_subgroup n U S k with None => True | Some (s0, s1, _) =>
    let '(m0, m1) := microcanonical (s0, s1) in let U' := su2_rotate n U m0 m1 k in
    SUn n (mx n U') /\ frame (n*n) U' U /\
    re (mtr n (mmul n (mx n U') (dag (mx n S)))) = re (mtr n (mmul n (mx n U) (dag (mx n S))))
  end.
Proof.
  intros n U S k Hn Hk HU. pose proof (only_subgroup_ok n U S k Hn Hk) as H. cbv zeta in H.
  pose proof (rot_pair_lt n k Hn Hk) as L.
  destruct (only_subgroup n U S k) as [[[s0 s1] scale]|]; [|exact I].
  pose proof (microcanonical_unit s0 s1) as M.
  assert (RO : forall m0 m1, let '(a, b) := rot_pair n k in holds n (su2_rotate n U m0 m1 k) U (mmul n (embed a b m0 m1) (mx n U)))
    by (intros; apply su2_rotate_ok; [assumption|assumption|intros ->; assumption]).
  destruct (rot_pair n k) as [a b]. destruct H as (P & U2 & E0 & E1). specialize (M U2).
  destruct (microcanonical (s0, s1)) as [m0 m1] eqn:Em. specialize (RO m0 m1). destruct RO as [RO RF].
  split; [now apply su2_rotate_SUn|]. split; [exact RF|].
  rewrite RO, mmul_assoc, re_mtr_embed by tauto. set (T := mmul n (mx n U) (dag (mx n S))) in *.
  rewrite E0, E1. clear - Em U2. unfold microcanonical in Em. injection Em as <- <-.
  destruct s0 as [p q], s1 as [r s]. unfold unit2, norm2 in U2. cunfold.
  match goal with |- ?X + ?Y - ?Z = ?X => assert (G : Y - Z = 0) end; [|lra].
  transitivity (/ scale * p * (p*p + q*q + (r*r + s*s) - 1)); [ring|]. rewrite U2. ring.
Qed.
Lemma overrelax_ok : forall n S idx U U', (2 <= n)%nat -> (forall k, In k idx -> (k < NSU2SUBGROUPS n)%nat) ->
  SUn n (mx n U) -> overrelax n U S idx = Some U' ->
  SUn n (mx n U') /\ frame (n*n) U' U /\
  re (mtr n (mmul n (mx n U') (dag (mx n S)))) = re (mtr n (mmul n (mx n U) (dag (mx n S)))).
Proof.
  intros n S idx. induction idx as [|k idx IH]; intros U U' Hn Hk HU H; cbn [overrelax] in H.
  - injection H as <-. repeat split; try apply HU.
  - pose proof (overrelax_step n U S k Hn (Hk k (or_introl eq_refl)) HU) as G.
    destruct (only_subgroup n U S k) as [[[s0 s1] scale]|]; [|discriminate].
    destruct (microcanonical (s0, s1)) as [m0 m1]. destruct G as (G1 & G2 & G3).
    destruct (IH _ U' Hn (fun j Hj => Hk j (or_intror Hj)) G1 H) as (I1 & I2 & I3).
    split; [exact I1|]. split; [|now rewrite I3].
    intros x Hx. rewrite I2, G2 by assumption. reflexivity.
Qed.

(** * Heat bath *)
(** the j-th proposal from position p: acceptance by the Kennedy-Pendleton criterion *)
Definition kp_d (rng : nat -> R) (p : nat) (NORM : R) : R :=
  - (ln (rng (p+2)%nat) + ln (rng (p+3)%nat) * (cos (2*PI*rng (p+1)%nat) * cos (2*PI*rng (p+1)%nat))) * NORM.
Definition kp_accept (rng : nat -> R) (p : nat) (NORM : R) : Prop := rng p * rng p <= 1 - kp_d rng p NORM / 2.
Definition uniform (rng : nat -> R) : Prop := forall p, 0 < rng p <= 1.

Lemma KP_is : forall rng p NORM, let '(d, rej) := KP rng p NORM in
  d = kp_d rng p NORM /\ (rej = false <-> kp_accept rng p NORM).
Proof.
  intros. unfold KP, kp_accept. cbv zeta.
  match goal with |- ?x = _ /\ _ => assert (E : x = kp_d rng p NORM) by (unfold kp_d; ring) end.
  split; [exact E|]. rewrite E. destruct Rlt_dec; split; intro H; try discriminate; try reflexivity; lra.
Qed.
Lemma kp_d_nonneg : forall rng p NORM, uniform rng -> 0 <= NORM -> 0 <= kp_d rng p NORM.
Proof.
  intros rng p NORM U HN.
  assert (L : forall q, ln (rng q) <= 0).
  { intro q. destruct (U q) as [A B]. destruct (Rle_lt_or_eq_dec _ _ B) as [B'|B'].
    - left. rewrite <- ln_1. apply ln_increasing; assumption.
    - rewrite B', ln_1. lra. }
  unfold kp_d. pose proof (L (p+2)%nat). pose proof (L (p+3)%nat). pose proof (Rle_0_sqr (cos (2*PI*rng (p+1)%nat))) as S.
  unfold Rsqr in S. set (c := cos _ * cos _) in *.
  assert (0 <= - (ln (rng (p+2)%nat) + ln (rng (p+3)%nat) * c)) by nra. nra.
Qed.
Lemma KP_loop_ok : forall k rng p NORM, (exists j, (j <= k)%nat /\ kp_accept rng (p + 4*j) NORM) ->
  exists j, (j <= k)%nat /\ kp_accept rng (p + 4*j) NORM /\ fst (KP_loop k rng p NORM) = kp_d rng (p + 4*j) NORM.
Proof.
  induction k; intros rng p NORM (j & Hj & A); cbn [KP_loop]; pose proof (KP_is rng p NORM) as K;
    destruct (KP rng p NORM) as [d rej]; destruct K as [-> K].
  - replace j with 0%nat in A by lia. exists 0%nat. split; [lia|]. split; [assumption|].
    rewrite Nat.mul_0_r, Nat.add_0_r in *. destruct rej; reflexivity.
  - destruct rej.
    + destruct j as [|j].
      * rewrite Nat.mul_0_r, Nat.add_0_r in A. apply K in A. discriminate.
      * destruct (IHk rng (p+4)%nat NORM) as (j' & H1 & H2 & H3).
        { exists j. split; [lia|]. replace (p + 4 + 4*j)%nat with (p + 4 * S j)%nat by lia. exact A. }
        exists (S j'). replace (p + 4 * S j')%nat with (p + 4 + 4*j')%nat by lia. split; [lia|]. split; assumption.
    + exists 0%nat. rewrite Nat.mul_0_r, Nat.add_0_r. split; [lia|]. split; [now apply K|reflexivity].
Qed.
(** the element drawn is unit when 0 <= d <= 2 *)
Lemma generate_unit : forall s0 s1 d u v, unit2 s0 s1 -> 0 < u <= 1 -> 0 <= d <= 2 ->
  let a0 := 1 - d in let ar2 := Rabs (1 - a0*a0) in let a3 := sqrt ar2 * (2*u - 1) in
  let rho := sqrt (Rabs (ar2 - a3*a3)) in let a1 := cos v * rho in let a2 := sin v * rho in
  let rS0 := re s0 in let iS0 := im s0 in let rS1 := re s1 in let iS1 := im s1 in
  unit2 (a0 * rS0 + a3 * iS0 + a2 * rS1 + a1 * iS1, - a0 * iS0 + rS0 * a3 - a2 * iS1 + rS1 * a1)
   (- a0 * rS1 + a3 * iS1 + a2 * rS0 - a1 * iS0, - a0 * iS1 - a3 * rS1 + a2 * iS0 + a1 * rS0).
Proof.
  intros [p q] [r s] d u v U2 Hu Hd a0 ar2 a3 rho a1 a2 rS0 iS0 rS1 iS1.
  assert (A : ar2 = 1 - a0*a0) by (unfold ar2; apply Rabs_pos_eq; unfold a0; nra).
  assert (A' : 0 <= ar2) by (rewrite A; unfold a0; nra).
  pose proof (sqrt_sqrt ar2 A') as Q.
  assert (B : a3*a3 = ar2 * ((2*u-1)*(2*u-1))) by (unfold a3; rewrite <- Q at 3; ring).
  assert (B' : 0 <= ar2 - a3*a3).
  { rewrite B. assert ((2*u-1)*(2*u-1) <= 1) by nra. nra. }
  assert (R2 : rho*rho = ar2 - a3*a3) by (unfold rho; rewrite (Rabs_pos_eq _ B'); now apply sqrt_sqrt).
  assert (T : a1*a1 + a2*a2 = rho*rho).
  { unfold a1, a2. pose proof (sin2_cos2 v) as SC. unfold Rsqr in SC.
    transitivity ((sin v * sin v + cos v * cos v) * (rho*rho)); [ring|]. rewrite SC. ring. }
  assert (G : a0*a0 + a1*a1 + a2*a2 + a3*a3 = 1) by lra.
  unfold unit2, norm2 in *. cunfold. unfold rS0, iS0, rS1, iS1. clearbody a0 a1 a2 a3. clear - G U2.
  transitivity ((a0*a0 + a1*a1 + a2*a2 + a3*a3) * (p*p + q*q + (r*r + s*s))); [ring|]. rewrite G, U2. ring.
Qed.
Lemma generate_SU2_ok : forall rng p s0 s1 NORM, uniform rng -> 0 <= NORM -> unit2 s0 s1 ->
  (exists j, (j <= NHBMAX)%nat /\ kp_accept rng (p + 4*j) NORM) ->
  let '(t0, t1, _) := generate_SU2 rng p s0 s1 NORM in unit2 t0 t1.
Proof.
  intros rng p s0 s1 NORM U HN U2 (j & Hj & A). unfold generate_SU2. pose proof (KP_is rng p NORM) as K.
  destruct (KP rng p NORM) as [d rej]. destruct K as [-> K].
  assert (G : exists q, kp_accept rng q NORM /\
     fst (if rej then KP_loop (NHBMAX - 1) rng (p + 4) NORM else (kp_d rng p NORM, (p+4)%nat)) = kp_d rng q NORM).
  { destruct rej.
    - destruct (KP_loop_ok (NHBMAX - 1) rng (p+4) NORM) as (j' & _ & H1 & H2).
      + destruct j as [|j]; [rewrite Nat.mul_0_r, Nat.add_0_r in A; apply K in A; discriminate|].
        exists j. split; [lia|]. replace (p + 4 + 4*j)%nat with (p + 4 * S j)%nat by lia. exact A.
      + eexists. split; [exact H1|exact H2].
    - exists p. split; [now apply K|reflexivity]. }
  destruct G as (q & A1 & A2).
  destruct (if rej then KP_loop (NHBMAX - 1) rng (p + 4) NORM else (kp_d rng p NORM, (p+4)%nat)) as [d p'] eqn:Ed.
  cbn [fst] in A2. subst d. apply generate_unit; try assumption; [apply U|].
  pose proof (kp_d_nonneg rng q NORM U HN). unfold kp_accept in A1.
  pose proof (Rle_0_sqr (rng q)) as S. unfold Rsqr in S. lra.
Qed.
(** a hb run in which every subgroup's proposal is accepted in time *)
Fixpoint accepted_run (n : nat) (rng : nat -> R) (p : nat) (U S : arr) (invbeta : R) (idx : list nat) : Prop :=
  match idx with
  | [] => True
  | k :: idx =>
    match only_subgroup n U S k with
    | None => True
    | Some (s0, s1, scale) =>
      (exists j, (j <= NHBMAX)%nat /\ kp_accept rng (p + 4*j) (invbeta * scale)) /\
      let '(t0, t1, p') := generate_SU2 rng p s0 s1 (invbeta * scale) in
      accepted_run n rng p' (su2_rotate n U t0 t1 k) S invbeta idx
    end
  end.
Lemma hb_ok : forall n rng S invbeta idx p U U' p', (2 <= n)%nat -> (forall k, In k idx -> (k < NSU2SUBGROUPS n)%nat) ->
  uniform rng -> 0 <= invbeta -> SUn n (mx n U) -> accepted_run n rng p U S invbeta idx ->
  hb n rng p U S invbeta idx = Some (U', p') -> SUn n (mx n U') /\ frame (n*n) U' U.
Proof.
  intros n rng S invbeta idx. induction idx as [|k idx IH]; intros p U U' p' Hn Hk Hu Hb HU HA H; cbn [hb accepted_run] in *.
  - injection H as <- <-. split; [assumption|intros ? ?; reflexivity].
  - assert (Hk' : (k < NSU2SUBGROUPS n)%nat) by (apply Hk; now left).
    pose proof (only_subgroup_ok n U S k Hn Hk') as O. cbv zeta in O.
    assert (RO : forall m0 m1, frame (n*n) (su2_rotate n U m0 m1 k) U).
    { intros m0 m1. pose proof (su2_rotate_ok n U m0 m1 k Hn Hk') as Q. destruct (rot_pair n k).
      apply Q. intros ->; assumption. }
    destruct (rot_pair n k) as [a b].
    destruct (only_subgroup n U S k) as [[[s0 s1] scale]|]; [|discriminate].
    destruct O as (P & U2 & _ & _). destruct HA as [A HA].
    pose proof (generate_SU2_ok rng p s0 s1 (invbeta*scale) Hu ltac:(nra) U2 A) as G.
    destruct (generate_SU2 rng p s0 s1 (invbeta * scale)) as [[t0 t1] p1].
    destruct (IH p1 (su2_rotate n U t0 t1 k) U' p') as [I1 I2]; try assumption.
    + intros; apply Hk; now right.
    + now apply su2_rotate_SUn.
    + split; [assumption|]. intros x Hx. rewrite I2, RO by assumption. reflexivity.
Qed.

(** * In terms of the table of indices *)
Definition entry (n a b : nat) : nat * nat * nat * nat := (a + n*a, b + n*a, a + n*b, b + n*b)%nat.
Lemma entry_inj : forall n a b a' b', (a < n)%nat -> (b < n)%nat -> (a' < n)%nat -> (b' < n)%nat ->
  entry n a b = entry n a' b' -> (a, b) = (a', b').
Proof.
  intros n a b a' b' H1 H2 H3 H4 E. unfold entry in E. injection E as _ E _ _.
  destruct (idx_inj' n a b a' b'); try assumption; [lia|]. now subst.
Qed.
Lemma su2_data_entry : forall n k a b, (k < NSU2SUBGROUPS n)%nat -> (a < b < n)%nat ->
  su2_data n k = entry n a b <-> su2_pair n k = (a, b).
Proof.
  intros n k a b Hk L. pose proof (su2_pair_lt n k Hk) as P. rewrite su2_data_is.
  destruct (su2_pair n k) as [a' b']. cbn [fst snd] in P. split; intro E.
  - apply (entry_inj n a' b' a b); try lia. exact E.
  - injection E as -> ->. reflexivity.
Qed.
Lemma rot_pair_is : forall n k a b, (2 <= n)%nat -> (k < NSU2SUBGROUPS n)%nat -> su2_pair n k = (a, b) ->
  rot_pair n k = if andb (Nat.eqb n 3) (Nat.eqb k 2) then (b, a) else (a, b).
Proof.
  intros n k a b Hn Hk E. destruct n as [|[|[|[|n]]]]; try lia.
  - unfold NSU2SUBGROUPS in Hk. cbn in Hk. replace k with 0%nat in * by lia. exact E.
  - unfold NSU2SUBGROUPS in Hk. cbn in Hk. destruct k as [|[|[|k]]]; try lia; injection E as <- <-; reflexivity.
  - exact E.
Qed.
Lemma pair_once : forall n a b, (a < b < n)%nat -> exists! k, (k < NSU2SUBGROUPS n)%nat /\ su2_data n k = entry n a b.
Proof.
  intros n a b L. destruct (su2_pair_onto n a b L) as (k & Hk & E). exists k. split.
  - split; [exact Hk|]. now apply su2_data_entry.
  - intros k' [Hk' E']. apply su2_data_entry in E'; try assumption. apply (su2_pair_inj n); congruence.
Qed.
Lemma pair_valid : forall n k, (k < NSU2SUBGROUPS n)%nat -> exists a b, (a < b < n)%nat /\ su2_data n k = entry n a b.
Proof.
  intros n k Hk. pose proof (su2_pair_lt n k Hk) as L. destruct (su2_pair n k) as [a b] eqn:E. exists a, b.
  cbn [fst snd] in L. split; [exact L|]. apply su2_data_entry; assumption.
Qed.
(** what su2_rotate multiplies by *)
Definition rotation (n k a b : nat) (s0 s1 : C) : mat :=
  if andb (Nat.eqb n 3) (Nat.eqb k 2) then embed b a s0 s1 else embed a b s0 s1.
Lemma rotate_is : forall n U s0 s1 k a b, (2 <= n)%nat -> (k < NSU2SUBGROUPS n)%nat -> (a < b < n)%nat ->
  su2_data n k = entry n a b -> (n = 2%nat -> SUn 2 (mx 2 U)) ->
  holds n (su2_rotate n U s0 s1 k) U (mmul n (rotation n k a b s0 s1) (mx n U)).
Proof.
  intros n U s0 s1 k a b Hn Hk L E H2. apply su2_data_entry in E; try assumption.
  pose proof (su2_rotate_ok n U s0 s1 k Hn Hk H2) as H. rewrite (rot_pair_is n k a b Hn Hk E) in H.
  unfold rotation. destruct (Nat.eqb n 3 && Nat.eqb k 2)%bool; exact H.
Qed.
Lemma overrelax_none : forall n U idx, (2 <= n)%nat -> (0 < NSU2SUBGROUPS n)%nat ->
  overrelax n U (fun _ => C0) (0%nat :: idx) = None.
Proof.
  intros n U idx Hn H0. cbn [overrelax].
  pose proof (only_subgroup_ok n U (fun _ => C0) 0 Hn H0) as H. cbv zeta in H.
  pose proof (rot_pair_lt n 0 Hn H0) as L. destruct (rot_pair n 0) as [a b].
  assert (Z : forall i j, mmul n (mx n U) (dag (mx n (fun _ => C0))) i j = C0).
  { intros i j. unfold mmul, dag, mx. rewrite (csum_ext n _ (fun _ => C0)); [apply csum_0|]. intros. rewrite conj_0. ring. }
  destruct (only_subgroup n U (fun _ => C0) 0) as [[[s0 s1] sc]|]; [|reflexivity].
  exfalso. destruct H as (P & U2 & E0 & E1). rewrite !Z in E0, E1.
  assert (P' : / sc <> 0) by (apply Rinv_neq_0_compat; lra).
  assert (S0 : s0 = C0).
  { destruct s0 as [x y]. apply C_eq; [apply (f_equal re) in E0|apply (f_equal im) in E0]; cunfold.
    - apply (Rmult_eq_reg_l (/ sc)); [lra|exact P'].
    - apply (Rmult_eq_reg_l (/ sc)); [lra|exact P']. }
  assert (S1 : s1 = C0).
  { destruct s1 as [x y]. apply C_eq; [apply (f_equal re) in E1|apply (f_equal im) in E1]; cunfold.
    - apply (Rmult_eq_reg_l (/ sc)); [lra|exact P'].
    - apply (Rmult_eq_reg_l (/ sc)); [lra|exact P']. }
  subst. unfold unit2, norm2 in U2. cunfold. lra.
Qed.
(** random numbers so small that all proposals are rejected *)
Lemma kp_d_big : forall p, 5 <= kp_d (fun _ => exp (-5)) p 1.
Proof.
  intro p. unfold kp_d. rewrite ln_exp. pose proof (Rle_0_sqr (cos (2*PI*exp (-5)))) as S. unfold Rsqr in S. lra.
Qed.
Lemma KP_loop_const : forall k rng d NORM, (forall p, kp_d rng p NORM = d) -> (forall p, ~ kp_accept rng p NORM) ->
  forall p, fst (KP_loop k rng p NORM) = d.
Proof.
  induction k; intros rng d NORM Hd Hr p; cbn [KP_loop]; pose proof (KP_is rng p NORM) as K;
    destruct (KP rng p NORM) as [d' rej]; destruct K as [-> K]; destruct rej; try apply Hd.
  apply IHk; assumption.
Qed.
Lemma generate_gives_up : exists rng, uniform rng /\
  let '(t0, t1, _) := generate_SU2 rng 0 C1 C0 1 in ~ unit2 t0 t1.
Proof.
  set (rng := fun _ : nat => exp (-5)). exists rng.
  assert (E5 : 0 < exp (-5) <= 1).
  { split; [apply exp_pos|]. rewrite <- exp_0. left. apply exp_increasing. lra. }
  split; [intro p; exact E5|].
  assert (Hd : forall p, kp_d rng p 1 = kp_d rng 0 1) by reflexivity.
  assert (Hr : forall p, ~ kp_accept rng p 1).
  { intros p A. unfold kp_accept in A. pose proof (kp_d_big p) as B. fold rng in B.
    pose proof (Rle_0_sqr (rng p)) as S. unfold Rsqr in S. lra. }
  unfold generate_SU2. pose proof (KP_is rng 0 1) as K. destruct (KP rng 0 1) as [d rej]. destruct K as [-> K].
  destruct rej; [|elim (Hr 0%nat); now apply K].
  pose proof (KP_loop_const (NHBMAX - 1) rng _ 1 Hd Hr (0+4)) as L.
  destruct (KP_loop (NHBMAX - 1) rng (0 + 4) 1) as [d p']. cbn [fst] in L.
  assert (B : 5 <= d) by (subst d; apply kp_d_big). clear L Hd Hr K.
  change (rng p') with (exp (-5)). change (rng (p' + 1)%nat) with (exp (-5)).
  set (u := exp (-5)) in *. cbv zeta. unfold unit2, norm2, C1, C0. cunfold.
  set (a0 := 1 - d). assert (A0 : a0 <= -4) by (unfold a0; lra).
  assert (A : Rabs (1 - a0*a0) = a0*a0 - 1) by (rewrite Rabs_left by nra; ring). rewrite A.
  set (ar2 := a0*a0 - 1). assert (A' : 0 <= ar2) by (unfold ar2; nra).
  set (a3 := sqrt ar2 * (2*u - 1)).
  assert (Q : sqrt ar2 * sqrt ar2 = ar2) by now apply sqrt_sqrt.
  assert (B3 : a3*a3 = ar2 * ((2*u-1)*(2*u-1))).
  { unfold a3. transitivity ((sqrt ar2 * sqrt ar2) * ((2*u-1)*(2*u-1))); [ring|]. now rewrite Q. }
  assert (B' : 0 <= ar2 - a3*a3).
  { rewrite B3. assert ((2*u-1)*(2*u-1) <= 1) by nra. nra. }
  rewrite (Rabs_pos_eq _ B'). set (rho := sqrt (ar2 - a3*a3)).
  assert (R2 : rho*rho = ar2 - a3*a3) by (unfold rho; now apply sqrt_sqrt).
  set (v := 2*PI*u). pose proof (sin2_cos2 v) as SC. unfold Rsqr in SC. intro H.
  assert (G : a0*a0 + a3*a3 + (sin v * sin v + cos v * cos v) * (rho*rho) = 1) by (rewrite <- H; ring).
  rewrite SC, R2 in G. unfold ar2 in G. nra.
Qed.
Lemma only_subgroup_none : forall n U S k, (2 <= n)%nat -> (k < NSU2SUBGROUPS n)%nat ->
  let T := mmul n (mx n U) (dag (mx n S)) in let '(a, b) := rot_pair n k in
  only_subgroup n U S k = None <-> (T a a + conj (T b b))%C = C0 /\ (T a b - conj (T b a))%C = C0.
Proof.
  intros n U S k Hn Hk T. pose proof (only_subgroup_ok n U S k Hn Hk) as H. cbv zeta in H. fold T in H.
  destruct (rot_pair n k) as [a b].
  destruct (only_subgroup n U S k) as [[[s0 s1] sc]|]; [|split; [intros _; exact H|reflexivity]].
  split; [discriminate|]. intros [Z0 Z1]. exfalso. destruct H as (P & U2 & E0 & E1). rewrite Z0 in E0. rewrite Z1 in E1.
  assert (Q : / sc > 0) by now apply Rinv_0_lt_compat.
  assert (NN : forall s, C0 = (RtoC (/ sc) * s)%C -> norm2 s = 0).
  { intros [x y] W. pose proof (f_equal re W) as W0. pose proof (f_equal im W) as W1. unfold norm2. cunfold.
    assert (x = 0) by (apply (Rmult_eq_reg_l (/ sc)); lra). assert (y = 0) by (apply (Rmult_eq_reg_l (/ sc)); lra).
    subst; ring. }
  unfold unit2 in U2. rewrite (NN _ E0), (NN _ E1) in U2. lra.
Qed.
Lemma overrelax_defined : forall n U S k a b, (2 <= n)%nat -> (k < n*(n-1)/2)%nat -> (a < b < n)%nat -> su2_data n k = entry n a b ->
  let T := mmul n (mx n U) (dag (mx n S)) in
  overrelax n U S [k] = None <-> (T a a + conj (T b b) = C0 /\ T a b - conj (T b a) = C0)%C.
Proof.
  intros n U S k a b Hn Hk L E T. apply su2_data_entry in E; try assumption.
  pose proof (only_subgroup_none n U S k Hn Hk) as H. cbv zeta in H. fold T in H. rewrite (rot_pair_is n k a b Hn Hk E) in H.
  assert (X : overrelax n U S [k] = None <-> only_subgroup n U S k = None).
  { cbn [overrelax]. destruct (only_subgroup n U S k) as [[[s0 s1] sc]|]; [|tauto].
    destruct (microcanonical (s0, s1)). split; discriminate. }
  rewrite X. destruct (Nat.eqb n 3 && Nat.eqb k 2)%bool; [|exact H]. rewrite H.
  destruct (T a a), (T a b), (T b a), (T b b).
  split; intros [Z0 Z1]; pose proof (f_equal re Z0); pose proof (f_equal im Z0); pose proof (f_equal re Z1);
    pose proof (f_equal im Z1); cunfold; split; apply C_eq; cunfold; lra.
Qed.
