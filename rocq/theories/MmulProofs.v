(** Proofs about matrix multiplication. *)
From Coq Require Import PeanoNat Lia Setoid Morphisms.
From Verif Require Import CMat Arr MatSpec MmulModel.
Local Open Scope C_scope.

Lemma idx_inj : forall n i j i' j', (j < n)%nat -> (j' < n)%nat ->
  (j + n*i = j' + n*i')%nat -> i = i' /\ j = j'.
Proof.
  intros n i j i' j' Hj Hj' E.
  assert (i = i'). { destruct (Nat.lt_trichotomy i i') as [L|[L|L]]; [nia|auto|nia]. }
  subst. split; [reflexivity|lia].
Qed.

(** filling one row *)
Lemma fill_row : forall n i (f : nat -> C) a,
  let r := for_ n (fun j a => upd a (j + n*i) (f j)) a in
  (forall j, (j < n)%nat -> r (j + n*i)%nat = f j) /\
  (forall x, (forall j, (j < n)%nat -> x <> (j + n*i)%nat) -> r x = a x).
Proof.
  intros n i f a r. subst r.
  apply (for_ind (fun k r => (forall j, (j < k)%nat -> r (j + n*i)%nat = f j) /\
    (forall x, (forall j, (j < n)%nat -> x <> (j + n*i)%nat) -> r x = a x))).
  - split; [intros; lia|auto].
  - intros k t Hk [H1 H2]. split.
    + intros j Hj. destruct (Nat.eq_dec j k) as [->|N]; [apply upd_eq|].
      rewrite upd_neq by lia. apply H1; lia.
    + intros x Hx. rewrite upd_neq by (apply Hx; lia). apply H2; exact Hx.
Qed.

Lemma fill2 : forall n (f : nat -> nat -> C) a,
  let r := for_ n (fun i a => for_ n (fun j a => upd a (j + n*i) (f i j)) a) a in
  meq n (mx n r) f /\ frame (n*n) r a.
Proof.
  intros n f a r. subst r. unfold meq, mx, frame.
  set (P := fun k (r : arr) =>
    (forall i j, (i < k)%nat -> (j < n)%nat -> r (j + n*i)%nat = f i j) /\
    (forall x, (n*n <= x)%nat -> r x = a x)).
  apply (for_ind P).
  - split; [intros; lia|auto].
  - intros k t Hk [H1 H2].
    destruct (fill_row n k (f k) t) as [R1 R2]. split.
    + intros i j Hi Hj. destruct (Nat.eq_dec i k) as [->|N]; [now apply R1|].
      rewrite R2 by (intros j' Hj' E; apply idx_inj in E; [lia|assumption|assumption]).
      apply H1; lia.
    + intros x Hx. rewrite R2 by (intros j' Hj'; nia). now apply H2.
Qed.

Lemma creal_cimag_mul : forall z w,
  creal z * creal w - cimag z * cimag w + Ci * (creal z * cimag w + cimag z * creal w) = z * w.
Proof. intros [a b] [c d]. unfold creal, cimag. cring. Qed.
Lemma creal_cimag_cmul : forall z w,
  creal z * creal w + cimag z * cimag w + Ci * (creal z * cimag w - cimag z * creal w) = conj z * w.
Proof. intros [a b] [c d]. unfold creal, cimag. cring. Qed.
Lemma creal_cimag_mulc : forall z w,
  creal z * creal w + cimag z * cimag w + Ci * (creal w * cimag z - creal z * cimag w) = z * conj w.
Proof. intros [a b] [c d]. unfold creal, cimag. cring. Qed.

Lemma for_csum : forall n f, for_ n (fun m s => s + f m) C0 = csum n f.
Proof. induction n; intros; cbn; [reflexivity|now rewrite IHn]. Qed.

Lemma multab_n_ok : forall n a b c,
  holds n (multab_n n a b c) a (mmul n (mx n b) (mx n c)).
Proof.
  intros n a b c. unfold multab_n. cbv zeta.
  destruct (fill2 n (fun i j => for_ n (fun m sum =>
        sum + (creal (b (m + n * i)%nat) * creal (c (j + m * n)%nat) -
               cimag (b (m + n * i)%nat) * cimag (c (j + m * n)%nat) +
         Ci * (creal (b (m + n * i)%nat) * cimag (c (j + m * n)%nat) +
               cimag (b (m + n * i)%nat) * creal (c (j + m * n)%nat)))) C0) a) as [H1 H2].
  split; [|exact H2]. rewrite H1. intros i j _ _. rewrite for_csum.
  unfold mmul, mx. apply csum_ext; intros m _.
  rewrite creal_cimag_mul, (Nat.mul_comm m n). reflexivity.
Qed.

Lemma multabdag_n_ok : forall n a b c,
  holds n (multabdag_n n a b c) a (mmul n (dag (mx n b)) (mx n c)).
Proof.
  intros n a b c. unfold multabdag_n. cbv zeta.
  destruct (fill2 n (fun i j => for_ n (fun m sum =>
        sum + (creal (b (i + n * m)%nat) * creal (c (j + n * m)%nat) +
               cimag (b (i + n * m)%nat) * cimag (c (j + n * m)%nat) +
         Ci * (creal (b (i + n * m)%nat) * cimag (c (j + n * m)%nat) -
               cimag (b (i + n * m)%nat) * creal (c (j + n * m)%nat)))) C0) a) as [H1 H2].
  split; [|exact H2]. rewrite H1. intros i j _ _. rewrite for_csum.
  unfold mmul, dag, mx. apply csum_ext; intros m _. apply creal_cimag_cmul.
Qed.

Lemma multab_dag_odd_ok : forall n a b c,
  holds n (multab_dag_odd n a b c) a (mmul n (mx n b) (dag (mx n c))).
Proof.
  intros n a b c. unfold multab_dag_odd. cbv zeta.
  destruct (fill2 n (fun i j => for_ n (fun m sum =>
        sum + (creal (b (m + n * i)%nat) * creal (c (m + n * j)%nat) +
               cimag (b (m + n * i)%nat) * cimag (c (m + n * j)%nat) +
         Ci * (creal (c (m + n * j)%nat) * cimag (b (m + n * i)%nat) -
               creal (b (m + n * i)%nat) * cimag (c (m + n * j)%nat)))) C0) a) as [H1 H2].
  split; [|exact H2]. rewrite H1. intros i j _ _. rewrite for_csum.
  unfold mmul, dag, mx. apply csum_ext; intros m _. apply creal_cimag_mulc.
Qed.

Lemma for_pair : forall n (f g : nat -> C),
  for_ n (fun m (s : C * C) => let (x, y) := s in (x + f m, y + g m)) (C0, C0)
  = (csum n f, csum n g).
Proof. induction n; intros; cbn; [reflexivity|now rewrite IHn]. Qed.

Lemma multab_dag_even_ok : forall n a b c, Nat.even n = true ->
  holds n (multab_dag_even n a b c) a (mmul n (mx n b) (dag (mx n c))).
Proof.
  intros n a b c He. apply Nat.even_spec in He. destruct He as [p Hp].
  set (M := mmul n (mx n b) (dag (mx n c))).
  unfold multab_dag_even. replace (n/2)%nat with p by (rewrite Hp, Nat.mul_comm, Nat.div_mul; lia).
  rewrite (for_ext n _ (fun i a => for_ p (fun h a =>
     upd (upd a (2*h + n*i) (M i (2*h))) (2*h + 1 + n*i) (M i (2*h+1))) a))%nat.
  2:{ intros i t Hi. apply for_ext; intros h t' Hh. cbv zeta.
      rewrite (for_ext n _ (fun m (s : C * C) => let (x, y) := s in
        (x + mx n b i m * dag (mx n c) m (2*h)%nat, y + mx n b i m * dag (mx n c) m (2*h+1)%nat))).
      - rewrite for_pair. cbn [fst snd]. reflexivity.
      - intros m [x y] Hm. rewrite !creal_cimag_mulc. unfold mx, dag.
        f_equal; [do 2 f_equal; [f_equal; lia|do 2 f_equal; lia]|].
        do 2 f_equal; [f_equal; lia|do 2 f_equal; lia]. }
  unfold holds, meq, mx, frame.
  set (P := fun k (r : arr) =>
    (forall i j, (i < k)%nat -> (j < n)%nat -> r (j + n*i)%nat = M i j) /\
    (forall x, (n*n <= x)%nat -> r x = a x)).
  apply (for_ind P).
  - split; [intros; lia|auto].
  - intros k t Hk [H1 H2].
    set (Q := fun h (r : arr) =>
      (forall i j, (i < k)%nat -> (j < n)%nat -> r (j + n*i)%nat = M i j) /\
      (forall j, (j < 2*h)%nat -> r (j + n*k)%nat = M k j) /\
      (forall x, (n*n <= x)%nat -> r x = a x)).
    assert (G : Q p (for_ p (fun h a =>
       upd (upd a (2*h + n*k) (M k (2*h))) (2*h + 1 + n*k) (M k (2*h+1))) t)%nat).
    { apply (for_ind Q).
      - split; [exact H1|split; [intros; lia|exact H2]].
      - intros h u Hh (Q1 & Q2 & Q3). split; [|split].
        + intros i j Hi Hj. rewrite !upd_neq; [now apply Q1| |];
            intro E; apply idx_inj in E; try lia.
        + intros j Hj. destruct (Nat.eq_dec j (2*h+1)) as [->|N1]; [apply upd_eq|].
          rewrite upd_neq by lia.
          destruct (Nat.eq_dec j (2*h)) as [->|N2]; [apply upd_eq|].
          rewrite upd_neq by lia. apply Q2; lia.
        + intros x Hx. rewrite !upd_neq by nia. now apply Q3. }
    destruct G as (Q1 & Q2 & Q3). split; [|exact Q3].
    intros i j Hi Hj. destruct (Nat.eq_dec i k) as [->|N]; [apply Q2; lia|apply Q1; lia].
Qed.

(** what the looped multab_dagdag really computes: the entries are not
    conjugated *)
Lemma multab_dagdag_n_is : forall n a b c,
  holds n (multab_dagdag_n n a b c) a
    (fun i j => csum n (fun m => mx n b m i * mx n c j m)).
Proof.
  intros n a b c. unfold multab_dagdag_n. cbv zeta.
  rewrite (for_ext n _ (fun i a => for_ n (fun j a =>
     upd a (j + n*i) (csum n (fun m => mx n b m i * mx n c j m))) a)).
  - apply fill2.
  - intros i t _. apply for_ext; intros j u _.
    rewrite for_pair. cbn [fst snd]. f_equal.
    rewrite <- csum_mul_l, <- csum_add. apply csum_ext; intros m _.
    rewrite creal_cimag_mul. unfold mx. do 2 f_equal; lia.
Qed.

Lemma multab_atomic_left_n_ok : forall n a b,
  holds n (multab_atomic_left_n n a b) a (mmul n (mx n b) (mx n a)).
Proof.
  intros n a b. set (M := mmul n (mx n b) (mx n a)).
  unfold multab_atomic_left_n, holds, meq, mx, frame.
  set (P := fun k (r : arr) =>
    (forall i j, (i < n)%nat -> (j < k)%nat -> r (j + n*i)%nat = M i j) /\
    (forall i j, (i < n)%nat -> (k <= j < n)%nat -> r (j + n*i)%nat = a (j + n*i)%nat) /\
    (forall x, (n*n <= x)%nat -> r x = a x)).
  match goal with |- (forall i j, _ -> _ -> ?r _ = _) /\ _ => assert (G : P n r) end.
  2:{ destruct G as (G1 & _ & G3). split; [exact G1|exact G3]. }
  apply (for_ind P).
  - repeat split; auto; intros; lia.
  - intros k t Hk (H1 & H2 & H3).
    set (R := for_ n (fun j R => upd R j (for_ n (fun m sum => sum + b (m + j*n)%nat * t (k + m*n)%nat) C0)) (fun _ => C0)).
    assert (HR : forall j, (j < n)%nat -> R j = M j k).
    { intros j Hj. unfold R.
      assert (W : forall q, (q <= n)%nat -> forall j, (j < q)%nat ->
        for_ q (fun j R => upd R j (for_ n (fun m sum => sum + b (m + j*n)%nat * t (k + m*n)%nat) C0)) (fun _ => C0) j = M j k).
      { induction q; intros Hq j' Hj'; [lia|]. cbn [for_].
        destruct (Nat.eq_dec j' q) as [->|N].
        - rewrite upd_eq, for_csum. unfold M, mmul. apply csum_ext; intros m Hm.
          unfold mx. rewrite (Nat.mul_comm m n), H2 by lia. rewrite (Nat.mul_comm q n). reflexivity.
        - rewrite upd_neq by lia. apply IHq; lia. }
      apply (W n); lia. }
    fold R.
    set (Q := fun q (r : arr) =>
      (forall i j, (i < n)%nat -> (j < n)%nat -> j <> k -> r (j + n*i)%nat = t (j + n*i)%nat) /\
      (forall i, (i < q)%nat -> r (k + n*i)%nat = M i k) /\
      (forall x, (n*n <= x)%nat -> r x = a x)).
    match goal with |- P _ ?r => assert (G : Q n r) end.
    { apply (for_ind Q).
      - repeat split; auto; intros; lia.
      - intros q u Hq (Q1 & Q2 & Q3). rewrite (Nat.mul_comm q n). split; [|split].
        + intros i j Hi Hj N. rewrite upd_neq; [now apply Q1|].
          intro E. apply idx_inj in E; lia.
        + intros i Hi. destruct (Nat.eq_dec i q) as [->|N]; [rewrite upd_eq; apply HR; lia|].
          rewrite upd_neq; [apply Q2; lia|]. intro E; apply idx_inj in E; lia.
        + intros x Hx. rewrite upd_neq by nia. now apply Q3. }
    destruct G as (Q1 & Q2 & Q3). split; [|split; [|exact Q3]].
    + intros i j Hi Hj. destruct (Nat.eq_dec j k) as [->|N]; [now apply Q2|].
      rewrite Q1 by lia. apply H1; lia.
    + intros i j Hi Hj. rewrite Q1 by lia. apply H2; lia.
Qed.

Lemma multab_atomic_right_n_ok : forall n a b,
  holds n (multab_atomic_right_n n a b) a (mmul n (mx n a) (mx n b)).
Proof.
  intros n a b. set (M := mmul n (mx n a) (mx n b)).
  unfold multab_atomic_right_n, holds, meq, mx, frame.
  set (P := fun k (r : arr) =>
    (forall i j, (i < k)%nat -> (j < n)%nat -> r (j + n*i)%nat = M i j) /\
    (forall i j, (k <= i < n)%nat -> (j < n)%nat -> r (j + n*i)%nat = a (j + n*i)%nat) /\
    (forall x, (n*n <= x)%nat -> r x = a x)).
  match goal with |- (forall i j, _ -> _ -> ?r _ = _) /\ _ => assert (G : P n r) end.
  2:{ destruct G as (G1 & _ & G3). split; [exact G1|exact G3]. }
  apply (for_ind P).
  - repeat split; auto; intros; lia.
  - intros k t Hk (H1 & H2 & H3).
    set (body := fun j R => for_ n (fun m R => upd R j (R j + t (m + k*n)%nat * b (j + m*n)%nat)) (upd R j C0)).
    set (R := for_ n body (fun _ => C0)).
    assert (HB : forall j R0, (j < n)%nat ->
       body j R0 j = M k j /\ forall x, x <> j -> body j R0 x = R0 x).
    { intros j R0 Hj. unfold body.
      assert (W : forall q, (q <= n)%nat ->
        for_ q (fun m R => upd R j (R j + t (m + k*n)%nat * b (j + m*n)%nat)) (upd R0 j C0) j
          = csum q (fun m => a (m + n*k)%nat * b (j + n*m)%nat) /\
        forall x, x <> j ->
        for_ q (fun m R => upd R j (R j + t (m + k*n)%nat * b (j + m*n)%nat)) (upd R0 j C0) x = R0 x).
      { induction q; intro Hq; cbn [for_ csum].
        - split; [apply upd_eq|intros; now apply upd_neq].
        - destruct IHq as [I1 I2]; [lia|]. split.
          + rewrite upd_eq, I1. rewrite (Nat.mul_comm k n), H2 by lia.
            rewrite (Nat.mul_comm q n). reflexivity.
          + intros x Hx. rewrite upd_neq by assumption. now apply I2. }
      destruct (W n (le_n n)) as [W1 W2]. split; [rewrite W1; reflexivity|exact W2]. }
    assert (HR : forall j, (j < n)%nat -> R j = M k j).
    { intros j Hj. unfold R.
      assert (W : forall q, (q <= n)%nat -> forall j, (j < q)%nat -> for_ q body (fun _ => C0) j = M k j).
      { induction q; intros Hq j' Hj'; [lia|]. cbn [for_].
        destruct (Nat.eq_dec j' q) as [->|N]; [apply HB; lia|].
        rewrite (proj2 (HB q _ ltac:(lia))) by assumption. apply IHq; lia. }
      apply (W n); lia. }
    fold body. fold R.
    destruct (fill_row n k R t) as [F1 F2].
    rewrite (for_ext n _ (fun j a => upd a (j + n*k) (R j))) by (intros; now rewrite (Nat.mul_comm k n)).
    split; [|split].
    + intros i j Hi Hj. destruct (Nat.eq_dec i k) as [->|N].
      * rewrite F1 by assumption. now apply HR.
      * rewrite F2; [apply H1; lia|]. intros j' Hj' E; apply idx_inj in E; lia.
    + intros i j Hi Hj. rewrite F2; [apply H2; lia|]. intros j' Hj' E; apply idx_inj in E; lia.
    + intros x Hx. rewrite F2; [now apply H3|]. intros j' Hj'; nia.
Qed.

(** * Unrolled branches *)
Ltac framed := intros x Hx; do 9 (destruct x as [|x]; [exfalso; cbn in Hx; lia|]); reflexivity.
Ltac framed2 := intros x Hx; do 4 (destruct x as [|x]; [exfalso; cbn in Hx; lia|]); reflexivity.

Ltac unr f :=
  lazy beta delta [f upd Nat.eqb mx mmul dag csum Nat.add Nat.mul] zeta iota;
  try (autorewrite with conj); ring.

Lemma multab_3_ok : forall a b c, holds 3 (multab_3 a b c) a (mmul 3 (mx 3 b) (mx 3 c)).
Proof. intros; split; [split3; unr multab_3|framed]. Qed.
Lemma multab_2_ok : forall a b c, holds 2 (multab_2 a b c) a (mmul 2 (mx 2 b) (mx 2 c)).
Proof. intros; split; [split2; unr multab_2|framed2]. Qed.
Lemma multabdag_3_ok : forall a b c, holds 3 (multabdag_3 a b c) a (mmul 3 (dag (mx 3 b)) (mx 3 c)).
Proof. intros; split; [split3; unr multabdag_3|framed]. Qed.
Lemma multabdag_2_ok : forall a b c, holds 2 (multabdag_2 a b c) a (mmul 2 (dag (mx 2 b)) (mx 2 c)).
Proof. intros; split; [split2; unr multabdag_2|framed2]. Qed.
Lemma multab_dag_3_ok : forall a b c, holds 3 (multab_dag_3 a b c) a (mmul 3 (mx 3 b) (dag (mx 3 c))).
Proof. intros; split; [split3; unr multab_dag_3|framed]. Qed.
Lemma multab_dag_2_ok : forall a b c, holds 2 (multab_dag_2 a b c) a (mmul 2 (mx 2 b) (dag (mx 2 c))).
Proof. intros; split; [split2; unr multab_dag_2|framed2]. Qed.
Lemma multab_dagdag_3_ok : forall a b c,
  holds 3 (multab_dagdag_3 a b c) a (mmul 3 (dag (mx 3 b)) (dag (mx 3 c))).
Proof. intros; split; [split3; unr multab_dagdag_3|framed]. Qed.
Lemma multab_dagdag_2_ok : forall a b c,
  holds 2 (multab_dagdag_2 a b c) a (mmul 2 (dag (mx 2 b)) (dag (mx 2 c))).
Proof. intros; split; [split2; unr multab_dagdag_2|framed2]. Qed.
Lemma multab_atomic_left_3_ok : forall a b,
  holds 3 (multab_atomic_left_3 a b) a (mmul 3 (mx 3 b) (mx 3 a)).
Proof. intros; split; [split3; unr multab_atomic_left_3|framed]. Qed.
Lemma multab_atomic_left_2_ok : forall a b,
  holds 2 (multab_atomic_left_2 a b) a (mmul 2 (mx 2 b) (mx 2 a)).
Proof. intros; split; [split2; unr multab_atomic_left_2|framed2]. Qed.
Lemma multab_atomic_right_3_ok : forall a b,
  holds 3 (multab_atomic_right_3 a b) a (mmul 3 (mx 3 a) (mx 3 b)).
Proof. intros; split; [split3; unr multab_atomic_right_3|framed]. Qed.
Lemma multab_atomic_right_2_ok : forall a b,
  holds 2 (multab_atomic_right_2 a b) a (mmul 2 (mx 2 a) (mx 2 b)).
Proof. intros; split; [split2; unr multab_atomic_right_2|framed2]. Qed.

(** * The functions *)
Ltac by_NC n H3 H2 :=
  destruct n as [|[|[|[|n]]]]; [ | |apply H2|apply H3| ].

Lemma multab_ok : forall n a b c, holds n (multab n a b c) a (mmul n (mx n b) (mx n c)).
Proof. intros n a b c. by_NC n multab_3_ok multab_2_ok; apply multab_n_ok. Qed.
Lemma multabdag_ok : forall n a b c, holds n (multabdag n a b c) a (mmul n (dag (mx n b)) (mx n c)).
Proof. intros n a b c. by_NC n multabdag_3_ok multabdag_2_ok; apply multabdag_n_ok. Qed.
Lemma multab_dag_ok : forall n a b c, holds n (multab_dag n a b c) a (mmul n (mx n b) (dag (mx n c))).
Proof.
  intros n a b c. by_NC n multab_dag_3_ok multab_dag_2_ok;
  unfold multab_dag; match goal with |- context[Nat.even ?m] => destruct (Nat.even m) eqn:E end;
  try (apply multab_dag_even_ok; exact E); apply multab_dag_odd_ok.
Qed.
Lemma multab_dagdag_ok : forall n a b c, n = 2%nat \/ n = 3%nat ->
  holds n (multab_dagdag n a b c) a (mmul n (dag (mx n b)) (dag (mx n c))).
Proof. intros n a b c [->| ->]; [apply multab_dagdag_2_ok|apply multab_dagdag_3_ok]. Qed.
Lemma multab_atomic_left_ok : forall n a b,
  holds n (multab_atomic_left n a b) a (mmul n (mx n b) (mx n a)).
Proof. intros n a b. by_NC n multab_atomic_left_3_ok multab_atomic_left_2_ok; apply multab_atomic_left_n_ok. Qed.
Lemma multab_atomic_right_ok : forall n a b,
  holds n (multab_atomic_right n a b) a (mmul n (mx n a) (mx n b)).
Proof. intros n a b. by_NC n multab_atomic_right_3_ok multab_atomic_right_2_ok; apply multab_atomic_right_n_ok. Qed.

(** * The SU(NC) shortcuts *)

(** lines "bottom row": conj( x*y - z*w ) written out in real parts *)
Lemma bottom : forall x y z w,
  creal x * creal y - cimag x * cimag y - Ci * (creal x * cimag y + creal y * cimag x)
  - creal z * creal w + cimag z * cimag w + Ci * (creal z * cimag w + creal w * cimag z)
  = conj (x * y - z * w).
Proof. intros [a b] [c d] [e f] [g h]. unfold creal, cimag. cring. Qed.

(** an array whose first two rows are those of an SU(3) matrix and whose third
    row is their completion *)
Lemma complete3 : forall (r : arr) (M : mat), SU3 M ->
  (forall j, (j < 3)%nat -> r j = M 0%nat j) ->
  (forall j, (j < 3)%nat -> r (3 + j)%nat = M 1%nat j) ->
  r 6%nat = conj (r 1%nat * r 5%nat - r 2%nat * r 4%nat) ->
  r 7%nat = conj (r 2%nat * r 3%nat - r 0%nat * r 5%nat) ->
  r 8%nat = conj (r 0%nat * r 4%nat - r 1%nat * r 3%nat) ->
  meq 3 (mx 3 r) M.
Proof.
  intros r M HM H0 H1 E6 E7 E8.
  pose proof (H0 0 ltac:(lia))%nat as A0. pose proof (H0 1 ltac:(lia))%nat as A1.
  pose proof (H0 2 ltac:(lia))%nat as A2. pose proof (H1 0 ltac:(lia))%nat as A3.
  pose proof (H1 1 ltac:(lia))%nat as A4. pose proof (H1 2 ltac:(lia))%nat as A5.
  cbn in A3, A4, A5.
  split3; unfold mx; cbn [Nat.add Nat.mul]; try assumption.
  - rewrite E6, A1, A2, A4, A5. rewrite (SU3_row2 M 0 HM) by lia. cbn. f_equal.
  - rewrite E7, A0, A2, A3, A5. rewrite (SU3_row2 M 1 HM) by lia. cbn. f_equal.
  - rewrite E8, A0, A1, A3, A4. rewrite (SU3_row2 M 2 HM) by lia. cbn. f_equal.
Qed.

Lemma complete2 : forall (r : arr) (M : mat), SU2 M ->
  r 0%nat = M 0%nat 0%nat -> r 1%nat = M 0%nat 1%nat ->
  r 2%nat = - conj (r 1%nat) -> r 3%nat = conj (r 0%nat) -> meq 2 (mx 2 r) M.
Proof.
  intros r M HM E0 E1 E2 E3. destruct (SU2_form M HM) as [F1 F2].
  split2; unfold mx; cbn [Nat.add Nat.mul]; try assumption.
  - rewrite E2, E1; auto.
  - rewrite E3, E0; auto.
Qed.

Ltac lookup f :=
  intros [|[|[|?]]] ?; [| | |exfalso; lia];
  lazy beta delta [f upd Nat.eqb mx mmul dag csum Nat.add Nat.mul creal cimag] zeta iota;
  repeat match goal with |- context[?b ?k] => is_var b; match type of b with arr => destruct (b k) as [? ?] end end; cring.
Ltac botrow f := rewrite <- bottom; lazy beta delta [f upd Nat.eqb] zeta iota; reflexivity.
Ltac su3 f :=
  match goal with |- holds _ ?r _ ?M =>
    split; [apply complete3; [|lookup f|lookup f|botrow f|botrow f|botrow f]
           |framed] end.
Ltac su2 f :=
  split; [apply complete2;
    [|lazy beta delta [f upd Nat.eqb mx mmul dag csum Nat.add Nat.mul creal cimag] zeta iota; cring
     |lazy beta delta [f upd Nat.eqb mx mmul dag csum Nat.add Nat.mul creal cimag] zeta iota; cring
     |reflexivity|reflexivity]|framed2].

Lemma multab_suNC_3_ok : forall a b c, SU3 (mx 3 b) -> SU3 (mx 3 c) ->
  holds 3 (multab_suNC_3 a b c) a (mmul 3 (mx 3 b) (mx 3 c)).
Proof. intros a b c Hb Hc. su3 multab_suNC_3. now apply SU3_mmul. Qed.
Lemma multabdag_suNC_3_ok : forall a b c, SU3 (mx 3 b) -> SU3 (mx 3 c) ->
  holds 3 (multabdag_suNC_3 a b c) a (mmul 3 (dag (mx 3 b)) (mx 3 c)).
Proof. intros a b c Hb Hc. su3 multabdag_suNC_3. apply SU3_mmul; [now apply SU3_dag|assumption]. Qed.
Lemma multab_dag_suNC_3_ok : forall a b c, SU3 (mx 3 b) -> SU3 (mx 3 c) ->
  holds 3 (multab_dag_suNC_3 a b c) a (mmul 3 (mx 3 b) (dag (mx 3 c))).
Proof. intros a b c Hb Hc. su3 multab_dag_suNC_3. apply SU3_mmul; [assumption|now apply SU3_dag]. Qed.
Lemma multab_dagdag_suNC_3_ok : forall a b c, SU3 (mx 3 b) -> SU3 (mx 3 c) ->
  holds 3 (multab_dagdag_suNC_3 a b c) a (mmul 3 (dag (mx 3 b)) (dag (mx 3 c))).
Proof. intros a b c Hb Hc. su3 multab_dagdag_suNC_3. apply SU3_mmul; now apply SU3_dag. Qed.

Lemma multab_suNC_2_ok : forall a b c, SU2 (mx 2 b) -> SU2 (mx 2 c) ->
  holds 2 (multab_suNC_2 a b c) a (mmul 2 (mx 2 b) (mx 2 c)).
Proof. intros a b c Hb Hc. su2 multab_suNC_2. now apply SU2_mmul. Qed.
Lemma multabdag_suNC_2_ok : forall a b c, SU2 (mx 2 b) -> SU2 (mx 2 c) ->
  holds 2 (multabdag_suNC_2 a b c) a (mmul 2 (dag (mx 2 b)) (mx 2 c)).
Proof. intros a b c Hb Hc. su2 multabdag_suNC_2. apply SU2_mmul; [now apply SU2_dag|assumption]. Qed.
Lemma multab_dag_suNC_2_ok : forall a b c, SU2 (mx 2 b) -> SU2 (mx 2 c) ->
  holds 2 (multab_dag_suNC_2 a b c) a (mmul 2 (mx 2 b) (dag (mx 2 c))).
Proof. intros a b c Hb Hc. su2 multab_dag_suNC_2. apply SU2_mmul; [assumption|now apply SU2_dag]. Qed.
Lemma multab_dagdag_suNC_2_ok : forall a b c, SU2 (mx 2 b) -> SU2 (mx 2 c) ->
  holds 2 (multab_dagdag_suNC_2 a b c) a (mmul 2 (dag (mx 2 b)) (dag (mx 2 c))).
Proof. intros a b c Hb Hc. su2 multab_dagdag_suNC_2. apply SU2_mmul; now apply SU2_dag. Qed.

