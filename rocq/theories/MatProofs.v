(** Proofs about the elementary matrix operations of MatModel.v. *)
From Coq Require Import PeanoNat Lia Setoid Morphisms List ZArith.
From Verif Require Import CMat Arr MatSpec MmulModel MmulProofs MatModel.
Local Open Scope C_scope.

(** * Loops *)
Lemma fill1 : forall k (f : nat -> C -> C) a x,
  for_ k (fun i a => upd a i (f i (a i))) a x = if Nat.ltb x k then f x (a x) else a x.
Proof.
  induction k; intros f a x; cbn [for_]; [reflexivity|].
  destruct (Nat.eq_dec x k) as [->|N].
  - rewrite upd_eq, IHk. rewrite (proj2 (Nat.ltb_ge k k)), (proj2 (Nat.ltb_lt k (S k))) by lia. reflexivity.
  - rewrite upd_neq, IHk by assumption.
    destruct (Nat.ltb_spec x k), (Nat.ltb_spec x (S k)); try lia; reflexivity.
Qed.

Lemma fill1_holds : forall n (f : nat -> C -> C) a (M : mat),
  (forall i j, (i < n)%nat -> (j < n)%nat -> f (j + n*i)%nat (a (j + n*i)%nat) = M i j) ->
  holds n (for_ (n*n) (fun i a => upd a i (f i (a i))) a) a M.
Proof.
  intros n f a M H. split.
  - intros i j Hi Hj. unfold mx. rewrite fill1.
    rewrite (proj2 (Nat.ltb_lt _ _)) by nia. now apply H.
  - intros x Hx. rewrite fill1. rewrite (proj2 (Nat.ltb_ge _ _)) by lia. reflexivity.
Qed.

Lemma for_csum_from : forall n f s, for_ n (fun m s => s + f m) s = s + csum n f.
Proof. induction n; intros; cbn; [ring|rewrite IHn; ring]. Qed.

Fixpoint rsum (n : nat) (f : nat -> R) : R := match n with O => 0%R | S m => (rsum m f + f m)%R end.
Lemma for_rsum : forall n f s, for_ n (fun m s => (s + f m)%R) s = (s + rsum n f)%R.
Proof. induction n; intros; cbn; [ring|rewrite IHn; ring]. Qed.
Lemma rsum_ext : forall n f g, (forall i, (i < n)%nat -> f i = g i) -> rsum n f = rsum n g.
Proof. induction n; intros f g H; cbn; [reflexivity|]. rewrite (IHn f g), H by (intros; try apply H; lia). reflexivity. Qed.
Lemma rsum_add : forall n f g, rsum n (fun i => f i + g i)%R = (rsum n f + rsum n g)%R.
Proof. induction n; intros; cbn; [|rewrite IHn]; ring. Qed.
Lemma rsum_mul : forall n c f, rsum n (fun i => c * f i)%R = (c * rsum n f)%R.
Proof. induction n; intros; cbn; [|rewrite IHn]; ring. Qed.
Lemma re_csum : forall n f, re (csum n f) = rsum n (fun i => re (f i)).
Proof. induction n; intros; cbn; [reflexivity|rewrite <- IHn; reflexivity]. Qed.
Lemma im_csum : forall n f, im (csum n f) = rsum n (fun i => im (f i)).
Proof. induction n; intros; cbn; [reflexivity|rewrite <- IHn; reflexivity]. Qed.

Lemma csum_app : forall n m f, csum (n + m) f = csum n f + csum m (fun j => f (n + j)%nat).
Proof.
  intros n m f. induction m; cbn [csum].
  - rewrite Nat.add_0_r. ring.
  - rewrite Nat.add_succ_r. cbn [csum]. rewrite IHm. ring.
Qed.
Lemma csum_flat : forall n m f, csum (n*m) f = csum n (fun i => csum m (fun j => f (j + m*i)%nat)).
Proof.
  induction n; intros m f; [reflexivity|]. cbn [csum].
  replace (S n * m)%nat with (n*m + m)%nat by lia. rewrite csum_app, IHn. f_equal.
  apply csum_ext; intros; f_equal; lia.
Qed.
Lemma csum_pairs : forall p f, csum (2*p) f = csum p (fun h => f (2*h)%nat + f (2*h+1)%nat).
Proof.
  intros p f. rewrite Nat.mul_comm, csum_flat. apply csum_ext; intros i _. cbn [csum].
  replace (0 + 2*i)%nat with (2*i)%nat by lia. replace (1 + 2*i)%nat with (2*i+1)%nat by lia. ring.
Qed.

Lemma pairC : forall p : C, (let (x, y) := p in RtoC x + Ci * RtoC y) = p.
Proof. intros [x y]. cring. Qed.
Lemma pairC' : forall p : C, (let (x, y) := p in RtoC x - Ci * RtoC y) = conj p.
Proof. intros [x y]. cring. Qed.

(** * Elementwise operations *)
Ltac un1 f := lazy beta delta [f upd Nat.eqb mx Nat.add Nat.mul Nat.eqb] zeta iota.

Ltac by_NC' n H3 H2 := destruct n as [|[|[|[|n]]]]; [ | |H2|H3| ].

Lemma identity_ok : forall n a, holds n (identity n a) a mid.
Proof.
  intros n a. destruct n as [|[|[|[|n]]]].
  3:{ split; [split2; reflexivity|framed2]. }
  3:{ split; [split3; reflexivity|framed]. }
  all: unfold identity, identity_n;
    match goal with |- holds ?m _ _ _ =>
      destruct (fill2 m (fun i j => if negb (Nat.eqb i j) then C0 else C1) a) as [H1 H2];
      split; [rewrite H1; intros i j _ _; unfold mid; destruct (Nat.eqb i j); reflexivity|exact H2] end.
Qed.

Lemma diag_ok : forall n a c, holds n (diag n a c) a (mscale c mid).
Proof.
  intros n a c. destruct n as [|[|[|[|n]]]].
  3:{ split; [split2; unfold mscale, mid; cbn; ring|framed2]. }
  3:{ split; [split3; unfold mscale, mid; cbn; ring|framed]. }
  all: unfold diag, diag_n;
    match goal with |- holds ?m _ _ _ =>
      destruct (fill2 m (fun i j => if negb (Nat.eqb i j) then C0 else c) a) as [H1 H2];
      split; [rewrite H1; intros i j _ _; unfold mscale, mid; destruct (Nat.eqb i j); cbn; ring|exact H2] end.
Qed.

Lemma dagger_ok : forall n b a, holds n (dagger n b a) b (dag (mx n a)).
Proof.
  intros n b a. destruct n as [|[|[|[|n]]]].
  3:{ split; [split2; reflexivity|framed2]. }
  3:{ split; [split3; reflexivity|framed]. }
  all: unfold dagger, dagger_n;
    match goal with |- holds ?m _ _ _ =>
      destruct (fill2 m (fun i j => conj (a (i + j*m)%nat)) b) as [H1 H2];
      rewrite (for_ext m _ (fun i a0 => for_ m (fun j a1 => upd a1 (j + m*i) (conj (a (i + j*m)%nat))) a0))
        by (intros; apply for_ext; intros; do 2 f_equal; lia);
      split; [rewrite H1; intros i j _ _; unfold dag, mx; do 2 f_equal; lia|exact H2] end.
Qed.

Lemma transpose_ok : forall n a b, holds n (transpose n a b) a (fun i j => mx n b j i).
Proof.
  intros n b a. destruct n as [|[|[|[|n]]]].
  3:{ split; [split2; reflexivity|framed2]. }
  3:{ split; [split3; reflexivity|framed]. }
  all: unfold transpose, transpose_n;
    match goal with |- holds ?m _ _ _ =>
      destruct (fill2 m (fun i j => a (i + j*m)%nat) b) as [H1 H2];
      rewrite (for_ext m _ (fun i a0 => for_ m (fun j a1 => upd a1 (j + m*i) (a (i + j*m)%nat)) a0))
        by (intros; apply for_ext; intros; do 2 f_equal; lia);
      split; [rewrite H1; intros i j _ _; unfold mx; f_equal; lia|exact H2] end.
Qed.

Lemma outerproduct_ok : forall n Q a b, holds n (outerproduct n Q a b) Q (fun i j => a i * conj (b j)).
Proof.
  intros n Q a b. destruct n as [|[|[|[|n]]]].
  3:{ split; [split2; reflexivity|framed2]. }
  3:{ split; [split3; reflexivity|framed]. }
  all: unfold outerproduct, outerproduct_n;
    match goal with |- holds ?m _ _ _ =>
      destruct (fill2 m (fun i j => a i * conj (b j)) Q) as [H1 H2];
      rewrite (for_ext m _ (fun i a0 => for_ m (fun j a1 => upd a1 (j + m*i) (a i * conj (b j))) a0))
        by (intros; apply for_ext; intros; do 2 f_equal; lia);
      split; [exact H1|exact H2] end.
Qed.

Lemma equiv_ok : forall n a b, holds n (equiv n a b) a (mx n b).
Proof.
  intros n a b. destruct n as [|[|[|[|n]]]].
  3:{ split; [split2; reflexivity|framed2]. }
  3:{ split; [split3; reflexivity|framed]. }
  all: unfold equiv, equiv_n; apply (fill1_holds _ (fun i _ => b i)); reflexivity.
Qed.
Lemma zero_mat_ok : forall n a, holds n (zero_mat n a) a mzero.
Proof.
  intros n a. destruct n as [|[|[|[|n]]]].
  3:{ split; [split2; reflexivity|framed2]. }
  3:{ split; [split3; reflexivity|framed]. }
  all: unfold zero_mat, zero_mat_n; apply (fill1_holds _ (fun i _ => C0)); reflexivity.
Qed.
Lemma a_plus_b_ok : forall n a b, holds n (a_plus_b n a b) a (madd (mx n a) (mx n b)).
Proof.
  intros n a b. destruct n as [|[|[|[|n]]]].
  3:{ split; [split2; reflexivity|framed2]. }
  3:{ split; [split3; reflexivity|framed]. }
  all: unfold a_plus_b, a_plus_b_n; apply (fill1_holds _ (fun i x => x + b i)); reflexivity.
Qed.
Lemma a_plus_CSxb_ok : forall n a b S, holds n (a_plus_CSxb n a b S) a (madd (mx n a) (mscale S (mx n b))).
Proof.
  intros n a b S. destruct n as [|[|[|[|n]]]].
  3:{ split; [split2; reflexivity|framed2]. }
  3:{ split; [split3; reflexivity|framed]. }
  all: unfold a_plus_CSxb, a_plus_CSxb_n; apply (fill1_holds _ (fun i x => x + S * b i)); reflexivity.
Qed.
Lemma b_min_c_ok : forall n a b c, holds n (b_min_c n a b c) a (msub (mx n b) (mx n c)).
Proof.
  intros n a b c. destruct n as [|[|[|[|n]]]].
  3:{ split; [split2; reflexivity|framed2]. }
  3:{ split; [split3; reflexivity|framed]. }
  all: unfold b_min_c, b_min_c_n; apply (fill1_holds _ (fun i _ => b i - c i)); reflexivity.
Qed.
Lemma M_times_c_ok : forall n M c, holds n (M_times_c n M c) M (mscale c (mx n M)).
Proof.
  intros n a c. destruct n as [|[|[|[|n]]]].
  3:{ split; [split2; unfold mscale, mx; cbn; ring|framed2]. }
  3:{ split; [split3; unfold mscale, mx; cbn; ring|framed]. }
  all: unfold M_times_c, M_times_c_n; apply (fill1_holds _ (fun i x => x * c));
    intros; unfold mscale, mx; ring.
Qed.

Lemma add_constant_ok : forall n a c, holds n (add_constant n a c) a (madd (mx n a) (mscale c mid)).
Proof.
  assert (G : forall n a c, holds n (add_constant_n n a c) a (madd (mx n a) (mscale c mid))).
  { intros n a c. unfold add_constant_n, holds, meq, frame, mx, madd, mscale, mid.
    set (P := fun k (r : arr) =>
      (forall i j, (i < n)%nat -> (j < n)%nat ->
         r (j + n*i)%nat = if andb (Nat.eqb i j) (Nat.ltb i k) then a (j + n*i)%nat + c else a (j + n*i)%nat) /\
      (forall x, (n*n <= x)%nat -> r x = a x)).
    match goal with |- (forall i j, _ -> _ -> ?r _ = _) /\ _ => assert (W : P n r) end.
    { apply (for_ind P).
      - split; [intros; rewrite Bool.andb_false_r; reflexivity|auto].
      - intros k t Hk [H1 H2]. split.
        + intros i j Hi Hj. replace (k*(n+1))%nat with (k + n*k)%nat by lia.
          destruct (Nat.eq_dec i k) as [->|N].
          * destruct (Nat.eq_dec j k) as [->|N2].
            -- rewrite upd_eq, H1 by lia. rewrite Nat.eqb_refl.
               rewrite (proj2 (Nat.ltb_ge k k)), (proj2 (Nat.ltb_lt k (S k))) by lia. reflexivity.
            -- rewrite upd_neq by lia. rewrite H1 by lia.
               rewrite (proj2 (Nat.eqb_neq k j)) by lia. reflexivity.
          * rewrite upd_neq by (intro E; apply idx_inj in E; lia). rewrite H1 by lia.
            destruct (Nat.ltb_spec i k), (Nat.ltb_spec i (S k)); try lia; reflexivity.
        + intros x Hx. rewrite upd_neq by nia. now apply H2. }
    destruct W as [W1 W2]. split; [|exact W2].
    intros i j Hi Hj. rewrite W1 by assumption. rewrite (proj2 (Nat.ltb_lt i n)) by assumption.
    destruct (Nat.eqb i j); cbn; ring. }
  intros n a c. destruct n as [|[|[|[|n]]]].
  3:{ split; [split2; unfold madd, mscale, mid, mx; cbn; ring|framed2]. }
  3:{ split; [split3; unfold madd, mscale, mid, mx; cbn; ring|framed]. }
  all: apply G.
Qed.

(** * Matrix times vector *)
Lemma mat_mult_vec_n_ok : forall n vect S v i, (i < n)%nat ->
  mat_mult_vec_n n vect S v i = csum n (fun j => mx n S i j * v j).
Proof.
  intros n vect S v.
  assert (W : forall k, (k <= n)%nat -> forall i, (i < k)%nat ->
    for_ k (fun i vect => for_ n (fun j vect => upd vect i (vect i + S (j + i*n)%nat * v j)) (upd vect i C0)) vect i
    = csum n (fun j => mx n S i j * v j)).
  { assert (B : forall q k u, for_ q (fun j vect => upd vect k (vect k + S (j + k*n)%nat * v j)) (upd u k C0) k
                   = csum q (fun j => mx n S k j * v j)).
    { induction q; intros k u; cbn [for_ csum]; [apply upd_eq|].
      rewrite upd_eq, IHq. unfold mx. rewrite (Nat.mul_comm k n). reflexivity. }
    assert (B' : forall q k u x, x <> k -> for_ q (fun j vect => upd vect k (vect k + S (j + k*n)%nat * v j)) (upd u k C0) x = u x).
    { induction q; intros k u x Hx; cbn [for_]; rewrite upd_neq by assumption; auto. }
    induction k; intros Hk i Hi; [lia|]. cbn [for_].
    destruct (Nat.eq_dec i k) as [->|N]; [apply B|].
    rewrite B' by assumption. apply IHk; lia. }
  intros i Hi. apply (W n); lia.
Qed.
Lemma mat_mult_vec_ok : forall n vect S v i, n <> 3%nat -> (i < n)%nat ->
  mat_mult_vec n vect S v i = csum n (fun j => mx n S i j * v j).
Proof.
  intros n vect S v i N Hi. destruct n as [|[|[|[|n]]]]; try lia; try (now apply mat_mult_vec_n_ok).
  destruct i as [|[|i]]; [| |lia]; unfold mx; cbn; ring.
Qed.

(** * Traces *)
Lemma diag_index : forall n i, (i*(n+1) = i + n*i)%nat.
Proof. intros; lia. Qed.

Lemma speed_trace_n_ok : forall n U, speed_trace_n n U = mtr n (mx n U).
Proof.
  intros n U. unfold speed_trace_n. rewrite pairC.
  transitivity (for_ n (fun i s => s + U (i*(n+1))%nat) C0); [reflexivity|].
  rewrite for_csum. unfold mtr, mx. apply csum_ext; intros; now rewrite diag_index.
Qed.
Lemma speed_trace_ok : forall n U, speed_trace n U = mtr n (mx n U).
Proof.
  intros n U. destruct n as [|[|[|[|n]]]]; try apply speed_trace_n_ok; unfold mtr, mx; cbn;
  unfold speed_trace_2, speed_trace_3; ring.
Qed.
Lemma trace_ok : forall n U, trace n U = mtr n (mx n U).
Proof.
  intros n U. destruct n as [|[|[|[|n]]]]; try apply speed_trace_n_ok; unfold mtr, mx; cbn;
  unfold trace_2, trace_3; ring.
Qed.
Lemma speed_trace_Re_ok : forall n U, speed_trace_Re n U = re (mtr n (mx n U)).
Proof.
  intros n U. destruct n as [|[|[|[|n]]]].
  3:{ unfold mtr, mx; cbn. unfold speed_trace_Re_2, re; cbn. ring. }
  3:{ unfold mtr, mx; cbn. unfold speed_trace_Re_3, re; cbn. ring. }
  all: unfold speed_trace_Re, speed_trace_Re_n; rewrite for_rsum; unfold mtr; rewrite re_csum, Rplus_0_l;
    apply rsum_ext; intros; rewrite diag_index; reflexivity.
Qed.

Lemma trace_ab_n_ok : forall n a b, trace_ab_n n a b = mtr n (mmul n (mx n a) (mx n b)).
Proof.
  intros n a b. unfold trace_ab_n. rewrite pairC.
  transitivity (for_ n (fun i s => for_ n (fun j s => s + a (j + n*i)%nat * b (i + n*j)%nat) s) C0);
    [reflexivity|].
  rewrite (for_ext n _ (fun i s => s + csum n (fun j => a (j + n*i)%nat * b (i + n*j)%nat)))
    by (intros; apply for_csum_from).
  rewrite for_csum. reflexivity.
Qed.
Lemma trace_ab_ok : forall n a b, trace_ab n a b = mtr n (mmul n (mx n a) (mx n b)).
Proof.
  intros n a b. destruct n as [|[|[|[|n]]]]; try apply trace_ab_n_ok;
  unfold mtr, mmul, mx; cbn; unfold trace_ab_2, trace_ab_3; ring.
Qed.

Lemma tr_mul_dag : forall n a b, mtr n (mmul n (mx n a) (dag (mx n b))) = csum (n*n) (fun k => a k * conj (b k)).
Proof. intros. rewrite csum_flat. reflexivity. Qed.

Lemma even_square : forall n, Nat.even n = true -> (n*n = 2*(n*n/2))%nat.
Proof.
  intros n H. apply Nat.even_spec in H. destruct H as [p ->].
  replace (2*p*(2*p))%nat with ((2*p*p)*2)%nat by lia. rewrite Nat.div_mul by lia. lia.
Qed.

Lemma trace_ab_dag_n_ok : forall n a b, trace_ab_dag_n n a b = mtr n (mmul n (mx n a) (dag (mx n b))).
Proof.
  intros n a b. unfold trace_ab_dag_n. rewrite pairC'. rewrite tr_mul_dag.
  assert (T : forall i s, trace_ab_dag_term a b i s = s + conj (a i * conj (b i))).
  { intros i [x y]. unfold trace_ab_dag_term. apply C_eq; cunfold; ring. }
  destruct (Nat.even n) eqn:E.
  - rewrite (for_ext _ _ (fun h s => s + (conj (a (2*h)%nat * conj (b (2*h)%nat)) + conj (a (2*h+1)%nat * conj (b (2*h+1)%nat))))).
    2:{ intros i t _. rewrite !T. ring. }
    change (0%R, 0%R) with C0. rewrite for_csum.
    rewrite <- (csum_pairs _ (fun k => conj (a k * conj (b k)))), <- even_square by assumption.
    rewrite csum_conj. apply csum_ext; intros; apply conj_conj.
  - rewrite (for_ext _ _ (fun h s => s + conj (a h * conj (b h)))) by (intros; apply T).
    change (0%R, 0%R) with C0. rewrite for_csum, csum_conj. apply csum_ext; intros; apply conj_conj.
Qed.
Lemma trace_ab_dag_ok : forall n a b, trace_ab_dag n a b = mtr n (mmul n (mx n a) (dag (mx n b))).
Proof.
  intros n a b. destruct n as [|[|[|[|n]]]]; try apply trace_ab_dag_n_ok;
  unfold mtr, mmul, dag, mx; cbn -[conj]; unfold trace_ab_dag_2, trace_ab_dag_3; ring.
Qed.

Lemma rsum_pairs : forall p f, rsum (2*p) f = rsum p (fun h => f (2*h)%nat + f (2*h+1)%nat)%R.
Proof.
  induction p; intro f; [reflexivity|].
  replace (2 * S p)%nat with (S (S (2*p))) by lia. cbn [rsum]. rewrite IHp.
  replace (2*p+1)%nat with (S (2*p)) by lia. ring.
Qed.
Lemma trace_ab_dag_Re_ok : forall n a b,
  trace_ab_dag_Re n a b = re (mtr n (mmul n (mx n a) (dag (mx n b)))).
Proof.
  intros n a b.
  assert (G : trace_ab_dag_Re_n n a b = re (mtr n (mmul n (mx n a) (dag (mx n b))))).
  { rewrite tr_mul_dag, re_csum. unfold trace_ab_dag_Re_n. cbv zeta.
    set (f := fun i => (re (a i) * re (b i) + im (a i) * im (b i))%R).
    transitivity (rsum (n*n) f).
    - destruct (Nat.even n) eqn:E.
      + rewrite (for_ext _ _ (fun h s => (s + (f (2*h)%nat + f (2*h+1)%nat))%R)) by (intros; unfold f; ring).
        rewrite for_rsum, Rplus_0_l, <- rsum_pairs, <- even_square by assumption. reflexivity.
      + rewrite for_rsum. apply Rplus_0_l.
    - apply rsum_ext; intros i _. unfold f. cunfold. ring. }
  destruct n as [|[|[|[|n]]]]; try exact G;
  clear G; unfold trace_ab_dag_Re, trace_ab_dag_Re_2, trace_ab_dag_Re_3;
  rewrite tr_mul_dag, re_csum; cbn [rsum Nat.mul Nat.add]; cunfold; ring.
Qed.

Lemma abc_inner_ok : forall n a b i j, abc_inner n a b i j = mmul n (mx n a) (mx n b) j i.
Proof.
  intros n a b i j. unfold abc_inner.
  transitivity (for_ n (fun k s => s + a (n*j + k)%nat * b (n*k + i)%nat) C0); [reflexivity|].
  rewrite for_csum. unfold mmul, mx. apply csum_ext; intros k _. do 2 f_equal; lia.
Qed.
Lemma trace_abc_n_ok : forall n a b c,
  trace_abc_n n a b c = mtr n (mmul n (mmul n (mx n a) (mx n b)) (mx n c)).
Proof.
  intros n a b c. unfold trace_abc_n. rewrite pairC.
  rewrite (for_ext n _ (fun i s => s + csum n (fun j => mmul n (mx n a) (mx n b) j i * mx n c i j))).
  2:{ intros i t _. rewrite <- for_csum_from. apply for_ext; intros j s _.
      rewrite abc_inner_ok. unfold mx at 5. rewrite (Nat.mul_comm i n).
      destruct (mmul n (mx n a) (mx n b) j i) as [x y]. reflexivity. }
  change (0%R, 0%R) with C0. rewrite for_csum, mtr_cyc. unfold mtr. apply csum_ext; intros i _.
  unfold mmul at 2. apply csum_ext; intros; ring.
Qed.
Lemma trace_abc_ok : forall n a b c,
  trace_abc n a b c = mtr n (mmul n (mmul n (mx n a) (mx n b)) (mx n c)).
Proof.
  intros n a b c. destruct n as [|[|[|[|n]]]]; try apply trace_abc_n_ok;
  unfold mtr, mmul, mx; cbn; unfold trace_abc_2, trace_abc_3; ring.
Qed.
Lemma trace_abc_dag_n_ok : forall n a b c,
  trace_abc_dag_n n a b c = mtr n (mmul n (mmul n (mx n a) (mx n b)) (dag (mx n c))).
Proof.
  intros n a b c. unfold trace_abc_dag_n. rewrite pairC.
  rewrite (for_ext n _ (fun i s => s + csum n (fun j => mmul n (mx n a) (mx n b) j i * dag (mx n c) i j))).
  2:{ intros i t _. rewrite <- for_csum_from. apply for_ext; intros j s _.
      rewrite abc_inner_ok. unfold dag. unfold mx at 5. rewrite (Nat.mul_comm j n).
      destruct (mmul n (mx n a) (mx n b) j i) as [x y]. destruct s as [u v]. cring. }
  change (0%R, 0%R) with C0. rewrite for_csum, mtr_cyc. unfold mtr. apply csum_ext; intros i _.
  unfold mmul at 2. apply csum_ext; intros; ring.
Qed.
Lemma trace_abc_dag_ok : forall n a b c,
  trace_abc_dag n a b c = mtr n (mmul n (mmul n (mx n a) (mx n b)) (dag (mx n c))).
Proof.
  intros n a b c. destruct n as [|[|[|[|n]]]]; try apply trace_abc_dag_n_ok;
  unfold mtr, mmul, dag, mx; cbn -[conj]; unfold trace_abc_dag_2, trace_abc_dag_3; ring.
Qed.
Lemma trace_abc_dag_Re_ok : forall n a b c,
  trace_abc_dag_Re n a b c = re (mtr n (mmul n (mmul n (mx n a) (mx n b)) (dag (mx n c)))).
Proof.
  intros n a b c. rewrite <- trace_abc_dag_ok.
  assert (G : trace_abc_dag_Re_n n a b c = re (trace_abc_dag_n n a b c)).
  { unfold trace_abc_dag_n. rewrite pairC. unfold trace_abc_dag_Re_n.
    match goal with |- ?f = re ?g => change (f = re g) end.
    set (P := fun (x : R) (y : R * R) => x = fst y).
    assert (Hin : forall i q s s', s = fst s' ->
      for_ q (fun j (s : R) => let (insumr, insumi) := abc_inner n a b i j in
        (s + (insumr * re (c (i + j*n)%nat) + insumi * im (c (i + j*n)%nat)))%R) s =
      fst (for_ q (fun j (s : R * R) => let (insumr, insumi) := abc_inner n a b i j in
        (fst s + (insumr * re (c (i + j*n)%nat) + insumi * im (c (i + j*n)%nat)),
         snd s + (- insumr * im (c (i + j*n)%nat) + insumi * re (c (i + j*n)%nat)))%R) s')).
    { intros i q s s' Hs. induction q; cbn [for_]; [exact Hs|].
      destruct (abc_inner n a b i q) as [x y]. rewrite IHq. reflexivity. }
    assert (Hout : forall q,
      for_ q (fun i s => for_ n (fun j (s : R) => let (insumr, insumi) := abc_inner n a b i j in
        (s + (insumr * re (c (i + j*n)%nat) + insumi * im (c (i + j*n)%nat)))%R) s) 0%R =
      fst (for_ q (fun i s => for_ n (fun j (s : R * R) => let (insumr, insumi) := abc_inner n a b i j in
        (fst s + (insumr * re (c (i + j*n)%nat) + insumi * im (c (i + j*n)%nat)),
         snd s + (- insumr * im (c (i + j*n)%nat) + insumi * re (c (i + j*n)%nat)))%R) s) (0, 0)%R)).
    { induction q; cbn [for_]; [reflexivity|]. apply Hin. exact IHq. }
    apply (Hout n). }
  destruct n as [|[|[|[|n]]]]; try exact G.
  - clear G. unfold trace_abc_dag_Re, trace_abc_dag_Re_2, trace_abc_dag, trace_abc_dag_2. reflexivity.
  - clear G. unfold trace_abc_dag_Re, trace_abc_dag_Re_3, trace_abc_dag, trace_abc_dag_3. f_equal. ring.
Qed.

(** ** The SU(NC) shortcut trace *)
Ltac let_as v :=
  match goal with |- (let x := ?e in @?b x) = ?rhs =>
    let H := fresh in assert (H : e = v);
      [ | change (b e = rhs); rewrite H; clear H; cbv beta] end.
Ltac ent X := rewrite X; unfold mmul, mx; cbn [csum Nat.add Nat.mul]; cunfold; ring.

Lemma Re_trace_abc_dag_suNC_3_ok : forall a b c, SU3 (mx 3 a) -> SU3 (mx 3 b) ->
  Re_trace_abc_dag_suNC_3 a b c = re (mtr 3 (mmul 3 (mmul 3 (mx 3 a) (mx 3 b)) (dag (mx 3 c)))).
Proof.
  intros a b c Ha Hb.
  set (r := multab_suNC_3 (fun _ => C0) a b).
  assert (Hr : meq 3 (mx 3 r) (mmul 3 (mx 3 a) (mx 3 b))) by (apply multab_suNC_3_ok; assumption).
  rewrite <- Hr, tr_mul_dag, re_csum. cbn [rsum Nat.mul Nat.add].
  assert (E : forall x y, re (x * conj y) = (re x * re y + im x * im y)%R) by (intros; cunfold; ring).
  rewrite !E. clear E.
  assert (R0 : r 0%nat = mmul 3 (mx 3 a) (mx 3 b) 0%nat 0%nat) by (apply (Hr 0 0)%nat; lia).
  assert (R1 : r 1%nat = mmul 3 (mx 3 a) (mx 3 b) 0%nat 1%nat) by (apply (Hr 0 1)%nat; lia).
  assert (R2 : r 2%nat = mmul 3 (mx 3 a) (mx 3 b) 0%nat 2%nat) by (apply (Hr 0 2)%nat; lia).
  assert (R3 : r 3%nat = mmul 3 (mx 3 a) (mx 3 b) 1%nat 0%nat) by (apply (Hr 1 0)%nat; lia).
  assert (R4 : r 4%nat = mmul 3 (mx 3 a) (mx 3 b) 1%nat 1%nat) by (apply (Hr 1 1)%nat; lia).
  assert (R5 : r 5%nat = mmul 3 (mx 3 a) (mx 3 b) 1%nat 2%nat) by (apply (Hr 1 2)%nat; lia).
  assert (R6 : r 6%nat = conj (r 1%nat * r 5%nat - r 2%nat * r 4%nat)) by (rewrite <- bottom; reflexivity).
  assert (R7 : r 7%nat = conj (r 2%nat * r 3%nat - r 0%nat * r 5%nat)) by (rewrite <- bottom; reflexivity).
  assert (R8 : r 8%nat = conj (r 0%nat * r 4%nat - r 1%nat * r 3%nat)) by (rewrite <- bottom; reflexivity).
  rewrite R6, R7, R8. clear R6 R7 R8.
  cbv beta delta [Re_trace_abc_dag_suNC_3].
  let_as (re (r 0%nat)); [ent R0|]. let_as (im (r 0%nat)); [ent R0|].
  let_as (re (r 1%nat)); [ent R1|]. let_as (im (r 1%nat)); [ent R1|].
  let_as (re (r 2%nat)); [ent R2|]. let_as (im (r 2%nat)); [ent R2|].
  let_as (re (r 3%nat)); [ent R3|]. let_as (im (r 3%nat)); [ent R3|].
  let_as (re (r 4%nat)); [ent R4|]. let_as (im (r 4%nat)); [ent R4|].
  let_as (re (r 5%nat)); [ent R5|]. let_as (im (r 5%nat)); [ent R5|].
  cbv zeta. clear R0 R1 R2 R3 R4 R5 Hr. clearbody r. cunfold. ring.
Qed.
