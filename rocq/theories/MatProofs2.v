(** Hermitian traces, packed matrices and matrix powers. *)
From Coq Require Import PeanoNat Lia Setoid Morphisms List ZArith.
From Verif Require Import CMat Arr MatSpec MmulModel MmulProofs MatModel MatProofs.
Local Open Scope C_scope.

Lemma Re_trace_abc_dag_suNC_2_ok : forall a b c, SU2 (mx 2 a) -> SU2 (mx 2 b) ->
  Re_trace_abc_dag_suNC_2 a b c = re (mtr 2 (mmul 2 (mmul 2 (mx 2 a) (mx 2 b)) (dag (mx 2 c)))).
Proof.
  intros a b c Ha Hb.
  set (r := multab_suNC_2 (fun _ => C0) a b).
  assert (Hr : meq 2 (mx 2 r) (mmul 2 (mx 2 a) (mx 2 b))) by (apply multab_suNC_2_ok; assumption).
  rewrite <- Hr, tr_mul_dag, re_csum. cbn [rsum Nat.mul Nat.add].
  assert (E : forall x y, re (x * conj y) = (re x * re y + im x * im y)%R) by (intros; cunfold; ring).
  rewrite !E. clear E.
  assert (R0 : r 0%nat = a 0%nat * b 0%nat + a 1%nat * b 2%nat).
  { transitivity (mmul 2 (mx 2 a) (mx 2 b) 0%nat 0%nat); [apply (Hr 0 0)%nat; lia|]. unfold mmul, mx; cbn; ring. }
  assert (R1 : r 1%nat = a 0%nat * b 1%nat + a 1%nat * b 3%nat).
  { transitivity (mmul 2 (mx 2 a) (mx 2 b) 0%nat 1%nat); [apply (Hr 0 1)%nat; lia|]. unfold mmul, mx; cbn; ring. }
  assert (R2 : r 2%nat = - conj (r 1%nat)) by reflexivity.
  assert (R3 : r 3%nat = conj (r 0%nat)) by reflexivity.
  rewrite R2, R3, R0, R1. clear. unfold Re_trace_abc_dag_suNC_2.
  set (x := a 0%nat * b 0%nat + a 1%nat * b 2%nat). set (y := a 0%nat * b 1%nat + a 1%nat * b 3%nat).
  clearbody x y. cunfold. ring.
Qed.

Lemma Re_trace_abc_dag_suNC_ok : forall n a b c,
  (n = 2%nat -> SU2 (mx 2 a) /\ SU2 (mx 2 b)) -> (n = 3%nat -> SU3 (mx 3 a) /\ SU3 (mx 3 b)) ->
  Re_trace_abc_dag_suNC n a b c = re (mtr n (mmul n (mmul n (mx n a) (mx n b)) (dag (mx n c)))).
Proof.
  intros n a b c H2 H3. destruct n as [|[|[|[|n]]]]; try apply trace_abc_dag_Re_ok.
  - destruct (H2 eq_refl). now apply Re_trace_abc_dag_suNC_2_ok.
  - destruct (H3 eq_refl). now apply Re_trace_abc_dag_suNC_3_ok.
Qed.

(** * Hermitian traces *)
Lemma tri_sum : forall n (g : nat -> nat -> R),
  (forall i j, (i < n)%nat -> (j < n)%nat -> g i j = g j i) ->
  rsum n (fun i => rsum n (g i)) =
  rsum n (fun i => g i i + rsum (n - (i+1)) (fun h => 2 * g i (i+1+h)%nat))%R.
Proof.
  induction n; intros g Hg; [reflexivity|].
  cbn [rsum]. rewrite rsum_add, IHn by (intros; apply Hg; lia).
  replace (S n - (n+1))%nat with 0%nat by lia. cbn [rsum].
  rewrite (rsum_ext n (fun i => g i i + rsum (S n - (i + 1)) (fun h => 2 * g i (i + 1 + h)%nat))%R
    (fun i => (g i i + rsum (n - (i+1)) (fun h => 2 * g i (i+1+h)%nat)) + 2 * g i n)%R).
  - rewrite rsum_add, (rsum_ext n (g n) (fun i => g i n)) by (intros; apply Hg; lia).
    rewrite !rsum_add, rsum_mul. ring.
  - intros i Hi. replace (S n - (i+1))%nat with (S (n - (i+1))) by lia. cbn [rsum].
    replace (i + 1 + (n - (i+1)))%nat with n by lia. ring.
Qed.

Lemma herm_tr_real : forall n A B, hermitian n A -> hermitian n B -> im (mtr n (mmul n A B)) = 0%R.
Proof.
  intros n A B HA HB. unfold hermitian in *.
  assert (E : conj (mtr n (mmul n A B)) = mtr n (mmul n A B)).
  { rewrite <- mtr_dag, dag_mmul, HA, HB. apply mtr_cyc. }
  apply (f_equal im) in E. cunfold. lra.
Qed.

Lemma herm_tr : forall n A B, hermitian n A -> hermitian n B ->
  re (mtr n (mmul n A B)) =
  rsum n (fun i => re (A i i) * re (B i i) +
    rsum (n - (i+1)) (fun h => 2 * (re (A i (i+1+h)%nat) * re (B i (i+1+h)%nat)
                                  + im (A i (i+1+h)%nat) * im (B i (i+1+h)%nat))))%R.
Proof.
  intros n A B HA HB.
  set (g := fun i j => (re (A i j) * re (B i j) + im (A i j) * im (B i j))%R).
  assert (D : forall (M : mat) i j, hermitian n M -> (i < n)%nat -> (j < n)%nat -> M j i = conj (M i j)).
  { intros M i j H Hi Hj. symmetry. apply (H j i Hj Hi). }
  unfold mtr, mmul. rewrite re_csum.
  rewrite (rsum_ext n _ (fun i => rsum n (g i))).
  2:{ intros i Hi. rewrite re_csum. apply rsum_ext; intros j Hj. rewrite (D B i j) by assumption.
      unfold g. cunfold. ring. }
  rewrite tri_sum.
  2:{ intros i j Hi Hj. unfold g. rewrite (D A i j), (D B i j) by assumption. cunfold. ring. }
  apply rsum_ext; intros i Hi. f_equal. unfold g.
  assert (Z : im (A i i) = 0%R). { pose proof (f_equal im (D A i i HA Hi Hi)) as E. cunfold. lra. }
  rewrite Z. ring.
Qed.

Lemma trace_ab_herm_n_ok : forall n a b, hermitian n (mx n a) -> hermitian n (mx n b) ->
  trace_ab_herm_n n a b = re (mtr n (mmul n (mx n a) (mx n b))).
Proof.
  intros n a b Ha Hb. rewrite herm_tr by assumption. unfold trace_ab_herm_n. cbv zeta.
  rewrite (for_ext n _ (fun i s => (s + (re (a (i + n*i)%nat) * re (b (i + n*i)%nat) +
    rsum (n - (i+1)) (fun h => 2 * (re (a ((i+1+h) + n*i)%nat) * re (b ((i+1+h) + n*i)%nat)
       + im (a ((i+1+h) + n*i)%nat) * im (b ((i+1+h) + n*i)%nat)))))%R)).
  - rewrite for_rsum. apply Rplus_0_l.
  - intros i t _. rewrite for_rsum. ring.
Qed.

Lemma RtoC_re : forall z, im z = 0%R -> RtoC (re z) = z.
Proof. intros [x y]; cbn. intros ->. reflexivity. Qed.

Definition needs_traceless (n : nat) (A : mat) : Prop := n = 2%nat -> traceless n A.

Lemma herm_diag2 : forall A, hermitian 2 A -> traceless 2 A ->
  im (A 0%nat 0%nat) = 0%R /\ A 1%nat 1%nat = - A 0%nat 0%nat /\ A 1%nat 0%nat = conj (A 0%nat 1%nat).
Proof.
  intros A H T. unfold traceless, mtr in T. cbn [csum] in T.
  pose proof (H 0 0 ltac:(lia) ltac:(lia))%nat as E. apply (f_equal im) in E.
  split; [unfold dag, conj in E; cbn in E; unfold im in *; lra|]. split; [|symmetry; apply (H 1 0)%nat; lia].
  transitivity (C0 + A 0%nat 0%nat + A 1%nat 1%nat - A 0%nat 0%nat); [ring|].
  rewrite T. ring.
Qed.

Lemma trace_ab_herm_ok : forall n a b,
  hermitian n (mx n a) -> hermitian n (mx n b) -> needs_traceless n (mx n a) -> needs_traceless n (mx n b) ->
  RtoC (trace_ab_herm n a b) = mtr n (mmul n (mx n a) (mx n b)).
Proof.
  intros n a b Ha Hb Ta Tb. rewrite <- (RtoC_re (mtr n (mmul n (mx n a) (mx n b)))) by now apply herm_tr_real.
  f_equal. destruct n as [|[|[|[|n]]]]; try (now apply trace_ab_herm_n_ok).
  - destruct (herm_diag2 _ Ha (Ta eq_refl)) as (A1 & A2 & A3).
    destruct (herm_diag2 _ Hb (Tb eq_refl)) as (B1 & B2 & B3).
    unfold mtr, mmul. cbn [csum]. rewrite A2, A3, B2, B3. unfold mx in *. cbn [Nat.add Nat.mul] in *.
    unfold trace_ab_herm, trace_ab_herm_2. cunfold. rewrite A1. ring.
  - rewrite herm_tr by assumption. unfold trace_ab_herm, trace_ab_herm_3, mx.
    cbn [rsum Nat.sub Nat.add Nat.mul]. ring.
Qed.

Lemma trace_prod_herm_n_ok : forall n a, trace_prod_herm_n n a = trace_ab_herm_n n a a.
Proof.
  intros n a. unfold trace_prod_herm_n, trace_ab_herm_n. cbv zeta.
  set (body := fun i (st : nat * R) => let '(p, sum) := st in
    let sum := (sum + re (a p) * re (a p))%R in
    let p := S p in
    let '(p, sum) := for_ (n - (i+1)) (fun _ '(p, sum) =>
      (S p, (sum + 2 * (re (a p) * re (a p) + im (a p) * im (a p)))%R)) (p, sum) in
    ((p + (i+1))%nat, sum)).
  set (body' := fun i (sum : R) => for_ (n - (i+1)) (fun h sum =>
      (sum + 2 * (re (a (i + 1 + h + n*i)%nat) * re (a (i + 1 + h + n*i)%nat)
                + im (a (i + 1 + h + n*i)%nat) * im (a (i + 1 + h + n*i)%nat)))%R)
      (sum + re (a (i + n*i)%nat) * re (a (i + n*i)%nat))%R).
  assert (G : forall k, (k <= n)%nat -> for_ k body (O, 0%R) = ((k + n*k)%nat, for_ k body' 0%R)).
  { induction k; intro Hk; [cbn; f_equal; lia|]. cbn [for_]. rewrite IHk by lia. unfold body at 1.
    assert (I : forall q p s, for_ q (fun _ '(p, sum) =>
      (S p, (sum + 2 * (re (a p) * re (a p) + im (a p) * im (a p)))%R)) (p, s) =
      ((p + q)%nat, for_ q (fun h sum => (sum + 2 * (re (a (p+h)%nat) * re (a (p+h)%nat) + im (a (p+h)%nat) * im (a (p+h)%nat)))%R) s)).
    { induction q; intros p s; cbn [for_]; [f_equal; lia|]. rewrite IHq. f_equal. lia. }
    rewrite I. f_equal; [lia|]. unfold body' at 2. apply for_ext; intros h s _.
    replace (S (k + n*k) + h)%nat with (k + 1 + h + n*k)%nat by lia. reflexivity. }
  rewrite G by lia. reflexivity.
Qed.
Lemma trace_prod_herm_ok : forall n a, hermitian n (mx n a) -> needs_traceless n (mx n a) ->
  RtoC (trace_prod_herm n a) = mtr n (mmul n (mx n a) (mx n a)).
Proof.
  intros n a H T. rewrite <- trace_ab_herm_ok by assumption. f_equal.
  destruct n as [|[|[|[|n]]]]; try apply trace_prod_herm_n_ok.
  - reflexivity.
  - reflexivity.
Qed.

(** * Packing *)
Lemma off_S : forall n i, off n (S i) = (off n i + (n - i))%nat.
Proof. reflexivity. Qed.
Lemma off_mono : forall n i j, (i <= j)%nat -> (off n i <= off n j)%nat.
Proof. intros n i j H. induction H; [lia|]. rewrite off_S. lia. Qed.
Lemma off_inj : forall n i h i' h', (h < n - i)%nat -> (h' < n - i')%nat ->
  (off n i + h = off n i' + h')%nat -> i = i' /\ h = h'.
Proof.
  intros n i h i' h' H H' E.
  assert (i = i').
  { destruct (Nat.lt_trichotomy i i') as [L|[L|L]]; [|auto|].
    - pose proof (off_mono n (S i) i' L) as M. rewrite off_S in M. lia.
    - pose proof (off_mono n (S i') i L) as M. rewrite off_S in M. lia. }
  subst. lia.
Qed.

Lemma pack_hermitian_ok : forall n a b, packed n (pack_hermitian n a b) (mx n b).
Proof.
  intros n a b. unfold pack_hermitian.
  set (row := fun i s => for_ (n - i) (fun h '(a, idx) =>
    (upd a idx (b ((i+h) + i*n)%nat), S idx)) s : arr * nat).
  set (P := fun k (s : arr * nat) => snd s = off n k /\
    forall i h, (i < k)%nat -> (h < n - i)%nat -> fst s (off n i + h)%nat = mx n b i (i+h)%nat).
  assert (G : P (n-1)%nat (for_ (n-1) row (a, O))).
  { apply (for_ind P); [split; [reflexivity|intros; lia]|].
    intros k s Hk [S1 S2]. unfold row.
    set (Q := fun q (t : arr * nat) => snd t = (off n k + q)%nat /\
      (forall i h, (i < k)%nat -> (h < n - i)%nat -> fst t (off n i + h)%nat = mx n b i (i+h)%nat) /\
      (forall h, (h < q)%nat -> fst t (off n k + h)%nat = mx n b k (k+h)%nat)).
    match goal with |- P _ ?t => assert (Q (n-k)%nat t) as (Q1 & Q2 & Q3) end.
    { apply (for_ind Q).
      - split; [lia|split; [exact S2|intros; lia]].
      - intros q [t idx] Hq (T1 & T2 & T3). cbn [fst snd] in *. subst idx. split; [cbn; lia|].
        split; cbn [fst snd].
        + intros i h Hi Hh. rewrite upd_neq; [now apply T2|]. intro E; apply off_inj in E; lia.
        + intros h Hh. destruct (Nat.eq_dec h q) as [->|N].
          * rewrite upd_eq. unfold mx. f_equal; lia.
          * rewrite upd_neq by lia. apply T3; lia. }
    split; [rewrite Q1; reflexivity|].
    intros i h Hi Hh. destruct (Nat.eq_dec i k) as [->|N]; [now apply Q3|apply Q2; lia]. }
  destruct G as [_ G]. intros i j Hi Hj. rewrite G by lia. f_equal. lia.
Qed.

(** the pack / rebuild loops with a sign [sg] *)
Section Rebuild.
Variable sg : C -> C.
Variable n : nat.
Variable b : arr.
Definition rebuild_loop (a : arr) : arr * nat :=
  for_ (n-1) (fun i s => for_ (n - i) (fun h '(a, idx) =>
    let j := (i+h)%nat in
    let a := upd a (j + n*i) (b idx) in
    let a := upd a (i + n*j) (sg (conj (b idx))) in
    (a, S idx)) s) (a, O).

Lemma rebuild_loop_ok : forall a,
  (forall i j, (i < n-1)%nat -> (i < j < n)%nat -> mx n (fst (rebuild_loop a)) i j = b (off n i + (j - i))%nat) /\
  (forall i j, (i < n-1)%nat -> (i < j < n)%nat -> mx n (fst (rebuild_loop a)) j i = sg (conj (b (off n i + (j - i))%nat))) /\
  (forall i, (i < n-1)%nat -> mx n (fst (rebuild_loop a)) i i = sg (conj (b (off n i)))) /\
  frame (n*n) (fst (rebuild_loop a)) a.
Proof.
  intro a. unfold rebuild_loop.
  set (done := fun (r : arr) i h =>
     (h = O -> mx n r i i = sg (conj (b (off n i)))) /\
     (h <> O -> mx n r i (i+h)%nat = b (off n i + h)%nat /\ mx n r (i+h)%nat i = sg (conj (b (off n i + h)%nat)))).
  set (P := fun k (s : arr * nat) => snd s = off n k /\
    (forall i h, (i < k)%nat -> (h < n - i)%nat -> done (fst s) i h) /\ frame (n*n) (fst s) a).
  match goal with |- context[for_ (n-1) ?row (a, O)] => assert (G : P (n-1)%nat (for_ (n-1) row (a, O))) end.
  { apply (for_ind P); [split; [reflexivity|split; [intros; lia|intros x _; reflexivity]]|].
    intros k s Hk (S1 & S2 & S3).
    set (Q := fun q (t : arr * nat) => snd t = (off n k + q)%nat /\
      (forall i h, (i < k)%nat -> (h < n - i)%nat -> done (fst t) i h) /\
      (forall h, (h < q)%nat -> done (fst t) k h) /\ frame (n*n) (fst t) a).
    match goal with |- P _ ?t => assert (Q (n-k)%nat t) as (Q1 & Q2 & Q3 & Q4) end.
    { apply (for_ind Q).
      - split; [lia|split; [exact S2|split; [intros; lia|exact S3]]].
      - intros q [t idx] Hq (T1 & T2 & T3 & T4). cbn [fst snd] in *. subst idx. cbv zeta.
        split; [cbn [snd]; lia|]. cbn [fst].
        assert (NE : forall r i j, (i < n)%nat -> (j < n)%nat -> ~ (i = k /\ j = k + q)%nat -> ~ (i = k + q /\ j = k)%nat ->
          mx n (upd (upd r (k + q + n*k) (b (off n k + q)%nat)) (k + n*(k+q)) (sg (conj (b (off n k + q)%nat)))) i j = mx n r i j).
        { intros r i j Hi Hj N1 N2. unfold mx. rewrite !upd_neq; [reflexivity| |]; intro E; apply idx_inj in E; lia. }
        split; [|split].
        + intros i h Hi Hh. destruct (T2 i h Hi Hh) as [U1 U2]. split; intro Z.
          * rewrite NE by lia. auto.
          * rewrite !NE by lia. auto.
        + intros h Hh. destruct (Nat.eq_dec h q) as [->|N].
          * split; intro Z.
            -- subst q. unfold mx. rewrite Nat.add_0_r at 1. rewrite (Nat.add_0_r k). rewrite upd_eq. rewrite Nat.add_0_r. reflexivity.
            -- split.
               ++ unfold mx. rewrite upd_neq by (intro E; apply idx_inj in E; lia). apply upd_eq.
               ++ unfold mx. apply upd_eq.
          * assert (Hh' : (h < q)%nat) by lia. destruct (T3 h Hh') as [U1 U2]. split; intro Z.
            -- rewrite NE by lia. auto.
            -- rewrite !NE by lia. auto.
        + intros x Hx. rewrite !upd_neq by nia. now apply T4. }
    split; [rewrite Q1; reflexivity|]. split; [|exact Q4].
    intros i h Hi Hh. destruct (Nat.eq_dec i k) as [->|N]; [now apply Q3|apply Q2; lia]. }
  destruct G as (_ & G & F). split; [|split; [|split; [|exact F]]].
  - intros i j Hi Hj. destruct (G i (j-i)%nat Hi ltac:(lia)) as [_ G2].
    destruct (G2 ltac:(lia)) as [G3 _]. replace (i + (j-i))%nat with j in G3 by lia. exact G3.
  - intros i j Hi Hj. destruct (G i (j-i)%nat Hi ltac:(lia)) as [_ G2].
    destruct (G2 ltac:(lia)) as [_ G3]. replace (i + (j-i))%nat with j in G3 by lia. exact G3.
  - intros i Hi. destruct (G i 0%nat Hi ltac:(lia)) as [G1 _]. auto.
Qed.
End Rebuild.

Lemma mtr_last : forall n A, (0 < n)%nat -> traceless n A ->
  A (n-1)%nat (n-1)%nat = - csum (n-1) (fun i => A i i).
Proof.
  intros n A Hn T. destruct n as [|n]; [lia|]. unfold traceless, mtr in T. cbn [csum] in T.
  replace (S n - 1)%nat with n by lia.
  transitivity (csum n (fun i => A i i) + A n n - csum n (fun i => A i i)); [ring|]. rewrite T. ring.
Qed.

Lemma rebuild_n_ok : forall (sg : C -> C) n a p A, (0 < n)%nat ->
  (forall z, sg (sg z) = z) ->
  packed n p A -> (forall i j, (i < n)%nat -> (j < n)%nat -> A j i = sg (conj (A i j))) -> traceless n A ->
  holds n (let (a, _) := rebuild_loop sg n p a in
           let res := for_ (n-1) (fun k res => res + a (k*(n+1))%nat) C0 in
           upd a (n*n - 1) (- res)) a A.
Proof.
  intros sg n a p A Hn Hsg Hp HA T.
  destruct (rebuild_loop_ok sg n p a) as (L1 & L2 & L3 & F).
  destruct (rebuild_loop sg n p a) as [r idx]. cbn [fst] in *. cbv zeta.
  assert (D : forall i, (i < n-1)%nat -> mx n r i i = A i i).
  { intros i Hi. rewrite L3 by assumption. replace (off n i) with (off n i + (i-i))%nat by lia.
    rewrite Hp by lia. symmetry. apply HA; lia. }
  assert (N : (n*n - 1 = (n-1) + n*(n-1))%nat) by nia.
  split.
  - intros i j Hi Hj. unfold mx. rewrite N.
    destruct (Nat.eq_dec i (n-1)) as [Ei|Ni]; [destruct (Nat.eq_dec j (n-1)) as [Ej|Nj]|].
    + subst i j. rewrite upd_eq, for_csum. rewrite (mtr_last n A Hn T). f_equal.
      apply csum_ext; intros k Hk. rewrite diag_index. apply D; assumption.
    + rewrite upd_neq by (intro E; apply idx_inj in E; lia).
      change (mx n r i j = A i j). rewrite L2 by lia. rewrite Hp by lia.
      symmetry. apply HA; lia.
    + rewrite upd_neq by (intro E; apply idx_inj in E; lia).
      change (mx n r i j = A i j).
      destruct (Nat.lt_trichotomy i j) as [L|[->|L]].
      * rewrite L1 by lia. apply Hp; lia.
      * apply D; lia.
      * rewrite L2 by lia. rewrite Hp by lia. symmetry. apply HA; lia.
  - intros x Hx. rewrite upd_neq by nia. now apply F.
Qed.

(** index arithmetic of the unrolled branches *)
Lemma packed3 : forall p A, packed 3 p A ->
  p 0%nat = A 0%nat 0%nat /\ p 1%nat = A 0%nat 1%nat /\ p 2%nat = A 0%nat 2%nat /\
  p 3%nat = A 1%nat 1%nat /\ p 4%nat = A 1%nat 2%nat.
Proof.
  intros p A H. repeat split.
  - apply (H 0 0)%nat; lia.
  - apply (H 0 1)%nat; lia.
  - apply (H 0 2)%nat; lia.
  - apply (H 1 1)%nat; lia.
  - apply (H 1 2)%nat; lia.
Qed.
Lemma packed2 : forall p A, packed 2 p A -> p 0%nat = A 0%nat 0%nat /\ p 1%nat = A 0%nat 1%nat.
Proof. intros p A H. split; [apply (H 0 0)%nat|apply (H 0 1)%nat]; lia. Qed.

Lemma rebuild_hermitian_ok : forall n a p A, (0 < n)%nat ->
  packed n p A -> hermitian n A -> traceless n A -> holds n (rebuild_hermitian n a p) a A.
Proof.
  intros n a p A Hn Hp HA T.
  assert (HA' : forall i j, (i < n)%nat -> (j < n)%nat -> A j i = conj (A i j)).
  { intros i j Hi Hj. symmetry. apply (HA j i); assumption. }
  destruct n as [|[|[|[|n]]]]; try lia.
  - apply (rebuild_n_ok (fun z => z)); auto.
  - destruct (packed2 p A Hp) as (P0 & P1). pose proof (mtr_last 2 A ltac:(lia) T) as L. cbn in L.
    split; [|framed2]. split2; unfold mx; cbn -[conj].
    + auto.
    + auto.
    + rewrite P1. symmetry; apply HA'; lia.
    + rewrite L, P0. change (0%R,0%R) with C0. ring.
  - destruct (packed3 p A Hp) as (P0 & P1 & P2 & P3 & P4). pose proof (mtr_last 3 A ltac:(lia) T) as L. cbn in L.
    split; [|framed]. split3; unfold mx; cbn -[conj]; rewrite ?P0, ?P1, ?P2, ?P3, ?P4; try reflexivity;
      try (symmetry; apply HA'; lia).
    rewrite L. change (0%R,0%R) with C0. ring.
  - apply (rebuild_n_ok (fun z => z)); auto; lia.
Qed.

Lemma rebuild_antihermitian_ok : forall n a p A, (0 < n)%nat ->
  packed n p A -> antihermitian n A -> traceless n A -> holds n (rebuild_antihermitian n a p) a A.
Proof.
  intros n a p A Hn Hp HA T.
  assert (HA' : forall i j, (i < n)%nat -> (j < n)%nat -> A j i = - conj (A i j)).
  { intros i j Hi Hj. pose proof (HA j i Hj Hi) as E. unfold dag, mscale in E. rewrite E. ring. }
  destruct n as [|[|[|[|n]]]]; try lia.
  - apply (rebuild_n_ok Copp); auto. intros; ring.
  - destruct (packed2 p A Hp) as (P0 & P1). pose proof (mtr_last 2 A ltac:(lia) T) as L. cbn in L.
    split; [|framed2]. split2; unfold mx; cbn -[conj].
    + auto.
    + auto.
    + rewrite P1. symmetry; apply HA'; lia.
    + rewrite L, P0. change (0%R,0%R) with C0. ring.
  - destruct (packed3 p A Hp) as (P0 & P1 & P2 & P3 & P4). pose proof (mtr_last 3 A ltac:(lia) T) as L. cbn in L.
    split; [|framed]. split3; unfold mx; cbn -[conj]; rewrite ?P0, ?P1, ?P2, ?P3, ?P4; try reflexivity;
      try (symmetry; apply HA'; lia).
    rewrite L. change (0%R,0%R) with C0. ring.
  - apply (rebuild_n_ok Copp); auto; try lia. intros; ring.
Qed.

(** ** trace of packed matrices *)
Lemma trace_ab_herm_short_n_ok : forall n p q A B, (0 < n)%nat -> packed n p A -> packed n q B ->
  hermitian n A -> hermitian n B -> traceless n A -> traceless n B ->
  trace_ab_herm_short_n n p q = re (mtr n (mmul n A B)).
Proof.
  intros n p q A B Hn Hp Hq HA HB TA TB. rewrite herm_tr by assumption.
  unfold trace_ab_herm_short_n.
  set (term := fun i => (re (A i i) * re (B i i) +
    rsum (n - (i+1)) (fun h => 2 * (re (A i (i+1+h)%nat) * re (B i (i+1+h)%nat)
                                  + im (A i (i+1+h)%nat) * im (B i (i+1+h)%nat))))%R).
  set (step := fun i (st : nat * R * R * R) => let '(idx, suma, sumb, sum) := st in
      let sum := (sum + re (p idx) * re (q idx))%R in
      let suma := (suma + re (p idx))%R in
      let sumb := (sumb + re (q idx))%R in
      let idx := S idx in
      let '(idx, sum) := for_ (n - (i+1)) (fun _ '(idx, sum) =>
        (S idx, (sum + 2 * (re (p idx) * re (q idx) + im (p idx) * im (q idx)))%R)) (idx, sum) in
      (idx, suma, sumb, sum)).
  assert (G : forall k, (k <= n-1)%nat -> for_ k step (O, 0%R, 0%R, 0%R) =
    (off n k, rsum k (fun i => re (A i i)), rsum k (fun i => re (B i i)), rsum k term)).
  { induction k; intro Hk; [reflexivity|]. cbn [for_]. rewrite IHk by lia. unfold step at 1.
    assert (I : forall m idx s, for_ m (fun _ '(idx, sum) =>
        (S idx, (sum + 2 * (re (p idx) * re (q idx) + im (p idx) * im (q idx)))%R)) (idx, s) =
        ((idx + m)%nat, (s + rsum m (fun h => 2 * (re (p (idx+h)%nat) * re (q (idx+h)%nat) + im (p (idx+h)%nat) * im (q (idx+h)%nat))))%R)).
    { induction m; intros idx s; cbn [for_ rsum]; [f_equal; [lia|ring]|]. rewrite IHm. f_equal; [lia|ring]. }
    rewrite I.
    assert (P0 : p (off n k) = A k k).
    { replace (off n k) with (off n k + (k-k))%nat by lia. apply Hp; lia. }
    assert (Q0 : q (off n k) = B k k).
    { replace (off n k) with (off n k + (k-k))%nat by lia. apply Hq; lia. }
    rewrite P0, Q0. rewrite off_S. cbn [rsum].
    assert (EE : (S (off n k) + (n - (k+1)) = off n k + (n-k))%nat) by lia. rewrite EE.
    f_equal. change (term k) with (re (A k k) * re (B k k) +
      rsum (n - (k+1)) (fun h => 2 * (re (A k (k+1+h)%nat) * re (B k (k+1+h)%nat)
        + im (A k (k+1+h)%nat) * im (B k (k+1+h)%nat))))%R.
    rewrite <- Rplus_assoc. f_equal. apply rsum_ext; intros h Hh.
    replace (S (off n k) + h)%nat with (off n k + ((k + 1 + h) - k))%nat by lia.
    rewrite Hp, Hq by lia. reflexivity. }
  rewrite G by lia.
  destruct n as [|m]; [lia|]. replace (S m - 1)%nat with m by lia. cbn [rsum].
  unfold term at 3. replace (S m - (m+1))%nat with 0%nat by lia. cbn [rsum].
  pose proof (mtr_last (S m) A Hn TA) as LA. pose proof (mtr_last (S m) B Hn TB) as LB.
  replace (S m - 1)%nat with m in LA, LB by lia.
  rewrite LA, LB. unfold Copp. cbn [re fst]. rewrite !re_csum. ring.
Qed.
Lemma trace_ab_herm_short_ok : forall n p q A B, (0 < n)%nat -> packed n p A -> packed n q B ->
  hermitian n A -> hermitian n B -> traceless n A -> traceless n B ->
  RtoC (trace_ab_herm_short n p q) = mtr n (mmul n A B).
Proof.
  intros n p q A B Hn Hp Hq HA HB TA TB.
  rewrite <- (RtoC_re (mtr n (mmul n A B))) by now apply herm_tr_real.
  f_equal. destruct n as [|[|[|[|n]]]]; try (now apply trace_ab_herm_short_n_ok).
  - destruct (packed2 p A Hp) as (P0 & P1). destruct (packed2 q B Hq) as (Q0 & Q1).
    destruct (herm_diag2 _ HA TA) as (A1 & A2 & A3). destruct (herm_diag2 _ HB TB) as (B1 & B2 & B3).
    rewrite herm_tr by assumption. cbn [rsum Nat.sub Nat.add].
    unfold trace_ab_herm_short, trace_ab_herm_short_2. rewrite P0, P1, Q0, Q1, A2, B2. cunfold. ring.
  - destruct (packed3 p A Hp) as (P0 & P1 & P2 & P3 & P4). destruct (packed3 q B Hq) as (Q0 & Q1 & Q2 & Q3 & Q4).
    pose proof (mtr_last 3 A ltac:(lia) TA) as LA. pose proof (mtr_last 3 B ltac:(lia) TB) as LB.
    cbn [Nat.sub csum] in LA, LB. rewrite herm_tr by assumption. cbn [rsum Nat.sub Nat.add].
    unfold trace_ab_herm_short, trace_ab_herm_short_3. rewrite P0, P1, P2, P3, P4, Q0, Q1, Q2, Q3, Q4, LA, LB.
    cunfold. ring.
Qed.

(** * Matrix powers *)
Fixpoint power_val (l : list bool) (v : nat) : nat :=
  match l with nil => v | cons sq l => power_val l (if sq then 2*v else v+1) end.

Lemma power_list_ok : forall fuel nn l, (nn <= fuel)%nat -> (2 <= nn)%nat ->
  power_val (power_list fuel nn l) 2 = power_val l nn.
Proof.
  induction fuel; intros nn l Hf Hn; [lia|]. cbn [power_list].
  destruct (Nat.ltb_spec 2 nn) as [L|L].
  - destruct (Nat.even nn) eqn:E.
    + apply Nat.even_spec in E. destruct E as [p ->].
      assert (E : Nat.div2 (2*p) = p) by apply Nat.div2_double. rewrite E.
      rewrite IHfuel by lia. reflexivity.
    + rewrite IHfuel by lia. cbn [power_val]. f_equal. lia.
  - replace nn with 2%nat by lia. reflexivity.
Qed.

Lemma mpow_add : forall n A p q, meq n (mpow n A (p + q)) (mmul n (mpow n A p) (mpow n A q)).
Proof.
  intros n A p q. induction q; cbn [mpow].
  - rewrite Nat.add_0_r. now rewrite mmul_1_r.
  - rewrite Nat.add_succ_r. cbn [mpow]. rewrite IHq. apply mmul_assoc.
Qed.
Lemma mpow_1 : forall n A, meq n (mpow n A 1) A.
Proof. intros. cbn [mpow]. apply mmul_1_l. Qed.

Lemma power_steps_ok : forall n b l a k, meq n (mx n a) (mpow n (mx n b) k) ->
  meq n (mx n (power_steps n b l a)) (mpow n (mx n b) (power_val l k)) /\
  frame (n*n) (power_steps n b l a) a.
Proof.
  intros n b. induction l as [|sq l IH]; intros a k H; cbn [power_steps power_val]; [split; [exact H|intros x _; reflexivity]|].
  match goal with |- context[equiv n a ?t] => set (tmp := t) end.
  destruct (equiv_ok n a tmp) as [E F].
  assert (T : meq n (mx n tmp) (mpow n (mx n b) (if sq then 2*k else k+1))).
  { unfold tmp. destruct sq.
    - destruct (multab_ok n (fun _ => C0) a a) as [M _]. rewrite M, H. cbn [Nat.mul].
      rewrite Nat.add_0_r. symmetry. apply mpow_add.
    - destruct (multab_ok n (fun _ => C0) a b) as [M _]. rewrite M, H. rewrite Nat.add_1_r. reflexivity. }
  destruct (IH (equiv n a tmp) (if sq then 2*k else k+1)%nat) as [I1 I2]; [now rewrite E|].
  split; [exact I1|]. intros x Hx. rewrite I2 by assumption. now apply F.
Qed.

Lemma matrix_power_ok : forall n a b k, (0 <= k < 2^64)%Z ->
  holds n (matrix_power n a b k) a (mpow n (mx n b) (Z.to_nat k)).
Proof.
  intros n a b k Hk. unfold matrix_power.
  destruct (Z.eqb_spec k 0) as [->|N0]; [apply identity_ok|].
  destruct (Z.eqb_spec k 1) as [->|N1].
  { destruct (equiv_ok n a b) as [E F]. split; [rewrite E; change (Z.to_nat 1) with 1%nat; rewrite mpow_1; reflexivity|exact F]. }
  destruct (Z.eqb_spec k 2) as [->|N2].
  { destruct (multab_ok n a b b) as [E F]. split; [|exact F]. rewrite E. change (Z.to_nat 2) with 2%nat.
    cbn [mpow]. now rewrite mmul_1_l. }
  cbv zeta. rewrite Z.mod_small by assumption.
  assert (2 <= Z.to_nat k)%nat by lia. generalize dependent (Z.to_nat k). clear k Hk N0 N1 N2. intros k Hk.
  destruct (multab_ok n a b b) as [E F].
  destruct (power_steps_ok n b (power_list k k nil) (multab n a b b) 2) as [P1 P2].
  - rewrite E. cbn [mpow]. now rewrite mmul_1_l.
  - rewrite power_list_ok in P1 by lia. split; [exact P1|].
    intros x Hx. rewrite P2 by assumption. now apply F.
Qed.

Lemma matrix_power_neg : forall n a b k, (- 2^31 <= k < 0)%Z ->
  holds n (matrix_power n a b k) a (mpow n (mx n b) (Z.to_nat (2^64 + k))).
Proof.
  intros n a b k Hk. unfold matrix_power.
  destruct (Z.eqb_spec k 0) as [->|N0]; [lia|].
  destruct (Z.eqb_spec k 1) as [->|N1]; [lia|].
  destruct (Z.eqb_spec k 2) as [->|N2]; [lia|].
  cbv zeta. assert (E0 : (k mod 2^64 = 2^64 + k)%Z).
  { rewrite <- (Z.mod_add k 1 (2^64)) by lia. rewrite Z.mod_small; lia. }
  rewrite E0. clear E0.
  assert (2 <= Z.to_nat (2^64 + k))%nat by lia. generalize dependent (Z.to_nat (2^64 + k)). clear k Hk N0 N1 N2. intros k Hk.
  destruct (multab_ok n a b b) as [E F].
  destruct (power_steps_ok n b (power_list k k nil) (multab n a b b) 2) as [P1 P2].
  - rewrite E. cbn [mpow]. now rewrite mmul_1_l.
  - rewrite power_list_ok in P1 by lia. split; [exact P1|].
    intros x Hx. rewrite P2 by assumption. now apply F.
Qed.
