(** Determinants of n x n complex matrices, for every n: Laplace expansion along
    the first column, and its theory (rows, transposition, expansion along any
    row and column, adjugate, products). *)
From Coq Require Import PeanoNat Lia Setoid Morphisms List.
From Verif Require Export CMat.
Import ListNotations.
Local Open Scope C_scope.

(** the index r of a matrix from which index i has been removed *)
Definition skip (i r : nat) : nat := if Nat.ltb r i then r else S r.
Definition minor (i j : nat) (A : mat) : mat := fun r c => A (skip i r) (skip j c).
Definition sgn (i : nat) : C := if Nat.even i then C1 else - C1.

(** the determinant *)
Fixpoint mdet (n : nat) (A : mat) : C :=
  match n with
  | O => C1
  | S m => csum (S m) (fun i => sgn i * A i 0%nat * mdet m (minor i 0 A))
  end.

Definition cofactor (n : nat) (A : mat) (i j : nat) : C := sgn (i + j) * mdet (n - 1) (minor i j A).
Definition adj (n : nat) (A : mat) : mat := fun i j => cofactor n A j i.
Definition tr_ (A : mat) : mat := fun i j => A j i.
Definition SUn (n : nat) (U : mat) : Prop := unitary n U /\ mdet n U = C1.

(** * Basics *)
Lemma sgn_S : forall i, sgn (S i) = - sgn i.
Proof. intro i. unfold sgn. rewrite Nat.even_succ, <- Nat.negb_even. destruct (Nat.even i); cbn [negb]; ring. Qed.
Lemma sgn_add : forall i j, sgn (i + j) = sgn i * sgn j.
Proof. induction i; intro j; cbn [Nat.add]; [unfold sgn at 2; cbn; ring|]. rewrite !sgn_S, IHi. ring. Qed.
Lemma sgn_sq : forall i, sgn i * sgn i = C1.
Proof. intro i. unfold sgn. destruct (Nat.even i); ring. Qed.
Lemma skip_lt : forall i r n, (r < n)%nat -> (skip i r < S n)%nat.
Proof. intros. unfold skip. destruct (Nat.ltb_spec r i); lia. Qed.
Lemma skip_neq : forall i r, skip i r <> i.
Proof. intros. unfold skip. destruct (Nat.ltb_spec r i); lia. Qed.
Ltac skips := unfold skip; repeat match goal with
  | |- context[Nat.ltb ?a ?b] => destruct (Nat.ltb_spec a b)
  | H : context[Nat.ltb ?a ?b] |- _ => destruct (Nat.ltb_spec a b) end.

Lemma minor_ext : forall n i j A B, meq (S n) A B -> meq n (minor i j A) (minor i j B).
Proof. intros n i j A B H r c Hr Hc. unfold minor. apply H; now apply skip_lt. Qed.
Lemma mdet_ext : forall n A B, meq n A B -> mdet n A = mdet n B.
Proof.
  induction n; intros A B H; [reflexivity|]. cbn [mdet]. apply csum_ext; intros i Hi.
  rewrite (H i 0%nat) by lia. f_equal. apply IHn. now apply minor_ext.
Qed.
Global Instance mdet_proper n : Proper (meq n ==> eq) (mdet n).
Proof. intros A B H. now apply mdet_ext. Qed.

(** * Rows *)
Definition setrow (A : mat) (r : nat) (v : nat -> C) : mat := fun i j => if Nat.eqb i r then v j else A i j.
Definition unskip (i r : nat) : nat := if Nat.ltb r i then r else (r - 1)%nat.

Lemma minor_setrow_same : forall r A v j, forall a b, minor r j (setrow A r v) a b = minor r j A a b.
Proof.
  intros. unfold minor, setrow. destruct (Nat.eqb_spec (skip r a) r) as [E|]; [|reflexivity].
  now apply skip_neq in E.
Qed.
Lemma minor_setrow : forall i r A v j a b, i <> r ->
  minor i j (setrow A r v) a b = setrow (minor i j A) (unskip i r) (fun c => v (skip j c)) a b.
Proof.
  intros i r A v j a b N. unfold minor, setrow, unskip.
  destruct (Nat.eqb_spec (skip i a) r) as [E|E]; destruct (Nat.eqb_spec a (if Nat.ltb r i then r else (r-1)%nat)) as [F|F];
    try reflexivity; exfalso; unfold skip in E; destruct (Nat.ltb_spec a i), (Nat.ltb_spec r i); lia.
Qed.
Lemma unskip_lt : forall i r n, (i < S n)%nat -> (r < S n)%nat -> i <> r -> (unskip i r < n)%nat.
Proof. intros. unfold unskip. destruct (Nat.ltb_spec r i); lia. Qed.

Lemma mdet_linear : forall n A r x y u v, (r < n)%nat ->
  mdet n (setrow A r (fun j => x * u j + y * v j)) = x * mdet n (setrow A r u) + y * mdet n (setrow A r v).
Proof.
  induction n; intros A r x y u v Hr; [lia|]. cbn [mdet].
  rewrite <- !csum_mul_l, <- csum_add. apply csum_ext; intros i Hi.
  destruct (Nat.eq_dec i r) as [->|N].
  - rewrite !(mdet_ext n (minor r 0 (setrow A r _)) (minor r 0 A)) by (intros ? ? _ _; apply minor_setrow_same).
    unfold setrow. rewrite Nat.eqb_refl. ring.
  - rewrite (mdet_ext n _ (setrow (minor i 0 A) (unskip i r) (fun c => x * u (skip 0 c) + y * v (skip 0 c))))
      by (intros ? ? _ _; now apply minor_setrow).
    rewrite (mdet_ext n (minor i 0 (setrow A r u)) (setrow (minor i 0 A) (unskip i r) (fun c => u (skip 0 c))))
      by (intros ? ? _ _; now apply minor_setrow).
    rewrite (mdet_ext n (minor i 0 (setrow A r v)) (setrow (minor i 0 A) (unskip i r) (fun c => v (skip 0 c))))
      by (intros ? ? _ _; now apply minor_setrow).
    rewrite IHn by now apply unskip_lt.
    unfold setrow. rewrite (proj2 (Nat.eqb_neq i r)) by assumption. ring.
Qed.

Lemma setrow_id : forall n A r, meq n (setrow A r (A r)) A.
Proof. intros n A r i j _ _. unfold setrow. destruct (Nat.eqb_spec i r); subst; reflexivity. Qed.

(** sums with at most two non zero terms *)
Lemma csum_single : forall n p f, (p < n)%nat -> (forall i, (i < n)%nat -> i <> p -> f i = C0) -> csum n f = f p.
Proof.
  intros n p f Hp H. rewrite <- (csum_delta_r n p f Hp). apply csum_ext; intros i Hi. unfold mid.
  destruct (Nat.eqb_spec i p) as [->|N]; [ring|]. rewrite H by assumption. ring.
Qed.
Lemma csum_two : forall n p q f, (p < n)%nat -> (q < n)%nat -> p <> q ->
  (forall i, (i < n)%nat -> i <> p -> i <> q -> f i = C0) -> csum n f = f p + f q.
Proof.
  intros n p q f Hp Hq N H. rewrite <- (csum_delta_r n p f Hp), <- (csum_delta_r n q f Hq), <- csum_add.
  apply csum_ext; intros i Hi. unfold mid.
  destruct (Nat.eqb_spec i p), (Nat.eqb_spec i q); subst; try lia; try ring. rewrite H by assumption. ring.
Qed.

Lemma mdet_adj_eq : forall n A r, (S r < n)%nat -> (forall j, (j < n)%nat -> A r j = A (S r) j) -> mdet n A = C0.
Proof.
  induction n; intros A r Hr HA; [lia|]. cbn [mdet].
  rewrite (csum_two (S n) r (S r)); try lia.
  - rewrite (HA 0%nat) by lia. rewrite sgn_S.
    rewrite (mdet_ext n (minor (S r) 0 A) (minor r 0 A)); [ring|].
    intros a b Ha Hb. unfold minor. skips; try lia; try reflexivity.
    replace a with r by lia. apply HA. lia.
  - intros i Hi N1 N2. rewrite (IHn (minor i 0 A) (unskip i r)); [ring| |].
    + unfold unskip. destruct (Nat.ltb_spec r i); lia.
    + intros j Hj. unfold minor, unskip.
      destruct (Nat.ltb_spec r i).
      * replace (skip i r) with r by (skips; lia). replace (skip i (S r)) with (S r) by (skips; lia).
        apply HA. now apply skip_lt.
      * replace (skip i (r-1)) with r by (skips; lia). replace (skip i (S (r-1))) with (S r) by (skips; lia).
        apply HA. now apply skip_lt.
Qed.

(** from "equal rows p and q give zero" to "exchanging rows p and q changes the sign" *)
Definition swaprows (A : mat) (p q : nat) : mat := fun i =>
  A (if Nat.eqb i p then q else if Nat.eqb i q then p else i).

Lemma swap_of_alt : forall (F : mat -> C) n p q, (p < n)%nat -> (q < n)%nat -> p <> q ->
  (forall A B, meq n A B -> F A = F B) ->
  (forall A r x y u v, (r < n)%nat -> F (setrow A r (fun j => x * u j + y * v j)) = x * F (setrow A r u) + y * F (setrow A r v)) ->
  (forall A, (forall j, (j < n)%nat -> A p j = A q j) -> F A = C0) ->
  forall A, F (swaprows A p q) = - F A.
Proof.
  intros F n p q Hp Hq N Fext Flin Falt A.
  set (T := fun u v => setrow (setrow A p u) q v).
  assert (Tlin1 : forall u v w, F (T (fun j => C1 * u j + C1 * v j) w) = F (T u w) + F (T v w)).
  { intros u v w.
    assert (E : forall z, F (T z w) = F (setrow (setrow A q w) p z)).
    { intro z. apply Fext. intros i j _ _. unfold T, setrow.
      destruct (Nat.eqb_spec i p), (Nat.eqb_spec i q); subst; try lia; reflexivity. }
    rewrite !E, Flin by assumption. ring. }
  assert (Tlin2 : forall u v w, F (T u (fun j => C1 * v j + C1 * w j)) = F (T u v) + F (T u w)).
  { intros u v w. unfold T. rewrite Flin by assumption. ring. }
  assert (Talt : forall u, F (T u u) = C0).
  { intro u. apply Falt. intros j _. unfold T, setrow. rewrite !Nat.eqb_refl.
    rewrite (proj2 (Nat.eqb_neq p q)) by assumption. reflexivity. }
  assert (Z : F (T (A p) (A q)) + F (T (A q) (A p)) = C0).
  { pose proof (Talt (fun j => C1 * A p j + C1 * A q j)) as H. rewrite Tlin1, !Tlin2, !Talt in H.
    rewrite <- H. ring. }
  rewrite (Fext (swaprows A p q) (T (A q) (A p))), (Fext A (T (A p) (A q))).
  -
    transitivity (F (T (A p) (A q)) + F (T (A q) (A p)) - F (T (A p) (A q))); [ring|]. rewrite Z. ring.
  - intros i j _ _. unfold T, setrow. destruct (Nat.eqb_spec i q), (Nat.eqb_spec i p); subst; try lia; reflexivity.
  - intros i j _ _. unfold T, setrow, swaprows.
    destruct (Nat.eqb_spec i p), (Nat.eqb_spec i q); subst; try lia; reflexivity.
Qed.

Lemma mdet_swap_adj : forall n A r, (S r < n)%nat -> mdet n (swaprows A r (S r)) = - mdet n A.
Proof.
  intros n A r Hr. apply (swap_of_alt (mdet n) n); try lia.
  - apply mdet_ext.
  - intros; now apply mdet_linear.
  - intros B HB. now apply (mdet_adj_eq n B r).
Qed.

Lemma mdet_eq_rows : forall n A p q, (p < q)%nat -> (q < n)%nat -> (forall j, (j < n)%nat -> A p j = A q j) -> mdet n A = C0.
Proof.
  intros n A p q Hpq. remember (q - p)%nat as d eqn:Hd. revert A p q Hpq Hd.
  induction d; intros A p q Hpq Hd Hq HA; [lia|].
  destruct (Nat.eq_dec d 0) as [->|Nd].
  - apply (mdet_adj_eq n A p); [lia|]. intros j Hj. rewrite HA by assumption. f_equal. lia.
  - destruct q as [|q]; [lia|].
    assert (E : mdet n (swaprows A q (S q)) = C0).
    { apply (IHd _ p q); try lia. intros j Hj. unfold swaprows.
      rewrite (proj2 (Nat.eqb_neq p q)), (proj2 (Nat.eqb_neq p (S q))), Nat.eqb_refl by lia. now apply HA. }
    rewrite mdet_swap_adj in E by assumption.
    transitivity (- - mdet n A); [ring|]. rewrite E. ring.
Qed.
Lemma mdet_eq_rows' : forall n A p q, p <> q -> (p < n)%nat -> (q < n)%nat -> (forall j, (j < n)%nat -> A p j = A q j) -> mdet n A = C0.
Proof.
  intros n A p q N Hp Hq HA. destruct (Nat.lt_total p q) as [L|[L|L]]; [|lia|].
  - now apply (mdet_eq_rows n A p q).
  - apply (mdet_eq_rows n A q p); try assumption. intros; symmetry; now apply HA.
Qed.

Lemma mdet_swap : forall n A p q, (p < n)%nat -> (q < n)%nat -> p <> q -> mdet n (swaprows A p q) = - mdet n A.
Proof.
  intros n A p q Hp Hq N. apply (swap_of_alt (mdet n) n); try assumption.
  - apply mdet_ext.
  - intros; now apply mdet_linear.
  - intros B HB. now apply (mdet_eq_rows' n B p q).
Qed.

Lemma mdet_addrow : forall n A i j c, (i < n)%nat -> (j < n)%nat -> i <> j ->
  mdet n (setrow A j (fun k => A j k + c * A i k)) = mdet n A.
Proof.
  intros n A i j c Hi Hj N.
  rewrite (mdet_ext n _ (setrow A j (fun k => C1 * A j k + c * A i k))).
  2:{ intros a b _ _. unfold setrow. destruct (Nat.eqb a j); ring. }
  rewrite mdet_linear by assumption.
  rewrite (mdet_ext n (setrow A j (A j)) A) by apply setrow_id.
  rewrite (mdet_eq_rows' n (setrow A j (A i)) i j); try assumption; [ring|].
  intros k _. unfold setrow. rewrite Nat.eqb_refl, (proj2 (Nat.eqb_neq i j)) by assumption. reflexivity.
Qed.
Lemma mdet_zerorow : forall n A r, (r < n)%nat -> (forall j, (j < n)%nat -> A r j = C0) -> mdet n A = C0.
Proof.
  intros n A r Hr H. rewrite (mdet_ext n A (setrow A r (fun j => C0 * A r j + C0 * A r j))).
  - rewrite mdet_linear by assumption. ring.
  - intros i j Hi Hj. unfold setrow. destruct (Nat.eqb_spec i r) as [->|]; [rewrite H by assumption; ring|reflexivity].
Qed.

(** * First row, transposition *)
Lemma csum_S_first : forall n f, csum (S n) f = f 0%nat + csum n (fun i => f (S i)).
Proof. induction n; intro f; [cbn; ring|]. cbn [csum] in *. rewrite IHn. ring. Qed.

Lemma mdet_S : forall n A, mdet (S n) A = csum (S n) (fun i => sgn i * A i 0%nat * mdet n (minor i 0 A)).
Proof. reflexivity. Qed.
Lemma minor_minor : forall n i j A, meq n (minor 0 j (minor (S i) 0 A)) (minor i 0 (minor 0 (S j) A)).
Proof.
  intros n i j A a b _ _. unfold minor.
  replace (skip 0 (skip i a)) with (skip (S i) (skip 0 a)) by (skips; lia).
  replace (skip (S j) (skip 0 b)) with (skip 0 (skip j b)) by (skips; lia). reflexivity.
Qed.
Lemma mdet_row0 : forall n A, mdet (S n) A = csum (S n) (fun j => sgn j * A 0%nat j * mdet n (minor 0 j A)).
Proof.
  induction n; intro A; [reflexivity|].
  rewrite mdet_S, csum_S_first. rewrite (csum_S_first (S n) (fun j => sgn j * A 0%nat j * mdet (S n) (minor 0 j A))).
  f_equal.
  rewrite (csum_ext (S n) _ (fun i => csum (S n) (fun j =>
     sgn (S i) * A (S i) 0%nat * (sgn j * A 0%nat (S j) * mdet n (minor 0 j (minor (S i) 0 A)))))).
  2:{ intros i Hi. rewrite IHn, <- csum_mul_l. apply csum_ext; intros j Hj.
      replace (minor (S i) 0 A 0%nat j) with (A 0%nat (S j)) by reflexivity. reflexivity. }
  rewrite csum_swap. apply csum_ext; intros j Hj.
  rewrite mdet_S, <- csum_mul_l. apply csum_ext; intros i Hi.
  rewrite (mdet_ext n _ _ (minor_minor n i j A)). rewrite !sgn_S.
  replace (minor 0 (S j) A i 0%nat) with (A (S i) 0%nat) by reflexivity. ring.
Qed.

Lemma mdet_tr : forall n A, mdet n (tr_ A) = mdet n A.
Proof.
  induction n; intro A; [reflexivity|]. rewrite mdet_row0, mdet_S. apply csum_ext; intros i Hi.
  unfold tr_ at 1. f_equal. rewrite <- (IHn (minor i 0 A)). reflexivity.
Qed.
Lemma mdet_conj : forall n A, mdet n (fun i j => conj (A i j)) = conj (mdet n A).
Proof.
  induction n; intro A; [cbn [mdet]; now rewrite conj_1|]. rewrite !mdet_S, csum_conj. apply csum_ext; intros i Hi.
  rewrite !conj_mul. rewrite <- IHn. f_equal. f_equal.
  unfold sgn. destruct (Nat.even i); [now rewrite conj_1|now rewrite conj_opp, conj_1].
Qed.
Lemma mdet_dag : forall n A, mdet n (dag A) = conj (mdet n A).
Proof. intros n A. rewrite <- mdet_conj, <- mdet_tr. reflexivity. Qed.
Lemma mdet_mid : forall n, mdet n mid = C1.
Proof.
  induction n; [reflexivity|]. rewrite mdet_S, (csum_single (S n) 0) by
    (try lia; intros i Hi Ni; unfold mid; rewrite (proj2 (Nat.eqb_neq i 0)) by assumption; ring).
  rewrite (mdet_ext n _ mid).
  - rewrite IHn. unfold sgn, mid. cbn. ring.
  - intros a b _ _. unfold minor, mid. cbn. reflexivity.
Qed.

(** * Expansion along any row and column *)
Definition unit_row (c : nat) : nat -> C := fun j => mid c j.

(** the rows 0..r rotated so that row r comes first *)
Definition rot (r i : nat) : nat := match i with O => r | S k => if Nat.ltb k r then k else S k end.
Lemma mdet_rot : forall n A r, (r < n)%nat -> mdet n (fun i => A (rot r i)) = sgn r * mdet n A.
Proof.
  intros n A r. revert A. induction r; intros A Hr.
  - transitivity (mdet n A); [|unfold sgn; cbn; ring]. apply mdet_ext. intros i j _ _. destruct i; reflexivity.
  - rewrite (mdet_ext n _ (fun i => swaprows A r (S r) (rot r i))).
    + rewrite (IHr (swaprows A r (S r))) by lia. rewrite mdet_swap_adj by assumption. rewrite sgn_S. ring.
    + intros i j _ _. unfold swaprows, rot. destruct i as [|k].
      * rewrite Nat.eqb_refl. reflexivity.
      * destruct (Nat.ltb_spec k (S r)), (Nat.ltb_spec k r); try lia.
        -- rewrite (proj2 (Nat.eqb_neq k r)), (proj2 (Nat.eqb_neq k (S r))) by lia. reflexivity.
        -- replace k with r by lia. rewrite Nat.eqb_refl.
           rewrite (proj2 (Nat.eqb_neq (S r) r)) by lia. reflexivity.
        -- rewrite (proj2 (Nat.eqb_neq (S k) r)), (proj2 (Nat.eqb_neq (S k) (S r))) by lia. reflexivity.
Qed.

Lemma mdet_unit_row : forall n A r c, (r < S n)%nat -> (c < S n)%nat ->
  mdet (S n) (setrow A r (unit_row c)) = cofactor (S n) A r c.
Proof.
  intros n A r c Hr Hc.
  set (B := setrow A r (unit_row c)).
  assert (E : mdet (S n) B = sgn r * mdet (S n) (fun i => B (rot r i))).
  { rewrite mdet_rot by assumption. transitivity (sgn r * sgn r * mdet (S n) B); [rewrite sgn_sq; ring|ring]. }
  rewrite E, mdet_row0.
  rewrite (csum_single (S n) c); [|assumption|].
  - unfold cofactor. replace (S n - 1)%nat with n by lia. rewrite sgn_add.
    unfold B at 1, setrow, rot, unit_row. rewrite Nat.eqb_refl. unfold mid. rewrite Nat.eqb_refl.
    rewrite (mdet_ext n _ (minor r c A)); [ring|].
    intros a b _ _. unfold minor, B, setrow, rot. cbn [skip Nat.ltb]. replace (skip 0 a) with (S a) by reflexivity.
    cbn [rot]. change (if (a <? r)%nat then a else S a) with (skip r a).
    destruct (Nat.eqb_spec (skip r a) r) as [F|]; [now apply skip_neq in F|reflexivity].
  - intros j Hj Nj. unfold B at 1, setrow, rot, unit_row. rewrite Nat.eqb_refl. unfold mid.
    rewrite (proj2 (Nat.eqb_neq c j)) by lia. ring.
Qed.

Lemma mdet_lin_sum : forall n A r m (x : nat -> C) (u : nat -> nat -> C), (r < n)%nat ->
  mdet n (setrow A r (fun j => csum m (fun k => x k * u k j))) = csum m (fun k => x k * mdet n (setrow A r (u k))).
Proof.
  intros n A r m x u Hr. induction m; cbn [csum].
  - apply (mdet_zerorow n _ r); [assumption|]. intros j _. unfold setrow. now rewrite Nat.eqb_refl.
  - rewrite (mdet_ext n _ (setrow A r (fun j => C1 * csum m (fun k => x k * u k j) + x m * u m j))).
    + rewrite mdet_linear, IHm by assumption. ring.
    + intros i j _ _. unfold setrow. destruct (Nat.eqb i r); ring.
Qed.

Lemma mdet_setrow : forall n A r v, (r < n)%nat ->
  mdet n (setrow A r v) = csum n (fun c => v c * cofactor n A r c).
Proof.
  intros n A r v Hr. destruct n as [|n]; [lia|].
  rewrite (mdet_ext (S n) _ (setrow A r (fun j => csum (S n) (fun c => v c * unit_row c j)))).
  - rewrite mdet_lin_sum by assumption. apply csum_ext; intros c Hc. now rewrite mdet_unit_row.
  - intros i j Hi Hj. unfold setrow. destruct (Nat.eqb i r); [|reflexivity].
    unfold unit_row. symmetry. apply csum_delta_r; assumption.
Qed.

(** expansion along row r with the entries of row s *)
Lemma mdet_expand_row : forall n A r s, (r < n)%nat -> (s < n)%nat ->
  csum n (fun c => A s c * cofactor n A r c) = mdet n A * mid s r.
Proof.
  intros n A r s Hr Hs. rewrite <- mdet_setrow by assumption. unfold mid.
  destruct (Nat.eqb_spec s r) as [->|N].
  - rewrite (mdet_ext n _ A) by apply setrow_id. ring.
  - rewrite (mdet_eq_rows' n _ s r); try assumption; [ring|].
    intros j _. unfold setrow. rewrite Nat.eqb_refl, (proj2 (Nat.eqb_neq s r)) by assumption. reflexivity.
Qed.
Lemma cofactor_tr : forall n A i j, cofactor n (tr_ A) i j = cofactor n A j i.
Proof.
  intros. unfold cofactor. rewrite (Nat.add_comm i j). f_equal.
  rewrite <- (mdet_tr (n-1) (minor j i A)). reflexivity.
Qed.

Lemma mmul_adj : forall n A, meq n (mmul n A (adj n A)) (mscale (mdet n A) mid).
Proof. intros n A i j Hi Hj. unfold mmul, adj, mscale. now apply mdet_expand_row. Qed.
Lemma adj_mmul : forall n A, meq n (mmul n (adj n A) A) (mscale (mdet n A) mid).
Proof.
  intros n A i j Hi Hj. unfold mmul, adj, mscale. rewrite <- (mdet_tr n A), mid_sym.
  rewrite <- (mdet_expand_row n (tr_ A) i j) by assumption.
  apply csum_ext; intros k Hk. rewrite cofactor_tr. unfold tr_. ring.
Qed.

(** * Products *)

(** a function of the rows that is multilinear and alternating is a multiple of
    the determinant *)
Definition sel (f : nat -> nat) : mat := fun i j => mid (f i) j.

Lemma sel_base : forall (F : mat -> C) n,
  (forall A B, meq n A B -> F A = F B) ->
  (forall A r x y u v, (r < n)%nat -> F (setrow A r (fun j => x * u j + y * v j)) = x * F (setrow A r u) + y * F (setrow A r v)) ->
  (forall A p q, (p < n)%nat -> (q < n)%nat -> p <> q -> (forall j, (j < n)%nat -> A p j = A q j) -> F A = C0) ->
  forall d m f, (m + d = n)%nat -> (forall i, (i < m)%nat -> f i = i) -> (forall i, (i < n)%nat -> (f i < n)%nat) ->
  F (sel f) = mdet n (sel f) * F mid.
Proof.
  intros F n Fext Flin Falt.
  assert (Fswap : forall A p q, (p < n)%nat -> (q < n)%nat -> p <> q -> F (swaprows A p q) = - F A).
  { intros A p q Hp Hq N. apply (swap_of_alt F n p q Hp Hq N Fext Flin).
    intros B HB. now apply (Falt B p q). }
  induction d; intros m f Hm Hid Hf.
  - assert (E : meq n (sel f) mid). { intros i j Hi Hj. unfold sel. rewrite Hid by lia. reflexivity. }
    rewrite (Fext _ _ E), (mdet_ext n _ _ E), mdet_mid. ring.
  - destruct (in_dec Nat.eq_dec m (map f (seq 0 n))) as [I|NI].
    + apply in_map_iff in I. destruct I as (j & Ej & Hj). apply in_seq in Hj.
      assert (Gm : (m <= j)%nat). { destruct (Nat.le_gt_cases m j); [assumption|]. rewrite Hid in Ej by lia. lia. }
      destruct (Nat.eq_dec j m) as [->|N].
      * apply (IHd (S m)); [lia| |assumption]. intros i Hi. destruct (Nat.eq_dec i m) as [->|]; [assumption|apply Hid; lia].
      * set (g := fun i => f (if Nat.eqb i m then j else if Nat.eqb i j then m else i)).
        assert (E : meq n (sel g) (swaprows (sel f) m j)) by (intros a b _ _; reflexivity).
        assert (G : F (sel g) = mdet n (sel g) * F mid).
        { apply (IHd (S m)); [lia| |].
          - intros i Hi. unfold g. destruct (Nat.eqb_spec i m) as [->|]; [assumption|].
            rewrite (proj2 (Nat.eqb_neq i j)) by lia. apply Hid; lia.
          - intros i Hi. unfold g. apply Hf. destruct (Nat.eqb i m); [lia|]. destruct (Nat.eqb i j); lia. }
        rewrite (Fext _ _ E), (mdet_ext n _ _ E), Fswap, mdet_swap in G by lia.
        transitivity (- - F (sel f)); [ring|]. rewrite G. ring.
    + assert (ND : ~ NoDup (map f (seq 0 n))).
      { intro ND. assert (L : (length (m :: map f (seq 0 n)) <= length (seq 0 n))%nat).
        { apply NoDup_incl_length; [now constructor|]. intros x [<-|Hx]; [apply in_seq; lia|].
          apply in_map_iff in Hx. destruct Hx as (i & <- & Hi). apply in_seq in Hi. apply in_seq.
          specialize (Hf i ltac:(lia)). lia. }
        cbn [length] in L. rewrite map_length, seq_length in L. lia. }
      assert (D : exists p q, (p < q)%nat /\ (q < n)%nat /\ f p = f q).
      { clear - ND. induction n as [|k IH]; [exfalso; apply ND; constructor|].
        rewrite seq_S, map_app in ND. cbn [map] in ND. rewrite Nat.add_0_l in ND.
        destruct (in_dec Nat.eq_dec (f k) (map f (seq 0 k))) as [I|NI].
        - apply in_map_iff in I. destruct I as (p & E & Hp). apply in_seq in Hp. exists p, k. repeat split; [lia|lia|assumption].
        - destruct IH as (p & q & H1 & H2 & H3); [|exists p, q; repeat split; [assumption|lia|assumption]].
          intro ND'. apply ND. apply NoDup_rev in ND'. rewrite <- (rev_involutive (map f (seq 0 k) ++ [f k])).
          apply NoDup_rev. rewrite rev_app_distr. cbn [rev app]. constructor; [|assumption].
          intro I. apply NI. now apply in_rev. }
      destruct D as (p & q & H1 & H2 & H3).
      rewrite (Falt (sel f) p q) by (try lia; intros; unfold sel; now rewrite H3).
      rewrite (mdet_eq_rows n (sel f) p q) by (try lia; intros; unfold sel; now rewrite H3). ring.
Qed.

Lemma alt_unique : forall (F : mat -> C) n,
  (forall A B, meq n A B -> F A = F B) ->
  (forall A r x y u v, (r < n)%nat -> F (setrow A r (fun j => x * u j + y * v j)) = x * F (setrow A r u) + y * F (setrow A r v)) ->
  (forall A p q, (p < n)%nat -> (q < n)%nat -> p <> q -> (forall j, (j < n)%nat -> A p j = A q j) -> F A = C0) ->
  forall A, F A = mdet n A * F mid.
Proof.
  intros F n Fext Flin Falt A.
  assert (Fsum : forall B r m (x : nat -> C) (u : nat -> nat -> C), (r < n)%nat ->
    F (setrow B r (fun j => csum m (fun k => x k * u k j))) = csum m (fun k => x k * F (setrow B r (u k)))).
  { intros B r m x u Hr. induction m; cbn [csum].
    - rewrite (Fext _ (setrow B r (fun j => C0 * C0 + C0 * C0))).
      + rewrite Flin by assumption. ring.
      + intros i j _ _. unfold setrow. destruct (Nat.eqb i r); ring.
    - rewrite (Fext _ (setrow B r (fun j => C1 * csum m (fun k => x k * u k j) + x m * u m j))).
      + rewrite Flin, IHm by assumption. ring.
      + intros i j _ _. unfold setrow. destruct (Nat.eqb i r); ring. }
  set (P := fun k f => (fun i j => if Nat.ltb i k then A i j else mid (f i) j) : mat).
  assert (G : forall k, (k <= n)%nat -> forall f, (forall i, (i < n)%nat -> (f i < n)%nat) -> F (P k f) = mdet n (P k f) * F mid).
  { induction k; intros Hk f Hf.
    - apply (sel_base F n Fext Flin Falt n 0); [reflexivity|intros; lia|assumption].
    - assert (E : meq n (P (S k) f) (setrow (P k f) k (fun j => csum n (fun c => A k c * mid c j)))).
      { intros i j Hi Hj. unfold setrow, P. destruct (Nat.eqb_spec i k) as [->|N].
        - rewrite (proj2 (Nat.ltb_lt k (S k))) by lia. symmetry. now apply csum_delta_r.
        - destruct (Nat.ltb_spec i (S k)), (Nat.ltb_spec i k); try lia; reflexivity. }
      rewrite (Fext _ _ E), (mdet_ext n _ _ E), Fsum, mdet_lin_sum by lia.
      rewrite <- csum_mul_r. apply csum_ext; intros c Hc.
      set (g := fun i => if Nat.eqb i k then c else f i).
      assert (E2 : meq n (setrow (P k f) k (mid c)) (P k g)).
      { intros i j Hi Hj. unfold setrow, P, g. destruct (Nat.eqb_spec i k) as [->|N]; [|reflexivity].
        rewrite (proj2 (Nat.ltb_ge k k)) by lia. reflexivity. }
      rewrite (Fext _ _ E2), (mdet_ext n _ _ E2).
      rewrite IHk; [ring|lia|]. intros i Hi. unfold g. destruct (Nat.eqb i k); [assumption|now apply Hf]. }
  assert (E : meq n A (P n (fun i => i))).
  { intros i j Hi Hj. unfold P. now rewrite (proj2 (Nat.ltb_lt i n)). }
  rewrite (Fext _ _ E), (mdet_ext n _ _ E). apply G; [lia|auto].
Qed.

Lemma mdet_mmul : forall n A B, mdet n (mmul n A B) = mdet n A * mdet n B.
Proof.
  intros n A B. rewrite (alt_unique (fun A => mdet n (mmul n A B)) n).
  - f_equal. apply mdet_ext. apply mmul_1_l.
  - intros X Y E. apply mdet_ext. now rewrite E.
  - intros X r x y u v Hr.
    assert (E : forall w, meq n (mmul n (setrow X r w) B) (setrow (mmul n X B) r (fun j => csum n (fun k => w k * B k j)))).
    { intros w i j _ _. unfold mmul, setrow. destruct (Nat.eqb i r); reflexivity. }
    rewrite !(mdet_ext n _ _ (E _)). rewrite <- mdet_linear by assumption.
    apply mdet_ext. intros i j _ _. unfold setrow. destruct (Nat.eqb i r); [|reflexivity].
    rewrite <- !csum_mul_l, <- csum_add. apply csum_ext; intros; ring.
  - intros X p q Hp Hq N HX. apply (mdet_eq_rows' n _ p q); try assumption.
    intros j Hj. unfold mmul. apply csum_ext; intros k Hk. now rewrite HX.
Qed.

(** * Invertible = non zero determinant *)
Lemma inverse_of_det : forall n A, mdet n A <> C0 ->
  meq n (mmul n (mscale (C1 / mdet n A) (adj n A)) A) mid /\ meq n (mmul n A (mscale (C1 / mdet n A) (adj n A))) mid.
Proof.
  intros n A H. split.
  - rewrite mmul_scale_l, adj_mmul. intros i j _ _. unfold mscale. field. exact H.
  - rewrite mmul_scale_r, mmul_adj. intros i j _ _. unfold mscale. field. exact H.
Qed.
Lemma C1_neq_0 : C1 <> C0.
Proof. intro H. apply (f_equal re) in H. cbn in H. apply R1_neq_R0. exact H. Qed.
Lemma det_of_inverse : forall n A B, meq n (mmul n A B) mid -> mdet n A <> C0 /\ mdet n B <> C0.
Proof.
  intros n A B H. assert (E : mdet n A * mdet n B = C1) by (rewrite <- mdet_mmul, H; apply mdet_mid).
  split; intro Z; rewrite Z in E; apply C1_neq_0; rewrite <- E; ring.
Qed.
Lemma left_inverse_right : forall n A B, meq n (mmul n B A) mid -> meq n (mmul n A B) mid.
Proof.
  intros n A B H. destruct (det_of_inverse n B A H) as [_ D]. destruct (inverse_of_det n A D) as [_ R].
  set (X := mscale (C1 / mdet n A) (adj n A)) in *.
  assert (E : meq n B X). { rewrite <- (mmul_1_r n B), <- R, <- mmul_assoc, H. apply mmul_1_l. }
  now rewrite E.
Qed.

(** * Small sizes *)
Lemma mdet_2 : forall A, mdet 2 A = det2 A.
Proof. intro A. unfold det2. cbn [mdet csum]. unfold sgn, minor. cbn. ring. Qed.
Lemma mdet_3 : forall A, mdet 3 A = det3 A.
Proof. intro A. unfold det3. cbn [mdet csum]. unfold sgn, minor. cbn. ring. Qed.
Lemma SUn_2 : forall U, SUn 2 U <-> SU2 U.
Proof. intro U. unfold SUn, SU2. now rewrite mdet_2. Qed.
Lemma SUn_3 : forall U, SUn 3 U <-> SU3 U.
Proof. intro U. unfold SUn, SU3. now rewrite mdet_3. Qed.
Lemma SUn_mmul : forall n U V, SUn n U -> SUn n V -> SUn n (mmul n U V).
Proof.
  intros n U V [U1 U2] [V1 V2]. split; [now apply unitary_mmul|]. rewrite mdet_mmul, U2, V2. ring.
Qed.
Lemma SUn_dag : forall n U, SUn n U -> SUn n (dag U).
Proof. intros n U [U1 U2]. split; [now apply unitary_dag|]. rewrite mdet_dag, U2. apply conj_1. Qed.
Lemma SUn_mid : forall n, SUn n mid.
Proof. intro n. split; [apply unitary_mid|apply mdet_mid]. Qed.
