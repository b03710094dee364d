(** Reunitarisation maps into the group and fixes it. *)
From Coq Require Import PeanoNat Lia Setoid Morphisms List Reals Lra.
From Verif Require Import CMat Det Arr MatSpec MmulModel MmulProofs MatModel MatProofs InvModel InvProofs InvProofs2 GramModel.
Local Open Scope C_scope.

(** * Specification *)
Definition dot (n : nat) (u v : nat -> C) : C := csum n (fun c => u c * conj (v c)).
(** the first m rows of U are linearly independent *)
Definition indep (m n : nat) (U : mat) : Prop :=
  forall a : nat -> C, (forall c, (c < n)%nat -> csum m (fun i => a i * U i c) = C0) -> forall i, (i < m)%nat -> a i = C0.
Definition orthonormal (m n : nat) (U : mat) : Prop :=
  forall i j, (i < m)%nat -> (j < m)%nat -> dot n (U i) (U j) = mid i j.

(** * Scalar products *)
Lemma dot_ext : forall n u v u' v', (forall c, (c < n)%nat -> u c = u' c) -> (forall c, (c < n)%nat -> v c = v' c) ->
  dot n u v = dot n u' v'.
Proof. intros n u v u' v' H K. unfold dot. apply csum_ext; intros. now rewrite H, K. Qed.
Lemma dot_sym : forall n u v, dot n u v = conj (dot n v u).
Proof. intros. unfold dot. rewrite csum_conj. apply csum_ext; intros. rewrite conj_mul, conj_conj. ring. Qed.
Lemma dot_self : forall n u, dot n u u = RtoC (rsum n (fun c => norm2 (u c))).
Proof.
  intros n u. unfold dot. induction n; [reflexivity|]. cbn [csum rsum]. rewrite IHn, mul_conj, RtoC_add. reflexivity.
Qed.
Lemma rsum_nonneg : forall n f, (forall i, (i < n)%nat -> (0 <= f i)%R) -> (0 <= rsum n f)%R.
Proof. induction n; intros f H; cbn [rsum]; [lra|]. apply Rplus_le_le_0_compat; [apply IHn; intros; apply H; lia|apply H; lia]. Qed.
Lemma rsum_zero : forall n f, (forall i, (i < n)%nat -> (0 <= f i)%R) -> rsum n f = 0%R -> forall i, (i < n)%nat -> f i = 0%R.
Proof.
  induction n; intros f H E i Hi; [lia|]. cbn [rsum] in E.
  assert (0 <= rsum n f)%R by (apply rsum_nonneg; intros; apply H; lia). assert (0 <= f n)%R by (apply H; lia).
  destruct (Nat.eq_dec i n) as [->|N]; [lra|]. apply IHn; [intros; apply H; lia|lra|lia].
Qed.
Lemma dot_self_0 : forall n u, dot n u u = C0 -> forall c, (c < n)%nat -> u c = C0.
Proof.
  intros n u H c Hc. rewrite dot_self in H. apply RtoC_inj in H. apply norm2_zero.
  apply (rsum_zero n (fun c => norm2 (u c))); try assumption. intros; apply norm2_nonneg.
Qed.

Lemma unitary_rows : forall n U, orthonormal n n U -> unitary n U.
Proof.
  intros n U H. assert (E : meq n (mmul n U (dag U)) mid) by (intros i j Hi Hj; apply (H i j Hi Hj)).
  split; [|exact E] || split; [exact E|]; now apply left_inverse_right.
Qed.

Lemma mdet_last_diag : forall m d,
  mdet (S m) (fun i j => if Nat.eqb i m then d * mid m j else mid i j) = d.
Proof.
  intros m d. rewrite (mdet_ext (S m) _ (setrow mid m (fun j => d * mid m j + C0 * mid m j))).
  - rewrite mdet_linear by lia. rewrite (mdet_ext (S m) (setrow mid m (mid m)) mid) by (apply setrow_id). rewrite mdet_mid. ring.
  - intros i j _ _. unfold setrow. destruct (Nat.eqb i m); [ring|reflexivity].
Qed.

(** m orthonormal rows completed with an orthogonal one *)
Lemma gram_det : forall m W, orthonormal m (S m) W ->
  (forall i, (i < m)%nat -> dot (S m) (W m) (W i) = C0) ->
  mdet (S m) W * conj (mdet (S m) W) = dot (S m) (W m) (W m).
Proof.
  intros m W H Z. rewrite <- mdet_dag, <- mdet_mmul, <- (mdet_last_diag m (dot (S m) (W m) (W m))).
  apply mdet_ext. intros i j Hi Hj. change (mmul (S m) W (dag W) i j) with (dot (S m) (W i) (W j)).
  destruct (Nat.eqb_spec i m) as [->|Ni].
  - destruct (Nat.eq_dec j m) as [->|Nj].
    + unfold mid. rewrite Nat.eqb_refl. ring.
    + rewrite Z by lia. unfold mid. rewrite (proj2 (Nat.eqb_neq m j)) by lia. ring.
  - destruct (Nat.eq_dec j m) as [->|Nj].
    + rewrite dot_sym, Z by lia. unfold mid. rewrite (proj2 (Nat.eqb_neq i m)) by lia. apply conj_0.
    + apply H; lia.
Qed.

Lemma complement_exists : forall m V, orthonormal m (S m) V ->
  exists w, (forall i, (i < m)%nat -> dot (S m) w (V i) = C0) /\ dot (S m) w w <> C0.
Proof.
  intros m V H.
  set (w := fun j c => mid j c - csum m (fun k => conj (V k j) * V k c)).
  assert (O : forall j i, (j < S m)%nat -> (i < m)%nat -> dot (S m) (w j) (V i) = C0).
  { intros j i Hj Hi. unfold dot, w.
    rewrite (csum_ext _ _ (fun c => mid j c * conj (V i c) - csum m (fun k => conj (V k j) * (V k c * conj (V i c))))).
    - rewrite csum_sub, csum_delta_l by assumption. rewrite csum_swap.
      rewrite (csum_ext m _ (fun k => conj (V k j) * mid k i)).
      + rewrite csum_delta_r by assumption. ring.
      + intros k Hk. rewrite csum_mul_l. f_equal. now apply H.
    - intros c _. transitivity (mid j c * conj (V i c) - csum m (fun k => conj (V k j) * V k c) * conj (V i c)); [ring|].
      rewrite <- csum_mul_r. f_equal. apply csum_ext; intros; ring. }
  assert (T : csum (S m) (fun j => w j j) = C1).
  { unfold w. rewrite csum_sub, csum_swap.
    rewrite (csum_ext m _ (fun _ => C1)).
    - rewrite (csum_ext (S m) (fun i => mid i i) (fun _ => C1)) by (intros; unfold mid; now rewrite Nat.eqb_refl).
      cbn [csum]. ring.
    - intros k Hk. transitivity (dot (S m) (V k) (V k)); [unfold dot; apply csum_ext; intros; ring|].
      rewrite H by assumption. unfold mid. now rewrite Nat.eqb_refl. }
  assert (D : (exists j, (j < S m)%nat /\ w j j <> C0) \/ (forall j, (j < S m)%nat -> w j j = C0)).
  { generalize (S m). induction n as [|n IHn]; [right; intros; lia|].
    destruct IHn as [(j & Hj & K)|K]; [left; exists j; split; [lia|assumption]|].
    destruct (Req_EM_T (norm2 (w n n)) 0) as [E|E].
    - apply norm2_zero in E. right. intros j Hj. destruct (Nat.eq_dec j n) as [->|N]; [exact E|apply K; lia].
    - left. exists n. split; [lia|]. intro E'. apply E. rewrite E'. now apply norm2_zero. }
  destruct D as [(j & Hj & K)|K].
  - exists (w j). split; [intros; now apply O|]. intro E. apply K. now apply (dot_self_0 (S m) (w j)).
  - exfalso. apply C1_neq_0. rewrite <- T, (csum_ext (S m) _ (fun _ => C0)) by assumption. apply csum_0.
Qed.

Lemma cofactor_setrow : forall n A r v c, cofactor n (setrow A r v) r c = cofactor n A r c.
Proof. intros. unfold cofactor. f_equal. apply mdet_ext. intros i j _ _. apply minor_setrow_same. Qed.

Lemma complete_row : forall m V, orthonormal m (S m) V ->
  (forall c, (c < S m)%nat -> V m c = conj (cofactor (S m) V m c)) -> SUn (S m) V.
Proof.
  intros m V H L.
  assert (D : mdet (S m) V = dot (S m) (V m) (V m)).
  { transitivity (mdet (S m) V * mid m m); [unfold mid; rewrite Nat.eqb_refl; ring|].
    rewrite <- (mdet_expand_row (S m) V m m) by lia. unfold dot. apply csum_ext; intros c Hc.
    rewrite (L c Hc), conj_conj. ring. }
  assert (Z : forall i, (i < m)%nat -> dot (S m) (V m) (V i) = C0).
  { intros i Hi. rewrite dot_sym. rewrite <- conj_0. f_equal.
    transitivity (csum (S m) (fun c => V i c * cofactor (S m) V m c)).
    - unfold dot. apply csum_ext; intros c Hc. rewrite (L c Hc), conj_conj. ring.
    - rewrite mdet_expand_row by lia. unfold mid. rewrite (proj2 (Nat.eqb_neq i m)) by lia. ring. }
  pose proof (gram_det m V H Z) as G. rewrite D in G.
  assert (N : dot (S m) (V m) (V m) <> C0).
  { intro E. destruct (complement_exists m V H) as (w & W1 & W2).
    assert (HW : orthonormal m (S m) (setrow V m w)).
    { intros i j Hi Hj. unfold setrow. rewrite (proj2 (Nat.eqb_neq i m)), (proj2 (Nat.eqb_neq j m)) by lia. now apply H. }
    assert (ZW : forall i, (i < m)%nat -> dot (S m) (setrow V m w m) (setrow V m w i) = C0).
    { intros i Hi. unfold setrow. rewrite Nat.eqb_refl, (proj2 (Nat.eqb_neq i m)) by lia. now apply W1. }
    pose proof (gram_det m _ HW ZW) as GW. rewrite mdet_setrow in GW by lia.
    rewrite (csum_ext (S m) _ (fun _ => C0)) in GW.
    - rewrite csum_0 in GW. unfold setrow in GW. rewrite Nat.eqb_refl in GW. apply W2. etransitivity; [symmetry; exact GW|ring].
    - intros c Hc. rewrite <- (conj_conj (cofactor (S m) V m c)), <- L by assumption.
      rewrite (dot_self_0 (S m) (V m) E c Hc), conj_0. ring. }
  assert (U1 : dot (S m) (V m) (V m) = C1).
  { rewrite dot_self in *. rewrite conj_RtoC, <- RtoC_mul in G. apply RtoC_inj in G.
    assert (rsum (S m) (fun c => norm2 (V m c)) <> 0%R) by (intro E; apply N; rewrite E; reflexivity).
    change C1 with (RtoC 1). f_equal. nra. }
  split; [|congruence]. apply unitary_rows. intros i j Hi Hj.
  destruct (Nat.eq_dec i m) as [->|Ni], (Nat.eq_dec j m) as [->|Nj].
  - rewrite U1. unfold mid. now rewrite Nat.eqb_refl.
  - rewrite Z by lia. unfold mid. now rewrite (proj2 (Nat.eqb_neq m j)) by lia.
  - rewrite dot_sym, Z by lia. unfold mid. rewrite (proj2 (Nat.eqb_neq i m)) by lia. apply conj_0.
  - apply H; lia.
Qed.

Lemma SUn_last_row : forall m V c, SUn (S m) V -> (c < S m)%nat -> V m c = conj (cofactor (S m) V m c).
Proof.
  intros m V c [[U1 U2] D] Hc.
  assert (E : meq (S m) (adj (S m) V) (dag V)).
  { rewrite <- (mmul_1_r (S m) (adj (S m) V)).
    assert (K : meq (S m) (mmul (S m) V (dag V)) mid) by first [exact U1|exact U2].
    rewrite <- K, <- mmul_assoc, adj_mmul, D, mscale_1, mmul_1_l. reflexivity. }
  specialize (E c m Hc ltac:(lia)). unfold adj, dag in E. rewrite E. now rewrite conj_conj.
Qed.
Lemma SUn_orthonormal : forall n U m, SUn n U -> (m <= n)%nat -> orthonormal m n U.
Proof.
  intros n U m [[U1 U2] _] Hm i j Hi Hj.
  assert (K : meq n (mmul n U (dag U)) mid) by first [exact U1|exact U2].
  apply (K i j); lia.
Qed.
Lemma SUn_tr : forall n U, SUn n U -> SUn n (tr_ U).
Proof.
  intros n U H. destruct H as [[U1 U2] D]. split; [|rewrite mdet_tr; exact D].
  assert (K : meq n (mmul n (dag U) U) mid) by first [exact U1|exact U2].
  apply unitary_rows. intros i j Hi Hj. specialize (K j i Hj Hi). unfold mmul, dag in K. unfold dot, tr_.
  rewrite mid_sym, <- K. apply csum_ext; intros; ring.
Qed.

(** * project and vect_norm2 *)
Lemma project_ok : forall n V U c, (c < n)%nat -> project n V U c = V c - dot n V U * U c.
Proof.
  intros n V U c Hc. unfold project.
  assert (E : forall k, for_ k (fun i '(projRE, projIM) =>
    let projRE := (projRE + re (V i) * re (U i))%R in
    let projRE := (projRE + im (V i) * im (U i))%R in
    let projIM := (projIM + re (U i) * im (V i))%R in
    let projIM := (projIM - im (U i) * re (V i))%R in
    (projRE, projIM)) (0%R, 0%R) = csum k (fun c => V c * conj (U c))).
  { induction k; [reflexivity|]. cbv zeta in *. cbn [for_ csum]. rewrite IHk. destruct (csum k (fun c => V c * conj (U c))) as [a b].
    destruct (V k) as [p q], (U k) as [r s]. apply C_eq; cunfold; ring. }
  rewrite E. clear E. fold (dot n V U). destruct (dot n V U) as [a b].
  pose proof (fill1 n (fun i x => x - (a * re (U i) - b * im (U i), a * im (U i) + b * re (U i))%R) V c) as F.
  cbv beta in F. rewrite F; clear F.
  rewrite (proj2 (Nat.ltb_lt c n)) by assumption. reflexivity.
Qed.

Lemma vect_norm2_ok : forall n a c, (c < n)%nat ->
  vect_norm2 n a c = a c * RtoC (1 / sqrt (rsum n (fun c => norm2 (a c)))).
Proof.
  intros n a c Hc. unfold vect_norm2. cbv zeta. rewrite for_rsum, Rplus_0_l.
  rewrite (rsum_ext n (fun mu => (re (a mu) * re (a mu) + im (a mu) * im (a mu))%R) (fun c => norm2 (a c))) by reflexivity.
  pose proof (fill1 n (fun i x => x * RtoC (1 / sqrt (rsum n (fun c => norm2 (a c))))) a c) as F.
  cbv beta in F. rewrite F; clear F. now rewrite (proj2 (Nat.ltb_lt c n)) by assumption.
Qed.
Lemma dot_scale : forall n x y u v, dot n (fun c => u c * x) (fun c => v c * y) = x * conj y * dot n u v.
Proof. intros. unfold dot. rewrite <- csum_mul_l. apply csum_ext; intros. rewrite conj_mul. ring. Qed.
Lemma dot_sub_l : forall n u p v w, dot n (fun c => u c - p * v c) w = dot n u w - p * dot n v w.
Proof. intros. unfold dot. rewrite <- csum_mul_l, <- csum_sub. apply csum_ext; intros; ring. Qed.
Lemma dot_nonneg : forall n u, (0 <= rsum n (fun c => norm2 (u c)))%R.
Proof. intros. apply rsum_nonneg. intros; apply norm2_nonneg. Qed.

Lemma vect_norm2_unit : forall n a, dot n a a <> C0 -> dot n (vect_norm2 n a) (vect_norm2 n a) = C1.
Proof.
  intros n a N. rewrite (dot_ext n _ _ _ _ (vect_norm2_ok n a) (vect_norm2_ok n a)), dot_scale, conj_RtoC.
  pose proof (dot_nonneg n a) as P. rewrite dot_self in *. set (s := rsum n (fun c => norm2 (a c))) in *.
  assert (Q : (s <> 0)%R) by (intro E; apply N; rewrite E; reflexivity). assert (0 < s)%R by lra.
  rewrite <- !RtoC_mul. change C1 with (RtoC 1). f_equal.
  rewrite <- (sqrt_sqrt s P) at 3. field. apply Rgt_not_eq. now apply sqrt_lt_R0.
Qed.
Lemma vect_norm2_id : forall n a c, dot n a a = C1 -> (c < n)%nat -> vect_norm2 n a c = a c.
Proof.
  intros n a c E Hc. rewrite vect_norm2_ok by assumption. rewrite dot_self in E. change C1 with (RtoC 1) in E.
  apply RtoC_inj in E. rewrite E, sqrt_1. replace (1/1)%R with 1%R by field. change (RtoC 1) with C1. ring.
Qed.

(** * The Gram-Schmidt loop *)
Lemma upd_row : forall n k (w : nat -> C) (U : arr) r c, (c < n)%nat ->
  mx n (for_ n (fun j U => upd U (j + n*k) (w j)) U) r c = if Nat.eqb r k then w c else mx n U r c.
Proof.
  intros n k w U r c Hc. unfold mx.
  assert (G : forall q, (q <= n)%nat -> for_ q (fun j U => upd U (j + n*k) (w j)) U (c + n*r)%nat =
     if andb (Nat.eqb r k) (Nat.ltb c q) then w c else U (c + n*r)%nat).
  { induction q; intro Hq; cbn [for_]; [now rewrite Bool.andb_false_r|].
    destruct (Nat.eq_dec (c + n*r) (q + n*k)) as [E|E].
    - pose proof E as E'. apply idx_inj in E'; [|assumption|lia]. destruct E' as [E1 E2]. subst.
      rewrite upd_eq, Nat.eqb_refl, (proj2 (Nat.ltb_lt q (S q))) by lia. reflexivity.
    - rewrite upd_neq by assumption. rewrite IHq by lia. destruct (Nat.eqb_spec r k) as [->|]; [|reflexivity]. cbn [andb].
      destruct (Nat.ltb_spec c q), (Nat.ltb_spec c (S q)); try lia; try reflexivity.
    }
  rewrite G by lia. now rewrite (proj2 (Nat.ltb_lt c n)), Bool.andb_true_r by assumption.
Qed.
Lemma upd_row_frame : forall n k (w : nat -> C) (U : arr) x, (k < n)%nat -> (n*n <= x)%nat ->
  for_ n (fun j U => upd U (j + n*k) (w j)) U x = U x.
Proof.
  intros n k w U x Hk Hx. apply (for_ind (fun _ V => V x = U x)); [reflexivity|].
  intros i V Hi HV. rewrite upd_neq by nia. exact HV.
Qed.

(** state after k turns, u = the rows at the start *)
Definition gs_inv (n : nat) (U0 : arr) (k : nat) (s : mat * arr) : Prop :=
  let '(v, U) := s in let u := mx n U0 in
  (forall i c, (k <= i < n-1)%nat -> (c < n)%nat -> v i c = u i c) /\
  (forall i c, (i < k)%nat -> (c < n)%nat -> mx n U i c = v i c) /\
  (forall i c, (k <= i)%nat -> (c < n)%nat -> mx n U i c = u i c) /\ frame (n*n) U U0 /\
  (indep (n-1) n u -> orthonormal k n v /\
     forall i, (i < k)%nat -> exists a : nat -> C, forall c, (c < n)%nat -> v i c = csum (S i) (fun j => a j * u j c)) /\
  (orthonormal (n-1) n u -> forall i c, (i < n-1)%nat -> (c < n)%nat -> v i c = u i c).

Lemma csum_extend : forall m k f, (m <= k)%nat -> csum m f = csum k (fun j => if Nat.ltb j m then f j else C0).
Proof.
  intros m k f H. induction k.
  - replace m with 0%nat by lia. reflexivity.
  - cbn [csum]. destruct (Nat.eq_dec m (S k)) as [->|N].
    + cbn [csum]. rewrite (proj2 (Nat.ltb_lt k (S k))) by lia. f_equal. apply csum_ext; intros i Hi.
      now rewrite (proj2 (Nat.ltb_lt i (S k))) by lia.
    + rewrite IHk by lia. rewrite (proj2 (Nat.ltb_ge k m)) by lia. ring.
Qed.

Lemma gs_inner_ok : forall n (v : mat) (u : mat) k, (k < n - 1)%nat ->
  (forall c, (c < n)%nat -> v k c = u k c) ->
  let v' := for_ k (fun i v => set_row v k (project n (v k) (v i))) v in
  (forall i c, i <> k -> v' i c = v i c) /\
  (orthonormal k n v ->
   (forall i, (i < k)%nat -> exists a : nat -> C, forall c, (c < n)%nat -> v i c = csum (S i) (fun j => a j * u j c)) ->
   (forall i, (i < k)%nat -> dot n (v' k) (v i) = C0) /\
   exists a : nat -> C, a k = C1 /\ forall c, (c < n)%nat -> v' k c = csum (S k) (fun j => a j * u j c)) /\
  ((forall i, (i < k)%nat -> dot n (u k) (v i) = C0) -> forall c, (c < n)%nat -> v' k c = u k c).
Proof.
  intros n v u k Hk Hv. cbv zeta.
  set (P := fun q (v' : mat) =>
   (forall i c, i <> k -> v' i c = v i c) /\
   (orthonormal k n v ->
    (forall i, (i < k)%nat -> exists a : nat -> C, forall c, (c < n)%nat -> v i c = csum (S i) (fun j => a j * u j c)) ->
    (forall i, (i < q)%nat -> dot n (v' k) (v i) = C0) /\
    exists a : nat -> C, a k = C1 /\ forall c, (c < n)%nat -> v' k c = csum (S k) (fun j => a j * u j c)) /\
   ((forall i, (i < k)%nat -> dot n (u k) (v i) = C0) -> forall c, (c < n)%nat -> v' k c = u k c)).
  change (P k (for_ k (fun i v => set_row v k (project n (v k) (v i))) v)).
  apply (for_ind P).
  - split; [reflexivity|]. split; [|intros _; exact Hv]. intros _ _. split; [intros; lia|].
    exists (fun j => mid k j). split; [unfold mid; now rewrite Nat.eqb_refl|]. intros c Hc.
    rewrite csum_delta_l by lia. now apply Hv.
  - intros q v' Hq (P1 & P2 & P3).
    assert (Eq : forall c, v' q c = v q c) by (intro c; apply P1; lia).
    assert (Ek : forall c, (c < n)%nat -> set_row v' k (project n (v' k) (v' q)) k c = v' k c - dot n (v' k) (v q) * v q c).
    { intros c Hc. unfold set_row. rewrite Nat.eqb_refl, project_ok by assumption. rewrite Eq.
      now rewrite (dot_ext n (v' k) (v' q) (v' k) (v q)) by (intros; auto). }
    split; [|split].
    + intros i c N. unfold set_row. rewrite (proj2 (Nat.eqb_neq i k)) by assumption. now apply P1.
    + intros O L. destruct (P2 O L) as [Q1 (a & A1 & A2)]. split.
      * intros i Hi. rewrite (dot_ext n _ (v i) _ (v i) Ek) by reflexivity. rewrite dot_sub_l.
        rewrite (O q i) by lia. unfold mid. destruct (Nat.eqb_spec q i) as [->|N]; [ring|]. rewrite Q1 by lia. ring.
      * destruct (L q Hq) as (b & B). exists (fun j => a j - dot n (v' k) (v q) * (if Nat.ltb j (S q) then b j else C0)).
        split; [rewrite A1, (proj2 (Nat.ltb_ge k (S q))) by lia; ring|].
        intros c Hc. rewrite Ek, A2, B by assumption. rewrite (csum_extend (S q) (S k)) by lia.
        rewrite <- csum_mul_l, <- csum_sub. apply csum_ext; intros j Hj. destruct (Nat.ltb j (S q)); ring.
    + intros O c Hc. rewrite Ek by assumption. rewrite (dot_ext n (v' k) (v q) (u k) (v q)) by (intros; auto).
      rewrite O by assumption. rewrite (P3 O c Hc). ring.
Qed.

Lemma gs_turn_ok : forall n U0 k s, (k < n-1)%nat -> gs_inv n U0 k s -> gs_inv n U0 (S k) (gs_turn n k s).
Proof.
  intros n U0 k [v U] Hk (G1 & G2 & G3 & G4 & G5 & G6). unfold gs_turn. set (u := mx n U0) in *.
  pose proof (gs_inner_ok n v u k Hk (fun c Hc => G1 k c ltac:(lia) Hc)) as I. cbv zeta in I.
  set (v1 := for_ k (fun i v => set_row v k (project n (v k) (v i))) v) in *. destruct I as (I1 & I2 & I3).
  set (v2 := set_row v1 k (vect_norm2 n (v1 k))).
  assert (V2 : forall i c, i <> k -> v2 i c = v i c).
  { intros i c N. unfold v2, set_row. rewrite (proj2 (Nat.eqb_neq i k)) by assumption. now apply I1. }
  assert (V2k : v2 k = vect_norm2 n (v1 k)) by (unfold v2, set_row; now rewrite Nat.eqb_refl).
  split; [|split; [|split; [|split; [|split]]]].
  - intros i c Hi Hc. rewrite V2 by lia. apply G1; lia.
  - intros i c Hi Hc. rewrite upd_row by assumption. destruct (Nat.eqb_spec i k) as [->|N]; [reflexivity|].
    rewrite V2 by assumption. apply G2; lia.
  - intros i c Hi Hc. rewrite upd_row by assumption. rewrite (proj2 (Nat.eqb_neq i k)) by lia. apply G3; lia.
  - intros x Hx. rewrite upd_row_frame by lia. now apply G4.
  - fold u. intro In. destruct (G5 In) as [O L]. destruct (I2 O L) as [Q1 (a & A1 & A2)].
    assert (N : dot n (v1 k) (v1 k) <> C0).
    { intro E. apply C1_neq_0. rewrite <- A1.
      assert (B := In (fun j => if Nat.ltb j (S k) then a j else C0)). cbv beta in B.
      specialize (B (fun c Hc => ltac:(
        transitivity (csum (S k) (fun j => a j * u j c));
        [symmetry; rewrite (csum_extend (S k) (n-1)) by lia; apply csum_ext; intros j Hj; destruct (Nat.ltb j (S k)); ring
        | rewrite <- A2 by assumption; now apply (dot_self_0 n (v1 k))])) k ltac:(lia)).
      rewrite (proj2 (Nat.ltb_lt k (S k))) in B by lia. exact B. }
    assert (Dk : forall i, (i < k)%nat -> dot n (v2 k) (v2 i) = C0).
    { intros i Hi. rewrite V2k.
      rewrite (dot_ext n _ _ (fun c => v1 k c * RtoC (1 / sqrt (rsum n (fun c => norm2 (v1 k c))))) (fun c => v i c * C1)).
      - rewrite dot_scale, Q1 by assumption. ring.
      - apply vect_norm2_ok.
      - intros c _. rewrite V2 by lia. ring. }
    split.
    + intros i j Hi Hj. destruct (Nat.eq_dec i k) as [->|Ni], (Nat.eq_dec j k) as [->|Nj].
      * rewrite V2k, vect_norm2_unit by assumption. unfold mid. now rewrite Nat.eqb_refl.
      * rewrite Dk by lia. unfold mid. now rewrite (proj2 (Nat.eqb_neq k j)) by lia.
      * rewrite dot_sym, Dk by lia. unfold mid. rewrite (proj2 (Nat.eqb_neq i k)) by lia. apply conj_0.
      * rewrite (dot_ext n (v2 i) (v2 j) (v i) (v j)) by (intros; now apply V2). apply O; lia.
    + intros i Hi. destruct (Nat.eq_dec i k) as [->|N'].
      * exists (fun j => a j * RtoC (1 / sqrt (rsum n (fun c => norm2 (v1 k c))))). intros c Hc.
        rewrite V2k, vect_norm2_ok, A2 by assumption. rewrite <- csum_mul_r. apply csum_ext; intros; ring.
      * destruct (L i ltac:(lia)) as (b & B). exists b. intros c Hc. rewrite V2 by assumption. now apply B.
  - fold u. intros O i c Hi Hc. specialize (G6 O).
    destruct (Nat.eq_dec i k) as [->|N].
    + assert (E : forall c, (c < n)%nat -> v1 k c = u k c).
      { apply I3. intros j Hj. rewrite (dot_ext n (u k) (v j) (u k) (u j)) by (intros; auto; apply G6; lia).
        rewrite O by lia. unfold mid. now rewrite (proj2 (Nat.eqb_neq k j)) by lia. }
      rewrite V2k, vect_norm2_id; [now apply E| |assumption].
      rewrite (dot_ext n (v1 k) (v1 k) (u k) (u k)) by assumption. rewrite O by lia. unfold mid. now rewrite Nat.eqb_refl.
    + rewrite V2 by assumption. now apply G6.
Qed.

(** * The bottom row *)
Lemma pack_bottom_ok : forall m U c, (c < S m)%nat ->
  meq m (mx m (pack_bottom (S m) U (S m * S m - S m + c))) (minor m c (mx (S m) U)).
Proof.
  intros m U c Hc. rewrite <- pack_minor_ok by lia.
  replace (S m * S m - S m + c)%nat with (c + S m * m)%nat by lia.
  assert (E : pack_bottom (S m) U (c + S m * m) = pack_minor (S m) U (c + S m * m)).
  { unfold pack_bottom, pack_minor. rewrite !for_flat. replace (S m - 1)%nat with m by lia.
    match goal with |- _ = fst (for_ (S m) ?row ?s0) => change (for_ (S m) row s0) with (row m (for_ m row s0)); set (last := row m) end.
    destruct (mod_idx (S m) m c Hc) as [Ec Em].
    assert (L : forall s, last s = s).
    { intro s. unfold last. rewrite (for_ext (S m) _ (fun _ s => s)).
      - clear. induction (S m) as [|q IH]; [reflexivity|]. exact IH.
      - intros j [ar idx] Hj. destruct (mod_idx (S m) m j Hj) as [_ ->]. rewrite Em, Nat.eqb_refl. cbn [negb].
        now rewrite Bool.andb_false_r. }
    rewrite L. f_equal. apply for_ext. intros i s Hi. apply for_ext. intros j [ar idx] Hj.
    destruct (mod_idx (S m) i j Hj) as [-> ->]. rewrite Ec, Em.
    rewrite (proj2 (Nat.eqb_neq i m)) by lia. cbn [negb]. now rewrite Bool.andb_true_r. }
  now rewrite E.
Qed.

Lemma even_mod2 : forall n, Nat.eqb (n mod 2) 0 = Nat.even n.
Proof.
  intro n. destruct (Nat.Even_or_Odd n) as [[k ->]|[k ->]].
  - rewrite (Nat.mul_comm 2 k), Nat.mod_mul, Nat.even_mul by lia. now rewrite Bool.orb_true_r.
  - rewrite (Nat.add_comm _ 1), (Nat.mul_comm 2 k), Nat.mod_add, Nat.even_add, Nat.even_mul by lia. now rewrite Bool.orb_true_r.
Qed.
Lemma mulfact_sgn : forall m c, (if Nat.eqb (S m mod 2) 0
      then (if Nat.eqb ((S m * S m - S m + c) mod 2) 0 then -1 else 1)%R
      else (if Nat.eqb ((S m * S m - S m + c) mod 2) 0 then 1 else -1)%R) = re (sgn (m + c)).
Proof.
  intros m c. unfold sgn. rewrite !even_mod2.
  replace (S m * S m - S m + c)%nat with (S m * m + c)%nat by lia.
  rewrite Nat.even_add, Nat.even_mul, Nat.even_succ, <- Nat.negb_even, Nat.even_add.
  destruct (Nat.even m), (Nat.even c); cbn; lra.
Qed.

Lemma gram_reunit_n_ok : forall m U, (0 < m)%nat -> let n := S m in
  frame (n*n) (gram_reunit_n n U) U /\
  (indep m n (mx n U) -> SUn n (mx n (gram_reunit_n n U))) /\
  (SUn n (mx n U) -> meq n (mx n (gram_reunit_n n U)) (mx n U)).
Proof.
  intros m U Hm n. unfold gram_reunit_n.
  match goal with |- context[for_ (n-1) (gs_turn n) (?v0, U)] => set (v := v0) end.
  assert (Hv : forall i c, (i < n-1)%nat -> (c < n)%nat -> v i c = mx n U i c).
  { intros i c Hi Hc. unfold v.
    apply (for_ind (fun k (v : mat) => (i < k)%nat -> v i c = mx n U i c)); [intro; lia| |exact Hi].
    intros k w Hk Hw Hik. unfold set_row. destruct (Nat.eqb_spec i k) as [->|N]; [|apply Hw; lia].
    pose proof (fill1 n (fun j _ => U (j + n*k)%nat) (w k) c) as F. cbv beta in F. rewrite F.
    now rewrite (proj2 (Nat.ltb_lt c n)) by assumption. }
  assert (G : gs_inv n U (n-1) (for_ (n-1) (gs_turn n) (v, U))).
  { apply (for_ind (gs_inv n U)).
    - split; [|split; [|split; [|split; [|split]]]].
      + intros i c Hi Hc. apply Hv; lia.
      + intros; lia.
      + reflexivity.
      + intros x _; reflexivity.
      + intros _. split; [intros i j Hi; lia|intros; lia].
      + intros _ i c Hi Hc. now apply Hv.
    - intros i s Hi. now apply gs_turn_ok. }
  destruct (for_ (n-1) (gs_turn n) (v, U)) as [w U1]. destruct G as (_ & G2 & G3 & G4 & G5 & G6).
  replace (n-1)%nat with m in * by (unfold n; lia).
  set (P := fun q (V : arr) => (forall i c, (i < m)%nat -> (c < n)%nat -> mx n V i c = w i c) /\ frame (n*n) V U /\
    (forall c, (c < q)%nat -> mx n V m c = conj (cofactor n (mx n U1) m c))).
  match goal with |- context[for_ n ?b U1] => set (body := b); assert (K : P n (for_ n body U1)) end.
  { apply (for_ind P).
    - split; [intros; now apply G2|]. split; [exact G4|intros; lia].
    - intros c V Hc (P1 & P2 & P3). unfold body. cbv zeta. pose proof (mulfact_sgn m c) as MF. fold n in MF. rewrite MF. clear MF.
      assert (E : LU_det m (pack_bottom n V (n*n - n + c)) = mdet m (minor m c (mx n U1))).
      { rewrite LU_det_ok by assumption. apply mdet_ext. unfold n. rewrite pack_bottom_ok by assumption.
        intros i j Hi Hj. unfold minor. replace (skip m i) with i by (unfold skip; now rewrite (proj2 (Nat.ltb_lt i m)) by assumption).
        assert (skip c j < S m)%nat by now apply skip_lt. rewrite P1 by assumption. symmetry. now apply G2. }
      rewrite E. replace (n*n - n + c)%nat with (c + n*m)%nat by (unfold n; lia).
      split; [|split].
      + intros i c' Hi Hc'. unfold mx. rewrite upd_neq; [now apply P1|]. intro X. apply idx_inj in X; lia.
      + intros x Hx. rewrite upd_neq by (unfold n in *; nia). now apply P2.
      + intros c' Hc'. unfold mx at 1. destruct (Nat.eq_dec c' c) as [->|N].
        * rewrite upd_eq. f_equal. unfold cofactor. replace (n-1)%nat with m by (unfold n; lia). f_equal.
          unfold sgn. destruct (Nat.even (m + c)); [reflexivity|]. apply C_eq; cunfold; lra.
        * rewrite upd_neq; [apply P3; lia|]. intro X. apply idx_inj in X; unfold n in *; lia. }
  destruct K as (K1 & K2 & K3). set (r := for_ n body U1) in *.
  assert (Cof : forall c, (c < n)%nat -> mx n r m c = conj (cofactor n (mx n r) m c)).
  { intros c Hc. rewrite K3 by assumption. f_equal. unfold cofactor. f_equal. apply mdet_ext.
    intros i j Hi Hj. replace (n-1)%nat with m in Hi, Hj by (unfold n; lia). unfold minor.
    replace (skip m i) with i by (unfold skip; now rewrite (proj2 (Nat.ltb_lt i m)) by assumption).
    assert (skip c j < n)%nat by (unfold n; now apply skip_lt). rewrite K1, G2 by assumption. reflexivity. }
  split; [exact K2|]. split.
  - intro I. destruct (G5 I) as [O _]. apply complete_row; [|exact Cof].
    intros i j Hi Hj. rewrite (dot_ext (S m) _ _ (w i) (w j)) by (intros; now apply K1). now apply O.
  - intro SU. assert (O : orthonormal m n (mx n U)) by (apply SUn_orthonormal; [assumption|unfold n; lia]). specialize (G6 O).
    assert (E : forall i c, (i < m)%nat -> (c < n)%nat -> mx n r i c = mx n U i c).
    { intros i c Hi Hc. rewrite K1 by assumption. now apply G6. }
    intros i c Hi Hc. destruct (Nat.eq_dec i m) as [->|N]; [|apply E; unfold n in *; lia].
    rewrite Cof, (SUn_last_row m (mx n U)) by assumption. f_equal. unfold cofactor. fold n. f_equal. apply mdet_ext.
    intros a b Ha Hb. replace (n-1)%nat with m in Ha, Hb by (unfold n; lia). unfold minor.
    replace (skip m a) with a by (unfold skip; now rewrite (proj2 (Nat.ltb_lt a m)) by assumption).
    apply E; [assumption|unfold n; now apply skip_lt].
Qed.

(** * SU(3) and SU(2): the columns *)
Definition rnorm (n : nat) (u : nat -> C) : R := rsum n (fun c => norm2 (u c)).
Definition nrm (n : nat) (u : nat -> C) : nat -> C := fun c => u c * RtoC (1 / sqrt (rnorm n u)).
Lemma nrm_unit : forall n a, dot n a a <> C0 -> dot n (nrm n a) (nrm n a) = C1.
Proof.
  intros n a N. rewrite <- (vect_norm2_unit n a N). apply dot_ext; intros c Hc; now rewrite vect_norm2_ok.
Qed.
Lemma nrm_id : forall n a c, dot n a a = C1 -> (c < n)%nat -> nrm n a c = a c.
Proof. intros. rewrite <- (vect_norm2_id n a c) by assumption. now rewrite vect_norm2_ok. Qed.

Definition col (n : nat) (U : arr) (j : nat) : nat -> C := fun i => mx n U i j.
Definition second (U : arr) : nat -> C :=
  let a := nrm 3 (col 3 U 0) in let p := dot 3 (col 3 U 1) a in fun c => col 3 U 1 c - p * a c.

Ltac peel H :=
  match type of H with ?r = (let x := ?e in @?b x) =>
    let v := fresh x in let E := fresh "E" v in
    pose (v := e); change (r = b v) in H; cbv beta in H;
    assert (E : v = e) by reflexivity; clearbody v end.

Lemma gram_3_form : forall U, let a := nrm 3 (col 3 U 0) in let b := nrm 3 (second U) in
  frame 9 (gram_reunit_3 U) U /\ (forall c, (c < 3)%nat -> mx 3 (gram_reunit_3 U) c 0 = a c) /\
  (forall c, (c < 3)%nat -> mx 3 (gram_reunit_3 U) c 1 = b c) /\
  (forall c, (c < 3)%nat -> mx 3 (gram_reunit_3 U) c 2 = conj (cofactor 3 (mx 3 (gram_reunit_3 U)) c 2)).
Proof.
  intros U a b.
  assert (A : forall c, a c = ((re (col 3 U 0 c) * (1 / sqrt (rnorm 3 (col 3 U 0))))%R, (im (col 3 U 0 c) * (1 / sqrt (rnorm 3 (col 3 U 0))))%R)).
  { intro c. unfold a, nrm. apply C_eq; cunfold; ring. }
  assert (B : forall c, b c = ((re (second U c) * (1 / sqrt (rnorm 3 (second U))))%R, (im (second U c) * (1 / sqrt (rnorm 3 (second U))))%R)).
  { intro c. unfold b, nrm. apply C_eq; cunfold; ring. }
  assert (S2 : second U = fun c => col 3 U 1 c - dot 3 (col 3 U 1) a * a c) by reflexivity.
  set (r := gram_reunit_3 U).
  assert (R : exists x y z : nat -> C, r = upd (upd (upd (upd (upd (upd (upd (upd (upd U 0 (x 0%nat)) 1 (y 0%nat)) 2 (z 0%nat)) 3 (x 1%nat)) 4 (y 1%nat)) 5 (z 1%nat)) 6 (x 2%nat)) 7 (y 2%nat)) 8 (z 2%nat)
    /\ (forall c, (c < 3)%nat -> x c = a c) /\ (forall c, (c < 3)%nat -> y c = b c)
    /\ z 0%nat = conj (x 1%nat * y 2%nat - x 2%nat * y 1%nat) /\ z 1%nat = conj (x 2%nat * y 0%nat - x 0%nat * y 2%nat)
    /\ z 2%nat = conj (x 0%nat * y 1%nat - x 1%nat * y 0%nat)).
  { assert (H : r = gram_reunit_3 U) by reflexivity. clearbody r. cbv beta delta [gram_reunit_3] in H.
    set (t := fun p q s : C => fun i : nat => match i with 0%nat => p | 1%nat => q | _ => s end).
    do 16 peel H.
    assert (N1 : norm2 = (1 / sqrt (rnorm 3 (col 3 U 0)))%R).
    { rewrite Enorm2. do 2 f_equal. subst. unfold rnorm, Cplx.norm2, col, mx. cbn [rsum Nat.add Nat.mul]. ring. }
    clear Enorm Enorm0 Enorm1 Enorm2. do 6 peel H.
    assert (A0 : a 0%nat = (v00R0, v00I0)) by (rewrite A; subst; reflexivity).
    assert (A1 : a 1%nat = (v01R0, v01I0)) by (rewrite A; subst; reflexivity).
    assert (A2 : a 2%nat = (v02R0, v02I0)) by (rewrite A; subst; reflexivity).
    clear A Ev00R0 Ev00I0 Ev01R0 Ev01I0 Ev02R0 Ev02I0 N1. do 6 peel H.
    assert (D : dot 3 (col 3 U 1) a = (cR1, cI1)).
    { unfold dot, col, mx. cbn [csum Nat.add Nat.mul]. rewrite A0, A1, A2. subst. apply C_eq; cunfold; ring. }
    clear EcR EcR0 EcR1 EcI EcI0 EcI1. do 6 peel H.
    assert (S0 : second U 0%nat = (v10R0, v10I0)).
    { rewrite S2, D, A0. unfold col, mx. cbn [Nat.add Nat.mul]. subst. apply C_eq; cunfold; ring. }
    assert (S1 : second U 1%nat = (v11R0, v11I0)).
    { rewrite S2, D, A1. unfold col, mx. cbn [Nat.add Nat.mul]. subst. apply C_eq; cunfold; ring. }
    assert (S3 : second U 2%nat = (v12R0, v12I0)).
    { rewrite S2, D, A2. unfold col, mx. cbn [Nat.add Nat.mul]. subst. apply C_eq; cunfold; ring. }
    clear Ev10R0 Ev10I0 Ev11R0 Ev11I0 Ev12R0 Ev12I0 S2 D. do 4 peel H.
    assert (N2 : norm6 = (1 / sqrt (rnorm 3 (second U)))%R).
    { rewrite Enorm6. do 2 f_equal. unfold rnorm, Cplx.norm2. cbn [rsum]. rewrite S0, S1, S3. subst. cunfold. ring. }
    clear Enorm3 Enorm4 Enorm5 Enorm6. do 6 peel H.
    assert (B0 : b 0%nat = (v10R1, v10I1)) by (rewrite B, S0; subst; reflexivity).
    assert (B1 : b 1%nat = (v11R1, v11I1)) by (rewrite B, S1; subst; reflexivity).
    assert (B2 : b 2%nat = (v12R1, v12I1)) by (rewrite B, S3; subst; reflexivity).
    clear Ev10R1 Ev10I1 Ev11R1 Ev11I1 Ev12R1 Ev12I1. do 12 peel H.
    exists (t (v00R0, v00I0) (v01R0, v01I0) (v02R0, v02I0)), (t (v10R1, v10I1) (v11R1, v11I1) (v12R1, v12I1)),
      (t (v20R0, v20I0) (v21R0, v21I0) (v22R0, v22I0)).
    split; [exact H|].
    split; [intros [|[|[|c]]] Hc; try lia; symmetry; assumption|].
    split; [intros [|[|[|c]]] Hc; try lia; symmetry; assumption|].
    clear - Ev20R Ev20R0 Ev20I Ev20I0 Ev21R Ev21R0 Ev21I Ev21I0 Ev22R Ev22R0 Ev22I Ev22I0.
    cbn [t]. split; [|split]; subst; apply C_eq; cunfold; ring. }
  destruct R as (x & y & z & R & X & Y & Z0 & Z1 & Z2).
  split; [rename x into x_; rewrite R; framed|].
  assert (M : forall c, (c < 3)%nat -> mx 3 r c 0 = x c /\ mx 3 r c 1 = y c /\ mx 3 r c 2 = z c).
  { rewrite R. intros [|[|[|c]]] Hc; try lia; repeat split. }
  split; [intros c Hc; destruct (M c Hc) as (-> & _); now apply X|].
  split; [intros c Hc; destruct (M c Hc) as (_ & -> & _); now apply Y|].
  destruct (M 0%nat ltac:(lia)) as (M00 & M01 & M02). destruct (M 1%nat ltac:(lia)) as (M10 & M11 & M12).
  destruct (M 2%nat ltac:(lia)) as (M20 & M21 & M22).
  intros [|[|[|c]]] Hc; try lia; unfold cofactor; cbn [Nat.sub Nat.add]; rewrite mdet_2;
    unfold det2, minor, skip, sgn; cbn [Nat.ltb Nat.leb Nat.even];
    rewrite ?M00, ?M01, ?M02, ?M10, ?M11, ?M12, ?M20, ?M21, ?M22; [rewrite Z0|rewrite Z1|rewrite Z2]; f_equal; ring.
Qed.

Lemma nrm_indep : forall n (u : nat -> C), (exists c, (c < n)%nat /\ u c <> C0) -> dot n u u <> C0.
Proof. intros n u (c & Hc & N) E. apply N. now apply (dot_self_0 n u). Qed.

Lemma gram_reunit_3_ok : forall U,
  frame 9 (gram_reunit_3 U) U /\
  (indep 2 3 (tr_ (mx 3 U)) -> SUn 3 (mx 3 (gram_reunit_3 U))) /\
  (SUn 3 (mx 3 U) -> meq 3 (mx 3 (gram_reunit_3 U)) (mx 3 U)).
Proof.
  intro U. destruct (gram_3_form U) as (F & A & B & Z). cbv zeta in *. set (r := gram_reunit_3 U) in *.
  set (a := nrm 3 (col 3 U 0)) in *. set (b := nrm 3 (second U)) in *.
  split; [exact F|]. split.
  - intro I.
    assert (N1 : dot 3 (col 3 U 0) (col 3 U 0) <> C0).
    { intro E. apply C1_neq_0. apply (I (fun j => if Nat.eqb j 0 then C1 else C0) (fun c Hc => ltac:(
        cbn [csum Nat.eqb]; unfold tr_; change (mx 3 U c 0) with (col 3 U 0 c); rewrite (dot_self_0 3 _ E c Hc); ring)) 0%nat ltac:(lia)). }
    set (p := dot 3 (col 3 U 1) a) in *. set (k := RtoC (1 / sqrt (rnorm 3 (col 3 U 0)))).
    assert (Sp : forall c, second U c = col 3 U 1 c - p * (col 3 U 0 c * k)) by reflexivity.
    assert (N2 : dot 3 (second U) (second U) <> C0).
    { intro E. apply C1_neq_0. apply (I (fun j => if Nat.eqb j 0 then - p * k else C1) (fun c Hc => ltac:(
        cbn [csum Nat.eqb]; unfold tr_; etransitivity; [|exact (dot_self_0 3 _ E c Hc)];
        rewrite Sp; unfold col; ring)) 1%nat ltac:(lia)). }
    assert (Da : dot 3 a a = C1) by now apply nrm_unit. assert (Db : dot 3 b b = C1) by now apply nrm_unit.
    assert (Dba : dot 3 b a = C0).
    { unfold b, nrm. set (k2 := RtoC (1 / sqrt (rnorm 3 (second U)))).
      rewrite (dot_ext 3 _ a (fun c => second U c * k2) (fun c => a c * C1)) by (intros; ring).
      rewrite dot_scale. unfold second. fold a. cbv zeta. rewrite dot_sub_l, Da. fold p. unfold p. ring. }
    assert (S : SUn 3 (tr_ (mx 3 r))).
    { apply complete_row.
      - intros i j Hi Hj. unfold tr_.
        destruct i as [|[|i]], j as [|[|j]]; try lia; unfold mid; cbn [Nat.eqb].
        + rewrite (dot_ext 3 _ _ a a) by assumption. exact Da.
        + rewrite (dot_ext 3 _ _ a b) by assumption. rewrite dot_sym, Dba. apply conj_0.
        + rewrite (dot_ext 3 _ _ b a) by assumption. exact Dba.
        + rewrite (dot_ext 3 _ _ b b) by assumption. exact Db.
      - intros c Hc. rewrite cofactor_tr. unfold tr_. now apply Z. }
    apply SUn_tr in S. exact S.
  - intro SU. assert (ST : SUn 3 (tr_ (mx 3 U))) by now apply SUn_tr.
    assert (O : orthonormal 2 3 (tr_ (mx 3 U))) by (apply SUn_orthonormal; [assumption|lia]).
    assert (O00 : dot 3 (col 3 U 0) (col 3 U 0) = C1) by apply (O 0%nat 0%nat ltac:(lia) ltac:(lia)).
    assert (O11 : dot 3 (col 3 U 1) (col 3 U 1) = C1) by apply (O 1%nat 1%nat ltac:(lia) ltac:(lia)).
    assert (O10 : dot 3 (col 3 U 1) (col 3 U 0) = C0) by apply (O 1%nat 0%nat ltac:(lia) ltac:(lia)).
    assert (Ea : forall c, (c < 3)%nat -> a c = col 3 U 0 c) by (intros; now apply nrm_id).
    assert (Es : forall c, (c < 3)%nat -> second U c = col 3 U 1 c).
    { intros c Hc. unfold second. fold a. rewrite (dot_ext 3 _ a (col 3 U 1) (col 3 U 0)) by auto. rewrite O10. ring. }
    assert (Eb : forall c, (c < 3)%nat -> b c = col 3 U 1 c).
    { intros c Hc. rewrite <- Es by assumption. apply nrm_id; [|assumption].
      rewrite (dot_ext 3 _ _ (col 3 U 1) (col 3 U 1)) by assumption. exact O11. }
    assert (E : forall c j, (c < 3)%nat -> (j < 2)%nat -> mx 3 r c j = mx 3 U c j).
    { intros c [|[|j]] Hc Hj; try lia; [rewrite A by assumption; now apply Ea|rewrite B by assumption; now apply Eb]. }
    intros c j Hc Hj. destruct j as [|[|[|j]]]; try lia; try (apply E; lia).
    rewrite Z by assumption. pose proof (SUn_last_row 2 _ c ST Hc) as L. unfold tr_ at 1 in L. rewrite L. f_equal.
    rewrite cofactor_tr. unfold cofactor. f_equal. apply mdet_ext. intros x y Hx Hy. unfold minor.
    apply E; [unfold skip; destruct (Nat.ltb x c); cbn [Nat.sub] in Hx; lia|unfold skip; cbn [Nat.sub] in Hy; destruct (Nat.ltb_spec y 2); lia].
Qed.

Lemma gram_reunit_2_ok : forall U,
  frame 4 (gram_reunit_2 U) U /\
  (indep 1 2 (tr_ (mx 2 U)) -> SUn 2 (mx 2 (gram_reunit_2 U))) /\
  (SUn 2 (mx 2 U) -> meq 2 (mx 2 (gram_reunit_2 U)) (mx 2 U)).
Proof.
  intro U. split; [framed2|].
  set (a := nrm 2 (col 2 U 0)).
  assert (N : rnorm 2 (col 2 U 0) = (re (U 0%nat) * re (U 0%nat) + im (U 0%nat) * im (U 0%nat) + re (U 2%nat) * re (U 2%nat) + im (U 2%nat) * im (U 2%nat))%R).
  { unfold rnorm, norm2, col, mx. cbn [rsum Nat.add Nat.mul]. ring. }
  assert (A : forall c, (c < 2)%nat -> mx 2 (gram_reunit_2 U) c 0 = a c).
  { intros [|[|c]] Hc; try lia; unfold a, nrm; rewrite N; unfold gram_reunit_2, mx, col, upd; cbn [Nat.eqb Nat.add Nat.mul];
      match goal with |- context[sqrt ?x] => generalize (1 / sqrt x)%R end; intro k; lazy beta iota zeta delta [mx col upd Nat.eqb Nat.add Nat.mul]; destruct (U 0%nat), (U 2%nat); cring. }
  assert (Z : forall c, (c < 2)%nat -> mx 2 (gram_reunit_2 U) c 1 = conj (cofactor 2 (mx 2 (gram_reunit_2 U)) c 1)).
  { intros [|[|c]] Hc; try lia; unfold cofactor; cbn [Nat.sub mdet csum Nat.add]; unfold minor, skip, sgn; cbn [Nat.ltb Nat.leb Nat.even];
      unfold gram_reunit_2, mx, upd; cbn [Nat.eqb Nat.add Nat.mul]; apply C_eq; cunfold; ring. }
  set (r := gram_reunit_2 U) in *.
  split.
  - intro I.
    assert (N1 : dot 2 (col 2 U 0) (col 2 U 0) <> C0).
    { intro E. apply C1_neq_0. apply (I (fun j => C1) (fun c Hc => ltac:(
        cbn [csum Nat.eqb]; unfold tr_; change (mx 2 U c 0) with (col 2 U 0 c); rewrite (dot_self_0 2 _ E c Hc); ring)) 0%nat ltac:(lia)). }
    assert (Da : dot 2 a a = C1) by now apply nrm_unit.
    assert (S : SUn 2 (tr_ (mx 2 r))).
    { apply complete_row.
      - intros i j Hi Hj. unfold tr_. replace i with 0%nat by lia. replace j with 0%nat by lia. unfold mid; cbn [Nat.eqb].
        rewrite (dot_ext 2 _ _ a a) by assumption. exact Da.
      - intros c Hc. rewrite cofactor_tr. unfold tr_. now apply Z. }
    apply SUn_tr in S. exact S.
  - intro SU. assert (ST : SUn 2 (tr_ (mx 2 U))) by now apply SUn_tr.
    assert (O : orthonormal 1 2 (tr_ (mx 2 U))) by (apply SUn_orthonormal; [assumption|lia]).
    assert (O00 : dot 2 (col 2 U 0) (col 2 U 0) = C1) by apply (O 0%nat 0%nat ltac:(lia) ltac:(lia)).
    assert (E : forall c, (c < 2)%nat -> mx 2 r c 0 = mx 2 U c 0%nat).
    { intros c Hc. rewrite A by assumption. now apply (nrm_id 2 (col 2 U 0) c). }
    intros c j Hc Hj. destruct j as [|[|j]]; try lia; [now apply E|].
    rewrite Z by assumption. pose proof (SUn_last_row 1 _ c ST Hc) as L. unfold tr_ at 1 in L. rewrite L. f_equal.
    rewrite cofactor_tr. unfold cofactor. f_equal. apply mdet_ext. intros x y Hx Hy. unfold minor. cbn [Nat.sub] in *.
    replace (skip 1 y) with 0%nat by (replace y with 0%nat by lia; reflexivity).
    apply E. unfold skip; destruct (Nat.ltb_spec x c); lia.
Qed.

(** the vectors the reunitarisation starts from: the columns for SU(2) and SU(3), else the rows *)
Definition leading (n : nat) (U : mat) : Prop :=
  match n with 2 => indep 1 2 (tr_ U) | 3 => indep 2 3 (tr_ U) | _ => indep (n-1) n U end.
Lemma gram_reunit_ok : forall n U, (2 <= n)%nat ->
  frame (n*n) (gram_reunit n U) U /\
  (leading n (mx n U) -> SUn n (mx n (gram_reunit n U))) /\
  (SUn n (mx n U) -> meq n (mx n (gram_reunit n U)) (mx n U)).
Proof.
  intros n U Hn. destruct n as [|[|[|[|n]]]]; try lia.
  - apply gram_reunit_2_ok.
  - apply gram_reunit_3_ok.
  - apply (gram_reunit_n_ok (S (S (S n)))); lia.
Qed.
