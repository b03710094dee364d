(** Functions of a matrix that is a combination of orthogonal hermitian projections. *)
From Coq Require Import PeanoNat Reals Lra Lia Factorial.
From Verif Require Import CMat MatSpec ProjModel ExpSpec.
Local Open Scope C_scope.

(** sum over a < m of g a * P a *)
Definition fcalc (m : nat) (P : nat -> mat) (g : nat -> C) : mat := fun i j => csum m (fun a => g a * P a i j).
(** m orthogonal hermitian projections that add up to 1 *)
Definition resolution (n m : nat) (P : nat -> mat) : Prop :=
  (forall a b, (a < m)%nat -> (b < m)%nat -> meq n (mmul n (P a) (P b)) (if Nat.eqb a b then P a else mzero)) /\
  (forall a, (a < m)%nat -> hermitian n (P a)) /\
  meq n (fcalc m P (fun _ => C1)) mid.

Lemma fcalc_ext : forall n m P g h, (forall a, (a < m)%nat -> g a = h a) -> meq n (fcalc m P g) (fcalc m P h).
Proof. intros n m P g h H i j _ _. apply csum_ext. intros a Ha. now rewrite H. Qed.

Lemma csum_pick : forall m a (f : nat -> C), (a < m)%nat -> csum m (fun b => if Nat.eqb a b then f b else C0) = f a.
Proof.
  intros m a f Ha. rewrite <- (csum_delta_l m a f Ha). apply csum_ext. intros b _. unfold mid.
  destruct (Nat.eqb a b); ring.
Qed.

Lemma fcalc_mul : forall n m P g h, resolution n m P ->
  meq n (mmul n (fcalc m P g) (fcalc m P h)) (fcalc m P (fun a => g a * h a)).
Proof.
  intros n m P g h (O & _ & _) i j Hi Hj. unfold mmul, fcalc.
  transitivity (csum n (fun k => csum m (fun a => csum m (fun b => g a * h b * (P a i k * P b k j))))).
  { apply csum_ext. intros k _. rewrite <- csum_mul_r. apply csum_ext. intros a _.
    rewrite <- csum_mul_l. apply csum_ext. intros b _. ring. }
  rewrite csum_swap. apply csum_ext. intros a Ha. rewrite csum_swap.
  transitivity (csum m (fun b => if Nat.eqb a b then g a * h b * P a i j else C0)).
  { apply csum_ext. intros b Hb. rewrite csum_mul_l.
    change (csum n (fun k => P a i k * P b k j)) with (mmul n (P a) (P b) i j). rewrite (O a b Ha Hb i j Hi Hj).
    destruct (Nat.eqb a b); unfold mzero; ring. }
  rewrite csum_pick by assumption. ring.
Qed.

Lemma fcalc_dag : forall n m P g, resolution n m P -> meq n (dag (fcalc m P g)) (fcalc m P (fun a => conj (g a))).
Proof.
  intros n m P g (_ & H & _) i j Hi Hj. unfold dag, fcalc. rewrite csum_conj. apply csum_ext. intros a Ha.
  rewrite conj_mul. f_equal. now apply (H a Ha i j).
Qed.

Lemma fcalc_1 : forall n m P g, resolution n m P -> (forall a, (a < m)%nat -> g a = C1) -> meq n (fcalc m P g) mid.
Proof. intros n m P g (_ & _ & H) E. rewrite (fcalc_ext n m P g (fun _ => C1) E). exact H. Qed.

Lemma fcalc_tr : forall n m P g, mtr n (fcalc m P g) = csum m (fun a => g a * mtr n (P a)).
Proof.
  intros n m P g. unfold mtr, fcalc. rewrite csum_swap. apply csum_ext. intros a _. apply csum_mul_l.
Qed.

Lemma fcalc_unitary : forall n m P g, resolution n m P -> (forall a, (a < m)%nat -> g a * conj (g a) = C1) ->
  unitary n (fcalc m P g).
Proof.
  intros n m P g R H. split; rewrite (fcalc_dag n m P g R), (fcalc_mul n m P _ _ R); apply fcalc_1; auto.
  intros a Ha. rewrite <- (H a Ha). ring.
Qed.

Fixpoint Cpow (z : C) (k : nat) : C := match k with O => C1 | S k => Cpow z k * z end.
Lemma mpow_ext : forall n A B k, meq n A B -> meq n (mpow n A k) (mpow n B k).
Proof. intros n A B k E. induction k as [|k IH]; cbn; [reflexivity|]. now rewrite IH, E. Qed.
Lemma fcalc_pow : forall n m P g k, resolution n m P ->
  meq n (mpow n (fcalc m P g) k) (fcalc m P (fun a => Cpow (g a) k)).
Proof.
  intros n m P g k R. induction k as [|k IH]; cbn [mpow Cpow].
  - symmetry. now apply fcalc_1.
  - rewrite IH. apply fcalc_mul. exact R.
Qed.

(** convergence *)
Lemma Ccv_const : forall z, Ccv (fun _ => z) z.
Proof.
  intros z. split; intros e He; exists 0%nat; intros; unfold R_dist; rewrite Rminus_diag_eq, Rabs_R0; auto.
Qed.
Lemma Ccv_ext : forall u v l, (forall k, u k = v k) -> Ccv u l -> Ccv v l.
Proof.
  intros u v l E [A B]. split; intros e He; [destruct (A e He) as [N H]|destruct (B e He) as [N H]];
    exists N; intros k Hk; rewrite <- E; now apply H.
Qed.
Lemma Ccv_add : forall u v k l, Ccv u k -> Ccv v l -> Ccv (fun i => u i + v i) (k + l).
Proof. intros u v k l [A B] [D E]. split; apply CV_plus; assumption. Qed.
Lemma Ccv_mul_r : forall u l z, Ccv u l -> Ccv (fun i => u i * z) (l * z).
Proof.
  intros u l z [A B].
  assert (K : forall x, Un_cv (fun _ => x) x).
  { intros x e He. exists 0%nat. intros. unfold R_dist. rewrite Rminus_diag_eq, Rabs_R0; auto. }
  split; cbn.
  - apply CV_minus; apply CV_mult; auto.
  - apply CV_plus; apply CV_mult; auto.
Qed.
Lemma Ccv_sum : forall m (u : nat -> nat -> C) l, (forall a, (a < m)%nat -> Ccv (fun N => u N a) (l a)) ->
  Ccv (fun N => csum m (u N)) (csum m l).
Proof.
  induction m as [|m IH]; intros u l H; cbn [csum].
  - apply Ccv_const.
  - apply Ccv_add; auto.
Qed.
Lemma Ccv_unique : forall u k l, Ccv u k -> Ccv u l -> k = l.
Proof. intros u k l [A B] [D E]. apply C_eq; eapply UL_sequence; eauto. Qed.
Lemma is_exp_ext : forall n A B E F, meq n A B -> meq n E F -> is_exp n A E -> is_exp n B F.
Proof.
  intros n A B E F EA EE H i j Hi Hj. rewrite <- (EE i j Hi Hj).
  apply (Ccv_ext (fun N => csum (S N) (fun k => mpow n A k i j * RtoC (/ INR (fact k))))); [|now apply H].
  intro N. apply csum_ext. intros k _. f_equal. now apply mpow_ext.
Qed.
Lemma is_exp_unique : forall n A E F, is_exp n A E -> is_exp n A F -> meq n E F.
Proof. intros n A E F HE HF i j Hi Hj. exact (Ccv_unique _ _ _ (HE i j Hi Hj) (HF i j Hi Hj)). Qed.

(** the series of e^(i x) *)
Lemma parity_cv : forall (u : nat -> R) l, Un_cv (fun m => u (2*m)%nat) l -> (forall m, u (S (2*m)) = u (2*m)%nat) -> Un_cv u l.
Proof.
  intros u l H E e He. destruct (H e He) as [N HN]. exists (2*N)%nat. intros k Hk.
  destruct (Nat.Even_or_Odd k) as [[m Em]|[m Em]]; subst k.
  - apply HN. lia.
  - rewrite Nat.add_1_r, E. apply HN. lia.
Qed.
Lemma parity_cv' : forall (u : nat -> R) l, Un_cv (fun m => u (S (2*m)))%nat l -> (forall m, u (2*S m)%nat = u (S (2*m))) -> Un_cv u l.
Proof.
  intros u l H E e He. destruct (H e He) as [N HN]. exists (2*N+2)%nat. intros k Hk.
  destruct (Nat.Even_or_Odd k) as [[m Em]|[m Em]]; subst k.
  - destruct m as [|m]; [lia|]. rewrite E. apply HN. lia.
  - rewrite Nat.add_1_r. apply HN. lia.
Qed.
Lemma Cpow_even : forall x m, Cpow (Ci * RtoC x) (2*m) = RtoC ((-1)^m * x^(2*m)).
Proof.
  intros x m. induction m as [|m IH].
  - change (C1 = RtoC (1 * 1)). unfold C1, RtoC. f_equal. ring.
  - replace (2 * S m)%nat with (S (S (2*m))) by lia. cbn [Cpow]. rewrite IH.
    cbn [pow]. apply C_eq; cunfold; ring.
Qed.
Lemma Cpow_odd : forall x m, Cpow (Ci * RtoC x) (S (2*m)) = Ci * RtoC ((-1)^m * x^(S (2*m))).
Proof. intros x m. cbn [Cpow pow]. rewrite Cpow_even. apply C_eq; cunfold; ring. Qed.
Definition eterm (x : R) (k : nat) : C := Cpow (Ci * RtoC x) k * RtoC (/ INR (fact k)).
Lemma eterm_even : forall x m, eterm x (2*m) = RtoC (cos_n m * (x*x)^m).
Proof.
  intros x m. unfold eterm. rewrite Cpow_even, <- RtoC_mul. f_equal. unfold cos_n.
  rewrite pow_mult. replace (x^2)%R with (x*x)%R by ring. unfold Rdiv. ring.
Qed.
Lemma eterm_odd : forall x m, eterm x (S (2*m)) = Ci * RtoC (x * (sin_n m * (x*x)^m)).
Proof.
  intros x m. unfold eterm. rewrite Cpow_odd. unfold sin_n. rewrite Nat.add_1_r.
  cbn [pow]. rewrite pow_mult. replace (x^2)%R with (x*x)%R by ring. apply C_eq; cunfold; unfold Rdiv; ring.
Qed.
Lemma esum_even : forall x m, csum (S (2*m)) (eterm x) =
  (sum_f_R0 (fun i => cos_n i * (x*x)^i)%R m, match m with O => 0%R | S m' => x * sum_f_R0 (fun i => sin_n i * (x*x)^i)%R m' end)%R.
Proof.
  intros x m. induction m as [|m IH].
  - change (csum (S (2*0)) (eterm x)) with (C0 + eterm x (2*0)). rewrite eterm_even.
    cbn [sum_f_R0]. apply C_eq; cunfold; ring.
  - replace (S (2 * S m)) with (S (S (S (2*m)))) by lia. cbn [csum]. cbn [csum] in IH. rewrite IH.
    rewrite eterm_odd. replace (S (S (2*m))) with (2 * S m)%nat by lia. rewrite eterm_even.
    destruct m as [|m]; cbn [sum_f_R0]; apply C_eq; cunfold; ring.
Qed.
Lemma esum_odd : forall x m, csum (S (S (2*m))) (eterm x) =
  (sum_f_R0 (fun i => cos_n i * (x*x)^i)%R m, x * sum_f_R0 (fun i => sin_n i * (x*x)^i) m)%R.
Proof.
  intros x m. change (csum (S (S (2*m))) (eterm x)) with (csum (S (2*m)) (eterm x) + eterm x (S (2*m))).
  rewrite esum_even, eterm_odd. destruct m as [|m]; cbn [sum_f_R0]; apply C_eq; cunfold; ring.
Qed.
Lemma cos_series : forall x, Un_cv (sum_f_R0 (fun i => cos_n i * (x*x)^i)%R) (cos x).
Proof.
  intros x. unfold cos. destruct (exist_cos (Rsqr x)) as [l H]. exact H.
Qed.
Lemma sin_series : forall x, Un_cv (fun m => x * sum_f_R0 (fun i => sin_n i * (x*x)^i) m)%R (sin x).
Proof.
  intros x. unfold sin. destruct (exist_sin (Rsqr x)) as [l H].
  apply (CV_mult (fun _ => x)); [|exact H].
  intros e He. exists 0%nat. intros. unfold R_dist. rewrite Rminus_diag_eq, Rabs_R0; auto.
Qed.
Lemma esum_cv : forall x, Ccv (fun N => csum (S N) (eterm x)) (Cexpi x).
Proof.
  intros x. unfold Cexpi. split; cbn [re im fst snd].
  - apply parity_cv.
    + eapply Un_cv_ext; [|apply cos_series]. intros m. cbv beta. now rewrite esum_even.
    + intros m. now rewrite esum_even, esum_odd.
  - apply parity_cv'.
    + eapply Un_cv_ext; [|apply sin_series]. intros m. cbv beta. now rewrite esum_odd.
    + intros m. now rewrite esum_even, esum_odd.
Qed.

(** e^(iQ) for Q = sum of l a * P a *)
Lemma fcalc_exp : forall n m P (l : nat -> R), resolution n m P ->
  is_exp n (mscale Ci (fcalc m P (fun a => RtoC (l a)))) (fcalc m P (fun a => Cexpi (l a))).
Proof.
  intros n m P l R.
  assert (E : meq n (fcalc m P (fun a => Ci * RtoC (l a))) (mscale Ci (fcalc m P (fun a => RtoC (l a))))).
  { intros i j _ _. unfold fcalc, mscale. rewrite <- csum_mul_l. apply csum_ext. intros a _. ring. }
  eapply is_exp_ext; [exact E|reflexivity|].
  intros i j Hi Hj. unfold fcalc at 2.
  apply (Ccv_ext (fun N => csum m (fun a => csum (S N) (eterm (l a)) * P a i j))).
  - intros N. transitivity (csum (S N) (fun k => csum m (fun a => eterm (l a) k * P a i j))).
    + rewrite csum_swap. apply csum_ext. intros a _. now rewrite csum_mul_r.
    + apply csum_ext. intros k _. rewrite (fcalc_pow n m P _ k R i j Hi Hj). unfold fcalc, eterm.
      rewrite <- csum_mul_r. apply csum_ext. intros a _. ring.
  - apply Ccv_sum. intros a _. apply Ccv_mul_r. apply esum_cv.
Qed.

Lemma Cexpi_conj : forall x, Cexpi x * conj (Cexpi x) = C1.
Proof. intros x. unfold Cexpi. apply C_eq; cunfold; [|ring]. pose proof (sin2_cos2 x). unfold Rsqr in H. lra. Qed.
Lemma Cexpi_add : forall x y, Cexpi x * Cexpi y = Cexpi (x + y).
Proof. intros x y. unfold Cexpi. rewrite cos_plus, sin_plus. apply C_eq; cunfold; ring. Qed.
Lemma Cexpi_0 : Cexpi 0 = C1.
Proof. unfold Cexpi. now rewrite cos_0, sin_0. Qed.
Lemma Cexpi_opp : forall x, Cexpi (- x) = conj (Cexpi x).
Proof. intros x. unfold Cexpi. rewrite cos_neg, sin_neg. reflexivity. Qed.

(** a bound on the coefficients bounds the entries *)
Lemma re_csum : forall n f, (forall i, (i < n)%nat -> 0 <= re (f i))%R -> (0 <= re (csum n f))%R.
Proof.
  induction n as [|n IH]; intros f H; cbn [csum]; [cbn; lra|].
  pose proof (H n ltac:(lia)). pose proof (IH f ltac:(intros; apply H; lia)). cbn. lra.
Qed.
Lemma re_csum_le : forall n f g, (forall i, (i < n)%nat -> re (f i) <= re (g i))%R -> (re (csum n f) <= re (csum n g))%R.
Proof.
  induction n as [|n IH]; intros f g H; cbn [csum]; [cbn; lra|].
  pose proof (H n ltac:(lia)). pose proof (IH f g ltac:(intros; apply H; lia)). cbn. lra.
Qed.
Lemma re_csum_one : forall n f j, (j < n)%nat -> (forall i, (i < n)%nat -> 0 <= re (f i))%R -> (re (f j) <= re (csum n f))%R.
Proof.
  induction n as [|n IH]; intros f j Hj H; [lia|]. cbn [csum].
  pose proof (H n ltac:(lia)). destruct (Nat.eq_dec j n) as [->|].
  - pose proof (re_csum n f ltac:(intros; apply H; lia)). cbn. lra.
  - pose proof (IH f j ltac:(lia) ltac:(intros; apply H; lia)). cbn. lra.
Qed.
Lemma row_norm : forall n A i j, (j < n)%nat -> (norm2 (A i j) <= re (mmul n A (dag A) i i))%R.
Proof.
  intros n A i j Hj. unfold mmul, dag.
  replace (norm2 (A i j)) with (re (A i j * conj (A i j))) by (rewrite mul_conj; reflexivity).
  apply (re_csum_one n (fun k => A i k * conj (A i k)) j Hj).
  intros k _. rewrite mul_conj. apply norm2_nonneg.
Qed.
Lemma proj_diag : forall n m P a i, resolution n m P -> (a < m)%nat -> (i < n)%nat -> (0 <= re (P a i i))%R.
Proof.
  intros n m P a i (O & H & _) Ha Hi.
  pose proof (O a a Ha Ha i i Hi Hi) as E. rewrite Nat.eqb_refl in E. rewrite <- E.
  unfold mmul. apply re_csum. intros k Hk. rewrite <- (H a Ha k i Hk Hi). unfold dag. rewrite mul_conj. apply norm2_nonneg.
Qed.
Lemma fcalc_bound : forall n m P g (e : R) i j, resolution n m P -> (i < n)%nat -> (j < n)%nat ->
  (forall a, (a < m)%nat -> norm2 (g a) <= e)%R -> (norm2 (fcalc m P g i j) <= e)%R.
Proof.
  intros n m P g e i j R Hi Hj H.
  eapply Rle_trans; [now apply (row_norm n)|].
  assert (E : meq n (mmul n (fcalc m P g) (dag (fcalc m P g))) (fcalc m P (fun a => RtoC (norm2 (g a))))).
  { rewrite (fcalc_dag n m P g R), (fcalc_mul n m P _ _ R). apply fcalc_ext. intros a _. apply mul_conj. }
  rewrite (E i i Hi Hi). clear E. unfold fcalc.
  replace e with (re (csum m (fun a => RtoC e * P a i i))).
  - apply re_csum_le. intros a Ha. pose proof (proj_diag n m P a i R Ha Hi). pose proof (H a Ha).
    cbn. apply Rminus_le. ring_simplify. nra.
  - destruct R as (_ & _ & S). pose proof (S i i Hi Hi) as S'. unfold fcalc in S'.
    rewrite csum_mul_l. replace (csum m (fun a => P a i i)) with C1.
    + cbn. ring.
    + symmetry. rewrite <- (csum_ext m (fun a => C1 * P a i i)); [rewrite S'; unfold mid; now rewrite Nat.eqb_refl|].
      intros; ring.
Qed.
