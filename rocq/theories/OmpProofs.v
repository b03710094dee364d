From Coq Require Import Permutation.
From Verif Require Import CInt Lib OmpModel.

Section Reduce.
Context {A : Type} (op : A -> A -> A) (neutral : A) (body : nat -> option A).
Hypothesis op_assoc : forall a b c, op a (op b c) = op (op a b) c.
Hypothesis op_comm : forall a b, op a b = op b a.
(* the neutral element need only be neutral for values the operation can produce *)
Variable Q : A -> Prop.
Hypothesis op_neutral : forall a, Q a -> op a neutral = a.
Hypothesis Q_op : forall a b, Q (op a b).

Definition ofold (acc : option A) (its : list nat) : option A :=
  fold_left (fun o i => do a <- o; do v <- body i; Some (op a v)) its acc.

Lemma ofold_None : forall its, ofold None its = None.
Proof. induction its; cbn; auto. Qed.

Lemma thread_ofold : forall its acc, omp_thread op body acc its = ofold (Some acc) its.
Proof.
  induction its; intros acc; [reflexivity|]. cbn [omp_thread].
  unfold ofold. cbn [fold_left bindo]. fold (ofold (do v <- body a; Some (op acc v)) its).
  destruct (body a); cbn [bindo]; [apply IHits|]. now rewrite ofold_None.
Qed.

Lemma ofold_shift : forall its x acc, ofold (Some (op x acc)) its = do p <- ofold (Some acc) its; Some (op x p).
Proof.
  induction its; intros x acc; [reflexivity|].
  unfold ofold in *. cbn [fold_left bindo]. destruct (body a) as [v|]; cbn [bindo].
  - rewrite <- op_assoc. apply IHits.
  - fold (ofold None its). now rewrite ofold_None.
Qed.

Lemma ofold_app : forall l1 l2 acc, ofold acc (l1 ++ l2) = ofold (ofold acc l1) l2.
Proof. intros. unfold ofold. now rewrite fold_left_app. Qed.

Lemma reduce_ofold : forall s x, Q x -> omp_reduce op neutral body x s = ofold (Some x) (concat s).
Proof.
  induction s as [|its s IH]; intros x Hx; [reflexivity|].
  cbn [omp_reduce concat]. rewrite ofold_app, thread_ofold.
  assert (ofold (Some x) its = do p <- ofold (Some neutral) its; Some (op x p)) as ->.
  { rewrite <- ofold_shift. now rewrite op_neutral. }
  destruct (ofold (Some neutral) its); cbn [bindo]; [now apply IH|]. now rewrite ofold_None.
Qed.

Lemma ofold_perm : forall l1 l2, Permutation l1 l2 -> forall acc, ofold acc l1 = ofold acc l2.
Proof.
  induction 1; intros acc; auto.
  - unfold ofold in *. cbn. apply IHPermutation.
  - unfold ofold. cbn. f_equal. destruct acc as [a|]; [|reflexivity]. cbn [bindo].
    destruct (body x), (body y); cbn [bindo]; try reflexivity.
    f_equal. rewrite <- !op_assoc. f_equal. apply op_comm.
  - now rewrite IHPermutation1.
Qed.

Lemma reduce_schedule : forall n s x, Q x -> is_schedule n s ->
  omp_reduce op neutral body x s = ofold (Some x) (seq 0 n).
Proof. intros. rewrite reduce_ofold by assumption. now apply ofold_perm. Qed.

Lemma ofold_total : forall its x f, (forall i, In i its -> body i = Some (f i)) ->
  ofold (Some x) its = Some (fold_left (fun a i => op a (f i)) its x).
Proof.
  induction its; intros x f H; [reflexivity|].
  unfold ofold. cbn [fold_left bindo]. rewrite (H a) by now left. cbn [bindo].
  apply IHits. intros i Hi. apply H. now right.
Qed.
End Reduce.

Lemma fill_eq : forall A (body : nat -> option A) (f : nat -> A) order arr,
  NoDup order -> (forall i, In i order -> body i = Some (f i)) ->
  Forall (fun i => (i < length arr)%nat) order ->
  exists arr', omp_fill body order arr = Some arr' /\ length arr' = length arr /\
    forall k, nth_error arr' k = if in_dec Nat.eq_dec k order then Some (f k) else nth_error arr k.
Proof.
  induction order as [|i r IH]; intros arr ND HB F; cbn [omp_fill].
  - exists arr. repeat split; auto.
  - inversion ND; subst. inversion F; subst.
    rewrite (HB i) by now left. cbn [bindo].
    destruct (setn_spec arr i (f i)) as (a1 & E1 & L1 & N1); [assumption|]. rewrite E1. cbn [bindo].
    destruct (IH a1) as (a' & E' & L' & N'); [assumption| | |].
    { intros k Hk. apply HB. now right. }
    { eapply Forall_impl; [|eassumption]. intros a Ha. now rewrite L1. }
    exists a'. split; [exact E'|]. split; [congruence|].
    intros k. rewrite N', N1.
    destruct (Nat.eq_dec k i) as [->|NE].
    + rewrite Nat.eqb_refl. destruct (in_dec Nat.eq_dec i r); [contradiction|].
      destruct (in_dec Nat.eq_dec i (i :: r)) as [|n0]; [reflexivity|exfalso; apply n0; now left].
    + destruct (Nat.eqb_spec k i); [contradiction|].
      destruct (in_dec Nat.eq_dec k r), (in_dec Nat.eq_dec k (i :: r)) as [Hin|Hin]; try reflexivity.
      * exfalso; apply Hin; now right.
      * destruct Hin; [congruence|contradiction].
Qed.

Lemma fill_all : forall A (body : nat -> option A) (f : nat -> A) n order arr,
  Permutation order (seq 0 n) -> length arr = n -> (forall i, (i < n)%nat -> body i = Some (f i)) ->
  omp_fill body order arr = Some (map f (seq 0 n)).
Proof.
  intros A body f n order arr P L HB.
  assert (forall k, In k order <-> (k < n)%nat) as HI.
  { intros k. split; intros H; [eapply Permutation_in in H; [|exact P]; apply in_seq in H; lia|].
    eapply Permutation_in; [apply Permutation_sym, P|]. apply in_seq. lia. }
  destruct (fill_eq A body f order arr) as (a' & E & L' & N).
  - eapply Permutation_NoDup; [apply Permutation_sym, P|apply seq_NoDup].
  - intros i Hi. apply HB, HI, Hi.
  - apply Forall_forall. intros i Hi. rewrite L. now apply HI.
  - rewrite E. f_equal. apply list_ext. intros k. rewrite N, nth_error_map.
    destruct (in_dec Nat.eq_dec k order) as [H|H].
    + apply HI in H. rewrite (nth_error_nth' (seq 0 n) 0%nat) by (rewrite seq_length; lia).
      rewrite seq_nth by lia. reflexivity.
    + assert (n <= k)%nat by (destruct (Nat.lt_ge_cases k n); auto; exfalso; apply H, HI; assumption).
      rewrite (proj2 (nth_error_None arr k)) by lia.
      rewrite (proj2 (nth_error_None (seq 0 n) k)) by (rewrite seq_length; lia). reflexivity.
Qed.
