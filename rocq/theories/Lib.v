(* General list lemmas. *)
From Coq Require Import Permutation.
From Verif Require Import CInt.

Lemma setn_spec {A} (l : list A) k v : (k < length l)%nat ->
  exists l', set_nth l k v = Some l' /\ length l' = length l /\
    forall j, nth_error l' j = if Nat.eqb j k then Some v else nth_error l j.
Proof.
  revert k. induction l as [|a l IH]; intros k Hk; [simpl in Hk; lia|].
  destruct k as [|k].
  - exists (v :: l). repeat split. intros [|j]; reflexivity.
  - destruct (IH k) as (l' & E & L & N); [simpl in Hk; lia|].
    exists (a :: l'). cbn [set_nth]. rewrite E. repeat split.
    + cbn. now rewrite L.
    + intros [|j]; [reflexivity|]. cbn [nth_error Nat.eqb]. apply N.
Qed.

Lemma setn_None {A} (l : list A) k v : (length l <= k)%nat -> set_nth l k v = None.
Proof.
  revert k. induction l as [|a l IH]; intros k Hk; [reflexivity|].
  destruct k; [simpl in Hk; lia|]. cbn. rewrite IH; [reflexivity|simpl in Hk; lia].
Qed.

Lemma nth_firstn {A} (l : list A) n k :
  nth_error (firstn n l) k = if Nat.ltb k n then nth_error l k else None.
Proof.
  revert n k. induction l as [|a l IH]; intros [|n] [|k]; try reflexivity.
  - cbn [firstn nth_error]. destruct (Nat.ltb (S k) (S n)); reflexivity.
  - cbn [firstn nth_error]. rewrite IH. reflexivity.
Qed.

Lemma nth_skipn {A} (l : list A) n k : nth_error (skipn n l) k = nth_error l (n + k)%nat.
Proof.
  revert n. induction l as [|a l IH]; intros [|n]; try reflexivity.
  - destruct k; reflexivity.
  - cbn. apply IH.
Qed.

Lemma list_ext : forall {A} (l1 l2 : list A), (forall k, nth_error l1 k = nth_error l2 k) -> l1 = l2.
Proof.
  induction l1; intros [|b l2] H; auto.
  - specialize (H 0%nat); discriminate.
  - specialize (H 0%nat); discriminate.
  - f_equal; [specialize (H 0%nat); now injection H|]. apply IHl1. intros k. exact (H (S k)).
Qed.

Lemma nth_error_lt {A} (l : list A) k : (k < length l)%nat -> exists a, nth_error l k = Some a.
Proof. intros H. destruct (nth_error l k) eqn:E; [eauto|]. apply nth_error_None in E. lia. Qed.

Lemma forallb_range : forall (P : nat -> bool) n, forallb P (seq 0 n) = true ->
  forall k, (k < n)%nat -> P k = true.
Proof. intros P n H k Hk. rewrite forallb_forall in H. apply H, in_seq. lia. Qed.

Lemma skipn_skipn' {A} : forall a b (l : list A), skipn a (skipn b l) = skipn (a + b) l.
Proof. intros. apply list_ext. intros k. rewrite !nth_skipn. f_equal. lia. Qed.

Lemma NoDup_app_intro : forall {A} (l l' : list A), NoDup l -> NoDup l' -> (forall x, In x l -> In x l' -> False) -> NoDup (l ++ l').
Proof.
  induction l as [|a l IH]; intros l' H1 H2 D; [exact H2|]. inversion H1; subst. cbn. constructor.
  - intro X. apply in_app_or in X. destruct X as [X|X]; [contradiction|]. apply (D a); [now left|exact X].
  - apply IH; try assumption. intros x X Y. apply (D x); [now right|exact Y].
Qed.
