(** C26-C29: reunitarisation, SU(2) subgroup updates. *)
From Coq Require Import PeanoNat List Reals Lra Lia.
From Verif Require Import CMat Det Arr MatSpec MatProofs MatEx GramModel GramProofs Su2Model Su2Proofs.
Import ListNotations.
Local Open Scope C_scope.


(** ** C26 *)
Theorem C26_reunit_group : forall n U, (2 <= n)%nat -> leading n (mx n U) ->
  unitary n (mx n (gram_reunit n U)) /\ mdet n (mx n (gram_reunit n U)) = C1.
Proof. intros n U Hn H. exact (proj1 (proj2 (gram_reunit_ok n U Hn)) H). Qed.
Print Assumptions C26_reunit_group.
Theorem C26_reunit_fixes_group : forall n U, (2 <= n)%nat -> unitary n (mx n U) -> mdet n (mx n U) = C1 ->
  meq n (mx n (gram_reunit n U)) (mx n U).
Proof. intros n U Hn H D. exact (proj2 (proj2 (gram_reunit_ok n U Hn)) (Logic.conj H D)). Qed.
Print Assumptions C26_reunit_fixes_group.
Theorem C26_reunit_frame : forall n U x, (2 <= n)%nat -> (n*n <= x)%nat -> gram_reunit n U x = U x.
Proof. intros n U x Hn Hx. exact (proj1 (gram_reunit_ok n U Hn) x Hx). Qed.
Print Assumptions C26_reunit_frame.
(** twice the identity meets the hypothesis of the first for every n, and is
    not special unitary; ex_su3 meets that of the second *)
Example C26_ex : (forall n, (2 <= n)%nat -> leading n (mx n (two n))) /\ ~ unitary 4 (mx 4 (two 4)) /\ SUn 3 (mx 3 ex_su3).
Proof.
  assert (K : forall m n A, (m <= n)%nat -> meq n A (mscale (RtoC 2) mid) -> indep m n A).
  { intros m n A L E a H i Hi. specialize (H i ltac:(lia)).
    rewrite (csum_single m i) in H by (first [assumption|intros k Hk N; rewrite E by lia; unfold mscale, mid;
      rewrite (proj2 (Nat.eqb_neq k i)) by assumption; ring]).
    rewrite E in H by lia. unfold mscale, mid in H. rewrite Nat.eqb_refl in H.
    apply C_eq; [apply (f_equal re) in H|apply (f_equal im) in H]; cunfold; lra. }
  assert (T : forall n A, meq n A (mscale (RtoC 2) mid) -> meq n (tr_ A) (mscale (RtoC 2) mid)).
  { intros n A E i j Hi Hj. unfold tr_. rewrite E by assumption. unfold mscale. now rewrite mid_sym. }
  split; [|split].
  - intros n Hn. pose proof (two_id n Hn) as E. unfold leading.
    destruct n as [|[|[|[|n]]]]; try lia; apply K; try lia; first [exact E|apply T; exact E].
  - intros [H _]. pose proof (two_id 4 ltac:(lia)) as E. rewrite E in H.
    specialize (H 0%nat 0%nat ltac:(lia) ltac:(lia)). apply (f_equal re) in H.
    unfold mmul, dag, mscale, mid in H. cbn [csum Nat.eqb] in H. cunfold. lra.
  - apply SUn_3, ex_su3_ok.
Qed.

(** ** C27.  [entry n a b] are the flat positions of (a,a), (a,b), (b,a), (b,b);
    [embed a b s0 s1] is the identity with the 2 x 2 matrix
    ((s0, s1), (-conj s1, conj s0)) at rows and columns a, b. *)
Theorem C27_each_pair_once : forall n a b, (a < b < n)%nat ->
  exists! k, (k < n*(n-1)/2)%nat /\ su2_data n k = entry n a b.
Proof. exact pair_once. Qed.
Print Assumptions C27_each_pair_once.
Theorem C27_only_pairs : forall n k, (k < n*(n-1)/2)%nat -> exists a b, (a < b < n)%nat /\ su2_data n k = entry n a b.
Proof. exact pair_valid. Qed.
Print Assumptions C27_only_pairs.
Theorem C27_multiply : forall n w s0 s1 k a b, (k < n*(n-1)/2)%nat -> (a < b < n)%nat -> su2_data n k = entry n a b ->
  holds n (shortened_su2_multiply n w s0 s1 k) w (mmul n (embed a b s0 s1) (mx n w)).
Proof.
  intros n w s0 s1 k a b Hk L E. apply su2_data_entry in E; try assumption.
  pose proof (su2_multiply_ok n w s0 s1 k Hk) as H. now rewrite E in H.
Qed.
Print Assumptions C27_multiply.
Theorem C27_multiply_dag : forall n w s0 s1 k a b, (k < n*(n-1)/2)%nat -> (a < b < n)%nat -> su2_data n k = entry n a b ->
  holds n (shortened_su2_multiply_dag n w s0 s1 k) w (mmul n (mx n w) (dag (embed a b s0 s1))).
Proof.
  intros n w s0 s1 k a b Hk L E. apply su2_data_entry in E; try assumption.
  pose proof (su2_multiply_dag_ok n w s0 s1 k Hk) as H. now rewrite E in H.
Qed.
Print Assumptions C27_multiply_dag.
(* Full statement: without the condition on n = 2, which is needed there. For
   n = 3 and the third subgroup the pair is used in the order (b,a). *)
Theorem C27_rotate_partial : forall n U s0 s1 k a b, (2 <= n)%nat -> (k < n*(n-1)/2)%nat -> (a < b < n)%nat ->
  su2_data n k = entry n a b -> (n = 2%nat -> SU2 (mx 2 U)) ->
  holds n (su2_rotate n U s0 s1 k) U
    (mmul n (if andb (Nat.eqb n 3) (Nat.eqb k 2) then embed b a s0 s1 else embed a b s0 s1) (mx n U)).
Proof. intros n U s0 s1 k a b Hn Hk L E H2. apply rotate_is; try assumption. intro Z. now apply SUn_2, H2. Qed.
Print Assumptions C27_rotate_partial.
Theorem C27_rotate_2_refuted : exists U, ~ meq 2 (mx 2 (su2_rotate 2 U C1 C0 0)) (mmul 2 (embed 0 1 C1 C0) (mx 2 U)).
Proof.
  exists (lst [C1; C0; C0; C0]). intro H. rewrite embed_mmul in H by lia.
  specialize (H 1%nat 1%nat ltac:(lia) ltac:(lia)). apply (f_equal re) in H.
  unfold su2_rotate, su2_rotate_2, mx, upd, lst in H. cbn [Nat.eqb Nat.add Nat.mul nth] in H. cunfold. lra.
Qed.
Print Assumptions C27_rotate_2_refuted.
Theorem C27_group : forall n U s0 s1 k, (2 <= n)%nat -> (k < n*(n-1)/2)%nat -> (norm2 s0 + norm2 s1 = 1)%R -> SUn n (mx n U) ->
  SUn n (mx n (su2_rotate n U s0 s1 k)) /\ SUn n (mx n (shortened_su2_multiply n U s0 s1 k)) /\
  SUn n (mx n (shortened_su2_multiply_dag n U s0 s1 k)).
Proof.
  intros n U s0 s1 k Hn Hk U2 HU. split; [now apply su2_rotate_SUn|].
  pose proof (su2_multiply_ok n U s0 s1 k Hk) as M. pose proof (su2_multiply_dag_ok n U s0 s1 k Hk) as D.
  pose proof (su2_pair_lt n k Hk) as L. destruct (su2_pair n k) as [a b]. cbn [fst snd] in L. destruct M as [M _]. destruct D as [D _].
  assert (E : SUn n (embed a b s0 s1)) by (apply embed_SUn; try assumption; lia).
  split.
  - destruct (SUn_mmul n _ _ E HU). split; [now rewrite M|now rewrite (mdet_ext n _ _ M)].
  - destruct (SUn_mmul n _ _ HU (SUn_dag _ _ E)). split; [now rewrite D|now rewrite (mdet_ext n _ _ D)].
Qed.
Print Assumptions C27_group.
(** the six subgroups of SU(4) in the order of the table, and a rotation *)
Example C27_ex : map (su2_pair 4) (seq 0 6) = [(0,1);(1,2);(2,3);(0,2);(1,3);(0,3)]%nat /\ su2_data 4 4 = entry 4 1 3 /\
  (norm2 (0, 3/5)%R + norm2 (4/5, 0)%R = 1)%R /\ SUn 4 (mx 4 (fun k => mid (k / 4)%nat (k mod 4)%nat)) /\ SU2 (mx 2 ex_su2).
Proof.
  split; [reflexivity|]. split; [reflexivity|]. split; [unfold norm2; cunfold; lra|]. split; [|apply ex_su2_ok].
  assert (E : meq 4 (mx 4 (fun k => mid (k / 4)%nat (k mod 4)%nat)) mid).
  { intros i j Hi Hj. unfold mx. destruct (InvProofs.mod_idx 4 i j Hj) as [-> ->]. reflexivity. }
  destruct (SUn_mid 4). split; [now rewrite E|now rewrite (mdet_ext 4 _ _ E)].
Qed.

(** ** C28 *)
(* Full statement: for every staple; the update is undefined (NaN) when the
   projection on a subgroup vanishes. *)
Theorem C28_overrelax : forall n U S idx U', (2 <= n)%nat -> (forall k, In k idx -> (k < n*(n-1)/2)%nat) ->
  SUn n (mx n U) -> overrelax n U S idx = Some U' ->
  SUn n (mx n U') /\ frame (n*n) U' U /\
  re (mtr n (mmul n (mx n U') (dag (mx n S)))) = re (mtr n (mmul n (mx n U) (dag (mx n S)))).
Proof. intros n U S idx U' Hn Hk HU H. exact (overrelax_ok n S idx U U' Hn Hk HU H). Qed.
Print Assumptions C28_overrelax.
(** the update of one subgroup is undefined exactly when the SU(2) part of U S^dag vanishes *)
Theorem C28_defined : forall n U S k a b, (2 <= n)%nat -> (k < n*(n-1)/2)%nat -> (a < b < n)%nat -> su2_data n k = entry n a b ->
  let T := mmul n (mx n U) (dag (mx n S)) in
  overrelax n U S [k] = None <-> (T a a + conj (T b b) = C0 /\ T a b - conj (T b a) = C0).
Proof. exact overrelax_defined. Qed.
Print Assumptions C28_defined.
Theorem C28_zero_staple_refuted : forall n U idx, (2 <= n)%nat -> overrelax n U (fun _ => C0) (0%nat :: idx) = None.
Proof. intros n U idx Hn. apply overrelax_none; [assumption|]. apply Nat.div_str_pos. destruct n as [|[|n]]; nia. Qed.
Print Assumptions C28_zero_staple_refuted.
(** a link with itself as its staple is updated *)
Example C28_ex : SUn 3 (mx 3 ex_su3) /\ overrelax 3 ex_su3 ex_su3 [0%nat] <> None.
Proof.
  split; [apply SUn_3, ex_su3_ok|]. intro H.
  apply (C28_defined 3 ex_su3 ex_su3 0 0 1) in H; [|lia|cbn; lia|lia|reflexivity].
  destruct H as [H _]. destruct ex_su3_ok as [[E _] _]. rewrite !E in H by lia.
  apply (f_equal re) in H. unfold mid in H. cbn [Nat.eqb] in H. cunfold. lra.
Qed.

(** ** C29.  [rng] is the sequence of random numbers, in (0,1]. *)
(* Full statement: for every sequence, also when no proposal is accepted. *)
Theorem C29_generate_partial : forall rng p s0 s1 NORM, (forall q, 0 < rng q <= 1)%R -> (0 <= NORM)%R ->
  (norm2 s0 + norm2 s1 = 1)%R -> (exists j, (j <= 42)%nat /\ kp_accept rng (p + 4*j) NORM) ->
  let '(t0, t1, _) := generate_SU2 rng p s0 s1 NORM in (norm2 t0 + norm2 t1 = 1)%R.
Proof. exact generate_SU2_ok. Qed.
Print Assumptions C29_generate_partial.
Theorem C29_give_up_refuted : exists rng, (forall q, 0 < rng q <= 1)%R /\
  let '(t0, t1, _) := generate_SU2 rng 0 C1 C0 1 in (norm2 t0 + norm2 t1 <> 1)%R.
Proof. exact generate_gives_up. Qed.
Print Assumptions C29_give_up_refuted.
(* Full statement: for every run. *)
Theorem C29_heatbath_partial : forall n rng p U S invbeta idx U' p', (2 <= n)%nat -> (forall k, In k idx -> (k < n*(n-1)/2)%nat) ->
  (forall q, 0 < rng q <= 1)%R -> (0 <= invbeta)%R -> SUn n (mx n U) -> accepted_run n rng p U S invbeta idx ->
  hb n rng p U S invbeta idx = Some (U', p') -> SUn n (mx n U') /\ frame (n*n) U' U.
Proof. intros n rng p U S invbeta idx U' p' H1 H2 H3 H4 H5 H6 H7. exact (hb_ok n rng S invbeta idx p U U' p' H1 H2 H3 H4 H5 H6 H7). Qed.
Print Assumptions C29_heatbath_partial.
(** random numbers 1, 1, ...: the first proposal is accepted, for every subgroup *)
Example C29_ex : kp_accept (fun _ => 1%R) 0 (1/2) /\ forall idx p U S, accepted_run 3 (fun _ => 1%R) p U S 1 idx.
Proof.
  assert (A : forall p N, kp_accept (fun _ => 1%R) p N) by (intros p N; unfold kp_accept, kp_d; rewrite ln_1; lra).
  split; [apply A|]. induction idx as [|k idx IH]; intros p U S; cbn [accepted_run]; [exact I|].
  destruct (only_subgroup 3 U S k) as [[[s0 s1] sc]|]; [|exact I].
  split; [exists 0%nat; split; [lia|apply A]|]. destruct (generate_SU2 _ p s0 s1 _) as [[t0 t1] p']. apply IH.
Qed.
