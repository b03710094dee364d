(** C73: the check of the links *)
From Coq Require Import Permutation Lia Lra Psatz.
From Verif Require Import CInt GeomModel GeomSpec Cplx CMat Det Arr MatModel MatSpec MatProofs MmulModel MmulProofs FieldModel FieldProofs QtopModel QtopProofs2 NumModel GluonSpec GluonProofs2 ReportProofs CheckModel.
Import ListNotations.
Local Open Scope R_scope.

Lemma Rleb_true a b : Rleb a b = true <-> a <= b.
Proof. unfold Rleb. destruct (Rle_dec a b); split; intro; (assumption || reflexivity || discriminate || contradiction). Qed.
Lemma diagonal n r c : (r < n)%nat -> (c < n)%nat -> Nat.eqb (Nat.modulo (c + n * r) (n + 1)) 0 = Nat.eqb r c.
Proof.
  intros Hr Hc. destruct (Nat.eqb_spec r c) as [->|N].
  - apply Nat.eqb_eq. replace (c + n * c)%nat with (c * (n + 1))%nat by lia. apply Nat.mod_mul. lia.
  - apply Nat.eqb_neq. intro H. apply Nat.mod_divides in H; [|lia]. destruct H as [q H]. assert (q < r \/ q = r \/ r < q)%nat as [L|[->|L]] by lia; nia.
Qed.
Definition entry_error (T : mat) (i j : nat) : R := Rabs (if Nat.eqb i j then cabs (T i j) - 1 else cabs (T i j)).
Lemma product_ok_iff n tol temp : product_ok n tol temp = true <-> (forall i j, (i < n)%nat -> (j < n)%nat -> entry_error (mx n temp) i j <= tol).
Proof.
  unfold product_ok, entry_error, mx. rewrite forallb_forall. split.
  - intros H i j Hi Hj. specialize (H (j + n * i)%nat). rewrite Rleb_true, diagonal in H by assumption. apply H. apply in_seq. nia.
  - intros H k Hk. apply in_seq in Hk. rewrite Rleb_true. assert (n <> 0)%nat by nia. pose proof (Nat.mod_upper_bound k n ltac:(assumption)) as Hm. pose proof (Nat.div_mod k n ltac:(assumption)) as Dm. assert (Hd : (k / n < n)%nat) by (apply Nat.div_lt_upper_bound; lia).
    specialize (H _ _ Hd Hm). rewrite <- (diagonal n _ _ Hd Hm) in H. replace (k mod n + n * (k / n))%nat with k in H by lia. exact H.
Qed.
Lemma gram_real n (M : mat) i : im (mmul n M (dag M) i i) = 0 /\ 0 <= re (mmul n M (dag M) i i).
Proof.
  unfold mmul, dag. induction n as [|n IH]; [cbn; lra|]. cbn [csum]. destruct (M i n) as [a b] eqn:E. destruct IH as [I1 I2]. set (z := csum n _) in *. destruct z as [u v]. cbn in *. split; nra.
Qed.
Lemma entry_error_eq n (M : mat) i j : entry_error (mmul n M (dag M)) i j = cabs (mmul n M (dag M) i j - mid i j)%C.
Proof.
  unfold entry_error, mid. destruct (Nat.eqb_spec i j) as [<-|N].
  - destruct (gram_real n M i) as [I1 I2]. rewrite (cabs_real _ I1), (Rabs_right (re _)) by lra. rewrite cabs_real; [|set (z := mmul _ _ _ _ _) in *; destruct z; cbn in *; lra]. set (z := mmul _ _ _ _ _) in *. destruct z. cbn. f_equal.
  - rewrite Rabs_right by apply Rle_ge, cabs_nonneg. f_equal. ring.
Qed.
Lemma columns_value n U j : for_ (S j) (column_sum n U) 0 = dsum (S j) (fun j => re (mmul n (dag (mx n U)) (mx n U) j 0%nat)).
Proof.
  assert (K : forall j vv, column_sum n U j vv = vv + re (mmul n (dag (mx n U)) (mx n U) j 0%nat)).
  { intros k vv. unfold column_sum, mmul, dag, mx. rewrite re_csum. assert (G : forall m, for_ m (fun i vv => vv + re (U (n * i)%nat * conj (U (n * i + k)%nat))%C) vv = vv + dsum m (fun i => re (conj (U (k + n * i)%nat) * U (0 + n * i)%nat)%C)).
    { induction m as [|m IH]; [cbn; ring|]. rewrite for_S_, IH, dsum_S. rewrite Rplus_assoc. f_equal. f_equal. rewrite (Nat.add_comm k), Nat.add_0_l. f_equal. ring. }
    apply G. }
  assert (G : forall m, for_ m (column_sum n U) 0 = dsum m (fun j => re (mmul n (dag (mx n U)) (mx n U) j 0%nat))) by (induction m as [|m IH]; [reflexivity|rewrite for_S_, IH, dsum_S, K; ring]).
  apply G.
Qed.

(** Unitary matrices are accepted; a matrix accepted is unitary up to the tolerance in every entry of U U^dagger. *)
Theorem C73_matrix : forall n tol tmp U, (0 < n)%nat -> 0 <= tol ->
  (unitary n (mx n U) -> is_unitary n tol tmp U = true) /\
  (is_unitary n tol tmp U = true -> forall i j, (i < n)%nat -> (j < n)%nat -> cabs (mmul n (mx n U) (dag (mx n U)) i j - mid i j)%C <= tol).
Proof.
  intros n tol tmp U Hn Ht. destruct (multab_dag_ok n tmp U U) as [E _].
  assert (P : product_ok n tol (multab_dag n tmp U U) = true <-> forall i j, (i < n)%nat -> (j < n)%nat -> cabs (mmul n (mx n U) (dag (mx n U)) i j - mid i j)%C <= tol).
  { rewrite product_ok_iff. split; intros H i j Hi Hj; specialize (H i j Hi Hj); rewrite <- entry_error_eq in *; unfold entry_error in *; rewrite (E i j Hi Hj) in *; exact H. }
  unfold is_unitary. split.
  - intros [U1 U2]. apply andb_true_intro. split.
    + apply P. intros i j Hi Hj. rewrite (U1 i j Hi Hj). replace (mid i j - mid i j)%C with C0 by ring. rewrite (proj2 (cabs_zero C0) eq_refl). exact Ht.
    + unfold columns_ok. apply forallb_forall. intros j Hj. apply in_seq in Hj. apply Rleb_true. rewrite columns_value.
      assert (S1 : forall m, (m < n)%nat -> dsum (S m) (fun j => re (mmul n (dag (mx n U)) (mx n U) j 0%nat)) = 1).
      { induction m as [|m IH]; intro Hm; rewrite dsum_S; [|rewrite IH by lia]; rewrite (U2 _ 0%nat) by lia; unfold mid, dsum; cbn; lra. }
      rewrite S1 by lia. rewrite Rminus_diag_eq, Rabs_R0 by reflexivity. unfold Rdiv. rewrite Rmult_0_l. exact Ht.
  - intros H. apply andb_prop in H. apply P, H.
Qed.
Print Assumptions C73_matrix.

(** The number of bad links is that of the links rejected, whatever the order; it is 0 for a field of SU(N), and if it
    is 0 every link is unitary up to the tolerance. *)
Theorem C73_links : forall sched n ND V tol tmp lat, any_order sched -> (0 < n)%nat -> 0 <= tol ->
  check_links sched n ND V tol tmp lat = length (filter (fun p => negb (is_unitary n tol tmp (O (lat (fst p)) (snd p)))) (list_prod (seq 0 V) (seq 0 ND))) /\
  (group_field n ND V lat -> check_links sched n ND V tol tmp lat = 0%nat) /\
  (check_links sched n ND V tol tmp lat = 0%nat -> forall x mu i j, (x < V)%nat -> (mu < ND)%nat -> (i < n)%nat -> (j < n)%nat ->
    cabs (mmul n (lnk n lat x mu) (dag (lnk n lat x mu)) i j - mid i j)%C <= tol).
Proof.
  intros sched n ND V tol tmp lat Any Hn Ht. set (bad := fun p : nat * nat => negb (is_unitary n tol tmp (O (lat (fst p)) (snd p)))).
  assert (In1 : forall i b, for_ ND (fun mu bad => if is_unitary n tol tmp (O (lat i) mu) then bad else S bad) b = (b + length (filter bad (map (fun mu => (i, mu)) (seq 0 ND))))%nat).
  { intros i b. generalize ND as m. induction m as [|m IH]; [cbn; lia|]. rewrite for_S_, IH, seq_S, map_app, filter_app, app_length. cbn [map filter]. rewrite Nat.add_0_l. assert (B : bad (i, m) = negb (is_unitary n tol tmp (O (lat i) m))) by reflexivity. rewrite B. destruct (is_unitary n tol tmp (O (lat i) m)); cbn [negb length]; lia. }
  assert (Fo : forall l b, fold_left (fun bad i => for_ ND (fun mu bad => if is_unitary n tol tmp (O (lat i) mu) then bad else S bad) bad) l b = (b + length (filter bad (list_prod l (seq 0 ND))))%nat).
  { induction l as [|i l IH]; intro b; [cbn; lia|]. cbn [fold_left list_prod]. rewrite IH, In1, filter_app, app_length. lia. }
  assert (Perm : forall l l', Permutation l l' -> length (filter bad (list_prod l (seq 0 ND))) = length (filter bad (list_prod l' (seq 0 ND)))).
  { induction 1; cbn [list_prod]; rewrite ?filter_app, ?app_length; lia. }
  assert (Co : check_links sched n ND V tol tmp lat = length (filter bad (list_prod (seq 0 V) (seq 0 ND)))) by (unfold check_links; rewrite Fo; cbn [Nat.add]; apply Perm, Any).
  split; [exact Co|]. rewrite Co. split.
  - intro G. replace (filter bad (list_prod (seq 0 V) (seq 0 ND))) with (@nil (nat * nat)); [reflexivity|]. symmetry. destruct (filter bad _) as [|[x mu] l] eqn:F; [reflexivity|]. exfalso.
    assert (I : In (x, mu) (filter bad (list_prod (seq 0 V) (seq 0 ND)))) by (rewrite F; now left). apply filter_In in I. destruct I as [I B]. apply in_prod_iff in I. rewrite !in_seq in I. unfold bad in B. cbn [fst snd] in B.
    rewrite (proj1 (C73_matrix n tol tmp (O (lat x) mu) Hn Ht)) in B; [discriminate|]. apply (G x mu); lia.
  - intros Z x mu i j Hx Hm Hi Hj. apply length_zero_iff_nil in Z. destruct (is_unitary n tol tmp (O (lat x) mu)) eqn:B; [exact (proj2 (C73_matrix n tol tmp _ Hn Ht) B i j Hi Hj)|]. exfalso.
    assert (I : In (x, mu) (filter bad (list_prod (seq 0 V) (seq 0 ND)))) by (apply filter_In; split; [apply in_prod; apply in_seq; lia|unfold bad; cbn [fst snd]; now rewrite B]). rewrite Z in I. exact I.
Qed.
Print Assumptions C73_links.

(** The determinant is not looked at: no bad links in a field of determinant i. *)
Definition det_i : arr := fun k => match k with 0%nat => Ci | 3%nat => C1 | _ => C0 end.
Lemma det_i_unitary : unitary 2 (mx 2 det_i).
Proof. split; intros i j Hi Hj; unfold mmul, dag, mx, mid; cbn [csum]; destruct i as [|[|i]]; try lia; destruct j as [|[|j]]; try lia; cbn [Nat.add Nat.mul Nat.eqb det_i]; cring. Qed.
Theorem C73_determinant_refuted : exists lat : lattice, (forall x mu, det2 (lnk 2 lat x mu) = Ci) /\ (forall x mu, ~ SU2 (lnk 2 lat x mu)) /\
  forall sched ND V single tmp, any_order sched -> check_links sched 2 ND V (PREC_TOL single 2) tmp lat = 0%nat.
Proof.
  exists (fun _ => mkSite (fun _ => det_i) (fun _ => 0%nat) (fun _ => 0%nat)).
  assert (D : forall x mu, det2 (lnk 2 (fun _ => mkSite (fun _ => det_i) (fun _ => 0%nat) (fun _ => 0%nat)) x mu) = Ci) by (intros x mu; unfold lnk, det2, mx; cbn [O Nat.add Nat.mul det_i]; cring).
  split; [exact D|]. split; [intros x mu [_ H]; rewrite D in H; unfold Ci, C1 in H; injection H as H1 _; lra|].
  intros sched ND V single tmp Any. assert (T : 0 <= PREC_TOL single 2) by (unfold PREC_TOL; cbn; destruct single; lra). rewrite (proj1 (C73_links sched 2 ND V _ tmp _ Any ltac:(lia) T)).
  replace (filter _ _) with (@nil (nat * nat)); [reflexivity|]. symmetry. induction (list_prod (seq 0 V) (seq 0 ND)) as [|p l IH]; [reflexivity|]. cbn [filter O] in *.
  rewrite (proj1 (C73_matrix 2 _ tmp det_i ltac:(lia) T) det_i_unitary) in *. exact IH.
Qed.
Print Assumptions C73_determinant_refuted.

(** A matrix that is rejected: 2 times the unit matrix *)
Example C73_case : forall tmp, is_unitary 2 (PREC_TOL false 2) tmp (fun k => match k with 0%nat | 3%nat => RtoC 2 | _ => C0 end) = false /\ is_unitary 2 (PREC_TOL false 2) tmp det_i = true.
Proof.
  intro tmp. assert (T : 0 <= PREC_TOL false 2) by (unfold PREC_TOL; cbn; lra). split; [|apply (proj1 (C73_matrix 2 _ tmp det_i ltac:(lia) T)), det_i_unitary].
  destruct (is_unitary 2 _ tmp _) eqn:E; [|reflexivity]. exfalso. apply (proj2 (C73_matrix 2 _ tmp _ ltac:(lia) T)) with (i := 0%nat) (j := 0%nat) in E; try lia.
  rewrite cabs_real in E by (unfold mmul, dag, mx, mid; cbn; ring). unfold mmul, dag, mx, mid, PREC_TOL in E. cbn in E. rewrite Rabs_right in E by lra. lra.
Qed.
