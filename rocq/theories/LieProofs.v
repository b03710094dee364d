(** Proofs for LieModel.v *)
From Coq Require Import List ZArith PeanoNat Lia Bool.
From Verif Require Import CInt CMat Arr MatSpec MatModel MatProofs LieModel.
Import ListNotations.
Local Open Scope nat_scope.
Local Open Scope C_scope.

(** * NC = 3: the two contractions as polynomials *)
Lemma cval_rules : exists x s t u : C,
  (s * s = C1 + C1 + C1 /\ s * t = x + x /\ s * u = x /\ x + x = C1 /\ Ci * Ci = - C1) /\
  RtoC (cval V1) = x + x /\ RtoC (cval Vh) = x /\ RtoC (cval Vr) = s * x /\ RtoC (cval Vt) = t /\ RtoC (cval Vu) = u /\ RtoC (sqrt 3) = s.
Proof.
  assert (H3 : (sqrt 3 * sqrt 3 = 3)%R) by (apply sqrt_sqrt; lra).
  assert (P : (sqrt 3 > 0)%R) by (apply sqrt_lt_R0; lra).
  exists (RtoC (/ 2)), (RtoC (sqrt 3)), (RtoC (/ sqrt 3)), (RtoC (/ (2 * sqrt 3))). cbn [cval].
  repeat split; try reflexivity; unfold C1, Ci; apply C_eq; cunfold; cbn; try (field; lra); try lra.
Qed.
Lemma decode_val s v i : decode (s, v, i) = (RtoC (IZR s) * RtoC (cval v), i).
Proof. cbn. now rewrite RtoC_mul. Qed.
Lemma RtoC_1 : RtoC (IZR 1) = C1. Proof. reflexivity. Qed.
Lemma RtoC_m1 : RtoC (IZR (-1)) = - C1. Proof. cring. Qed.

Lemma contract_cons w e t a b c r : contract w (e :: t) a b c r = contract w t a b c (let '(v, (ia, ib, ic)) := e in r + (w * v) * a ia * b ib * c ic).
Proof. reflexivity. Qed.

Lemma lie3_f A B D : A 8%nat = - (A 0%nat + A 4%nat) -> B 8%nat = - (B 0%nat + B 4%nat) -> D 8%nat = - (D 0%nat + D 4%nat) ->
  forall lam, ifabc_ABC 3 lam A B D = (C1 + C1) * (trace_abc_3 A B D - trace_abc_3 B A D).
Proof.
  intros HA HB HD lam. destruct cval_rules as (x & s & t & u & (R1 & R2 & R3 & R4 & R5) & E1 & Eh & Er & Et & Eu & Es).
  unfold ifabc_ABC, ftable, lie_data, f3_code. cbn [map]. rewrite !decode_val, E1, Eh, Er, RtoC_1, RtoC_m1.
  unfold contract. cbn [fold_left lie_data_3]. rewrite Es. unfold trace_abc_3. rewrite HA, HB, HD.
  generalize (A 0%nat), (A 1%nat), (A 2%nat), (A 3%nat), (A 4%nat), (A 5%nat), (A 6%nat), (A 7%nat).
  generalize (B 0%nat), (B 1%nat), (B 2%nat), (B 3%nat), (B 4%nat), (B 5%nat), (B 6%nat), (B 7%nat).
  generalize (D 0%nat), (D 1%nat), (D 2%nat), (D 3%nat), (D 4%nat), (D 5%nat), (D 6%nat), (D 7%nat).
  clear -R1 R4 R5. revert R5. generalize Ci. intros J R5. intros.
  match goal with |- _ = ?r => transitivity ((x + x) * r); [|rewrite R4; ring] end.
  ring [R1 R5].
Qed.
Lemma lie3_d A B D : A 8%nat = - (A 0%nat + A 4%nat) -> B 8%nat = - (B 0%nat + B 4%nat) -> D 8%nat = - (D 0%nat + D 4%nat) ->
  forall lam, dabc_ABC 3 lam A B D = (C1 + C1) * (trace_abc_3 A B D + trace_abc_3 B A D).
Proof.
  intros HA HB HD lam. destruct cval_rules as (x & s & t & u & (R1 & R2 & R3 & R4 & R5) & E1 & Eh & Er & Et & Eu & Es).
  unfold dabc_ABC, dtable, lie_data, d3_code. cbn [map]. rewrite !decode_val, Eh, Et, Eu, RtoC_1, RtoC_m1.
  unfold contract. cbn [fold_left lie_data_3]. rewrite Es. unfold trace_abc_3. rewrite HA, HB, HD.
  generalize (A 0%nat), (A 1%nat), (A 2%nat), (A 3%nat), (A 4%nat), (A 5%nat), (A 6%nat), (A 7%nat).
  generalize (B 0%nat), (B 1%nat), (B 2%nat), (B 3%nat), (B 4%nat), (B 5%nat), (B 6%nat), (B 7%nat).
  generalize (D 0%nat), (D 1%nat), (D 2%nat), (D 3%nat), (D 4%nat), (D 5%nat), (D 6%nat), (D 7%nat).
  clear -R1 R2 R3 R4 R5. revert R5. generalize Ci. intros J R5. intros.
  match goal with |- _ = ?r => transitivity ((x + x) * r); [|rewrite R4; ring] end.
  ring [R1 R2 R3 R5].
Qed.
Lemma lie2_f A B D : A 3%nat = - A 0%nat -> B 3%nat = - B 0%nat -> D 3%nat = - D 0%nat ->
  forall lam, ifabc_ABC 2 lam A B D = RtoC (/ 4) * (trace_abc_2 A B D - trace_abc_2 B A D).
Proof.
  intros HA HB HD lam. destruct cval_rules as (x & s & t & u & (R1 & R2 & R3 & R4 & R5) & E1 & Eh & Er & Et & Eu & Es).
  unfold ifabc_ABC, ftable, lie_data, f2_code. cbn [map]. rewrite !decode_val, E1, RtoC_1, RtoC_m1.
  replace (RtoC (/ 4)) with (x * x) by (rewrite <- Eh; cbn [cval]; apply C_eq; cunfold; cbn; field).
  change (RtoC (/ 2)) with (RtoC (cval Vh)) in *. 
  unfold contract. cbn [fold_left lie_data_2]. change (RtoC (/ 2)) with (RtoC (cval Vh)). rewrite Eh. unfold trace_abc_2. rewrite HA, HB, HD.
  generalize (A 0%nat), (A 1%nat), (A 2%nat), (B 0%nat), (B 1%nat), (B 2%nat), (D 0%nat), (D 1%nat), (D 2%nat).
  clear -R4 R5. revert R5. generalize Ci. intros J R5. intros.
  match goal with |- _ = ?r => transitivity ((x + x) * r); [|rewrite R4; ring] end. rewrite !R4.
  ring [R5].
Qed.

(** * sums over tables *)
Lemma contract_acc w tbl a b c : forall r, contract w tbl a b c r = r + contract w tbl a b c C0.
Proof.
  induction tbl as [|[v [[i j] k]] tbl IH]; intros r; [cbn [contract fold_left]; unfold contract; cbn [fold_left]; ring|]. rewrite !contract_cons. rewrite IH, (IH (C0 + _)). ring.
Qed.
Lemma sum_split NC lam A B D : ifabc_dabc_ABC NC lam A B D = dabc_ABC NC lam A B D + ifabc_ABC NC lam A B D.
Proof. unfold ifabc_dabc_ABC. rewrite contract_acc. reflexivity. Qed.

Definition lsum (l : list C) : C := fold_right Cadd C0 l.
Lemma lsum_app l l' : lsum (l ++ l') = lsum l + lsum l'.
Proof. induction l as [|x l IH]; cbn [app lsum fold_right]; unfold lsum in *; [ring|]. rewrite IH. ring. Qed.
Lemma lsum_seq g : forall m, lsum (map g (seq 0 m)) = csum m g.
Proof. induction m as [|m IH]; [reflexivity|]. rewrite seq_S, map_app, lsum_app, IH. cbn [Nat.add map lsum fold_right csum]. ring. Qed.
Lemma lsum_flat {X} (g : X -> C) (h : nat -> list X) : forall m, lsum (map g (flat_map h (seq 0 m))) = csum m (fun i => lsum (map g (h i))).
Proof.
  induction m as [|m IH]; [reflexivity|]. rewrite seq_S, flat_map_app, map_app, lsum_app, IH. cbn [Nat.add flat_map].
  rewrite app_nil_r. reflexivity.
Qed.
Lemma lsum_triples m g : lsum (map g (triples m)) = csum m (fun a => csum m (fun b => csum m (fun c => g (a, b, c)))).
Proof.
  unfold triples. rewrite lsum_flat. apply csum_ext. intros a _. rewrite lsum_flat. apply csum_ext. intros b _.
  rewrite map_map. apply lsum_seq.
Qed.
Lemma lsum_filter {X} (p : X -> bool) (g : X -> C) l : lsum (map g (filter p l)) = lsum (map (fun x => if p x then g x else C0) l).
Proof.
  induction l as [|x l IH]; cbn [filter map lsum fold_right]; [reflexivity|]. unfold lsum in *. destruct (p x); cbn [map fold_right]; rewrite IH; [reflexivity|ring].
Qed.
Lemma contract_lsum w tbl a b c : contract w tbl a b c C0 = lsum (map (fun e : entry => let '(v, (ia, ib, ic)) := e in (w * v) * a ia * b ib * c ic) tbl).
Proof.
  induction tbl as [|[v [[i j] k]] tbl IH]; [reflexivity|]. rewrite contract_cons, contract_acc, IH. cbn [map lsum fold_right].
  unfold lsum. ring.
Qed.
Definition kept (NC : nat) (v : R) : R := if gt_tol NC v then v else 0%R.
Lemma contract_table NC w val a b c : contract w (table_of NC val) a b c C0 =
  csum (NC*NC-1) (fun i => csum (NC*NC-1) (fun j => csum (NC*NC-1) (fun k => (w * RtoC (kept NC (val (i, j, k)))) * a i * b j * c k))).
Proof.
  rewrite contract_lsum. unfold table_of. rewrite map_map, lsum_filter, lsum_triples.
  apply csum_ext. intros i _. apply csum_ext. intros j _. apply csum_ext. intros k _. unfold kept.
  destruct (gt_tol NC (val (i, j, k))); [reflexivity|]. change (RtoC 0) with C0. ring.
Qed.

(** * any number of colours with a complete set of hermitian generators *)
Definition lincomb (m : nat) (x : nat -> C) (G : nat -> mat) : mat := fun i j => csum m (fun k => x k * G k i j).
Lemma mtr_meq n A B : meq n A B -> mtr n A = mtr n B.
Proof. intros H. apply csum_ext. intros i Hi. now apply H. Qed.
Lemma mmul_meq_l n A B M : meq n A B -> meq n (mmul n A M) (mmul n B M).
Proof. intros H i j Hi Hj. apply csum_ext. intros k Hk. now rewrite H. Qed.
Lemma mmul_meq_r n A B M : meq n A B -> meq n (mmul n M A) (mmul n M B).
Proof. intros H i j Hi Hj. apply csum_ext. intros k Hk. now rewrite H. Qed.
Lemma tr_lin n m x G A M : meq n A (lincomb m x G) -> mtr n (mmul n A M) = csum m (fun k => x k * mtr n (mmul n (G k) M)).
Proof.
  intros H. rewrite (mtr_meq _ _ _ (mmul_meq_l _ _ _ M H)). unfold mtr, mmul, lincomb.
  transitivity (csum n (fun i => csum m (fun k => x k * csum n (fun l => G k i l * M l i)))).
  - apply csum_ext. intros i _. transitivity (csum n (fun l => csum m (fun k => x k * (G k i l * M l i)))).
    + apply csum_ext. intros l _. rewrite <- csum_mul_r. apply csum_ext. intros k _. ring.
    + rewrite csum_swap. apply csum_ext. intros k _. now rewrite csum_mul_l.
  - rewrite csum_swap. apply csum_ext. intros k _. now rewrite csum_mul_l.
Qed.
Lemma mmul_assoc' n A B D : meq n (mmul n (mmul n A B) D) (mmul n A (mmul n B D)).
Proof.
  intros i j _ _. unfold mmul. transitivity (csum n (fun k => csum n (fun l => A i l * B l k * D k j))).
  - apply csum_ext. intros k _. now rewrite <- csum_mul_r.
  - rewrite csum_swap. apply csum_ext. intros l _. rewrite <- csum_mul_l. apply csum_ext. intros k _. ring.
Qed.
Definition tr3 (n : nat) (A B D : mat) : C := mtr n (mmul n A (mmul n B D)).
Lemma tr3_rot n A B D : tr3 n A B D = tr3 n B D A.
Proof. unfold tr3. rewrite mtr_cyc. apply mtr_meq. apply mmul_assoc'. Qed.
Lemma tr3_expand n m x y z G A B D : meq n A (lincomb m x G) -> meq n B (lincomb m y G) -> meq n D (lincomb m z G) ->
  tr3 n A B D = csum m (fun i => csum m (fun j => csum m (fun k => x i * y j * z k * tr3 n (G i) (G j) (G k)))).
Proof.
  intros HA HB HD. unfold tr3 at 1. rewrite (tr_lin n m x G A _ HA). apply csum_ext. intros i _.
  fold (tr3 n (G i) B D). rewrite tr3_rot. unfold tr3 at 1. rewrite (tr_lin n m y G B _ HB). rewrite <- csum_mul_l. apply csum_ext. intros j _.
  fold (tr3 n (G j) D (G i)). rewrite tr3_rot. unfold tr3 at 1. rewrite (tr_lin n m z G D _ HD). rewrite <- !csum_mul_l. apply csum_ext. intros k _.
  fold (tr3 n (G k) (G i) (G j)). rewrite (tr3_rot n (G k)). ring.
Qed.
Lemma trace_abc_tr3 n a b c : trace_abc n a b c = tr3 n (mx n a) (mx n b) (mx n c).
Proof. rewrite trace_abc_ok. apply mtr_meq, mmul_assoc'. Qed.

Lemma dag_mmul n A B : meq n (dag (mmul n A B)) (mmul n (dag B) (dag A)).
Proof. intros i j _ _. unfold dag, mmul. rewrite csum_conj. apply csum_ext. intros k _. rewrite conj_mul. ring. Qed.
Lemma tr3_conj n A B D : hermitian n A -> hermitian n B -> hermitian n D -> conj (tr3 n A B D) = tr3 n B A D.
Proof.
  intros HA HB HD. unfold tr3. rewrite <- mtr_dag. rewrite (mtr_meq _ _ _ (dag_mmul n A (mmul n B D))).
  rewrite (mtr_meq n _ (mmul n (mmul n (dag D) (dag B)) (dag A))) by (apply mmul_meq_l, dag_mmul).
  rewrite (mtr_meq _ _ _ (mmul_assoc' n (dag D) (dag B) (dag A))).
  change (tr3 n (dag D) (dag B) (dag A) = tr3 n B A D). rewrite tr3_rot. unfold tr3.
  rewrite (mtr_meq n _ (mmul n B (mmul n (dag A) (dag D)))) by (apply mmul_meq_l, HB).
  apply mtr_meq, mmul_meq_r. intros i j Hi Hj. unfold mmul. apply csum_ext. intros k Hk. rewrite (HA i k), (HD k j); auto.
Qed.

Lemma in_triples i j k M : (i < M)%nat -> (j < M)%nat -> (k < M)%nat -> In (i, j, k) (triples M).
Proof.
  intros Hi Hj Hk. unfold triples. apply in_flat_map. exists i. split; [apply in_seq; lia|]. apply in_flat_map. exists j.
  split; [apply in_seq; lia|]. apply in_map, in_seq; lia.
Qed.

Section General.
Variable n : nat.
Variable lam : nat -> arr.
Hypothesis N3 : (3 < n)%nat.
Let m := (n * n - 1)%nat.
Hypothesis Hherm : forall k, (k < m)%nat -> hermitian n (mx n (lam k)).
Hypothesis Hcomplete : forall A, traceless n A ->
  meq n A (lincomb m (fun k => RtoC 2 * mtr n (mmul n A (mx n (lam k)))) (fun k => mx n (lam k))).
Hypothesis Hftol : forall i, In i (triples m) -> gt_tol n (f_of n lam i) = false -> f_of n lam i = 0%R.
Hypothesis Hdtol : forall i, In i (triples m) -> gt_tol n (d_of n lam i) = false -> d_of n lam i = 0%R.

Lemma f_val i j k : (i < m)%nat -> (j < m)%nat -> (k < m)%nat ->
  RtoC (kept n (f_of n lam (i, j, k))) = RtoC (- 2) * Ci * (tr3 n (mx n (lam i)) (mx n (lam j)) (mx n (lam k)) - tr3 n (mx n (lam j)) (mx n (lam i)) (mx n (lam k))).
Proof.
  intros Hi Hj Hk. assert (E : kept n (f_of n lam (i, j, k)) = f_of n lam (i, j, k)).
  { unfold kept. destruct (gt_tol n (f_of n lam (i, j, k))) eqn:E; [reflexivity|]. symmetry. apply Hftol; [now apply in_triples|assumption]. }
  rewrite E. unfold f_of, compute_f_and_d. cbn [fst]. rewrite !trace_abc_tr3.
  rewrite <- (tr3_conj n (mx n (lam i)) (mx n (lam j)) (mx n (lam k))) by (apply Hherm; assumption).
  destruct (tr3 n (mx n (lam i)) (mx n (lam j)) (mx n (lam k))) as [x y]. apply C_eq; cunfold; ring.
Qed.
Lemma d_val i j k : (i < m)%nat -> (j < m)%nat -> (k < m)%nat ->
  RtoC (kept n (d_of n lam (i, j, k))) = RtoC 2 * (tr3 n (mx n (lam i)) (mx n (lam j)) (mx n (lam k)) + tr3 n (mx n (lam j)) (mx n (lam i)) (mx n (lam k))).
Proof.
  intros Hi Hj Hk. assert (E : kept n (d_of n lam (i, j, k)) = d_of n lam (i, j, k)).
  { unfold kept. destruct (gt_tol n (d_of n lam (i, j, k))) eqn:E; [reflexivity|]. symmetry. apply Hdtol; [now apply in_triples|assumption]. }
  rewrite E. unfold d_of, compute_f_and_d. cbn [snd]. rewrite !trace_abc_tr3.
  rewrite <- (tr3_conj n (mx n (lam i)) (mx n (lam j)) (mx n (lam k))) by (apply Hherm; assumption).
  destruct (tr3 n (mx n (lam i)) (mx n (lam j)) (mx n (lam k))) as [x y]. apply C_eq; cunfold; ring.
Qed.
Lemma data_n A k : lie_data n lam A k = RtoC 2 * mtr n (mmul n (mx n A) (mx n (lam k))).
Proof.
  assert (E : lie_data n lam A = lie_data_n n lam A) by (destruct n as [|[|[|[|]]]]; try lia; reflexivity).
  rewrite E. unfold lie_data_n. now rewrite trace_ab_ok.
Qed.
Lemma ftab_n : ftable n lam = table_of n (f_of n lam).
Proof. unfold ftable. destruct n as [|[|[|[|]]]]; try lia; reflexivity. Qed.
Lemma dtab_n : dtable n lam = table_of n (d_of n lam).
Proof. unfold dtable. destruct n as [|[|[|[|]]]]; try lia; reflexivity. Qed.

Lemma expand3 A B D : traceless n (mx n A) -> traceless n (mx n B) -> traceless n (mx n D) ->
  tr3 n (mx n A) (mx n B) (mx n D) = csum m (fun i => csum m (fun j => csum m (fun k =>
    lie_data n lam A i * lie_data n lam B j * lie_data n lam D k * tr3 n (mx n (lam i)) (mx n (lam j)) (mx n (lam k))))).
Proof.
  intros HA HB HD. rewrite (tr3_expand n m _ _ _ _ _ _ _ (Hcomplete _ HA) (Hcomplete _ HB) (Hcomplete _ HD)).
  apply csum_ext. intros i _. apply csum_ext. intros j _. apply csum_ext. intros k _. now rewrite !data_n.
Qed.
Lemma expand3' A B D : traceless n (mx n A) -> traceless n (mx n B) -> traceless n (mx n D) ->
  tr3 n (mx n B) (mx n A) (mx n D) = csum m (fun i => csum m (fun j => csum m (fun k =>
    lie_data n lam A i * lie_data n lam B j * lie_data n lam D k * tr3 n (mx n (lam j)) (mx n (lam i)) (mx n (lam k))))).
Proof.
  intros HA HB HD. rewrite expand3 by assumption. rewrite csum_swap.
  apply csum_ext. intros i _. apply csum_ext. intros j _. apply csum_ext. intros k _. ring.
Qed.
Lemma general_f A B D : traceless n (mx n A) -> traceless n (mx n B) -> traceless n (mx n D) ->
  ifabc_ABC n lam A B D = RtoC 2 * (tr3 n (mx n A) (mx n B) (mx n D) - tr3 n (mx n B) (mx n A) (mx n D)).
Proof.
  intros HA HB HD. unfold ifabc_ABC. rewrite ftab_n, contract_table. fold m. rewrite (expand3 A B D), (expand3' A B D) by assumption.
  rewrite <- csum_sub, <- csum_mul_l. apply csum_ext. intros i Hi. rewrite <- csum_sub, <- csum_mul_l. apply csum_ext. intros j Hj.
  rewrite <- csum_sub, <- csum_mul_l. apply csum_ext. intros k Hk. rewrite f_val by assumption.
  assert (E : Ci * Ci = - C1) by cring. assert (E2 : RtoC (-2) = - RtoC 2) by cring. rewrite E2. ring [E].
Qed.
Lemma general_d A B D : traceless n (mx n A) -> traceless n (mx n B) -> traceless n (mx n D) ->
  dabc_ABC n lam A B D = RtoC 2 * (tr3 n (mx n A) (mx n B) (mx n D) + tr3 n (mx n B) (mx n A) (mx n D)).
Proof.
  intros HA HB HD. unfold dabc_ABC. rewrite dtab_n, contract_table. fold m. rewrite (expand3 A B D), (expand3' A B D) by assumption.
  rewrite <- csum_add, <- csum_mul_l. apply csum_ext. intros i Hi. rewrite <- csum_add, <- csum_mul_l. apply csum_ext. intros j Hj.
  rewrite <- csum_add, <- csum_mul_l. apply csum_ext. intros k Hk. rewrite d_val by assumption. ring.
Qed.
End General.
