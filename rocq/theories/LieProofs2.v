(** Symmetry of the tables, generators for four colours. *)
From Coq Require Import List ZArith PeanoNat Lia Bool.
From Verif Require Import CInt Lib CMat Arr MatSpec MatModel MatProofs Det LieModel LieProofs.
Import ListNotations.
Local Open Scope nat_scope.
Local Open Scope C_scope.

(** * symmetry *)
(** the coefficient a table assigns to a triple: the sum of the values listed for it *)
Definition eq3 (i j : nat * nat * nat) : bool :=
  let '(a, b, c) := i in let '(a', b', c') := j in Nat.eqb a a' && Nat.eqb b b' && Nat.eqb c c'.
Lemma eq3_iff i j : eq3 i j = true <-> i = j.
Proof.
  destruct i as [[a b] c], j as [[a' b'] c']. cbn. rewrite !andb_true_iff, !Nat.eqb_eq. split; [intros ((-> & ->) & ->); reflexivity|intros E; injection E; auto].
Qed.
Definition coef (tbl : list entry) (i : nat * nat * nat) : C :=
  fold_right (fun (e : entry) s => (if eq3 (snd e) i then fst e else C0) + s) C0 tbl.

Definition listed (code : list ((Z * cst) * (nat * nat * nat))) (i : nat * nat * nat) : list (Z * cst) :=
  map fst (filter (fun e => eq3 (snd e) i) code).
Definition csum_list (l : list (Z * cst)) : C := fold_right (fun e s => RtoC (IZR (fst e) * cval (snd e)) + s) C0 l.
Lemma coef_listed code i : coef (map decode code) i = csum_list (listed code i).
Proof.
  unfold listed. induction code as [|[[s v] j] code IH]; [reflexivity|]. cbn [map coef fold_right filter].
  unfold coef in IH. rewrite IH. cbn [decode fst snd]. destruct (eq3 j i); cbn [map csum_list fold_right fst snd]; [reflexivity|].
  unfold csum_list. ring.
Qed.
Definition negc (l : list (Z * cst)) : list (Z * cst) := map (fun e => (Z.opp (fst e), snd e)) l.
Lemma csum_neg l : csum_list (negc l) = - csum_list l.
Proof.
  induction l as [|[s v] l IH]; cbn [negc map csum_list fold_right fst snd]; [cbn [csum_list fold_right]; cring|]. unfold csum_list, negc in IH. rewrite IH.
  rewrite opp_IZR. replace (RtoC (- IZR s * cval v)) with (- RtoC (IZR s * cval v)) by cring. unfold csum_list. ring.
Qed.
Definition swap12 (i : nat * nat * nat) := let '(a, b, c) := i in (b, a, c).
Definition swap23 (i : nat * nat * nat) := let '(a, b, c) := i in (a, c, b).
Definition eqc (x y : Z * cst) : bool :=
  Z.eqb (fst x) (fst y) && match snd x, snd y with V1, V1 | Vh, Vh | Vr, Vr | Vt, Vt | Vu, Vu => true | _, _ => false end.
Lemma eqc_iff x y : eqc x y = true -> x = y.
Proof. destruct x as [s v], y as [s' v']. unfold eqc. cbn. rewrite andb_true_iff, Z.eqb_eq. intros (-> & H). destruct v, v'; congruence. Qed.
Fixpoint eqcl (l l' : list (Z * cst)) : bool :=
  match l, l' with [], [] => true | x :: r, y :: r' => eqc x y && eqcl r r' | _, _ => false end.
Lemma eqcl_iff : forall l l', eqcl l l' = true -> l = l'.
Proof. induction l as [|x l IH]; intros [|y l'] H; cbn in H; try discriminate; [reflexivity|]. apply andb_true_iff in H. destruct H as (H1 & H2). apply eqc_iff in H1. apply IH in H2. congruence. Qed.
Definition bounded (M : nat) (i : nat * nat * nat) : bool := let '(a, b, c) := i in Nat.ltb a M && Nat.ltb b M && Nat.ltb c M.
Lemma bounded_in M i : bounded M i = true <-> In i (triples M).
Proof.
  destruct i as [[a b] c]. unfold bounded. rewrite !andb_true_iff, !Nat.ltb_lt. split.
  - intros ((H1 & H2) & H3). now apply in_triples.
  - unfold triples. rewrite in_flat_map. intros (x & Hx & H). apply in_flat_map in H. destruct H as (y & Hy & H).
    apply in_map_iff in H. destruct H as (z & E & Hz). injection E as -> -> ->. apply in_seq in Hx, Hy, Hz. lia.
Qed.
Lemma listed_out M code i : forallb (fun e => bounded M (snd e)) code = true -> bounded M i = false -> listed code i = [].
Proof.
  intros H Hi. unfold listed. induction code as [|e code IH]; [reflexivity|]. cbn [forallb] in H. apply andb_true_iff in H. destruct H as (H1 & H2).
  cbn [filter]. destruct (eq3 (snd e) i) eqn:E; [apply eq3_iff in E; congruence|]. now apply IH.
Qed.
Lemma code_anti M code sw : forallb (fun e => bounded M (snd e)) code = true -> (forall i, bounded M (sw i) = bounded M i) ->
  forallb (fun i => eqcl (listed code (sw i)) (negc (listed code i))) (triples M) = true ->
  forall i, coef (map decode code) (sw i) = - coef (map decode code) i.
Proof.
  intros Hb Hs H i. rewrite !coef_listed. destruct (bounded M i) eqn:Bi.
  - rewrite forallb_forall in H. apply bounded_in in Bi. specialize (H i Bi). apply eqcl_iff in H. rewrite H. apply csum_neg.
  - rewrite !(listed_out M) by (assumption || now rewrite Hs). cbn [csum_list fold_right]. cring.
Qed.
Lemma code_sym M code sw : forallb (fun e => bounded M (snd e)) code = true -> (forall i, bounded M (sw i) = bounded M i) ->
  forallb (fun i => eqcl (listed code (sw i)) (listed code i)) (triples M) = true ->
  forall i, coef (map decode code) (sw i) = coef (map decode code) i.
Proof.
  intros Hb Hs H i. rewrite !coef_listed. destruct (bounded M i) eqn:Bi.
  - rewrite forallb_forall in H. apply bounded_in in Bi. specialize (H i Bi). apply eqcl_iff in H. now rewrite H.
  - rewrite !(listed_out M) by (assumption || now rewrite Hs). reflexivity.
Qed.
Lemma bounded_12 M i : bounded M (swap12 i) = bounded M i.
Proof. destruct i as [[a b] c]. unfold bounded, swap12, swap23. destruct (Nat.ltb a M), (Nat.ltb b M), (Nat.ltb c M); reflexivity. Qed.
Lemma bounded_23 M i : bounded M (swap23 i) = bounded M i.
Proof. destruct i as [[a b] c]. unfold bounded, swap12, swap23. destruct (Nat.ltb a M), (Nat.ltb b M), (Nat.ltb c M); reflexivity. Qed.

(** computed tables *)
Lemma coef_none tbl i : ~ In i (map snd tbl) -> coef tbl i = C0.
Proof.
  induction tbl as [|[v j] tbl IH]; intros H; [reflexivity|]. cbn [coef fold_right map snd fst In] in *. destruct (eq3 j i) eqn:E; [apply eq3_iff in E; tauto|].
  unfold coef in IH. rewrite IH by tauto. ring.
Qed.
Lemma coef_nodup val l i : NoDup l -> coef (map (fun j => (RtoC (val j), j)) l) i = if existsb (eq3 i) l then RtoC (val i) else C0.
Proof.
  intros H. induction H as [|j l Hj H IH]; [reflexivity|]. cbn [map existsb coef fold_right fst snd]. unfold coef in IH. rewrite IH.
  destruct (eq3 j i) eqn:E.
  - apply eq3_iff in E. subst j. rewrite (proj2 (eq3_iff i i) eq_refl). cbn [orb].
    destruct (existsb (eq3 i) l) eqn:E2; [apply existsb_exists in E2; destruct E2 as (k & Hk & E2); apply eq3_iff in E2; subst k; tauto|]. ring.
  - destruct (eq3 i j) eqn:E2; [apply eq3_iff in E2; subst j; rewrite (proj2 (eq3_iff i i) eq_refl) in E; discriminate|]. cbn [orb]. ring.
Qed.
Lemma NoDup_flat {X} (h : nat -> list X) l : NoDup l -> (forall a, In a l -> NoDup (h a)) ->
  (forall a b x, In a l -> In b l -> In x (h a) -> In x (h b) -> a = b) -> NoDup (flat_map h l).
Proof.
  intros Hl. induction Hl as [|a l Ha Hl IH]; intros H1 H2; cbn [flat_map]; [constructor|]. apply NoDup_app_intro.
  - apply H1. now left.
  - apply IH; [intros; apply H1; now right|]. intros b c x Hb Hc. apply H2; now right.
  - intros x Hx Hx'. apply in_flat_map in Hx'. destruct Hx' as (b & Hb & Hx'). assert (a = b) by (eapply H2; eauto; [now left|now right]). subst b. tauto.
Qed.
Lemma NoDup_triples m : NoDup (triples m).
Proof.
  unfold triples. apply NoDup_flat; [apply seq_NoDup| |].
  - intros a _. apply NoDup_flat; [apply seq_NoDup| |].
    + intros b _. apply FinFun.Injective_map_NoDup; [|apply seq_NoDup]. intros x y E. congruence.
    + intros b c x _ _ Hb Hc. apply in_map_iff in Hb, Hc. destruct Hb as (y & <- & _), Hc as (z & E & _). congruence.
  - intros a b x _ _ Ha Hb. apply in_flat_map in Ha, Hb. destruct Ha as (y & _ & Ha), Hb as (z & _ & Hb).
    apply in_map_iff in Ha, Hb. destruct Ha as (u & <- & _), Hb as (v & E & _). congruence.
Qed.
Lemma coef_table n val i : coef (table_of n val) i = if bounded (n*n-1) i then RtoC (kept n (val i)) else C0.
Proof.
  unfold table_of. rewrite coef_nodup by (apply NoDup_filter, NoDup_triples). unfold kept.
  destruct (existsb (eq3 i) _) eqn:E.
  - apply existsb_exists in E. destruct E as (j & Hj & E). apply eq3_iff in E. subst j. apply filter_In in Hj. destruct Hj as (H1 & H2).
    apply bounded_in in H1. now rewrite H1, H2.
  - destruct (bounded (n*n-1) i) eqn:B; [|reflexivity]. destruct (gt_tol n (val i)) eqn:G; [|reflexivity].
    apply bounded_in in B. assert (existsb (eq3 i) (filter (fun i => gt_tol n (val i)) (triples (n*n-1))) = true); [|congruence].
    apply existsb_exists. exists i. split; [now apply filter_In|now apply eq3_iff].
Qed.
Lemma kept_opp n v : kept n (- v) = (- kept n v)%R.
Proof. unfold kept, gt_tol. rewrite Rabs_Ropp. destruct (Rlt_dec (PREC_TOL n) (Rabs v)); [reflexivity|ring]. Qed.
Lemma table_anti n val sw : (forall i, bounded (n*n-1) (sw i) = bounded (n*n-1) i) -> (forall i, val (sw i) = (- val i)%R) ->
  forall i, coef (table_of n val) (sw i) = - coef (table_of n val) i.
Proof. intros Hb Hv i. rewrite !coef_table, Hb, Hv, kept_opp. destruct (bounded (n*n-1) i); cring. Qed.
Lemma table_sym n val sw : (forall i, bounded (n*n-1) (sw i) = bounded (n*n-1) i) -> (forall i, val (sw i) = val i) ->
  forall i, coef (table_of n val) (sw i) = coef (table_of n val) i.
Proof. intros Hb Hv i. rewrite !coef_table, Hb, Hv. reflexivity. Qed.
Lemma f_anti_12 n lam i : f_of n lam (swap12 i) = (- f_of n lam i)%R.
Proof.
  destruct i as [[a b] c]. unfold f_of, swap12, compute_f_and_d. cbn [fst]. generalize (trace_abc n (lam b) (lam a) (lam c)), (trace_abc n (lam a) (lam b) (lam c)).
  intros [x y] [z w]. cunfold. ring.
Qed.
Lemma f_anti_23 n lam i : f_of n lam (swap23 i) = (- f_of n lam i)%R.
Proof.
  destruct i as [[a b] c]. unfold f_of, swap23, compute_f_and_d. cbn [fst]. rewrite !trace_abc_tr3.
  replace (tr3 n (mx n (lam a)) (mx n (lam c)) (mx n (lam b))) with (tr3 n (mx n (lam b)) (mx n (lam a)) (mx n (lam c))) by (now rewrite (tr3_rot n (mx n (lam b)))).
  replace (tr3 n (mx n (lam c)) (mx n (lam a)) (mx n (lam b))) with (tr3 n (mx n (lam a)) (mx n (lam b)) (mx n (lam c))) by (now rewrite (tr3_rot n (mx n (lam c)))).
  generalize (tr3 n (mx n (lam a)) (mx n (lam b)) (mx n (lam c))), (tr3 n (mx n (lam b)) (mx n (lam a)) (mx n (lam c))). intros [x y] [z w]. cunfold. ring.
Qed.
Lemma d_sym_12 n lam i : d_of n lam (swap12 i) = d_of n lam i.
Proof.
  destruct i as [[a b] c]. unfold d_of, swap12, compute_f_and_d. cbn [snd]. generalize (trace_abc n (lam b) (lam a) (lam c)), (trace_abc n (lam a) (lam b) (lam c)).
  intros [x y] [z w]. cunfold. ring.
Qed.
Lemma d_sym_23 n lam i : d_of n lam (swap23 i) = d_of n lam i.
Proof.
  destruct i as [[a b] c]. unfold d_of, swap23, compute_f_and_d. cbn [snd]. rewrite !trace_abc_tr3.
  replace (tr3 n (mx n (lam a)) (mx n (lam c)) (mx n (lam b))) with (tr3 n (mx n (lam b)) (mx n (lam a)) (mx n (lam c))) by (now rewrite (tr3_rot n (mx n (lam b)))).
  replace (tr3 n (mx n (lam c)) (mx n (lam a)) (mx n (lam b))) with (tr3 n (mx n (lam a)) (mx n (lam b)) (mx n (lam c))) by (now rewrite (tr3_rot n (mx n (lam c)))).
  generalize (tr3 n (mx n (lam a)) (mx n (lam b)) (mx n (lam c))), (tr3 n (mx n (lam b)) (mx n (lam a)) (mx n (lam c))). intros [x y] [z w]. cunfold. ring.
Qed.
Theorem f_antisymmetric n lam i : coef (ftable n lam) (swap12 i) = - coef (ftable n lam) i /\ coef (ftable n lam) (swap23 i) = - coef (ftable n lam) i.
Proof.
  destruct n as [|[|[|[|n]]]]; unfold ftable.
  1,2,5: split; [apply table_anti; [apply bounded_12|apply f_anti_12]|apply table_anti; [apply bounded_23|apply f_anti_23]].
  - split; [apply (code_anti 3 f2_code swap12)|apply (code_anti 3 f2_code swap23)]; [vm_compute; reflexivity|apply bounded_12|vm_compute; reflexivity|vm_compute; reflexivity|apply bounded_23|vm_compute; reflexivity].
  - split; [apply (code_anti 8 f3_code swap12)|apply (code_anti 8 f3_code swap23)]; [vm_compute; reflexivity|apply bounded_12|vm_compute; reflexivity|vm_compute; reflexivity|apply bounded_23|vm_compute; reflexivity].
Qed.
Theorem d_symmetric n lam i : coef (dtable n lam) (swap12 i) = coef (dtable n lam) i /\ coef (dtable n lam) (swap23 i) = coef (dtable n lam) i.
Proof.
  destruct n as [|[|[|[|n]]]]; unfold dtable.
  1,2,5: split; [apply table_sym; [apply bounded_12|apply d_sym_12]|apply table_sym; [apply bounded_23|apply d_sym_23]].
  - split; reflexivity.
  - split; [apply (code_sym 8 d3_code swap12)|apply (code_sym 8 d3_code swap23)]; [vm_compute; reflexivity|apply bounded_12|vm_compute; reflexivity|vm_compute; reflexivity|apply bounded_23|vm_compute; reflexivity].
Qed.
