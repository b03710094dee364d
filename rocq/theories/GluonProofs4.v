(** The Landau condition and constant gauge transformations. *)
From Coq Require Import Permutation Setoid Morphisms Psatz.
From Verif Require Import CInt GeomModel GeomSpec GeomProofs GeomProofs2 Cplx CMat Det Arr MatSpec MatModel MatProofs ProjModel ProjProofs FftModel FftProofs QtopModel QtopSpec QtopProofs QtopProofs2.
From Verif Require Import StaticProofs CutsModel CutsSpec CutsProofs SmearModel GluonModel GluonSpec GluonProofs GluonProofs2 GluonProofs3.
Local Open Scope Z_scope.

Lemma csum_list n f : csum n f = fold_right (fun i s => (f i + s)%C) C0 (seq 0 n).
Proof.
  induction n as [|n IH]; [reflexivity|]. rewrite seq_S, fold_right_app. cbn [csum fold_right Nat.add]. rewrite IH.
  generalize (seq 0 n). intro l. generalize (f n). intro c. induction l as [|x l IHl]; cbn [fold_right]; [ring|]. rewrite <- IHl. ring.
Qed.
Lemma csum_bij n f (s : nat -> nat) : (forall x, (x < n)%nat -> (s x < n)%nat) -> (forall x y, (x < n)%nat -> (y < n)%nat -> s x = s y -> x = y) ->
  csum n (fun x => f (s x)) = csum n f.
Proof.
  intros Hr Hi. rewrite !csum_list.
  assert (P : Permutation (map s (seq 0 n)) (seq 0 n)).
  { apply NoDup_Permutation_bis; [apply NoDup_map_in; [|apply seq_NoDup]; intros x y Hx Hy; apply in_seq in Hx, Hy; apply Hi; lia|now rewrite map_length|].
    intros y Hy. apply in_map_iff in Hy as (x & <- & Hx). apply in_seq in Hx. apply in_seq. specialize (Hr x). lia. }
  assert (E : forall l, fold_right (fun i t => (f (s i) + t)%C) C0 l = fold_right (fun i t => (f i + t)%C) C0 (map s l)) by (induction l as [|x l IH]; cbn; [reflexivity|now rewrite IH]).
  rewrite E. clear -P. revert P. generalize (map s (seq 0 n)) (seq 0 n). intros l1 l2 P. induction P; cbn [fold_right]; [reflexivity|now rewrite IHP|ring|congruence].
Qed.

(** * Neighbours *)
Section Neighbours.
Variable ds : list Z.
Hypothesis pos : Forall (fun L => 0 < L) ds.
Lemma unit_sep_length mu s : length (unit_sep ds mu s) = length ds.
Proof. unfold unit_sep. now rewrite map_length, seq_length. Qed.
Lemma behind_digits x mu : digits ds (Z.of_nat (behind ds x mu)) = translate ds (digits ds (Z.of_nat x)) (unit_sep ds mu (-1)).
Proof.
  unfold behind. rewrite coords_digits by assumption.
  assert (B : in_box ds (translate ds (digits ds (Z.of_nat x)) (unit_sep ds mu (-1)))) by (apply translate_box; [assumption|now apply digits_in_box|apply unit_sep_length]).
  rewrite index_of_horner by (now apply in_box_length). pose proof (horner_bound _ _ B). rewrite Z2Nat.id by lia. now apply digits_horner.
Qed.
Lemma behind_lt x mu : (behind ds x mu < nsites ds)%nat.
Proof.
  unfold behind, nsites. rewrite coords_digits by assumption.
  assert (B : in_box ds (translate ds (digits ds (Z.of_nat x)) (unit_sep ds mu (-1)))) by (apply translate_box; [assumption|now apply digits_in_box|apply unit_sep_length]).
  rewrite index_of_horner by (now apply in_box_length). pose proof (horner_bound _ _ B). lia.
Qed.
Lemma sep_cancel : forall (d : list Z) mu a, Forall2 (fun _ c => c = 0) d (map (fun p => fst p + snd p) (combine (map (fun k => if Nat.eqb k mu then -1 else 0) (seq a (length d))) (map (fun k => if Nat.eqb k mu then 1 else 0) (seq a (length d))))).
Proof. induction d as [|L d IH]; intros mu a; cbn [length seq map combine]; constructor; [cbn [fst snd]; destruct (Nat.eqb a mu); reflexivity|apply IH]. Qed.
Lemma behind_inj mu x y : (x < nsites ds)%nat -> (y < nsites ds)%nat -> behind ds x mu = behind ds y mu -> x = y.
Proof.
  intros Hx Hy E. apply (f_equal (fun i => translate ds (digits ds (Z.of_nat i)) (unit_sep ds mu 1))) in E. rewrite !behind_digits in E.
  rewrite !translate_add in E by (auto using digits_in_box, unit_sep_length).
  unfold unit_sep in E. rewrite !translate_0 in E by (auto using digits_in_box, sep_cancel).
  apply (f_equal (horner ds)) in E. unfold nsites in *. rewrite !horner_digits in E by (assumption || lia). lia.
Qed.
End Neighbours.
Lemma phase_translate ds : Forall (fun L => 0 < L) ds -> forall k x s, length k = length ds -> length x = length ds -> length s = length ds ->
  exists z, phase ds k (translate ds x s) = (phase ds k x + phase ds k s + IZR z)%R.
Proof.
  induction 1 as [|d ds H0 H1 IH]; intros [|a k] [|b x] [|c s] L1 L2 L3; try discriminate; [exists 0; cbn; ring|].
  destruct (IH k x s) as [z E]; try (simpl in *; lia). exists (z - a * ((b + c) / d)).
  unfold translate in *. cbn [combine map fst snd phase]. rewrite E, minus_IZR, mult_IZR.
  assert (Ea : IZR ((b + c) mod d) = (IZR b + IZR c - IZR ((b + c) / d) * IZR d)%R).
  { rewrite <- mult_IZR, <- plus_IZR, <- minus_IZR. f_equal. rewrite (Z.div_mod (b + c) d) at 2 by lia. ring. }
  rewrite Ea. field. apply IZR_neq. lia.
Qed.
Lemma phase_unit : forall ds k mu a s, length k = length ds ->
  phase ds k (map (fun j => if Nat.eqb j mu then s else 0) (seq a (length ds))) = if (Nat.leb a mu && Nat.ltb mu (a + length ds))%bool then (IZR (nth (mu - a) k 0%Z) * IZR s / IZR (nth (mu - a) ds 1%Z))%R else 0%R.
Proof.
  induction ds as [|d ds IH]; intros [|q k] mu a s H; try discriminate.
  - cbn [length seq map phase]. destruct (Nat.leb_spec a mu), (Nat.ltb_spec mu (a + 0)); try reflexivity; lia.
  - cbn [length seq map phase]. rewrite IH by (simpl in H; lia). destruct (Nat.eqb_spec a mu) as [->|N].
    + rewrite Nat.sub_diag. cbn [nth]. destruct (Nat.leb_spec (S mu) mu); [lia|]. cbn [andb]. rewrite Nat.leb_refl. destruct (Nat.ltb_spec mu (mu + S (length ds))); [cbn [andb]; ring|lia].
    + replace (Nat.ltb mu (S a + length ds)) with (Nat.ltb mu (a + S (length ds))) by (f_equal; lia).
      destruct (Nat.leb_spec a mu), (Nat.leb_spec (S a) mu); try lia; cbn [andb]; [|unfold Rdiv; ring].
      replace (mu - a)%nat with (S (mu - S a)) by lia. cbn [nth]. destruct (Nat.ltb mu _); unfold Rdiv; ring.
Qed.
Lemma cis_behind ds k x mu : Forall (fun L => 0 < L) ds -> length k = length ds -> (mu < length ds)%nat ->
  (cis (2 * PI * dot ds k (coords ds (behind ds x mu))) * cis (2 * PI * (IZR (nth mu k 0%Z) / IZR (nth mu ds 1%Z))))%C = cis (2 * PI * dot ds k (coords ds x)).
Proof.
  intros pos Hk Hm. rewrite !dot_phase, !coords_digits, behind_digits by assumption.
  destruct (phase_translate ds pos k (digits ds (Z.of_nat x)) (unit_sep ds mu (-1))) as [z E]; [assumption|apply digits_length|apply unit_sep_length|]. rewrite E.
  unfold unit_sep. rewrite phase_unit by assumption. rewrite Nat.sub_0_r. cbn [Nat.leb Nat.add andb]. apply Nat.ltb_lt in Hm as ->.
  rewrite <- cis_add. set (p := phase _ _ _). transitivity (cis (2 * PI * p) * C1)%C; [|ring]. rewrite <- (cis_int z), <- cis_add. f_equal. unfold Rdiv. ring.
Qed.
Lemma khat_cis t : (RtoC (2 * sin t) * cis t = - Ci * (cis (2 * t) - C1))%C.
Proof. unfold cis. rewrite cos_2a_sin, sin_2a. apply C_eq; cunfold; ring. Qed.

(** * Landau gauge *)
Theorem landau_modes n ds A k : Forall (fun L => 0 < L) ds -> length k = length ds ->
  landau n (length ds) (nsites ds) (behind ds) A -> meq n (msums (length ds) (fun mu => mscale (RtoC (khat ds k mu)) (mode ds A k mu))) mzero.
Proof.
  intros pos Hk H a b Ha Hb. unfold msums, mscale.
  transitivity (csum (length ds) (fun mu => csum (nsites ds) (fun x => Ci * (cis (2 * PI * dot ds k (coords ds x)) * (A x mu a b - A (behind ds x mu) mu a b))))%C).
  - apply csum_ext. intros mu Hm. unfold mode. rewrite <- csum_mul_l.
    set (t := (PI * IZR (nth mu k 0%Z) / IZR (nth mu ds 1%Z))%R).
    assert (Et : (2 * PI * half ds k mu = t)%R).
    { unfold half, t. assert (IZR (nth mu ds 1%Z) <> 0)%R; [|field; assumption]. apply IZR_neq. assert (0 < nth mu ds 1) by (apply (proj1 (Forall_forall _ _) pos), nth_In; assumption). lia. }
    assert (Et2 : (2 * t = 2 * PI * (IZR (nth mu k 0%Z) / IZR (nth mu ds 1%Z)))%R) by (unfold t, Rdiv; ring).
    transitivity (csum (nsites ds) (fun x => Ci * (cis (2 * PI * dot ds k (coords ds x)) * A x mu a b))%C - csum (nsites ds) (fun x => Ci * (cis (2 * PI * dot ds k (coords ds x)) * cis (2 * t) * A x mu a b))%C)%C.
    + rewrite <- csum_sub. apply csum_ext. intros x _. rewrite Rmult_plus_distr_l, Et, cis_add. change (khat ds k mu) with (2 * sin t)%R.
      transitivity ((RtoC (2 * sin t) * cis t) * (cis (2 * PI * dot ds k (coords ds x)) * A x mu a b))%C; [ring|]. rewrite khat_cis. ring.
    + rewrite <- (csum_bij (nsites ds) (fun x => Ci * (cis (2 * PI * dot ds k (coords ds x)) * cis (2 * t) * A x mu a b))%C (fun x => behind ds x mu)) by (intros; solve [now apply behind_lt|eapply behind_inj; eassumption]).
      rewrite <- csum_sub. apply csum_ext. intros x _. rewrite Et2, cis_behind by assumption. ring.
  - rewrite csum_swap. unfold mzero. rewrite <- (csum_0 (nsites ds)). apply csum_ext. intros x Hx. rewrite csum_mul_l, csum_mul_l.
    specialize (H x Hx a b Ha Hb). unfold msums, msub, mzero in H. rewrite H. ring.
Qed.
Lemma norm2_zero n M : meq n M mzero -> norm2 n M = 0%R.
Proof. intro H. unfold norm2. rewrite (mtr_dag_meq n _ _ _ _ H H), tr_entries, re_csum. unfold mzero. rewrite (dsum_ext _ _ (fun _ => 0 * 0)%R); [rewrite (dsum_mul _ 0 (fun _ => 0%R)); ring|].
  intros a _. rewrite re_csum. rewrite (dsum_ext _ _ (fun _ => 0 * 0)%R); [rewrite (dsum_mul _ 0 (fun _ => 0%R)); ring|]. intros. cunfold. ring. Qed.
Theorem landau_along n ds A k : Forall (fun L => 0 < L) ds -> length k = length ds ->
  landau n (length ds) (nsites ds) (behind ds) A -> along n (length ds) (khat ds k) (mode ds A k) = 0%R.
Proof. intros. apply norm2_zero. now apply landau_modes. Qed.

(** * Constant gauge transformations *)
Section Rotate.
Variables (n : nat) (g : mat).
Hypothesis Hn : (0 < n)%nat.
Hypothesis Hg : SUn n g.
Definition rot (M : mat) : mat := mmul n (mmul n g M) (dag g).
Lemma gg : meq n (mmul n (dag g) g) mid. Proof. apply Hg. Qed.
Lemma gg' : meq n (mmul n g (dag g)) mid. Proof. apply Hg. Qed.
Lemma rot_tr M : mtr n (rot M) = mtr n M.
Proof. unfold rot. rewrite mtr_cyc. apply csum_ext. intros i Hi. rewrite <- (mmul_1_l n M i i Hi Hi). assert (E : meq n (mmul n (dag g) (mmul n g M)) (mmul n mid M)) by (rewrite <- mmul_assoc, gg; reflexivity). now apply E. Qed.
Lemma rot_mul A B : meq n (mmul n (rot A) (rot B)) (rot (mmul n A B)).
Proof.
  unfold rot. rewrite !mmul_assoc. rewrite <- (mmul_assoc n (dag g) g (mmul n B (dag g))), gg, mmul_1_l. reflexivity.
Qed.
Lemma rot_dag A : meq n (dag (rot A)) (rot (dag A)).
Proof. unfold rot. rewrite !dag_mmul, dag_dag. now rewrite mmul_assoc. Qed.
Lemma rot_meq A B : meq n A B -> meq n (rot A) (rot B).
Proof. intro H. unfold rot. now rewrite H. Qed.
Lemma rot_scale c A : meq n (rot (mscale c A)) (mscale c (rot A)).
Proof. unfold rot. now rewrite mmul_scale_r, mmul_scale_l. Qed.
Lemma rot_sub A B : meq n (rot (msub A B)) (msub (rot A) (rot B)).
Proof. unfold rot. now rewrite mmul_sub_r, mmul_sub_l. Qed.
Lemma rot_mid : meq n (rot mid) mid.
Proof. unfold rot. now rewrite mmul_1_r, gg'. Qed.
Lemma rot_herm A : meq n (herm (rot A)) (rot (herm A)).
Proof.
  unfold herm, aherm. rewrite !rot_scale, rot_sub. intros i j Hi Hj. unfold mscale, msub. now rewrite (rot_dag A i j Hi Hj).
Qed.
Lemma herm_meq A B : meq n A B -> meq n (herm A) (herm B).
Proof. intros H i j Hi Hj. unfold herm, aherm, mscale, msub, dag. now rewrite !H. Qed.
Lemma mtr_meq A B : meq n A B -> mtr n A = mtr n B.
Proof. intro H. apply csum_ext. intros i Hi. now apply H. Qed.
Lemma trf_meq A B : meq n A B -> meq n (trf n A) (trf n B).
Proof. intros H i j Hi Hj. unfold trf, msub, mscale. now rewrite (mtr_meq A B H), H. Qed.
Lemma rot_trf A : meq n (trf n (rot A)) (rot (trf n A)).
Proof. unfold trf. rewrite rot_sub, rot_scale, rot_mid, rot_tr. reflexivity. Qed.
Lemma gauge_field_rot U U' x mu : meq n (mx n (U' x mu)) (rot (mx n (U x mu))) -> meq n (gauge_field n U' x mu) (rot (gauge_field n U x mu)).
Proof. intro H. unfold gauge_field. rewrite (trf_meq _ _ (herm_meq _ _ H)), (trf_meq _ _ (rot_herm _)). apply rot_trf. Qed.
Lemma rot_csum N c (A : nat -> mat) : meq n (rot (fun a b => csum N (fun x => c x * A x a b)%C)) (fun a b => csum N (fun x => c x * rot (A x) a b)%C).
Proof.
  intros i j Hi Hj. unfold rot, mmul.
  transitivity (csum n (fun k => csum N (fun x => csum n (fun l => c x * (g i l * A x l k * dag g k j)))))%C.
  - apply csum_ext. intros k _. rewrite <- csum_mul_r, csum_swap. apply csum_ext. intros l _. rewrite <- csum_mul_l, <- csum_mul_r. apply csum_ext. intros x _. ring.
  - rewrite csum_swap. apply csum_ext. intros x _. rewrite <- csum_mul_l. apply csum_ext. intros k _. rewrite <- csum_mul_r, <- csum_mul_l. reflexivity.
Qed.
Lemma mode_rot ds A A' k mu : (forall x, (x < nsites ds)%nat -> meq n (A' x mu) (rot (A x mu))) -> meq n (mode ds A' k mu) (rot (mode ds A k mu)).
Proof.
  intros H. unfold mode. rewrite rot_csum. intros a b Ha Hb. apply csum_ext. intros x Hx. now rewrite (H x Hx a b Ha Hb).
Qed.
Lemma pol_rot N p (A B : nat -> mat) : (forall mu, (mu < N)%nat -> meq n (B mu) (rot (A mu))) -> all_pol n N B = all_pol n N A /\ along n N p B = along n N p A.
Proof.
  intro H. assert (T : forall mu nu, (mu < N)%nat -> (nu < N)%nat -> mtr n (mmul n (B mu) (dag (B nu))) = mtr n (mmul n (A mu) (dag (A nu)))).
  { intros mu nu H1 H2. rewrite (mtr_dag_meq n _ _ _ _ (H mu H1) (H nu H2)). rewrite <- (rot_tr (mmul n (A mu) (dag (A nu)))). apply mtr_meq. rewrite rot_dag. apply rot_mul. }
  split; [apply dsum_ext; intros mu H1; unfold norm2; now rewrite T|]. rewrite !along_sum. apply dsum_ext. intros mu H1. apply dsum_ext. intros nu H2. now rewrite T.
Qed.
End Rotate.
