(** Momenta of opposite sign, positivity, the Landau condition, constant gauge transformations. *)
From Coq Require Import Permutation Setoid Morphisms Psatz Ratan.
From Verif Require Import CInt GeomModel GeomSpec GeomProofs GeomProofs2 Cplx CMat Arr MatSpec MatModel MatProofs ProjModel ProjProofs FftModel FftProofs QtopModel QtopSpec QtopProofs QtopProofs2.
From Verif Require Import StaticProofs CutsModel CutsSpec CutsProofs SmearModel GluonModel GluonSpec GluonProofs GluonProofs2.
Local Open Scope Z_scope.

(** * Opposite momenta *)
Lemma phase_opp ds : forall k x, phase ds (map Z.opp k) x = (- phase ds k x)%R.
Proof. induction ds as [|d ds IH]; intros [|a k] [|b x]; cbn [map phase]; try ring. rewrite IH, opp_IZR. unfold Rdiv. ring. Qed.
Lemma nth_opp k mu : nth mu (map Z.opp k) 0 = - nth mu k 0.
Proof. change 0 with (- 0) at 1. apply map_nth. Qed.
Lemma half_opp ds k mu : half ds (map Z.opp k) mu = (- half ds k mu)%R.
Proof. unfold half. rewrite nth_opp, opp_IZR. unfold Rdiv. ring. Qed.
Lemma mom_opp b ds k mu : mom_of b ds (map Z.opp k) mu = (- mom_of b ds k mu)%R.
Proof.
  destruct b; unfold mom_of, khat, kcont; rewrite nth_opp, opp_IZR; unfold Rdiv; [|ring].
  replace (PI * - IZR (nth mu k 0%Z) * / IZR (nth mu ds 1%Z))%R with (- (PI * IZR (nth mu k 0%Z) * / IZR (nth mu ds 1%Z)))%R by ring. rewrite sin_neg. ring.
Qed.
Lemma mode_opp n ds A k mu : (forall x, (x < nsites ds)%nat -> hermitian n (A x mu)) -> meq n (mode ds A (map Z.opp k) mu) (dag (mode ds A k mu)).
Proof.
  intros H a b Ha Hb. unfold mode, dag. rewrite csum_conj. apply csum_ext. intros x Hx. rewrite conj_mul, <- cis_opp, <- (H x Hx a b Ha Hb). unfold dag.
  rewrite !dot_phase, phase_opp, half_opp. do 2 f_equal. ring.
Qed.
Lemma square_opp b ds N k : square N (mom_of b ds (map Z.opp k)) = square N (mom_of b ds k).
Proof. apply dsum_ext. intros mu _. rewrite mom_opp. ring. Qed.
Lemma guarded_opp b ds NC k : guarded b ds NC (map Z.opp k) = guarded b ds NC k.
Proof. unfold guarded. now rewrite square_opp. Qed.
Lemma re_conj z : re (conj z) = re z. Proof. reflexivity. Qed.
Lemma pol_dag n N p q (A B : nat -> mat) : (forall mu, (mu < N)%nat -> meq n (B mu) (dag (A mu))) -> (forall mu, (mu < N)%nat -> q mu = (- p mu)%R) ->
  all_pol n N B = all_pol n N A /\ along n N q B = along n N p A.
Proof.
  intros H Hq. assert (T : forall mu nu, (mu < N)%nat -> (nu < N)%nat -> re (mtr n (mmul n (B mu) (dag (B nu)))) = re (mtr n (mmul n (A mu) (dag (A nu))))).
  { intros mu nu H1 H2. rewrite (mtr_dag_meq n _ _ _ _ (H mu H1) (H nu H2)). rewrite !tr_entries, !re_csum.
    transitivity (dsum n (fun a => dsum n (fun b => re (A mu b a * conj (A nu b a))%C))).
    - apply dsum_ext. intros a _. rewrite re_csum. apply dsum_ext. intros b _. unfold dag. rewrite <- conj_mul. apply re_conj.
    - transitivity (re (csum n (fun a => csum n (fun b => (A mu b a * conj (A nu b a))%C)))).
      { rewrite re_csum. apply dsum_ext. intros a _. now rewrite re_csum. }
      rewrite csum_swap, re_csum. reflexivity. }
  split.
  - apply dsum_ext. intros mu Hm. now apply T.
  - rewrite !along_sum. apply dsum_ext. intros mu H1. apply dsum_ext. intros nu H2. rewrite T, !Hq by assumption. ring.
Qed.
Lemma pol_ext n N p q (A B : nat -> mat) : (forall mu, (mu < N)%nat -> meq n (B mu) (A mu)) -> (forall mu, (mu < N)%nat -> q mu = p mu) ->
  all_pol n N B = all_pol n N A /\ along n N q B = along n N p A.
Proof.
  intros H Hq. split.
  - apply dsum_ext. intros mu Hm. unfold norm2. now rewrite (mtr_dag_meq n _ _ _ _ (H mu Hm) (H mu Hm)).
  - rewrite !along_sum. apply dsum_ext. intros mu H1. apply dsum_ext. intros nu H2. now rewrite (mtr_dag_meq n _ _ _ _ (H mu H1) (H nu H2)), !Hq.
Qed.
Lemma gauge_field_hermitian n U x mu : (0 < n)%nat -> hermitian n (gauge_field n U x mu).
Proof. intro Hn. now apply trf_herm_hermitian. Qed.

(** * The size of momenta *)
Lemma sin_third x : (0 <= x <= PI / 2)%R -> (x / 3 <= sin x)%R.
Proof.
  intros [H1 H2]. pose proof PI_4 as P4. destruct (pre_sin_bound x 0 H1) as [L _]; [lra|]. refine (Rle_trans _ _ _ _ L). clear L.
  unfold sin_approx, sin_term. cbn [sum_f_R0 Nat.mul Nat.add fact INR pow].
  replace (_ + _)%R with (x - x * (x * x) / 6)%R by field. assert (x * x <= 4)%R by nra. nra.
Qed.
Lemma khat_large L k : (1 <= k)%R -> (0 < L)%R -> (2 * k <= L)%R -> (/ L <= sin (PI * k / L))%R.
Proof.
  intros Hk HL H2. pose proof PI_RGT_0 as P0. assert (P3 : (3 <= PI)%R) by (pose proof PI2_3_2; lra).
  assert (HI : (0 < / L)%R) by now apply Rinv_0_lt_compat.
  assert (E1 : (L * / L = 1)%R) by (field; lra).
  refine (Rle_trans _ _ _ _ (sin_third (PI * k / L) _)).
  - unfold Rdiv. assert (3 * / L <= PI * k * / L)%R by (apply Rmult_le_compat_r; [lra|nra]). lra.
  - unfold Rdiv. split; [apply Rmult_le_pos; nra|].
    replace (PI * / 2)%R with (PI * (L * / L) * / 2)%R by (rewrite E1; ring). assert (0 <= PI * / L * (L - 2 * k))%R by (apply Rmult_le_pos; [apply Rmult_le_pos; lra|lra]). lra.
Qed.
Lemma dsum_nonneg n f : (forall i, (i < n)%nat -> 0 <= f i)%R -> (0 <= dsum n f)%R.
Proof. induction n as [|n IH]; intro H; [rewrite dsum_0; lra|]. rewrite dsum_S. assert (0 <= dsum n f)%R by (apply IH; intros; apply H; lia). assert (0 <= f n)%R by (apply H; lia). lra. Qed.
Lemma dsum_term n f m : (forall i, (i < n)%nat -> 0 <= f i)%R -> (m < n)%nat -> (f m <= dsum n f)%R.
Proof.
  induction n as [|n IH]; intros H Hm; [lia|]. rewrite dsum_S. destruct (Nat.eq_dec m n) as [->|D].
  - assert (0 <= dsum n f)%R by (apply dsum_nonneg; intros; apply H; lia). lra.
  - assert (f m <= dsum n f)%R by (apply IH; [intros; apply H; lia|lia]). assert (0 <= f n)%R by (apply H; lia). lra.
Qed.
Lemma zone_nth ds k mu : zone ds k -> (mu < length ds)%nat -> - (nth mu ds 1 / 2) <= nth mu k 0 < nth mu ds 1 - nth mu ds 1 / 2.
Proof. intro H. revert mu. induction H as [|L q ds k H1 H IH]; intros mu Hm; [cbn in Hm; lia|]. destruct mu; cbn [nth]; [assumption|]. apply IH. cbn in Hm. lia. Qed.
Lemma mom_large b ds k mu : Forall (fun L => 0 < L) ds -> zone ds k -> (mu < length ds)%nat -> nth mu k 0 <> 0 ->
  (4 / (IZR (nth mu ds 1%Z) * IZR (nth mu ds 1%Z)) <= mom_of b ds k mu * mom_of b ds k mu)%R.
Proof.
  intros Hd Hz Hm Hk. pose proof (zone_nth ds k mu Hz Hm) as Z1. assert (HL : 0 < nth mu ds 1) by (apply (proj1 (Forall_forall _ _) Hd), nth_In; assumption).
  set (L := nth mu ds 1) in *. set (q := nth mu k 0) in *.
  assert (H2 : 2 * Z.abs q <= L) by (pose proof (Z.div_mod L 2); pose proof (Z.mod_pos_bound L 2); lia).
  assert (H1 : 1 <= Z.abs q) by lia. apply IZR_le in H1, H2. rewrite mult_IZR in H2. apply IZR_lt in HL.
  assert (HI : (0 < / IZR L)%R) by now apply Rinv_0_lt_compat.
  assert (Sq : (IZR q * IZR q = IZR (Z.abs q) * IZR (Z.abs q))%R) by (rewrite <- !mult_IZR; f_equal; lia).
  unfold Rdiv. rewrite Rinv_mult. set (i := (/ IZR L)%R) in *.
  destruct b; unfold mom_of, khat, kcont; fold L; fold q.
  - pose proof (khat_large (IZR L) (IZR (Z.abs q)) H1 HL H2) as K. fold i in K. unfold Rdiv in *. fold i. fold i in K.
    assert (S : (sin (PI * IZR q * i) * sin (PI * IZR q * i) = sin (PI * IZR (Z.abs q) * i) * sin (PI * IZR (Z.abs q) * i))%R).
    { destruct (Z.abs_spec q) as [[_ ->]|[_ ->]]; [reflexivity|]. rewrite opp_IZR. replace (PI * - IZR q * i)%R with (- (PI * IZR q * i))%R by ring. rewrite sin_neg. ring. }
    replace (2 * sin (PI * IZR q * i) * (2 * sin (PI * IZR q * i)))%R with (4 * (sin (PI * IZR q * i) * sin (PI * IZR q * i)))%R by ring. rewrite S.
    assert (i * i <= sin (PI * IZR (Z.abs q) * i) * sin (PI * IZR (Z.abs q) * i))%R by (apply Rmult_le_compat; lra). lra.
  - unfold Rdiv. fold i. replace (2 * PI * IZR q * i * (2 * PI * IZR q * i))%R with (4 * (PI * PI * (IZR q * IZR q)) * (i * i))%R by ring. rewrite Sq.
    assert (P3 : (3 <= PI)%R) by (pose proof PI2_3_2; lra). apply Rmult_le_compat_r; [nra|]. assert (1 <= IZR (Z.abs q) * IZR (Z.abs q))%R by nra. assert (9 <= PI * PI)%R by nra. nra.
Qed.
Lemma square_large b ds NC k : Forall (fun L => 0 < L <= 10 ^ 6) ds -> (NC <= 100)%nat -> zone ds k -> (exists mu, (mu < length ds)%nat /\ nth mu k 0 <> 0) ->
  (PREC_TOL NC <= square (length ds) (mom_of b ds k))%R /\ (0 < square (length ds) (mom_of b ds k))%R.
Proof.
  intros Hd HN Hz (mu & Hm & Hk).
  assert (Hd' : Forall (fun L => 0 < L) ds) by (eapply Forall_impl; [|exact Hd]; cbv beta; lia).
  pose proof (mom_large b ds k mu Hd' Hz Hm Hk) as K.
  assert (T : (mom_of b ds k mu * mom_of b ds k mu <= square (length ds) (mom_of b ds k))%R) by (apply (dsum_term (length ds) (fun mu => mom_of b ds k mu * mom_of b ds k mu)%R); [intros; nra|assumption]).
  assert (HL : 0 < nth mu ds 1 <= 10 ^ 6) by (apply (proj1 (Forall_forall _ _) Hd), nth_In; assumption).
  destruct HL as [L1 L2]. apply IZR_lt in L1. apply IZR_le in L2. change (IZR (10 ^ 6)) with 1000000%R in L2. set (L := IZR (nth mu ds 1%Z)) in *.
  assert (B : (4 / 1000000000000 <= 4 / (L * L))%R).
  { unfold Rdiv. apply Rmult_le_compat_l; [lra|]. apply Rinv_le_contravar; [nra|]. replace 1000000000000%R with (1000000 * 1000000)%R by lra. nra. }
  assert (N : (PREC_TOL NC <= 100 * (1 / 10 ^ 14))%R).
  { unfold PREC_TOL. apply Rmult_le_compat_r; [lra|]. replace 100%R with (INR 100) by (rewrite INR_IZR_INZ; reflexivity). now apply le_INR. }
  lra.
Qed.
Lemma guarded_zero b ds NC : (0 < NC)%nat -> guarded b ds NC (zeros ds) = 1%R.
Proof.
  intro H. unfold guarded. destruct (Rlt_dec _ _) as [Y|N]; [reflexivity|]. exfalso. apply N.
  replace (square _ _) with 0%R; [unfold PREC_TOL; apply Rmult_lt_0_compat; [now apply lt_0_INR|lra]|].
  unfold square. symmetry. rewrite (dsum_ext _ _ (fun _ => 0 * 0)%R); [rewrite (dsum_mul _ 0 (fun _ => 0%R)); ring|].
  intros mu _. assert (E : nth mu (zeros ds) 0 = 0) by (unfold zeros; clear; revert mu; induction ds; intros [|mu]; cbn; auto).
  destruct b; unfold mom_of, khat, kcont; rewrite E; unfold Rdiv; [replace (PI * 0 * / IZR (nth mu ds 1%Z))%R with 0%R by ring; rewrite sin_0; ring|ring].
Qed.

(** * Positivity *)
Lemma norm2_sum n M : norm2 n M = dsum n (fun a => dsum n (fun b => re (M a b) * re (M a b) + im (M a b) * im (M a b))%R).
Proof. unfold norm2. rewrite tr_entries, re_csum. apply dsum_ext. intros a _. rewrite re_csum. apply dsum_ext. intros b _. destruct (M a b). cunfold. ring. Qed.
Lemma norm2_nonneg n M : (0 <= norm2 n M)%R.
Proof. rewrite norm2_sum. apply dsum_nonneg. intros a _. apply dsum_nonneg. intros b _. nra. Qed.
Lemma cauchy N (p x : nat -> R) : (dsum N (fun i => p i * x i) * dsum N (fun i => p i * x i) <= dsum N (fun i => p i * p i) * dsum N (fun i => x i * x i))%R.
Proof.
  induction N as [|N IH]; [rewrite !dsum_0; lra|]. rewrite !dsum_S. set (S := dsum N _) in *. 
  assert (P0 : (0 <= dsum N (fun i => p i * p i))%R) by (apply dsum_nonneg; intros; nra). assert (X0 : (0 <= dsum N (fun i => x i * x i))%R) by (apply dsum_nonneg; intros; nra).
  set (P := dsum N (fun i => (p i * p i)%R)) in *. set (X := dsum N (fun i => (x i * x i)%R)) in *. clearbody S P X. set (q := p N). set (y := x N). clearbody q y.
  assert (K : (2 * S * q * y <= P * (y * y) + X * (q * q))%R).
  { assert (B0 : (0 <= P * (y * y) + X * (q * q))%R) by (assert (0 <= P * (y * y))%R by (apply Rmult_le_pos; nra); assert (0 <= X * (q * q))%R by (apply Rmult_le_pos; nra); lra).
    destruct (Rle_dec (2 * S * q * y) (P * (y * y) + X * (q * q))) as [Y|N0]; [exact Y|]. exfalso.
    assert (H1 : ((P * (y * y) + X * (q * q)) * (P * (y * y) + X * (q * q)) < (2 * S * q * y) * (2 * S * q * y))%R) by (apply Rmult_le_0_lt_compat; lra).
    assert (H2 : (S * S * ((q * y) * (q * y)) <= P * X * ((q * y) * (q * y)))%R) by (apply Rmult_le_compat_r; [nra|exact IH]).
    assert (H3 : (0 <= (P * (y * y) - X * (q * q)) * (P * (y * y) - X * (q * q)))%R) by apply Rle_0_sqr.
    ring_simplify in H1. ring_simplify in H2. ring_simplify in H3. lra. }
  ring_simplify. ring_simplify in K. ring_simplify in IH. lra.
Qed.
Lemma dsum_le n f g : (forall i, (i < n)%nat -> f i <= g i)%R -> (dsum n f <= dsum n g)%R.
Proof. induction n as [|n IH]; intro H; [rewrite !dsum_0; lra|]. rewrite !dsum_S. apply Rplus_le_compat; [apply IH; intros; apply H; lia|apply H; lia]. Qed.
Lemma dsum_add n f g : dsum n (fun i => f i + g i)%R = (dsum n f + dsum n g)%R.
Proof. induction n as [|n IH]; [rewrite !dsum_0; ring|]. rewrite !dsum_S, IH. ring. Qed.
Lemma dsum_swap n m f : dsum n (fun i => dsum m (f i)) = dsum m (fun j => dsum n (fun i => f i j)).
Proof.
  induction n as [|n IH]; [rewrite dsum_0; symmetry; rewrite (dsum_ext _ _ (fun _ => 0 * 0)%R); [rewrite (dsum_mul _ 0 (fun _ => 0%R)); ring|intros; rewrite dsum_0; ring]|].
  rewrite dsum_S, IH, <- dsum_add. apply dsum_ext. intros j _. now rewrite dsum_S.
Qed.
Lemma im_csum n f : im (csum n f) = dsum n (fun i => im (f i)).
Proof. induction n as [|n IH]; [reflexivity|]. rewrite dsum_S, <- IH. reflexivity. Qed.
Lemma along_le n N p (A : nat -> mat) : (along n N p A <= square N p * all_pol n N A)%R.
Proof.
  unfold along, all_pol. rewrite norm2_sum.
  rewrite (dsum_ext N (fun mu => norm2 n (A mu)) (fun mu => dsum n (fun a => dsum n (fun b => re (A mu a b) * re (A mu a b) + im (A mu a b) * im (A mu a b))%R))) by (intros; apply norm2_sum).
  rewrite (dsum_swap N n), <- dsum_mul. apply dsum_le. intros a _. rewrite (dsum_swap N n), <- dsum_mul. apply dsum_le. intros b _.
  unfold msums, mscale. rewrite re_csum, im_csum. rewrite dsum_add, Rmult_plus_distr_l.
  rewrite (dsum_ext N (fun i => re (RtoC (p i) * A i a b)%C) (fun i => p i * re (A i a b))%R) by (intros; apply re_real).
  rewrite (dsum_ext N (fun i => im (RtoC (p i) * A i a b)%C) (fun i => p i * im (A i a b))%R) by (intros i _; destruct (A i a b); cunfold; ring).
  apply Rplus_le_compat; apply cauchy.
Qed.
Lemma along_nonneg n N p A : (0 <= along n N p A)%R. Proof. apply norm2_nonneg. Qed.
Lemma all_pol_nonneg n N A : (0 <= all_pol n N A)%R. Proof. apply dsum_nonneg. intros. apply norm2_nonneg. Qed.
Lemma vals_nonneg b ds NC k p A : (NC <= 100)%nat -> p = mom_of b ds k ->
  (0 <= along NC (length ds) p A / guarded b ds NC k)%R /\ (0 <= all_pol NC (length ds) A - along NC (length ds) p A / guarded b ds NC k)%R.
Proof.
  intros HN ->. set (N := length ds). set (p := mom_of b ds k). pose proof (along_nonneg NC N p A) as H1. pose proof (along_le NC N p A) as H2. pose proof (all_pol_nonneg NC N A) as H3.
  assert (T : (PREC_TOL NC <= 1)%R).
  { unfold PREC_TOL. assert (INR NC <= INR 100)%R by now apply le_INR. replace (INR 100) with 100%R in * by (rewrite INR_IZR_INZ; reflexivity). lra. }
  unfold guarded. fold N. fold p. assert (S0 : (0 <= square N p)%R) by (apply dsum_nonneg; intros; nra).
  destruct (Rlt_dec (square N p) (PREC_TOL NC)) as [Y|N0].
  - unfold Rdiv. rewrite Rinv_1. split; nra.
  - destruct (Rle_lt_or_eq_dec 0 (square N p) S0) as [Sp|Sz].
    + assert (E : (along NC N p A / square N p <= all_pol NC N A)%R).
      { apply (Rmult_le_reg_r (square N p)); [assumption|]. unfold Rdiv. rewrite Rmult_assoc, Rinv_l by lra. lra. }
      split; [|lra]. apply Rmult_le_pos; [assumption|]. left. now apply Rinv_0_lt_compat.
    + rewrite <- Sz. unfold Rdiv. rewrite Rinv_0. split; lra.
Qed.
