From Coq Require Import ZArith Reals List PeanoNat Lia Lra Permutation.
From Verif Require Import CInt Lib Cplx NumModel FieldProofs3.
Import ListNotations.
Local Open Scope R_scope.

(** ** sums *)
Local Open Scope Z_scope.
Lemma u64_small : forall x, 0 <= x < two64 -> u64 x = x.
Proof. intros x H. unfold u64. now apply Z.mod_small. Qed.
Definition slice (a : list R) (lo hi : nat) : list R := firstn (hi - lo) (skipn lo a).
Lemma slice_split : forall a lo m hi, (lo <= m <= hi)%nat -> slice a lo hi = slice a lo m ++ slice a m hi.
Proof.
  intros a lo m hi H. unfold slice. replace (hi - lo)%nat with ((m - lo) + (hi - m))%nat by lia.
  rewrite <- (firstn_skipn (m - lo) (skipn lo a)) at 1. rewrite firstn_app.
  destruct (Nat.le_gt_cases (m - lo) (length (skipn lo a))) as [L|L].
  - rewrite firstn_length_le by assumption. rewrite firstn_all2 by (rewrite firstn_length_le by assumption; lia).
    f_equal. replace (m - lo + (hi - m) - (m - lo))%nat with (hi - m)%nat by lia. f_equal. rewrite skipn_skipn'. f_equal. lia.
  - rewrite (skipn_all2 (n := (m - lo)) (skipn lo a)) by lia. rewrite firstn_nil, app_nil_r.
    rewrite skipn_length in L. rewrite (skipn_all2 (n := m) a) by lia. rewrite firstn_nil, app_nil_r.
    rewrite (firstn_all2 (n := m - lo)) by (rewrite skipn_length; lia). apply firstn_all2. rewrite skipn_length. lia.
Qed.
Lemma slice_one : forall a k, (k < length a)%nat -> exists v, nth_error a k = Some v /\ slice a k (S k) = [v].
Proof.
  intros a k H. unfold slice. replace (S k - k)%nat with 1%nat by lia.
  destruct (nth_error a k) as [v|] eqn:E; [|apply nth_error_None in E; lia]. exists v. split; [reflexivity|].
  apply nth_error_split in E. destruct E as (l1 & l2 & -> & <-). rewrite skipn_app, skipn_all, Nat.sub_diag. reflexivity.
Qed.
Lemma slice_all : forall a, slice a 0 (length a) = a.
Proof. intro a. unfold slice. rewrite Nat.sub_0_r. apply firstn_all. Qed.
Lemma dandc_ok : forall fuel (a : list R) lo hi, (lo < hi <= length a)%nat -> Z.of_nat (length a) < 2 ^ 62 -> (hi - lo <= fuel)%nat ->
  dandc_sum fuel a (Z.of_nat lo) (Z.of_nat hi) = Some (lsum (slice a lo hi)).
Proof.
  induction fuel as [|f IH]; intros a lo hi H L F; [lia|]. cbn [dandc_sum].
  assert (T : two64 = 4 * 2 ^ 62) by reflexivity.
  rewrite (u64_small (Z.of_nat hi - Z.of_nat lo)) by lia. rewrite (u64_small (Z.of_nat hi + Z.of_nat lo)) by lia.
  destruct (Z.ltb_spec (Z.of_nat hi - Z.of_nat lo) 2) as [C|C].
  - destruct (slice_one a lo) as (v & E & S1); [lia|]. replace hi with (S lo) by lia. rewrite S1. unfold rd.
    replace (Z.of_nat lo <? 0) with false by (symmetry; apply Z.ltb_ge; lia). rewrite Nat2Z.id, E. cbn. f_equal. lra.
  - set (m := ((hi + lo) / 2)%nat). assert (M : (lo < m < hi)%nat) by (subst m; split; [apply Nat.div_le_lower_bound|apply Nat.div_lt_upper_bound]; lia).
    replace ((Z.of_nat hi + Z.of_nat lo) / 2) with (Z.of_nat m) by (subst m; rewrite Nat2Z.inj_div; f_equal; lia).
    rewrite (IH a lo m), (IH a m hi) by lia. f_equal. rewrite (slice_split a lo m hi) by lia. symmetry. apply lsum_app.
Qed.
(** called with lo > hi the recursion never ends *)
Lemma dandc_never : forall fuel a lo hi, 0 <= hi < lo -> lo < 2 ^ 62 -> dandc_sum fuel a lo hi = None.
Proof.
  induction fuel as [|f IH]; intros a lo hi H L; [reflexivity|]. cbn [dandc_sum].
  assert (T : two64 = 4 * 2 ^ 62) by reflexivity.
  assert (E : u64 (hi - lo) = hi - lo + two64). { unfold u64. rewrite <- (Z.mod_small (hi - lo + two64) two64) by lia. rewrite <- (Z_mod_plus_full (hi - lo) 1 two64). now rewrite Z.mul_1_l. }
  rewrite E. replace (hi - lo + two64 <? 2) with false by (symmetry; apply Z.ltb_ge; lia).
  rewrite (u64_small (hi + lo)) by lia. rewrite IH; [reflexivity| |lia].
  split; [apply Z.div_pos; lia|]. apply Z.div_lt_upper_bound; lia.
Qed.
Lemma dandc_end : forall fuel a n, Z.of_nat (length a) <= n -> dandc_sum fuel a n n = None.
Proof.
  intros [|f] a n H; [reflexivity|]. cbn [dandc_sum]. rewrite Z.sub_diag. change (u64 0 <? 2) with true. cbv iota. unfold rd. destruct (n <? 0); [reflexivity|]. apply nth_error_None. lia.
Qed.

(** the parallel sum *)
Section Par.
Variables (a : list R) (Nth : nat).
Hypothesis (HN : Z.of_nat (length a) < 2 ^ 31) (HT : (0 < Nth)%nat) (HT2 : Z.of_nat Nth < 2 ^ 31).
Let N := length a.
Let split : nat := ((N + Nth - 1) / Nth)%nat.
Let T : two64 = 4 * 2 ^ 62. Proof. reflexivity. Qed.
Lemma split_z : u64 (Z.of_nat N + Z.of_nat Nth - 1) / Z.of_nat Nth = Z.of_nat split.
Proof.
  unfold split. rewrite Nat2Z.inj_div, u64_small by (fold N in HN; lia). f_equal. lia.
Qed.
Lemma split_le : (split <= N)%nat.
Proof. unfold split. destruct (Nat.eq_dec N 0) as [E|E]; [rewrite E; cbn; rewrite Nat.div_small; lia|].
  apply Nat.lt_succ_r. apply Nat.div_lt_upper_bound; [lia|]. nia. Qed.
Lemma split_ge : (N <= Nth * split)%nat.
Proof. unfold split. pose proof (Nat.div_mod (N + Nth - 1) Nth ltac:(lia)). pose proof (Nat.mod_upper_bound (N + Nth - 1) Nth ltac:(lia)). lia. Qed.
(** the part of one iteration *)
Definition part (i : nat) : list R := slice a (i * split) (Nat.min N ((i + 1) * split)).
Lemma hi_z : forall i, (i < Nth)%nat ->
  (if Z.of_nat N <? u64 (u64 (Z.of_nat i + 1) * Z.of_nat split) then Z.of_nat N else u64 (u64 (Z.of_nat i + 1) * Z.of_nat split))
   = Z.of_nat (Nat.min N ((i + 1) * split)) /\ u64 (Z.of_nat i * Z.of_nat split) = Z.of_nat (i * split).
Proof.
  intros i Hi. pose proof split_le as SL. fold N in HN. rewrite (u64_small (Z.of_nat i + 1)) by lia.
  assert (B : (Z.of_nat i + 1) * Z.of_nat split <= 2^31 * 2^31) by (apply Z.mul_le_mono_nonneg; lia).
  rewrite (u64_small ((Z.of_nat i + 1) * Z.of_nat split)) by nia. rewrite (u64_small (Z.of_nat i * Z.of_nat split)) by nia.
  split; [|now rewrite Nat2Z.inj_mul].
  destruct (Z.ltb_spec (Z.of_nat N) ((Z.of_nat i + 1) * Z.of_nat split)); f_equal; lia.
Qed.
Lemma par_loop_ok : forall fuel order s, (N <= fuel)%nat -> (forall i, In i order -> (i < Nth)%nat /\ (i * split < N)%nat) ->
  par_loop fuel a (Z.of_nat N) (Z.of_nat split) order s = Some (s + lsum (map (fun i => lsum (part i)) order))%R.
Proof.
  intros fuel order. induction order as [|i r IH]; intros s F H; [cbn; f_equal; lra|]. cbn [par_loop].
  destruct (H i (or_introl eq_refl)) as [Hi Hs]. destruct (hi_z i Hi) as [-> ->]. pose proof split_le.
  assert (0 < split)%nat. { pose proof split_ge. assert (split <> 0)%nat by (intro Z0; rewrite Z0 in *; lia). lia. }
  rewrite dandc_ok; [|fold N; nia|lia|lia]. rewrite IH by (try assumption; intros; apply H; now right). cbn [map lsum]. fold (part i). f_equal. lra.
Qed.
Lemma parts_concat : forall k, (k <= Nth)%nat -> ((k - 1) * split < N)%nat -> lsum (map (fun i => lsum (part i)) (seq 0 k)) = lsum (slice a 0 (Nat.min N (k * split))).
Proof.
  induction k as [|k IH]; intros Hk Hs; [rewrite Nat.mul_0_l, Nat.min_0_r; reflexivity|].
  rewrite seq_S, map_app, lsum_app, IH; [|lia|nia]. cbn [map lsum Nat.add]. rewrite Rplus_0_r, <- lsum_app. f_equal.
  unfold part. replace (S k - 1)%nat with k in Hs by lia. rewrite (Nat.min_r N (k * split)) by lia.
  rewrite <- slice_split by nia. f_equal. f_equal. lia.
Qed.
Lemma lsum_perm : forall l l', Permutation l l' -> lsum l = lsum l'.
Proof. induction 1; cbn; try lra. Qed.
Theorem par_ok : forall fuel order, (N <= fuel)%nat -> Permutation order (seq 0 Nth) -> ((Nth - 1) * split < N)%nat ->
  par_danc_sum fuel a Nth order = Some (lsum a).
Proof.
  intros fuel order F P H. unfold par_danc_sum. fold N. rewrite split_z, par_loop_ok; [|assumption|].
  - f_equal. rewrite Rplus_0_l, (lsum_perm _ _ (Permutation_map _ P)), parts_concat by lia. pose proof split_ge.
    rewrite Nat.min_l by lia. unfold N. now rewrite slice_all.
  - intros i Hi. apply (Permutation_in _ P), in_seq in Hi. nia.
Qed.
(** ... and otherwise it reads outside the array or does not terminate *)
Theorem par_bad : forall fuel order, Permutation order (seq 0 Nth) -> (N <= (Nth - 1) * split)%nat ->
  par_danc_sum fuel a Nth order = None.
Proof.
  intros fuel order P H. unfold par_danc_sum. fold N. rewrite split_z.
  assert (I : In (Nth - 1)%nat order) by (apply (Permutation_in _ (Permutation_sym P)), in_seq; lia).
  assert (D : dandc_sum fuel a (Z.of_nat ((Nth - 1) * split)) (Z.of_nat (Nat.min N ((Nth - 1 + 1) * split))) = None).
  { rewrite Nat.min_l by nia. pose proof split_le.
    destruct (Nat.eq_dec N ((Nth - 1) * split)) as [E|E].
    - rewrite <- E. apply dandc_end. unfold N. lia.
    - apply dandc_never; [lia|]. fold N in HN. nia. }
  assert (K : forall i, In i order -> (i < Nth)%nat) by (intros i Hi; apply (Permutation_in _ P), in_seq in Hi; lia).
  clear P. generalize 0%R. induction order as [|i r IH]; intro s; [destruct I|]. cbn [par_loop].
  destruct (hi_z i (K i (or_introl eq_refl))) as [E1 E2]. rewrite E1, E2.
  destruct I as [->|I].
  - rewrite D. reflexivity.
  - match goal with |- match ?d with _ => _ end = _ => destruct d as [v|] end; [|reflexivity]. apply IH; [assumption|]. intros; apply K; now right.
Qed.
End Par.
Local Open Scope R_scope.
Lemma kahan_ok : forall a, kahan_summation a = lsum a.
Proof.
  intro a. unfold kahan_summation. assert (H : forall s, kahan_loop a s 0 = s + lsum a).
  { induction a as [|x a IH]; intro s; cbn [kahan_loop lsum]; [lra|]. replace (s + (x - 0) - s - (x - 0)) with 0 by lra. rewrite IH. lra. }
  rewrite H. lra.
Qed.
Lemma knuth_loop_ok : forall a i ave, INR (i + length a) * knuth_loop a i ave = INR i * ave + lsum a.
Proof.
  induction a as [|x a IH]; intros i ave; cbn [knuth_loop lsum length]; [rewrite Nat.add_0_r; lra|].
  replace (i + S (length a))%nat with (S i + length a)%nat by lia. rewrite IH, S_INR.
  pose proof (pos_INR i). field_simplify; [|lra]. field. lra.
Qed.
Lemma knuth_ok : forall a, a <> [] -> knuth_average a = mean a.
Proof.
  intros a H. unfold knuth_average, mean. pose proof (knuth_loop_ok a 0 0) as E. cbn [Nat.add INR] in E.
  assert (0 < INR (length a)) by (apply (lt_INR 0); destruct a; [congruence|cbn; lia]).
  apply (Rmult_eq_reg_l (INR (length a))); [|lra]. rewrite E. field. lra.
Qed.
(** sum of squared deviations from m *)
Definition dev (m : R) (a : list R) : R := lsum (map (fun x => (x - m) * (x - m)) a).
Lemma dev_shift : forall a m m', dev m' a = dev m a + 2 * (m - m') * (lsum a - INR (length a) * m) + INR (length a) * (m - m') * (m - m').
Proof.
  intros a m m'. unfold dev. induction a as [|x a IH]; [cbn; lra|]. cbn [map lsum length]. rewrite S_INR, IH. ring.
Qed.
Lemma knuth_err_ok : forall b a, (a <> [] \/ b <> []) ->
  knuth_err_loop b (length a) (lsum a / INR (length a)) (dev (lsum a / INR (length a)) a) =
    (lsum (a ++ b) / INR (length (a ++ b)), dev (lsum (a ++ b) / INR (length (a ++ b))) (a ++ b)).
Proof.
  intros b. induction b as [|x b IH]; intros a H; [now rewrite app_nil_r|]; set (m := lsum a / INR (length a)). cbn [knuth_err_loop].
  replace (a ++ x :: b) with ((a ++ [x]) ++ b) by now rewrite <- app_assoc.
  rewrite <- (IH (a ++ [x])) by (left; destruct a; discriminate).
  rewrite app_length. cbn [length]. rewrite Nat.add_1_r. rewrite !lsum_app. cbn [lsum]. rewrite S_INR.
  pose proof (pos_INR (length a)) as P.
  assert (E1 : m + (x - m) / (INR (length a) + 1) = (lsum a + (x + 0)) / (INR (length a) + 1)).
  { unfold m. destruct a as [|y a]; [cbn; unfold Rdiv; rewrite Rmult_0_l; field|]. assert (0 < INR (length (y :: a))) by (apply (lt_INR 0); cbn; lia). field. lra. }
  rewrite E1. f_equal. set (m' := (lsum a + (x + 0)) / (INR (length a) + 1)).
  unfold dev at 2. rewrite map_app, lsum_app. fold (dev m' a). cbn [map lsum]. rewrite (dev_shift a m m').
  assert (E2 : lsum a = INR (length a) * m).
  { unfold m. destruct a as [|y a]; [cbn; lra|]. assert (0 < INR (length (y :: a))) by (apply (lt_INR 0); cbn; lia). field. lra. }
  rewrite E2. assert (E3 : (INR (length a) + 1) * m' = INR (length a) * m + x) by (unfold m'; rewrite E2; field; lra).
  set (k := INR (length a)) in *. clearbody m'. clearbody m. assert (Hx : x = (k+1) * m' - k * m) by lra. rewrite Hx. ring.
Qed.

Lemma knuth_err : forall a, (2 <= length a)%nat -> (Z.of_nat (length a) < 2 ^ 63)%Z ->
  knuth_average_err a = Some (mean a, dev (mean a) a / (INR (length a) - 1)).
Proof.
  intros a H L. unfold knuth_average_err. assert (Ha : a <> []) by (intros ->; cbn in H; lia). pose proof (knuth_err_ok a [] (or_intror Ha)) as E.
  change (dev (lsum [] / INR (length [])) []) with 0 in E.
  replace (lsum [] / INR (length [])) with 0 in E by (cbn [lsum]; unfold Rdiv; ring). cbn [length app] in E. rewrite E.
  rewrite u64_small by (change two64 with (2 * 2 ^ 63)%Z; lia). replace (Z.of_nat (length a) - 1 =? 0)%Z with false by (symmetry; apply Z.eqb_neq; lia).
  rewrite minus_IZR, <- INR_IZR_INZ. reflexivity.
Qed.
Lemma knuth_err_one : forall x, knuth_average_err [x] = None.
Proof. intro x. unfold knuth_average_err. destruct (knuth_err_loop [x] 0 0 0). reflexivity. Qed.

(** ** splines *)
(** the polynomial with the coefficients l, and its derivative *)
Fixpoint peval (l : list R) (x : R) : R := match l with [] => 0 | c :: l => c + x * peval l x end.
Fixpoint pder (l : list R) (x : R) : R := match l with [] => 0 | c :: l => peval l x + x * pder l x end.
(** expansion about another point, degree at most four *)
Definition tl (q0 q1 q2 q3 q4 h : R) : R := q0 + h * (q1 + h * (q2 + h * (q3 + h * q4))).
Lemma taylor : forall c0 c1 c2 c3 c4 x0, exists q0 q1 q2 q3 q4,
  (forall x, peval [c0; c1; c2; c3; c4] x = tl q0 q1 q2 q3 q4 (x - x0)) /\ pder [c0; c1; c2; c3; c4] x0 = q1 /\
  (c4 = 0 -> q4 = 0) /\ (c4 = 0 -> c3 = 0 -> q3 = 0).
Proof.
  intros. exists (c0 + x0*(c1 + x0*(c2 + x0*(c3 + x0*c4)))), (c1 + x0*(2*c2 + x0*(3*c3 + 4*x0*c4))), (c2 + x0 * (3*c3 + 6*x0*c4)), (c3+4*x0*c4), c4.
  unfold tl; cbn. repeat split; intros; subst; try ring.
Qed.
Lemma quot : forall n d r s y : R, d <> 0 -> n = d * (r - s * y) -> n / d + s * y = r.
Proof. intros n d r s y D ->. field. assumption. Qed.
Lemma quot' : forall n d r : R, d <> 0 -> n = d * r -> n / d = r.
Proof. intros n d r D ->. field. assumption. Qed.
Ltac nz := repeat first [lra | apply Rmult_integral_contrapositive_currified | apply Ropp_neq_0_compat].

Lemma h2_exact : forall c0 c1 c2 x0 x1 x2, x0 < x1 -> x1 < x2 ->
  let p := peval [c0; c1; c2; 0; 0] in let p' := pder [c0; c1; c2; 0; 0] in
  h2_first x0 x1 x2 (p x0) (p x1) (p x2) = p' x0 /\
  h2_middle x0 x1 x2 (p x0) (p x1) (p x2) = p' x1 /\
  h2_last x0 x1 x2 (p x0) (p x1) (p x2) = p' x2.
Proof.
  intros c0 c1 c2 x0 x1 x2 H0 H1 p p'. unfold p, p'.
  split; [|split].
  - destruct (taylor c0 c1 c2 0 0 x0) as (q0 & q1 & q2 & q3 & q4 & E & D & Q4 & Q3). rewrite D, !E.
    rewrite (Q4 eq_refl), (Q3 eq_refl eq_refl). unfold h2_first, tl. apply quot'; [nz|ring].
  - destruct (taylor c0 c1 c2 0 0 x1) as (q0 & q1 & q2 & q3 & q4 & E & D & Q4 & Q3). rewrite D, !E.
    rewrite (Q4 eq_refl), (Q3 eq_refl eq_refl). unfold h2_middle, tl. apply quot'; [nz|ring].
  - destruct (taylor c0 c1 c2 0 0 x2) as (q0 & q1 & q2 & q3 & q4 & E & D & Q4 & Q3). rewrite D, !E.
    rewrite (Q4 eq_refl), (Q3 eq_refl eq_refl). unfold h2_last, tl. apply quot'; [nz|ring].
Qed.
Lemma h3_first_exact : forall c0 c1 c2 c3 x0 x1 x2 x3, x0 < x1 -> x1 < x2 -> x2 < x3 ->
  h3_first x0 x1 x2 x3 (peval [c0; c1; c2; c3; 0] x0) (peval [c0; c1; c2; c3; 0] x1) (peval [c0; c1; c2; c3; 0] x2) (peval [c0; c1; c2; c3; 0] x3) = pder [c0; c1; c2; c3; 0] x0.
Proof.
  intros. destruct (taylor c0 c1 c2 c3 0 x0) as (q0 & q1 & q2 & q3 & q4 & E & D & Q4 & Q3). rewrite D, !E.
  rewrite (Q4 eq_refl). clear E D Q4 Q3. unfold h3_first, tl.
  replace (- ((x1 - x0) * (x3 - x0)) + (x2 - x0) * (x3 - x0)) with ((x3 - x0) * (x2 - x1)) by ring. apply quot; [nz|].
  assert (Ka : exists a, a <> 0 /\ x1 = x0 + a) by (exists (x1 - x0); split; [lra|ring]). destruct Ka as (a & Na & ->).
  assert (Kb : exists b, b <> 0 /\ x2 = x0 + b) by (exists (x2 - x0); split; [lra|ring]). destruct Kb as (b & Nb & ->).
  assert (Kc : exists c, c <> 0 /\ x3 = x0 + c) by (exists (x3 - x0); split; [lra|ring]). destruct Kc as (c & Nc & ->).
  replace (x0 + a - x0) with a by ring.
  replace (x0 + b - x0) with b by ring.
  replace (x0 + c - x0) with c by ring.
  replace (x0 - x0) with 0 by ring. field. repeat split; assumption.
Qed.
Lemma h3_second_exact : forall c0 c1 c2 c3 x0 x1 x2 x3, x0 < x1 -> x1 < x2 -> x2 < x3 ->
  h3_second x0 x1 x2 x3 (peval [c0; c1; c2; c3; 0] x0) (peval [c0; c1; c2; c3; 0] x1) (peval [c0; c1; c2; c3; 0] x2) (peval [c0; c1; c2; c3; 0] x3) = pder [c0; c1; c2; c3; 0] x1.
Proof.
  intros. destruct (taylor c0 c1 c2 c3 0 x1) as (q0 & q1 & q2 & q3 & q4 & E & D & Q4 & Q3). rewrite D, !E.
  rewrite (Q4 eq_refl). clear E D Q4 Q3. unfold h3_second, tl. apply quot; [nz|].
  assert (Ka : exists a, a <> 0 /\ x0 = x1 - a) by (exists (x1 - x0); split; [lra|ring]). destruct Ka as (a & Na & ->).
  assert (Kb : exists b, b <> 0 /\ x2 = x1 + b) by (exists (x2 - x1); split; [lra|ring]). destruct Kb as (b & Nb & ->).
  assert (Kc : exists c, c <> 0 /\ x3 = x1 + c) by (exists (x3 - x1); split; [lra|ring]). destruct Kc as (c & Nc & ->).
  replace (x1 - (x1 - a)) with a by ring. replace (x1 - a - x1) with (- a) by ring.
  replace (x1 + b - x1) with b by ring.
  replace (x1 + c - x1) with c by ring.
  replace (x1 - x1) with 0 by ring. field. repeat split; assumption.
Qed.
Lemma h3_third_exact : forall c0 c1 c2 c3 x0 x1 x2 x3, x0 < x1 -> x1 < x2 -> x2 < x3 ->
  h3_third x0 x1 x2 x3 (peval [c0; c1; c2; c3; 0] x0) (peval [c0; c1; c2; c3; 0] x1) (peval [c0; c1; c2; c3; 0] x2) (peval [c0; c1; c2; c3; 0] x3) = pder [c0; c1; c2; c3; 0] x2.
Proof.
  intros. destruct (taylor c0 c1 c2 c3 0 x2) as (q0 & q1 & q2 & q3 & q4 & E & D & Q4 & Q3). rewrite D, !E.
  rewrite (Q4 eq_refl). clear E D Q4 Q3. unfold h3_third, tl. apply quot; [nz|].
  assert (Ka : exists a, a <> 0 /\ x0 = x2 - a) by (exists (x2 - x0); split; [lra|ring]). destruct Ka as (a & Na & ->).
  assert (Kb : exists b, b <> 0 /\ x1 = x2 - b) by (exists (x2 - x1); split; [lra|ring]). destruct Kb as (b & Nb & ->).
  assert (Kc : exists c, c <> 0 /\ x3 = x2 + c) by (exists (x3 - x2); split; [lra|ring]). destruct Kc as (c & Nc & ->).
  replace (x2 - (x2 - a)) with a by ring. replace (x2 - a - x2) with (- a) by ring.
  replace (x2 - (x2 - b)) with b by ring. replace (x2 - b - x2) with (- b) by ring.
  replace (x2 + c - x2) with c by ring.
  replace (x2 - x2) with 0 by ring. field. repeat split; assumption.
Qed.
Lemma h3_last_exact : forall c0 c1 c2 c3 x0 x1 x2 x3, x0 < x1 -> x1 < x2 -> x2 < x3 ->
  h3_last x0 x1 x2 x3 (peval [c0; c1; c2; c3; 0] x0) (peval [c0; c1; c2; c3; 0] x1) (peval [c0; c1; c2; c3; 0] x2) (peval [c0; c1; c2; c3; 0] x3) = pder [c0; c1; c2; c3; 0] x3.
Proof.
  intros. destruct (taylor c0 c1 c2 c3 0 x3) as (q0 & q1 & q2 & q3 & q4 & E & D & Q4 & Q3). rewrite D, !E.
  rewrite (Q4 eq_refl). clear E D Q4 Q3. unfold h3_last, tl. apply quot; [nz|].
  assert (Ka : exists a, a <> 0 /\ x0 = x3 - a) by (exists (x3 - x0); split; [lra|ring]). destruct Ka as (a & Na & ->).
  assert (Kb : exists b, b <> 0 /\ x1 = x3 - b) by (exists (x3 - x1); split; [lra|ring]). destruct Kb as (b & Nb & ->).
  assert (Kc : exists c, c <> 0 /\ x2 = x3 - c) by (exists (x3 - x2); split; [lra|ring]). destruct Kc as (c & Nc & ->).
  replace (x3 - (x3 - a)) with a by ring. replace (x3 - a - x3) with (- a) by ring.
  replace (x3 - (x3 - b)) with b by ring. replace (x3 - b - x3) with (- b) by ring.
  replace (x3 - (x3 - c)) with c by ring. replace (x3 - c - x3) with (- c) by ring.
  replace (x3 - x3) with 0 by ring. field. repeat split; assumption.
Qed.
Lemma h4_0_exact : forall c0 c1 c2 c3 c4 x0 x1 x2 x3 x4, x0 < x1 -> x1 < x2 -> x2 < x3 -> x3 < x4 ->
  h4_0 x0 x1 x2 x3 x4 (peval [c0; c1; c2; c3; c4] x0) (peval [c0; c1; c2; c3; c4] x1) (peval [c0; c1; c2; c3; c4] x2) (peval [c0; c1; c2; c3; c4] x3) (peval [c0; c1; c2; c3; c4] x4) = pder [c0; c1; c2; c3; c4] x0.
Proof.
  intros. destruct (taylor c0 c1 c2 c3 c4 x0) as (q0 & q1 & q2 & q3 & q4 & E & D & Q4 & Q3). rewrite D, !E.
  clear E D Q4 Q3. unfold h4_0, tl. apply quot; [nz|].
  assert (Ka : exists a, a <> 0 /\ x1 = x0 + a) by (exists (x1 - x0); split; [lra|ring]). destruct Ka as (a & Na & ->).
  assert (Kb : exists b, b <> 0 /\ x2 = x0 + b) by (exists (x2 - x0); split; [lra|ring]). destruct Kb as (b & Nb & ->).
  assert (Kc : exists c, c <> 0 /\ x3 = x0 + c) by (exists (x3 - x0); split; [lra|ring]). destruct Kc as (c & Nc & ->).
  assert (Kd : exists d, d <> 0 /\ x4 = x0 + d) by (exists (x4 - x0); split; [lra|ring]). destruct Kd as (d & Nd & ->).
  replace (x0 + a - x0) with a by ring.
  replace (x0 + b - x0) with b by ring.
  replace (x0 + c - x0) with c by ring.
  replace (x0 + d - x0) with d by ring.
  replace (x0 - x0) with 0 by ring. field. repeat split; assumption.
Qed.
Lemma h4_1_exact : forall c0 c1 c2 c3 c4 x0 x1 x2 x3 x4, x0 < x1 -> x1 < x2 -> x2 < x3 -> x3 < x4 ->
  h4_1 x0 x1 x2 x3 x4 (peval [c0; c1; c2; c3; c4] x0) (peval [c0; c1; c2; c3; c4] x1) (peval [c0; c1; c2; c3; c4] x2) (peval [c0; c1; c2; c3; c4] x3) (peval [c0; c1; c2; c3; c4] x4) = pder [c0; c1; c2; c3; c4] x1.
Proof.
  intros. destruct (taylor c0 c1 c2 c3 c4 x1) as (q0 & q1 & q2 & q3 & q4 & E & D & Q4 & Q3). rewrite D, !E.
  clear E D Q4 Q3. unfold h4_1, tl. apply quot; [nz|].
  assert (Ka : exists a, a <> 0 /\ x0 = x1 - a) by (exists (x1 - x0); split; [lra|ring]). destruct Ka as (a & Na & ->).
  assert (Kb : exists b, b <> 0 /\ x2 = x1 + b) by (exists (x2 - x1); split; [lra|ring]). destruct Kb as (b & Nb & ->).
  assert (Kc : exists c, c <> 0 /\ x3 = x1 + c) by (exists (x3 - x1); split; [lra|ring]). destruct Kc as (c & Nc & ->).
  assert (Kd : exists d, d <> 0 /\ x4 = x1 + d) by (exists (x4 - x1); split; [lra|ring]). destruct Kd as (d & Nd & ->).
  replace (x1 - (x1 - a)) with a by ring. replace (x1 - a - x1) with (- a) by ring.
  replace (x1 + b - x1) with b by ring.
  replace (x1 + c - x1) with c by ring.
  replace (x1 + d - x1) with d by ring.
  replace (x1 - x1) with 0 by ring. field. repeat split; assumption.
Qed.
Lemma h4_2_exact : forall c0 c1 c2 c3 c4 x0 x1 x2 x3 x4, x0 < x1 -> x1 < x2 -> x2 < x3 -> x3 < x4 ->
  h4_2 x0 x1 x2 x3 x4 (peval [c0; c1; c2; c3; c4] x0) (peval [c0; c1; c2; c3; c4] x1) (peval [c0; c1; c2; c3; c4] x2) (peval [c0; c1; c2; c3; c4] x3) (peval [c0; c1; c2; c3; c4] x4) = pder [c0; c1; c2; c3; c4] x2.
Proof.
  intros. destruct (taylor c0 c1 c2 c3 c4 x2) as (q0 & q1 & q2 & q3 & q4 & E & D & Q4 & Q3). rewrite D, !E.
  clear E D Q4 Q3. unfold h4_2, tl. apply quot; [nz|].
  assert (Ka : exists a, a <> 0 /\ x0 = x2 - a) by (exists (x2 - x0); split; [lra|ring]). destruct Ka as (a & Na & ->).
  assert (Kb : exists b, b <> 0 /\ x1 = x2 - b) by (exists (x2 - x1); split; [lra|ring]). destruct Kb as (b & Nb & ->).
  assert (Kc : exists c, c <> 0 /\ x3 = x2 + c) by (exists (x3 - x2); split; [lra|ring]). destruct Kc as (c & Nc & ->).
  assert (Kd : exists d, d <> 0 /\ x4 = x2 + d) by (exists (x4 - x2); split; [lra|ring]). destruct Kd as (d & Nd & ->).
  replace (x2 - (x2 - a)) with a by ring. replace (x2 - a - x2) with (- a) by ring.
  replace (x2 - (x2 - b)) with b by ring. replace (x2 - b - x2) with (- b) by ring.
  replace (x2 + c - x2) with c by ring.
  replace (x2 + d - x2) with d by ring.
  replace (x2 - x2) with 0 by ring. field. repeat split; assumption.
Qed.
Lemma h4_3_exact : forall c0 c1 c2 c3 c4 x0 x1 x2 x3 x4, x0 < x1 -> x1 < x2 -> x2 < x3 -> x3 < x4 ->
  h4_3 x0 x1 x2 x3 x4 (peval [c0; c1; c2; c3; c4] x0) (peval [c0; c1; c2; c3; c4] x1) (peval [c0; c1; c2; c3; c4] x2) (peval [c0; c1; c2; c3; c4] x3) (peval [c0; c1; c2; c3; c4] x4) = pder [c0; c1; c2; c3; c4] x3.
Proof.
  intros. destruct (taylor c0 c1 c2 c3 c4 x3) as (q0 & q1 & q2 & q3 & q4 & E & D & Q4 & Q3). rewrite D, !E.
  clear E D Q4 Q3. unfold h4_3, tl. apply quot; [nz|].
  assert (Ka : exists a, a <> 0 /\ x0 = x3 - a) by (exists (x3 - x0); split; [lra|ring]). destruct Ka as (a & Na & ->).
  assert (Kb : exists b, b <> 0 /\ x1 = x3 - b) by (exists (x3 - x1); split; [lra|ring]). destruct Kb as (b & Nb & ->).
  assert (Kc : exists c, c <> 0 /\ x2 = x3 - c) by (exists (x3 - x2); split; [lra|ring]). destruct Kc as (c & Nc & ->).
  assert (Kd : exists d, d <> 0 /\ x4 = x3 + d) by (exists (x4 - x3); split; [lra|ring]). destruct Kd as (d & Nd & ->).
  replace (x3 - (x3 - a)) with a by ring. replace (x3 - a - x3) with (- a) by ring.
  replace (x3 - (x3 - b)) with b by ring. replace (x3 - b - x3) with (- b) by ring.
  replace (x3 - (x3 - c)) with c by ring. replace (x3 - c - x3) with (- c) by ring.
  replace (x3 + d - x3) with d by ring.
  replace (x3 - x3) with 0 by ring. field. repeat split; assumption.
Qed.
Lemma h4_4_exact : forall c0 c1 c2 c3 c4 x0 x1 x2 x3 x4, x0 < x1 -> x1 < x2 -> x2 < x3 -> x3 < x4 ->
  h4_4 x0 x1 x2 x3 x4 (peval [c0; c1; c2; c3; c4] x0) (peval [c0; c1; c2; c3; c4] x1) (peval [c0; c1; c2; c3; c4] x2) (peval [c0; c1; c2; c3; c4] x3) (peval [c0; c1; c2; c3; c4] x4) = pder [c0; c1; c2; c3; c4] x4.
Proof.
  intros. destruct (taylor c0 c1 c2 c3 c4 x4) as (q0 & q1 & q2 & q3 & q4 & E & D & Q4 & Q3). rewrite D, !E.
  clear E D Q4 Q3. unfold h4_4, tl. apply quot; [nz|].
  assert (Ka : exists a, a <> 0 /\ x0 = x4 - a) by (exists (x4 - x0); split; [lra|ring]). destruct Ka as (a & Na & ->).
  assert (Kb : exists b, b <> 0 /\ x1 = x4 - b) by (exists (x4 - x1); split; [lra|ring]). destruct Kb as (b & Nb & ->).
  assert (Kc : exists c, c <> 0 /\ x2 = x4 - c) by (exists (x4 - x2); split; [lra|ring]). destruct Kc as (c & Nc & ->).
  assert (Kd : exists d, d <> 0 /\ x3 = x4 - d) by (exists (x4 - x3); split; [lra|ring]). destruct Kd as (d & Nd & ->).
  replace (x4 - (x4 - a)) with a by ring. replace (x4 - a - x4) with (- a) by ring.
  replace (x4 - (x4 - b)) with b by ring. replace (x4 - b - x4) with (- b) by ring.
  replace (x4 - (x4 - c)) with c by ring. replace (x4 - c - x4) with (- c) by ring.
  replace (x4 - (x4 - d)) with d by ring. replace (x4 - d - x4) with (- d) by ring.
  replace (x4 - x4) with 0 by ring. field. repeat split; assumption.
Qed.
