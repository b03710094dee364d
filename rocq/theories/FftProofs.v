(** Fourier transforms on the torus: orthogonality and the convolution theorem. *)
From Verif Require Import CInt GeomModel GeomSpec GeomProofs GeomProofs2 Cplx CMat Arr FftModel.
From Coq Require Import Permutation.
Local Open Scope Z_scope.

(** * exp( i x ) *)
Lemma cis_0 : cis 0 = C1. Proof. unfold cis, C1. now rewrite cos_0, sin_0. Qed.
Lemma cis_add x y : cis (x + y)%R = (cis x * cis y)%C.
Proof. unfold cis. apply C_eq; cunfold; rewrite ?cos_plus, ?sin_plus; ring. Qed.
Lemma cis_opp x : cis (- x)%R = conj (cis x).
Proof. unfold cis, conj. cbn. now rewrite cos_neg, sin_neg. Qed.
Lemma cis_nat n : cis (2 * PI * INR n)%R = C1.
Proof.
  induction n as [|n IH]; [rewrite Rmult_0_r; apply cis_0|].
  rewrite S_INR. replace (2 * PI * (INR n + 1))%R with (2 * PI * INR n + 2 * PI)%R by ring.
  rewrite cis_add, IH. unfold cis. rewrite cos_2PI, sin_2PI. cring.
Qed.
Lemma cis_int z : cis (2 * PI * IZR z)%R = C1.
Proof.
  destruct (Z_le_gt_dec 0 z) as [H|H].
  - rewrite <- (Z2Nat.id z) by assumption. rewrite <- INR_IZR_INZ. apply cis_nat.
  - replace (2 * PI * IZR z)%R with (- (2 * PI * IZR (- z)))%R by (rewrite opp_IZR; ring).
    rewrite cis_opp, <- (Z2Nat.id (- z)), <- INR_IZR_INZ, cis_nat by lia. apply conj_1.
Qed.
Lemma cis_1 x : cis (2 * PI * x)%R = C1 -> exists k, x = IZR k.
Proof.
  unfold cis, C1. intro E. injection E as E _.
  assert (S : sin (PI * x) = 0%R).
  { replace (2 * PI * x)%R with (2 * (PI * x))%R in E by ring. rewrite cos_2a_sin in E. nra. }
  apply sin_eq_0_0 in S as [k K]. exists k. pose proof PI_RGT_0. nra.
Qed.

(** * Sums *)
Lemma csum_split a b f : csum (a + b) f = (csum a f + csum b (fun i => f (a + i)%nat))%C.
Proof.
  induction b as [|b IH]; cbn [csum]; [rewrite Nat.add_0_r; ring|].
  rewrite Nat.add_succ_r. cbn [csum]. rewrite IH. ring.
Qed.
Lemma csum_prod a b f : csum (a * b) f = csum b (fun q => csum a (fun r => f (r + a * q)%nat)).
Proof.
  induction b as [|b IH]; [now rewrite Nat.mul_0_r|].
  rewrite Nat.mul_succ_r, csum_split, IH. cbn [csum]. f_equal. apply csum_ext. intros i _. f_equal. lia.
Qed.
Lemma csum_const n (c : C) : csum n (fun _ => c) = (RtoC (INR n) * c)%C.
Proof.
  induction n as [|n IH]; cbn [csum]; [cbn [INR]; cring|]. rewrite IH, S_INR, RtoC_add.
  change (RtoC 1) with C1. ring.
Qed.
(** a geometric sum over a full period *)
Lemma csum_period x n : cis (x * INR n) = C1 -> cis x <> C1 -> csum n (fun k => cis (x * INR k)) = C0.
Proof.
  intros P N.
  assert (T : ((cis x - C1) * csum n (fun k => cis (x * INR k)) = cis (x * INR n) - C1)%C).
  { clear. induction n as [|n IH]; cbn [csum]; [rewrite Rmult_0_r, cis_0; ring|].
    rewrite S_INR. replace (x * (INR n + 1))%R with (x * INR n + x)%R by ring. rewrite cis_add.
    transitivity ((cis x - C1) * csum n (fun k => cis (x * INR k)) + (cis x - C1) * cis (x * INR n))%C; [ring|].
    rewrite IH. ring. }
  rewrite P in T.
  assert (D : (cis x - C1 <> C0)%C). { intro E. apply N. replace (cis x) with ((cis x - C1) + C1)%C by ring. rewrite E. ring. }
  transitivity (Cinv (cis x - C1) * ((cis x - C1) * csum n (fun k => cis (x * INR k))))%C.
  - field. exact D.
  - rewrite T. ring.
Qed.

(** one direction: sum over k of exp( 2 pi i k d / L ) *)
Lemma ortho1 L d : 0 < L ->
  csum (Z.to_nat L) (fun k => cis (2 * PI * (IZR (Z.of_nat k) * IZR d / IZR L))) = if d mod L =? 0 then RtoC (IZR L) else C0.
Proof.
  intro HL. assert (L0 : IZR L <> 0%R) by (apply IZR_neq; lia).
  destruct (Z.eqb_spec (d mod L) 0) as [E|E].
  - rewrite (csum_ext _ _ (fun _ => C1)).
    + rewrite csum_const. rewrite INR_IZR_INZ, Z2Nat.id by lia. ring.
    + intros k _. apply Z.mod_divide in E; [|lia]. destruct E as [q ->].
      replace (IZR (Z.of_nat k) * IZR (q * L) / IZR L)%R with (IZR (Z.of_nat k * q)) by (rewrite !mult_IZR; field; assumption).
      apply cis_int.
  - rewrite (csum_ext _ _ (fun k => cis (2 * PI * (IZR d / IZR L) * INR k))).
    + apply csum_period.
      * rewrite INR_IZR_INZ, Z2Nat.id by lia. replace (2 * PI * (IZR d / IZR L) * IZR L)%R with (2 * PI * IZR d)%R by (field; assumption).
        apply cis_int.
      * intro H. apply cis_1 in H as [k K]. apply E. apply Z.mod_divide; [lia|]. exists k. apply eq_IZR.
        rewrite mult_IZR, <- K. field; assumption.
    + intros k _. f_equal. rewrite INR_IZR_INZ. field; assumption.
Qed.

(** d is a vector of multiples of the extents *)
Definition periods (ds d : list Z) : bool := forallb (fun p => snd p mod fst p =? 0) (combine ds d).
Lemma ortho ds : Forall (fun L => 0 < L) ds -> forall d, length d = length ds ->
  csum (fft_size ds) (fun k => cis (2 * PI * phase ds (digits ds (Z.of_nat k)) d)) = if periods ds d then RtoC (IZR (prodZ ds)) else C0.
Proof.
  induction 1 as [|L ds HL Hds IH]; intros [|d0 d] Hl; try discriminate.
  - change (fft_size []) with 1%nat. cbn [csum digits phase]. rewrite Rmult_0_r, cis_0.
    change (periods [] []) with true. cbn. change (RtoC 1) with C1. ring.
  - injection Hl as Hl. pose proof (prodZ_pos ds Hds) as HP.
    unfold fft_size in *. rewrite prodZ_cons, Z2Nat.inj_mul by lia. rewrite csum_prod.
    rewrite (csum_ext _ _ (fun q => csum (Z.to_nat L) (fun k => cis (2 * PI * (IZR (Z.of_nat k) * IZR d0 / IZR L))) *
      cis (2 * PI * phase ds (digits ds (Z.of_nat q)) d))%C).
    2:{ intros q Hq. rewrite <- csum_mul_r. apply csum_ext. intros r Hr. rewrite <- cis_add. f_equal.
        rewrite Nat2Z.inj_add, Nat2Z.inj_mul, Z2Nat.id by lia. cbn [digits phase].
        rewrite (Z.mul_comm L), Z.mod_add, Z.div_add, Z.mod_small, Z.div_small by lia. cbn [Z.add].
        ring. }
    rewrite csum_mul_l, IH by assumption. rewrite ortho1 by assumption.
    change (periods (L :: ds) (d0 :: d)) with ((d0 mod L =? 0) && periods ds d)%bool.
    destruct (d0 mod L =? 0), (periods ds d); cbn [andb]; rewrite ?mult_IZR, ?RtoC_mul; ring.
Qed.

(** * Row-major order over the reversed extents *)
Lemma rm_coords_rev ds : Forall (fun L => 0 < L) ds -> forall j, 0 <= j -> rm_coords (rev ds) j = rev (digits ds j).
Proof.
  assert (G : forall a d j, 0 < d -> Forall (fun L => 0 < L) a -> 0 <= j -> rm_coords (a ++ [d]) j = rm_coords a (j / d) ++ [j mod d]).
  { intros a d j Hd Ha Hj. induction Ha as [|e a He Ha IH]; [cbn; now rewrite Z.div_1_r|].
    cbn [app rm_coords]. rewrite IH. f_equal. rewrite prodZ_app. unfold prodZ at 2. cbn [fold_right]. rewrite Z.mul_1_r, Z.mul_comm.
    pose proof (prodZ_pos a Ha). now rewrite Z.div_div by lia. }
  induction 1 as [|d ds Hd Hds IH]; intros j Hj; [reflexivity|]. cbn [rev digits].
  rewrite G; [|assumption|now apply Forall_rev|assumption]. f_equal. apply IH. apply Z.div_pos; lia.
Qed.
Lemma phase_app n m k l j i : length k = length n -> length j = length n -> phase (n ++ m) (k ++ l) (j ++ i) = (phase n k j + phase m l i)%R.
Proof.
  revert k j. induction n as [|d n IH]; intros [|a k] [|b j] H H'; try discriminate; cbn [app phase]; [ring|].
  rewrite IH by (simpl in *; lia). ring.
Qed.
Lemma phase_rev ds : forall k j, length k = length ds -> length j = length ds -> phase (rev ds) (rev k) (rev j) = phase ds k j.
Proof.
  induction ds as [|d ds IH]; intros [|a k] [|b j] H H'; try discriminate; [reflexivity|]. cbn [rev phase].
  rewrite phase_app by (rewrite !rev_length; simpl in *; lia). cbn [phase]. rewrite IH by (simpl in *; lia). ring.
Qed.
Lemma phase_sym ds : forall k j, phase ds k j = phase ds j k.
Proof. induction ds as [|d ds IH]; intros [|a k] [|b j]; cbn [phase]; try reflexivity. rewrite IH. unfold Rdiv. ring. Qed.
Lemma fft_size_rev ds : fft_size (rev ds) = fft_size ds.
Proof. unfold fft_size. now rewrite prodZ_rev. Qed.

(** the transform on the torus, by coordinates *)
Definition dft (sign : R) (ds : list Z) (f : arr) (k : nat) : C :=
  csum (fft_size ds) (fun j => (f j * cis (sign * (2 * PI * phase ds (digits ds (Z.of_nat k)) (digits ds (Z.of_nat j)))))%C).
Lemma fftw_execute_ok sign ds f g k : Forall (fun L => 0 < L) ds -> (k < fft_size ds)%nat ->
  fftw_execute sign (rev ds) f g k = dft sign ds f k.
Proof.
  intros Hd Hk. unfold fftw_execute, dft. rewrite fft_size_rev. apply Nat.ltb_lt in Hk as ->. apply csum_ext. intros j Hj.
  rewrite !rm_coords_rev by (assumption || lia). rewrite phase_rev by apply digits_length. reflexivity.
Qed.
Lemma fftw_execute_out sign ds f g k : (fft_size ds <= k)%nat -> fftw_execute sign (rev ds) f g k = g k.
Proof. intros Hk. unfold fftw_execute. rewrite fft_size_rev. now apply Nat.ltb_ge in Hk as ->. Qed.
Lemma dft_ext sign ds f g k : (forall j, (j < fft_size ds)%nat -> f j = g j) -> dft sign ds f k = dft sign ds g k.
Proof. intro H. apply csum_ext. intros j Hj. now rewrite H. Qed.

(** * The convolution theorem *)
(** the site y + r on the torus *)
Definition shift (ds : list Z) (y r : nat) : nat := Z.to_nat (horner ds (translate ds (digits ds (Z.of_nat y)) (digits ds (Z.of_nat r)))).
Lemma shift_lt ds y r : Forall (fun L => 0 < L) ds -> (shift ds y r < fft_size ds)%nat.
Proof.
  intro Hd. unfold shift, fft_size.
  pose proof (horner_bound ds _ (translate_box ds _ (digits ds (Z.of_nat r)) Hd (digits_in_box ds (Z.of_nat y) Hd) (digits_length _ _))). lia.
Qed.
Fixpoint diff3 (r x y : list Z) : list Z :=
  match r, x, y with a :: r', b :: x', c :: y' => a - b + c :: diff3 r' x' y' | _, _, _ => [] end.
Lemma diff3_length r : forall x y, length x = length r -> length y = length r -> length (diff3 r x y) = length r.
Proof. induction r as [|a r IH]; intros [|b x] [|c y] H H'; try discriminate; [reflexivity|]. cbn [diff3 length]. f_equal. apply IH; simpl in *; lia. Qed.
Lemma phase_diff3 ds : forall k r x y, length k = length ds -> length r = length ds -> length x = length ds -> length y = length ds ->
  phase ds k (diff3 r x y) = (phase ds k r - phase ds k x + phase ds k y)%R.
Proof.
  induction ds as [|d ds IH]; intros [|q k] [|a r] [|b x] [|c y] H1 H2 H3 H4; try discriminate; cbn [diff3 phase]; [ring|].
  rewrite IH by (simpl in *; lia). rewrite plus_IZR, minus_IZR. unfold Rdiv. ring.
Qed.
Lemma mod_zero_iff a b c L : 0 < L -> 0 <= b < L -> (a - b + c) mod L = 0 <-> b = (c + a) mod L.
Proof.
  intros HL Hb. split; intro H.
  - apply Z.mod_divide in H; [|lia]. destruct H as [q H]. replace (c + a) with (b + q * L) by lia.
    rewrite Z.mod_add by lia. now rewrite Z.mod_small.
  - rewrite H. replace (a - (c + a) mod L + c) with ((c + a) - (c + a) mod L) by lia.
    rewrite Zminus_mod_idemp_r. now rewrite Z.sub_diag.
Qed.
Lemma periods_diff3 ds : Forall (fun L => 0 < L) ds -> forall r x y, length r = length ds -> in_box ds x -> in_box ds y ->
  periods ds (diff3 r x y) = true <-> x = translate ds y r.
Proof.
  induction 1 as [|L ds HL Hds IH]; intros [|a r] x y Hr Hx Hy; try discriminate; inversion Hx as [|? b ? x' Hb Hx']; subst; inversion Hy as [|? c ? y' Hc Hy']; subst.
  - split; reflexivity.
  - change (periods (L :: ds) (diff3 (a :: r) (b :: x') (c :: y'))) with (((a - b + c) mod L =? 0) && periods ds (diff3 r x' y'))%bool.
    change (translate (L :: ds) (c :: y') (a :: r)) with ((c + a) mod L :: translate ds y' r).
    rewrite Bool.andb_true_iff, Z.eqb_eq, (mod_zero_iff a b c L HL Hb), (IH r x' y') by (simpl in *; lia || assumption).
    split; [intros [-> ->]; reflexivity|intro E; injection E; tauto].
Qed.

Lemma site_horner ds (x : nat) v : Forall (fun L => 0 < L) ds -> (x < fft_size ds)%nat -> in_box ds v ->
  digits ds (Z.of_nat x) = v <-> x = Z.to_nat (horner ds v).
Proof.
  intros Hd Hx Hv. pose proof (horner_bound ds v Hv) as B. pose proof (prodZ_pos ds Hd) as P. unfold fft_size in Hx. split; intro E.
  - rewrite <- E, horner_digits by (assumption || lia). now rewrite Nat2Z.id.
  - rewrite E, Z2Nat.id by lia. now apply digits_horner.
Qed.

(** transforming back the product of a transform with the conjugate of another *)
Theorem convolution ds f g r : Forall (fun L => 0 < L) ds ->
  dft BACKWARD ds (fun k => dft FORWARD ds f k * conj (dft FORWARD ds g k))%C r =
  (RtoC (IZR (prodZ ds)) * csum (fft_size ds) (fun y => f (shift ds y r) * conj (g y)))%C.
Proof.
  intro Hd. set (V := fft_size ds). set (dg := fun j => digits ds (Z.of_nat j)).
  assert (Ld : forall j, length (dg j) = length ds) by (intro; apply digits_length).
  assert (Bd : forall j, in_box ds (dg j)) by (intro; now apply digits_in_box).
  transitivity (csum V (fun k => csum V (fun y => csum V (fun x => (f x * conj (g y)) * cis (2 * PI * phase ds (dg k) (diff3 (dg r) (dg x) (dg y))))))%C).
  { unfold dft at 1. fold V. apply csum_ext. intros k Hk. unfold dft. fold V. rewrite csum_conj.
    rewrite <- csum_mul_l, <- csum_mul_r. apply csum_ext. intros y Hy.
    rewrite <- !csum_mul_r. apply csum_ext. intros x Hx. fold (dg k) (dg x) (dg y) (dg r).
    rewrite phase_diff3 by apply Ld.
    replace (2 * PI * (phase ds (dg k) (dg r) - phase ds (dg k) (dg x) + phase ds (dg k) (dg y)))%R
      with (FORWARD * (2 * PI * phase ds (dg k) (dg x)) + (- (FORWARD * (2 * PI * phase ds (dg k) (dg y))) + BACKWARD * (2 * PI * phase ds (dg r) (dg k))))%R
      by (rewrite (phase_sym ds (dg r)); unfold FORWARD, BACKWARD; ring).
    rewrite !cis_add, cis_opp, conj_mul. ring. }
  rewrite csum_swap. rewrite <- csum_mul_l. apply csum_ext. intros y Hy. rewrite csum_swap.
  transitivity (csum V (fun x => mid (shift ds y r) x * (RtoC (IZR (prodZ ds)) * (f x * conj (g y))))%C).
  - apply csum_ext. intros x Hx. rewrite csum_mul_l. unfold V at 1. rewrite (ortho ds Hd) by (rewrite diff3_length; rewrite ?Ld; reflexivity).
    unfold mid. pose proof (periods_diff3 ds Hd (dg r) (dg x) (dg y) (Ld r) (Bd x) (Bd y)) as P.
    assert (Q : dg x = translate ds (dg y) (dg r) <-> x = shift ds y r).
    { unfold shift. apply site_horner; [assumption|exact Hx|]. apply translate_box; [assumption|apply Bd|apply Ld]. }
    destruct (periods ds (diff3 (dg r) (dg x) (dg y))), (Nat.eqb_spec (shift ds y r) x) as [E|E]; try ring.
    + exfalso. apply E. symmetry. apply Q, P. reflexivity.
    + exfalso. symmetry in E. apply Q, P in E. discriminate.
  - rewrite csum_delta_l by (now apply shift_lt). ring.
Qed.

(** the sum of a backward transform picks the zero mode *)
Lemma dft_total sign ds f : Forall (fun L => 0 < L) ds -> sign = FORWARD \/ sign = BACKWARD ->
  csum (fft_size ds) (dft sign ds f) = (RtoC (IZR (prodZ ds)) * f 0%nat)%C.
Proof.
  intros Hd Sg. set (V := fft_size ds). unfold dft. fold V. rewrite csum_swap.
  assert (HV : (0 < V)%nat) by (unfold V, fft_size; pose proof (prodZ_pos ds Hd); lia).
  transitivity (csum V (fun j => mid 0%nat j * (RtoC (IZR (prodZ ds)) * f j))%C).
  - apply csum_ext. intros j Hj. rewrite csum_mul_l.
    assert (E : csum V (fun i => cis (sign * (2 * PI * phase ds (digits ds (Z.of_nat i)) (digits ds (Z.of_nat j))))) =
                if periods ds (digits ds (Z.of_nat j)) then RtoC (IZR (prodZ ds)) else C0).
    { rewrite <- (ortho ds Hd) by apply digits_length. fold V. destruct Sg as [->| ->]; unfold FORWARD, BACKWARD.
      - apply conj_inj. rewrite !csum_conj.
        transitivity (csum V (fun k => cis (2 * PI * phase ds (digits ds (Z.of_nat k)) (digits ds (Z.of_nat j))))).
        + apply csum_ext. intros k _. rewrite <- cis_opp. f_equal. ring.
        + rewrite <- csum_conj. rewrite (ortho ds Hd) by apply digits_length. destruct (periods _ _); [now rewrite conj_RtoC|now rewrite conj_0].
      - apply csum_ext. intros k _. f_equal. ring. }
    rewrite E. unfold mid.
    assert (Z0 : forall i, 0 <= i < prodZ ds -> periods ds (digits ds i) = true <-> i = 0).
    { clear - Hd. induction Hd as [|L ds HL Hds IH]; intros i Hi.
      - cbn in *. split; [lia|reflexivity].
      - rewrite prodZ_cons in Hi. pose proof (prodZ_pos ds Hds).
        change (periods (L :: ds) (digits (L :: ds) i)) with (((i mod L) mod L =? 0) && periods ds (digits ds (i / L)))%bool.
        rewrite Bool.andb_true_iff, Z.eqb_eq, Z.mod_mod, IH by (lia || (split; [apply Z.div_pos; lia|apply Z.div_lt_upper_bound; lia])).
        split; [intros [A B]; rewrite (Z.div_mod i L) by lia; rewrite A, B; lia|intros ->; now rewrite Z.mod_0_l, Z.div_0_l by lia]. }
    specialize (Z0 (Z.of_nat j)). unfold V, fft_size in Hj.
    destruct (periods ds (digits ds (Z.of_nat j))), (Nat.eqb_spec 0 j) as [F|F]; try ring.
    + destruct Z0 as [Z0 _]; [lia|]. specialize (Z0 eq_refl). lia.
    + destruct Z0 as [_ Z0]; [lia|]. discriminate Z0. lia.
  - now rewrite csum_delta_l.
Qed.
Lemma dft_zero_mode sign ds f : Forall (fun L => 0 < L) ds -> dft sign ds f 0 = csum (fft_size ds) f.
Proof.
  intro Hd. apply csum_ext. intros j _. cbn [Z.of_nat].
  assert (Z0 : forall k, phase ds (digits ds 0) k = 0%R).
  { clear - Hd. induction Hd as [|L ds HL Hds IH]; intros [|k0 k]; try reflexivity. cbn [digits phase].
    rewrite Z.mod_0_l, Z.div_0_l, IH by lia. unfold Rdiv. ring. }
  rewrite Z0, Rmult_0_r, Rmult_0_r, cis_0. ring.
Qed.
