(** Qcorr.c and the correlators of Qmoments.c; the unprotected sum of Qslab.c. *)
From Coq Require Import Permutation Setoid.
From Verif Require Import CInt GeomModel GeomSpec GeomProofs GeomProofs2 Cplx CMat Arr FftModel FftProofs QtopModel QtopSpec QtopProofs QtopProofs2 QtopProofs3.
Local Open Scope Z_scope.

Lemma ok_pos' ds : lattice_ok ds -> Forall (fun L => 0 < L) ds. Proof. intros (_ & H & _). now apply ok_pos. Qed.
Lemma nth_translate ds : forall x y mu, length x = length ds -> length y = length ds -> (mu < length ds)%nat ->
  nth mu (translate ds x y) 0 = (nth mu x 0 + nth mu y 0) mod nth mu ds 1.
Proof.
  induction ds as [|L ds IH]; intros [|a x] [|b y] mu Hx Hy Hm; cbn [length] in *; try lia.
  change (translate (L :: ds) (a :: x) (b :: y)) with ((a + b) mod L :: translate ds x y). destruct mu; [reflexivity|]. cbn [nth]. apply IH; lia.
Qed.
Lemma translate_inj ds : forall x y z, Forall (fun L => 0 < L) ds -> in_box ds x -> in_box ds y -> in_box ds z ->
  translate ds x y = translate ds x z -> y = z.
Proof.
  induction ds as [|L ds IH]; intros x y z Hp Hx Hy Hz E; inversion Hx as [|? a ? x' Ha Hx']; subst; inversion Hy as [|? b ? y' Hb Hy']; subst;
    inversion Hz as [|? c ? z' Hc Hz']; subst; [reflexivity|]. inversion_clear Hp as [|? ? HL Hp'].
  change ((a + b) mod L :: translate ds x' y' = (a + c) mod L :: translate ds x' z') in E. injection E as E1 E2.
  f_equal; [|now apply (IH x')].
  assert (K : (b - c) mod L = 0). { replace (b - c) with ((a + b) - (a + c)) by ring. rewrite Zminus_mod, E1, Z.sub_diag. apply Z.mod_0_l. lia. }
  apply Z.mod_divide in K; [|lia]. destruct K as [k K]. assert (k = 0) by nia. lia.
Qed.
Lemma shift_digits ds x r : Forall (fun L => 0 < L) ds ->
  digits ds (Z.of_nat (shift ds x r)) = translate ds (digits ds (Z.of_nat x)) (digits ds (Z.of_nat r)).
Proof.
  intro H. pose proof (translate_box ds _ (digits ds (Z.of_nat r)) H (digits_in_box ds (Z.of_nat x) H) (digits_length _ _)) as B.
  unfold shift. pose proof (horner_bound _ _ B). rewrite Z2Nat.id by lia. now apply digits_horner.
Qed.
Lemma coord_shift ds x r mu : Forall (fun L => 0 < L) ds -> (mu < length ds)%nat ->
  coord ds mu (plus_site ds x r) = (coord ds mu x + coord ds mu r) mod nth mu ds 1.
Proof.
  intros H Hm. rewrite plus_site_shift by assumption. rewrite !coord_digits by assumption. rewrite shift_digits by assumption.
  apply nth_translate; rewrite ?digits_length; auto.
Qed.
Lemma shift_perm ds x : Forall (fun L => 0 < L) ds -> Permutation (map (plus_site ds x) (sites ds)) (sites ds).
Proof.
  intro H. pose proof (prodZ_pos ds H) as V. apply NoDup_Permutation_bis.
  - apply NoDup_map_in; [|apply seq_NoDup]. intros r s Hr Hs E. apply in_seq in Hr. apply in_seq in Hs. unfold nsites in *. cbn [Nat.add] in *.
    rewrite !plus_site_shift in E by assumption.
    assert (T : digits ds (Z.of_nat r) = digits ds (Z.of_nat s)).
    { apply (translate_inj ds (digits ds (Z.of_nat x))); auto using digits_in_box. rewrite <- !shift_digits by assumption. now rewrite E. }
    apply (f_equal (horner ds)) in T. rewrite !horner_digits in T by (assumption || lia). lia.
  - unfold sites. now rewrite map_length.
  - intros y Hy. apply in_map_iff in Hy as (r & <- & Hr). rewrite plus_site_shift by assumption. apply in_seq. split; [lia|].
    cbn [Nat.add]. rewrite nsites_size. now apply shift_lt.
Qed.
Lemma plus_site_lt ds x r : Forall (fun L => 0 < L) ds -> (plus_site ds x r < nsites ds)%nat.
Proof. intro H. rewrite plus_site_shift by assumption. rewrite nsites_size. now apply shift_lt. Qed.
Lemma translate_comm ds : forall x y, length x = length y -> translate ds x y = translate ds y x.
Proof.
  unfold translate. induction ds as [|L ds IH]; intros [|a x] [|b y] H; try discriminate; try reflexivity. cbn [combine map fst snd].
  f_equal; [f_equal; ring|]. apply IH. simpl in H. lia.
Qed.

(** * The sum over the lattice of a correlation, and over the sites of a slice *)
Lemma correlation_sum ds p : Forall (fun L => 0 < L) ds -> sum_over (correlation ds p) (sites ds) = (sum_over p (sites ds) * sum_over p (sites ds))%R.
Proof.
  intro H. unfold correlation. rewrite sum_over_swap.
  rewrite (sum_over_ext _ (fun x => (sum_over p (sites ds) * p x)%R)); [apply sum_over_mul|].
  intros x _. rewrite sum_over_mul. rewrite <- (sum_over_map p (plus_site ds x)). rewrite (sum_over_perm _ _ _ (shift_perm ds x H)). ring.
Qed.
Lemma sum_one (f : Z -> R) (c : Z) n : 0 <= c < Z.of_nat n -> sum_over (fun k => if c =? Z.of_nat k then f (Z.of_nat k) else 0%R) (seq 0 n) = f c.
Proof.
  intro Hc. induction n as [|n IH]; [lia|]. rewrite seq_S, sum_over_app, sum_cons, sum_nil. cbn [Nat.add].
  destruct (Z.eqb_spec c (Z.of_nat n)) as [->|N].
  - rewrite (sum_over_ext _ (fun _ => 0%R)); [rewrite sum_over_0; ring|]. intros i Hi. apply in_seq in Hi.
    replace (Z.of_nat n =? Z.of_nat i) with false by (symmetry; apply Z.eqb_neq; lia). reflexivity.
  - rewrite IH by lia. ring.
Qed.
Lemma coord_range ds dir x : Forall (fun L => 0 < L) ds -> (dir < length ds)%nat -> 0 <= coord ds dir x < nth dir ds 1.
Proof. intros H Hd. unfold coord. apply Z.mod_pos_bound. rewrite Forall_forall in H. apply H. now apply nth_In. Qed.
(** a sum over the sites, slice by slice *)
Lemma by_slices ds dir (p : nat -> R) : Forall (fun L => 0 < L) ds -> (dir < length ds)%nat ->
  sum_over p (sites ds) = sum_over (fun t => sum_over p (slice ds dir (Z.of_nat t))) (seq 0 (Z.to_nat (nth dir ds 1))).
Proof.
  intros H Hd. rewrite (sum_over_ext (fun t => sum_over p (slice ds dir (Z.of_nat t)))
    (fun t => sum_over (fun x => if coord ds dir x =? Z.of_nat t then p x else 0%R) (sites ds))) by (intros; apply sum_over_filter).
  rewrite <- (sum_over_swap (fun x t => if coord ds dir x =? Z.of_nat t then p x else 0%R)). apply sum_over_ext. intros x _. symmetry.
  apply (sum_one (fun _ => p x)). pose proof (coord_range ds dir x H Hd). lia.
Qed.
Lemma slice_shift ds dir t x p : Forall (fun L => 0 < L) ds -> (dir < length ds)%nat -> 0 <= t < nth dir ds 1 ->
  sum_over (fun r => p (plus_site ds x r)) (slice ds dir t) = sum_over p (slice ds dir ((coord ds dir x + t) mod nth dir ds 1)).
Proof.
  intros H Hd Ht. unfold slice. rewrite !sum_over_filter.
  rewrite <- (sum_over_perm (fun i => if coord ds dir i =? (coord ds dir x + t) mod nth dir ds 1 then p i else 0%R) _ _ (shift_perm ds x H)). rewrite sum_over_map.
  apply sum_over_ext. intros r _. rewrite coord_shift by assumption. pose proof (coord_range ds dir x H Hd). pose proof (coord_range ds dir r H Hd).
  set (c := coord ds dir x) in *. set (d := coord ds dir r) in *. set (L := nth dir ds 1) in *. clearbody c d L.
  destruct (Z.eqb_spec d t) as [->|N]; [now rewrite Z.eqb_refl|].
  replace ((c + d) mod L =? (c + t) mod L) with false; [reflexivity|]. symmetry. apply Z.eqb_neq. intro E. apply N.
  assert (K : (d - t) mod L = 0). { replace (d - t) with ((c + d) - (c + t)) by ring. rewrite Zminus_mod, E, Z.sub_diag. apply Z.mod_0_l. lia. }
  apply Z.mod_divide in K; [|lia]. destruct K as [k K]. assert (k = 0) by nia. lia.
Qed.
Lemma correlation_slice ds dir t p : Forall (fun L => 0 < L) ds -> (dir < length ds)%nat -> 0 <= t < nth dir ds 1 ->
  sum_over (correlation ds p) (slice ds dir t) =
  sum_over (fun t0 => sum_over p (slice ds dir (Z.of_nat t0)) * sum_over p (slice ds dir ((Z.of_nat t0 + t) mod nth dir ds 1)%Z))%R (seq 0 (Z.to_nat (nth dir ds 1))).
Proof.
  intros H Hd Ht. unfold correlation. rewrite sum_over_swap.
  rewrite (sum_over_ext _ (fun x => (p x * sum_over p (slice ds dir ((coord ds dir x + t) mod nth dir ds 1)%Z))%R)).
  2: { intros x _. rewrite sum_over_mul. now rewrite slice_shift. }
  rewrite (by_slices ds dir) by assumption. apply sum_over_ext. intros t0 _.
  rewrite (sum_over_ext _ (fun x => (sum_over p (slice ds dir ((Z.of_nat t0 + t) mod nth dir ds 1)%Z) * p x)%R)); [rewrite sum_over_mul; ring|].
  intros x Hx. unfold slice in Hx at 1. apply filter_In in Hx as [_ E]. apply Z.eqb_eq in E. rewrite E. ring.
Qed.

(** * The transforms and the direct sum *)
Definition moderate (ds : list Z) : Prop := Forall (fun L => L <= 2 ^ 30) ds.
Lemma separation_ok ds r : lattice_ok ds -> moderate ds -> sep_ok ds (digits ds r).
Proof.
  intros Hok M. pose proof (digits_in_box ds r (ok_pos' ds Hok)) as B. clear Hok. revert M. unfold moderate, sep_ok.
  induction B as [|L d ds l Hd B IH]; intro M; [constructor|]. inversion_clear M. constructor; [unfold two31; change (2 ^ 30) with 1073741824 in *; lia|].
  now apply IH.
Qed.
Lemma compute_spacing_shift ds x r : lattice_ok ds -> moderate ds -> (x < nsites ds)%nat ->
  compute_spacing ds (digits ds (Z.of_nat r)) (Z.of_nat x) (length ds) = Some (Z.of_nat (plus_site ds x r)).
Proof.
  intros Hok M Hx. pose proof (ok_pos' ds Hok) as P. pose proof (digits_in_box ds (Z.of_nat x) P) as B.
  destruct (compute_spacing_spec ds _ _ Hok B (separation_ok ds (Z.of_nat r) Hok M)) as (E & B').
  rewrite !index_of_horner in E by (now apply in_box_length). unfold nsites in Hx. rewrite horner_digits in E by (assumption || lia). rewrite E.
  rewrite plus_site_shift by assumption. unfold shift. pose proof (horner_bound _ _ B'). f_equal. lia.
Qed.
Lemma get_mom_r ds r : lattice_ok ds -> get_mom_2piBZ ds (Z.of_nat r) (length ds) = Some (digits ds (Z.of_nat r)).
Proof. intro Hok. apply get_mom_digits; [exact Hok|lia|lia]. Qed.
Lemma autocorr_ok ds q p r : lattice_ok ds -> moderate ds -> density ds q p -> autocorr ds q (Z.of_nat r) = Some (RtoC (correlation ds p r)).
Proof.
  intros Hok M Hq. unfold autocorr. rewrite get_mom_r by assumption. cbn [bindo]. rewrite lvolume_nsites by assumption.
  rewrite (for_addC _ _ (fun x => RtoC (p x * p (plus_site ds x r)))).
  - f_equal. rewrite csum_real. unfold correlation, sites. ring.
  - intros x s Hx. cbn [bindo]. rewrite compute_spacing_shift by assumption. cbn [bindo]. pose proof (plus_site_lt ds x r (ok_pos' ds Hok)).
    rewrite rd_ok by assumption. cbn [bindo]. rewrite !Hq by assumption. now rewrite RtoC_mul.
Qed.
Lemma transform_back ds q p b out out' c r : lattice_ok ds -> density ds q p -> (r < nsites ds)%nat ->
  (forall k, (k < nsites ds)%nat -> b k = (RtoC c * (fftw_execute FORWARD (rev ds) q out k * conj (fftw_execute FORWARD (rev ds) q out k)))%C) ->
  fftw_execute BACKWARD (rev ds) b out' r = RtoC (c * IZR (prodZ ds) * correlation ds p r).
Proof.
  intros Hok Hq Hr Hb. pose proof (ok_pos' ds Hok) as P. rewrite nsites_size in *. rewrite fftw_execute_ok by assumption.
  rewrite (dft_ext _ _ _ (fun k => RtoC c * (dft FORWARD ds q k * conj (dft FORWARD ds q k)))%C).
  2: { intros k Hk. rewrite Hb by assumption. now rewrite fftw_execute_ok. }
  assert (S : forall f, dft BACKWARD ds (fun k => RtoC c * f k)%C r = (RtoC c * dft BACKWARD ds f r)%C).
  { intro f. unfold dft. rewrite <- csum_mul_l. apply csum_ext. intros. ring. }
  rewrite S, convolution by assumption.
  rewrite (csum_ext _ _ (fun y => RtoC (p y * p (plus_site ds y r)))).
  - rewrite csum_real, !RtoC_mul. unfold correlation, sites. change (nsites ds) with (fft_size ds). ring.
  - intros y Hy. rewrite plus_site_shift by assumption. rewrite !Hq by (rewrite nsites_size; auto using shift_lt). rewrite conj_RtoC, <- RtoC_mul. f_equal. ring.
Qed.

(** compute_Q2_moments hands on the correlation, whatever the build *)
Lemma Q2_array_ok b sched ds q p out : lattice_ok ds -> density ds q p -> any_order sched -> (b = NoFFTW -> moderate ds) ->
  exists a c, Q2_array b sched ds q out = Some (a, (NORMSQ / c)%R) /\ (c <> 0)%R /\ density ds a (fun r => c * correlation ds p r)%R.
Proof.
  intros Hok Hq Any M. unfold Q2_array. rewrite lvolume_nsites by assumption. pose proof (prodZ_pos ds (ok_pos' ds Hok)) as V. destruct b.
  - unfold plan_dims. rewrite firstn_all.
    set (F := fftw_execute FORWARD (rev ds) q out).
    destruct (fill_range (sched [0] (nsites ds)) (nsites ds) (fun i => Some (F i * conj (F i))%C) (fun i => F i * conj (F i))%C (Any _ _)
      (fun i _ => eq_refl) F) as (b & -> & B & _). cbn [bindo].
    exists (fftw_execute BACKWARD (rev ds) b q), (IZR (prodZ ds)). rewrite lvolume_prod by assumption.
    split; [reflexivity|]. split; [apply IZR_neq; lia|]. intros r Hr.
    rewrite (transform_back ds q p b out q 1%R r Hok Hq Hr); [f_equal; ring|]. intros k Hk. rewrite B by assumption. unfold F. cunfold. f_equal; ring.
  - destruct (fill_range (sched [0] (nsites ds)) (nsites ds) (fun i => autocorr ds q (Z.of_nat i)) (fun r => RtoC (correlation ds p r)) (Any _ _)
      (fun r _ => autocorr_ok ds q p r Hok (M eq_refl) Hq) out) as (a & -> & A & _). cbn [bindo].
    exists a, 1%R. split; [do 2 f_equal; field|]. split; [lra|]. intros r Hr. rewrite A by assumption. f_equal. ring.
Qed.

(** * compute_Qcorr *)
Lemma list_reads ds (a : arr) (v : nat -> R) l : lattice_ok ds -> density ds a v -> (forall i, In i l -> (i < nsites ds)%nat) ->
  fold_right (fun i r => do z <- rd ds a i; do r <- r; Some (re z :: r)) (Some []) (map Z.of_nat l) = Some (map v l).
Proof.
  intros Hok Ha Hl. induction l as [|i l IH]; [reflexivity|]. cbn [map fold_right]. rewrite IH by (intros; apply Hl; now right).
  rewrite rd_ok by (try apply Hl, in_eq; assumption). cbn [bindo]. rewrite Ha by (apply Hl, in_eq). reflexivity.
Qed.
Lemma last_slice ds t (p : nat -> R) : lattice_ok ds -> 0 <= t < last ds 0 ->
  sum_over p (slice ds (length ds - 1) t) = sum_over (fun i => p (Z.to_nat (prodZ (removelast ds)) * Z.to_nat t + i)%nat) (seq 0 (Z.to_nat (prodZ (removelast ds)))).
Proof.
  intros Hok Ht. pose proof (ok_pos' ds Hok) as P. destruct Hok as (Hne & _). destruct (exists_last Hne) as (l & L & ->).
  rewrite last_last in Ht. rewrite removelast_last. rewrite app_length. cbn [length]. replace (length l + 1 - 1)%nat with (length l) by lia.
  apply Forall_app in P as [Pl PL]. pose proof (prodZ_pos l Pl) as Vl. set (S := Z.to_nat (prodZ l)).
  assert (VS : Z.of_nat S = prodZ l) by (unfold S; lia). assert (N : nsites (l ++ [L]) = (S * Z.to_nat L)%nat).
  { unfold nsites. rewrite prodZ_app, prodZ_cons. cbn. unfold S. rewrite <- Z2Nat.inj_mul by lia. f_equal. ring. }
  rewrite <- (sum_over_map p (fun i => S * Z.to_nat t + i)%nat). apply sum_over_perm. unfold slice, sites. rewrite N.
  assert (C : forall i, coord (l ++ [L]) (length l) i = (Z.of_nat i / Z.of_nat S) mod L).
  { intro i. unfold coord. rewrite firstn_app, Nat.sub_diag, firstn_all. cbn [firstn]. rewrite app_nil_r, app_nth2, Nat.sub_diag by lia. cbn [nth]. now rewrite VS. }
  apply NoDup_Permutation.
  - apply NoDup_filter, seq_NoDup.
  - apply NoDup_map_in; [intros; lia|apply seq_NoDup].
  - intro x. rewrite filter_In, in_map_iff, in_seq, C. split.
    + intros [Hx E]. apply Z.eqb_eq in E. rewrite Z.mod_small in E.
      2: { split; [apply Z.div_pos; lia|]. apply Z.div_lt_upper_bound; [lia|]. nia. }
      exists (Z.to_nat (Z.of_nat x mod Z.of_nat S)). pose proof (Z.div_mod (Z.of_nat x) (Z.of_nat S) ltac:(lia)) as D. pose proof (Z.mod_pos_bound (Z.of_nat x) (Z.of_nat S) ltac:(lia)).
      rewrite E in D. split; [|apply in_seq; lia]. apply Nat2Z.inj. rewrite Nat2Z.inj_add, Nat2Z.inj_mul, !Z2Nat.id by lia. lia.
    + intros (i & <- & Hi). apply in_seq in Hi. assert (K : (S * Z.to_nat t + i < S * Z.to_nat L)%nat) by nia. split; [lia|].
      apply Z.eqb_eq. rewrite Nat2Z.inj_add, Nat2Z.inj_mul, Z2Nat.id by lia. rewrite (Z.mul_comm (Z.of_nat S)), Z.div_add_l by lia.
      rewrite (Z.div_small (Z.of_nat i)) by lia. rewrite Z.add_0_r. apply Z.mod_small. lia.
Qed.
Lemma lcu_sites ds : lattice_ok ds -> Z.to_nat (lcu ds) = Z.to_nat (prodZ (removelast ds)).
Proof.
  intro Hok. pose proof (ok_pos' ds Hok) as P. pose proof (ok_volume ds Hok) as B. destruct Hok as (Hne & _). destruct (exists_last Hne) as (m & L & ->).
  unfold lcu, lvolume. rewrite removelast_last. apply Forall_app in P as [Pl PL]. pose proof (prodZ_pos m Pl). inversion_clear PL.
  rewrite prodZ_app, prodZ_cons in B. change (prodZ []) with 1 in B. rewrite lvolume_prod_gen by (try assumption; try nia). f_equal. ring.
Qed.
Lemma temporal_ok ds q p : lattice_ok ds -> density ds q p ->
  temporal_correlator ds q = Some (map (fun t => sum_over p (slice ds (length ds - 1) (Z.of_nat t))) (seq 0 (Z.to_nat (last ds 0)))).
Proof.
  intros Hok Hq. unfold temporal_correlator.
  assert (G : forall l, (forall t, In t l -> (t < Z.to_nat (last ds 0%Z))%nat) ->
    fold_right (fun t r => do s <- total (Z.to_nat (lcu ds)) (fun i => Some (re (q (Z.to_nat (lcu ds) * t + i)%nat))); do r <- r; Some (s :: r)) (Some []) l
    = Some (map (fun t => sum_over p (slice ds (length ds - 1) (Z.of_nat t))) l)).
  { induction l as [|t l IH]; intro Hl; [reflexivity|]. cbn [fold_right map]. rewrite IH by (intros; apply Hl; now right).
    assert (Ht : (t < Z.to_nat (last ds 0%Z))%nat) by (apply Hl, in_eq).
    rewrite (for_some _ _ (fun i => re (q (Z.to_nat (lcu ds) * t + i)%nat))) by reflexivity. cbn [bindo]. do 2 f_equal.
    rewrite last_slice by (try assumption; lia). rewrite lcu_sites by assumption. rewrite Nat2Z.id. apply sum_over_ext. intros i Hi. apply in_seq in Hi.
    rewrite Hq; [reflexivity|]. pose proof (ok_pos' ds Hok) as P. destruct Hok as (Hne & _). destruct (exists_last Hne) as (m & L & ->).
    rewrite removelast_last in *. rewrite last_last in Ht. apply Forall_app in P as [Pl PL]. pose proof (prodZ_pos m Pl).
    unfold nsites. rewrite prodZ_app, prodZ_cons. cbn. replace (prodZ m * (L * 1)) with (prodZ m * L) by ring. rewrite Z2Nat.inj_mul by lia. nia. }
  apply G. intros t Ht. apply in_seq in Ht. lia.
Qed.
