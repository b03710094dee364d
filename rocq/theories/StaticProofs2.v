(** The rounds of the static potential. *)
From Coq Require Import Permutation Setoid Morphisms.
From Verif Require Import CInt GeomModel GeomSpec GeomProofs GeomProofs2 Cplx CMat Det Arr MatSpec MatModel MmulModel MmulProofs Su2Model MatProofs FftModel FftProofs QtopModel QtopSpec QtopProofs QtopProofs2 QtopProofs4 StaticModel StaticSpec StaticProofs.
From Verif Require FieldModel FieldProofs SmearProofs2.
Local Open Scope Z_scope.

Lemma nth_error_ext_lt {A} (l m : list A) : length l = length m -> (forall i, (i < length l)%nat -> nth_error l i = nth_error m i) -> l = m.
Proof.
  revert m. induction l as [|a l IH]; intros [|c m] E H; try discriminate; [reflexivity|]. f_equal.
  - specialize (H 0%nat). cbn in H. assert (Some a = Some c) as [= ->] by (apply H; lia). reflexivity.
  - apply IH; [now injection E|]. intros i Hi. apply (H (S i)). cbn. lia.
Qed.

Section Rounds.
Variables (sd : list Z) (L : Z).
Let ds := sd ++ [L].
Hypothesis Hok : lattice_ok ds.
Variables (NC : nat) (lat : FieldModel.lattice) (idx : list nat) (sched : nat -> schedule) (b : fft_build) (mem : nat -> memory).
Hypothesis Hidx : forall i, In i idx -> (i < nsites sd)%nat.
Hypothesis Any : forall t, any_order (sched t).
Hypothesis M : b = NoFFTW -> moderate sd.
Let N := nsites sd.
Let T := Z.to_nat L.
Let W := time_line NC lat sd L.
Lemma T_pos : (0 < T)%nat /\ (0 < N)%nat /\ Z.of_nat N = prodZ sd /\ Z.of_nat T = L.
Proof. destruct (sl_pos sd L Hok) as [_ HL]. pose proof (sl_prod sd L Hok). unfold T, N, nsites. lia. Qed.
Lemma line_mod t : forall y s, W t y (s mod T)%nat = W t y s.
Proof.
  induction t as [|t IH]; intros y s; [reflexivity|]. unfold W in *. cbn [time_line]. rewrite IH. fold T.
  rewrite Nat.add_mod_idemp_l by (pose proof T_pos; lia). reflexivity.
Qed.
Lemma sites_split i : (i < N * T)%nat -> exists y s, i = (y + N * s)%nat /\ (y < N)%nat /\ (s < T)%nat.
Proof.
  intro H. destruct T_pos as (HT & HN & _). exists (i mod N)%nat, (i / N)%nat. pose proof (Nat.div_mod i N). pose proof (Nat.mod_upper_bound i N).
  repeat split; try lia. apply Nat.div_lt_upper_bound; lia.
Qed.
Lemma line_site_ok y s t : (y < N)%nat -> (s < T)%nat -> (Z.of_nat t * prodZ sd + prodZ sd * L <= two64) -> line_site ds (y + N * s) t = (y + N * ((s + t) mod T))%nat.
Proof.
  intros Hy Hs Ht. destruct T_pos as (HT & HN & EN & ET). unfold line_site. unfold ds. rewrite sl_lcu, sl_volume by exact Hok.
  assert (E1 : Z.of_nat (y + N * s) < prodZ sd * L) by (rewrite Nat2Z.inj_add, Nat2Z.inj_mul, EN; nia).
  assert (E0 : 0 <= Z.of_nat t * prodZ sd) by (apply Z.mul_nonneg_nonneg; lia). assert (E00 : 0 < prodZ sd * L) by nia.
  rewrite (u64_id (Z.of_nat t * prodZ sd)) by lia. rewrite u64_id by lia.
  assert (E2 : Z.of_nat (y + N * s) + Z.of_nat t * prodZ sd = Z.of_nat (y + N * (s + t))) by (rewrite !Nat2Z.inj_add, !Nat2Z.inj_mul, Nat2Z.inj_add, EN; ring).
  rewrite E2. rewrite <- EN, <- ET, <- Nat2Z.inj_mul, <- Nat2Z.inj_mod, Nat2Z.id.
  rewrite Nat.mod_mul_r by lia. replace (y + N * (s + t))%nat with (y + (s + t) * N)%nat by lia.
  rewrite Nat.mod_add, Nat.div_add by lia. rewrite Nat.mod_small, Nat.div_small by lia. reflexivity.
Qed.

(** what is written in round t for separation r *)
Definition written_tr (t r : nat) : C :=
  let c := line_pairs NC lat sd L t r in (RtoC (/ IZR L) * match b with WithFFTW => c | NoFFTW => conj c end)%C.
Definition written_trtr (t r : nat) : C :=
  (RtoC (/ IZR L) * match b with WithFFTW => loop_pairs NC lat sd L t r | NoFFTW => same_pairs NC lat sd L t r end)%C.

Lemma lengthen_ok t order poly : Permutation order (seq 0 (Z.to_nat (lvolume ds))) -> Z.of_nat (S t) * prodZ sd + prodZ sd * L <= two64 ->
  (forall y s, (y < N)%nat -> (s < T)%nat -> meq NC (mx NC (poly (y + N * s)%nat)) (W t y (s + 1))) ->
  forall y s, (y < N)%nat -> (s < T)%nat -> meq NC (mx NC (lengthen ds NC lat (S t) order poly (y + N * s)%nat)) (W (S t) y (s + 1)).
Proof.
  intros Ho Ht H y s Hy Hs. destruct T_pos as (HT & HN & EN & ET). unfold lengthen. destruct (perm_order _ _ Ho) as [ND In1].
  destruct (fset_fold (fun i v => multab_atomic_right NC v (FieldModel.O (lat (line_site ds i (S t))) (length ds - 1)%nat)) order ND poly) as [A _].
  rewrite A; [|apply In1; unfold ds; rewrite sl_volume by exact Hok; rewrite <- EN, <- ET, <- Nat2Z.inj_mul, Nat2Z.id; nia].
  destruct (multab_atomic_right_ok NC (poly (y + N * s)%nat) (FieldModel.O (lat (line_site ds (y + N * s) (S t))) (length ds - 1)%nat)) as [E _]. rewrite E.
  rewrite (H y s Hy Hs), line_site_ok by assumption. unfold W. cbn [time_line]. fold N T. unfold ds. rewrite sl_dims.
  replace (s + S t)%nat with (s + 1 + t)%nat by lia. reflexivity.
Qed.
Lemma correlate_ok t poly result trtr : (forall i, (i < length idx)%nat -> result i = C0 /\ trtr i = C0) ->
  (forall y s, (y < N)%nat -> (s < T)%nat -> meq NC (mx NC (poly (y + N * s)%nat)) (W t y (s + 1))) -> forall tt,
  exists res tr, correlate b (sched tt) ds NC poly (map Z.of_nat idx) result trtr (mem tt) = Some (res, tr) /\
  forall i r, nth_error idx i = Some r -> res i = written_tr t r /\ tr i = written_trtr t r.
Proof.
  intros Z0 H tt0. destruct T_pos as (HT & HN & EN & ET). destruct (sl_pos sd L Hok) as [P HL].
  assert (Cyc : forall f : nat -> C, (forall s, f (s mod T)%nat = f s) -> csum T (fun s => f (s + 1)%nat) = csum T f).
  { intros f Hf. rewrite <- (csum_cycle T f). apply csum_ext. intros s _. now rewrite Hf. }
  assert (Ptr : forall r, csum T (pair_tr sd NC poly r) = line_pairs NC lat sd L t r).
  { intro r. unfold line_pairs. fold T. fold N. rewrite <- (Cyc (fun s => csum N (fun y => mtr NC (mmul NC (time_line NC lat sd L t (plus_site sd y r) s) (dag (time_line NC lat sd L t y s)))))).
    - apply csum_ext. intros s Hs. unfold pair_tr. change (fft_size sd) with N. apply csum_ext. intros y Hy.
      rewrite (H y s Hy Hs). rewrite (H (plus_site sd y r) s) by (try assumption; now apply plus_site_lt). reflexivity.
    - intro s. apply csum_ext. intros y _. change (time_line NC lat sd L) with W. now rewrite !line_mod. }
  assert (Ptt : forall r, csum T (pair_trtr sd NC poly r) = loop_pairs NC lat sd L t r).
  { intro r. unfold loop_pairs. fold T. fold N. rewrite <- (Cyc (fun s => csum N (fun y => mtr NC (time_line NC lat sd L t (plus_site sd y r) s) * conj (mtr NC (time_line NC lat sd L t y s)))%C)).
    - apply csum_ext. intros s Hs. unfold pair_trtr. change (fft_size sd) with N. apply csum_ext. intros y Hy.
      rewrite (H y s Hy Hs). rewrite (H (plus_site sd y r) s) by (try assumption; now apply plus_site_lt). reflexivity.
    - intro s. apply csum_ext. intros y _. change (time_line NC lat sd L) with W. now rewrite !line_mod. }
  assert (Pst : forall r, csum T (fun t => csum N (fun y => mtr NC (mx NC (poly (y + N * t)%nat)) * mtr NC (mx NC (poly (plus_site sd y r + N * t)%nat))))%C = same_pairs NC lat sd L t r).
  { intro r. unfold same_pairs. fold T. fold N. rewrite <- (Cyc (fun s => csum N (fun y => mtr NC (time_line NC lat sd L t (plus_site sd y r) s) * mtr NC (time_line NC lat sd L t y s))%C)).
    - apply csum_ext. intros s Hs. apply csum_ext. intros y Hy.
      rewrite (H y s Hy Hs). rewrite (H (plus_site sd y r) s) by (try assumption; now apply plus_site_lt). unfold W. ring.
    - intro s. apply csum_ext. intros y _. change (time_line NC lat sd L) with W. now rewrite !line_mod. }
  unfold correlate, written_tr, written_trtr. destruct b.
  - destruct (correlator_fftw_ok sd L Hok NC poly idx (sched tt0) Hidx (Any tt0) (m_in (mem tt0)) (m_out (mem tt0)) (m_sp (mem tt0)) result trtr Z0) as (res & tr & E & F).
    exists res, tr. split; [exact E|]. intros i r Hi. destruct (F i r Hi) as [-> ->]. fold T. now rewrite Ptr, Ptt.
  - destruct (correlator_direct_ok sd L Hok (M eq_refl) NC poly idx (sched tt0) (Any tt0) result trtr) as (res & tr & E & F).
    exists res, tr. split; [exact E|]. intros i r Hi. destruct (F i r Hi) as [-> ->]. fold T. rewrite Ptr. now rewrite <- Pst.
Qed.
Theorem rounds_ok : forall m t poly result trtr, Z.of_nat (t + m) * prodZ sd + prodZ sd * L <= two64 ->
  (forall y s, (y < N)%nat -> (s < T)%nat -> meq NC (mx NC (poly (y + N * s)%nat)) (W t y (s + 1))) ->
  rounds b sched ds NC lat (map Z.of_nat idx) mem m (S t) poly result trtr =
    Some (map (fun k => (map (written_tr k) idx, map (written_trtr k) idx)) (seq (S t) m)).
Proof.
  assert (HP : 0 < prodZ sd) by (pose proof (sl_prod sd L Hok); lia).
  induction m as [|m IH]; intros t poly result trtr Ht H; [reflexivity|]. cbn [rounds]. rewrite map_length.
  destruct (fill_range (sched (S t) [-1] (length idx)) (length idx) (fun _ => Some C0) (fun _ => C0) (Any _ _ _) (fun _ _ => eq_refl) result) as (r0 & -> & R0 & _). cbn [bindo].
  destruct (fill_range (sched (S t) [-1] (length idx)) (length idx) (fun _ => Some C0) (fun _ => C0) (Any _ _ _) (fun _ _ => eq_refl) trtr) as (t0 & -> & T0 & _). cbn [bindo].
  assert (Ht1 : Z.of_nat (S t) * prodZ sd + prodZ sd * L <= two64) by nia.
  pose proof (lengthen_ok t (sched (S t) [-2] (Z.to_nat (lvolume ds))) poly (Any _ _ _) Ht1 H) as H'. set (poly' := lengthen ds NC lat (S t) _ poly) in *.
  destruct (correlate_ok (S t) poly' r0 t0) with (tt := S t) as (res & tr & -> & F); [intros i Hi; now rewrite R0, T0|exact H'|]. cbn [bindo].
  replace (S t + 1)%nat with (S (S t)) by lia. rewrite (IH (S t) poly' res tr) by (try exact H'; replace (S t + m)%nat with (t + S m)%nat by lia; exact Ht). cbn [bindo seq map].
  do 2 f_equal. f_equal.
  - clear - F. apply nth_error_ext_lt; rewrite ?map_length, ?seq_length; [reflexivity|]. intros i Hi. rewrite nth_error_map. rewrite (nth_error_nth' (seq 0 (length idx)) 0%nat) by now rewrite seq_length.
    rewrite seq_nth by assumption. destruct (nth_error idx i) as [r|] eqn:E; [|apply nth_error_None in E; lia]. rewrite nth_error_map, E. cbn. f_equal. exact (proj1 (F i r E)).
  - clear - F. apply nth_error_ext_lt; rewrite ?map_length, ?seq_length; [reflexivity|]. intros i Hi. rewrite nth_error_map. rewrite (nth_error_nth' (seq 0 (length idx)) 0%nat) by now rewrite seq_length.
    rewrite seq_nth by assumption. destruct (nth_error idx i) as [r|] eqn:E; [|apply nth_error_None in E; lia]. rewrite nth_error_map, E. cbn. f_equal. exact (proj2 (F i r E)).
Qed.
Theorem staticpot_ok poly0 result trtr K : Z.of_nat K * prodZ sd + prodZ sd * L <= two64 ->
  Coul_staticpot b sched ds NC lat (map Z.of_nat idx) mem poly0 result trtr K =
    Some (map (fun k => (map (written_tr k) idx, map (written_trtr k) idx)) (seq 1 (K - 1))).
Proof.
  assert (HP : 0 < prodZ sd) by (pose proof (sl_prod sd L Hok); lia).
  intro HK. unfold Coul_staticpot. apply rounds_ok; [nia|]. intros y s Hy Hs. unfold W. cbn [time_line]. apply (identity_ok NC (poly0 (y + N * s)%nat)).
Qed.
End Rounds.
