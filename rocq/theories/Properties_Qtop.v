(** C58: the topological susceptibility from slabs (Field/Qslab.c).
    C59: the moments of the topological charge (Field/Qmoments.c).
    C60: the correlator of the topological charge density (Field/Qcorr.c).

    The density is an array of complex numbers with zero imaginary part, which is what
    compute_Gmunu_array leaves (C57_density); [p] are the real numbers. *)
From Coq Require Import Permutation Setoid.
From Verif Require Import CInt GeomModel GeomSpec GeomProofs GeomProofs2 Cplx CMat Arr FftModel FftProofs QtopModel QtopSpec QtopProofs QtopProofs2 QtopProofs3 QtopProofs4 QtopProofs5.
From Verif Require FieldModel FieldProofs CloverModel CloverProofs3 Properties_Clover.
Local Open Scope Z_scope.

(** the charge of a set of sites *)
Definition charge_in (p : nat -> R) (l : list nat) : R := (NORM * sum_over p l)%R.
Definition in_order : schedule := fun _ n => seq 0 n.
Lemma in_order_any : any_order in_order. Proof. intros key n. apply Permutation_refl. Qed.
Lemma norm_neq : NORM <> 0%R. Proof. unfold NORM, CloverModel.NORM. lra. Qed.

(** * C58 *)
(** Entry k of the output is the square of the charge in a slab of k+1 slices, averaged over the
    slabs: with FFTW or without (on one thread), whatever the order of the work-shared loops *)
Theorem C58_slab_values : forall b sched ds q p dir inp out, lattice_ok ds -> density ds q p -> (dir < length ds)%nat -> any_order sched ->
  compute_slabs b sched ds q dir inp out =
  Some (map (fun k => / IZR (nth dir ds 1%Z) * sum_over (fun T0 => Rsqr (charge_in p (slab ds dir (Z.of_nat T0) (Z.of_nat k + 1)))) (seq 0 (Z.to_nat (nth dir ds 1%Z))))%R
    (seq 0 (Z.to_nat (nth dir ds 1)))).
Proof.
  intros. rewrite (compute_slabs_ok b sched ds q p) by assumption. f_equal. apply map_ext. intro k. unfold charge_in, Rsqr, NORMSQ.
  rewrite (sum_over_ext (fun T0 => (NORM * sum_over p (slab ds dir (Z.of_nat T0) (Z.of_nat k + 1)%Z)) * (NORM * sum_over p (slab ds dir (Z.of_nat T0) (Z.of_nat k + 1)%Z)))%R
    (fun T0 => (NORM * NORM) * (sum_over p (slab ds dir (Z.of_nat T0) (Z.of_nat k + 1)%Z) * sum_over p (slab ds dir (Z.of_nat T0) (Z.of_nat k + 1)%Z)))%R) by (intros; ring).
  rewrite sum_over_mul. unfold Rdiv. ring.
Qed.
Print Assumptions C58_slab_values.

(** all directions: compute_Qsusc *)
Theorem C58_all_directions : forall b sched ds q p inp out, lattice_ok ds -> density ds q p -> (forall mu, any_order (sched mu)) ->
  compute_Qsusc b sched ds q inp out =
  Some (map (fun dir => map (fun k => / IZR (nth dir ds 1%Z) * sum_over (fun T0 => Rsqr (charge_in p (slab ds dir (Z.of_nat T0) (Z.of_nat k + 1)))) (seq 0 (Z.to_nat (nth dir ds 1%Z))))%R
    (seq 0 (Z.to_nat (nth dir ds 1)))) (seq 0 (length ds))).
Proof.
  intros b sched ds q p inp out Hok Hq Any. unfold compute_Qsusc. apply moments_fold. intros mu Hm. apply in_seq in Hm. apply C58_slab_values; auto. lia.
Qed.
Print Assumptions C58_all_directions.

(** the thickest slab gives the square of the total charge *)
Theorem C58_full_slab : forall b sched ds q p dir inp out, lattice_ok ds -> density ds q p -> (dir < length ds)%nat -> any_order sched ->
  exists ct, compute_slabs b sched ds q dir inp out = Some ct /\ length ct = Z.to_nat (nth dir ds 1) /\
    last ct 0%R = Rsqr (charge_in p (sites ds)) /\ slab_charge ds q = Some (charge_in p (sites ds), last ct 0%R) /\ Forall (fun c => 0 <= c)%R ct.
Proof.
  intros b sched ds q p dir inp out Hok Hq Hd Any. eexists. split; [now apply (C58_slab_values b sched ds q p)|].
  assert (LP : 0 < nth dir ds 1). { destruct Hok as (_ & H & _). rewrite Forall_forall in H. apply H. now apply nth_In. }
  assert (Inv : (0 < / IZR (nth dir ds 1%Z))%R) by (apply Rinv_0_lt_compat, IZR_lt; assumption).
  split; [now rewrite map_length, seq_length|].
  match goal with |- ?A /\ _ => assert (E : A) end.
  { destruct (Z.to_nat (nth dir ds 1)) as [|n] eqn:EL; [lia|]. rewrite seq_S, map_app. cbn [map]. rewrite last_last. cbn [Nat.add].
    replace (Z.of_nat n + 1) with (nth dir ds 1) by lia.
    rewrite (sum_over_ext _ (fun _ => Rsqr (charge_in p (sites ds)))) by (intros; rewrite slab_all by assumption; reflexivity).
    change (seq 0 n ++ [n]) with (seq 0 n ++ [0 + n]%nat). rewrite <- seq_S, <- EL. rewrite sum_const, INR_IZR_INZ, Z2Nat.id by lia. field. apply IZR_neq. lia. }
  split; [exact E|]. split.
  - rewrite E. unfold slab_charge. rewrite lvolume_nsites by assumption. rewrite (for_some _ _ p) by (intros i Hi; now rewrite Hq). cbn [bindo].
    unfold charge_in, sites, Rsqr, NORMSQ. do 2 f_equal; ring.
  - apply Forall_forall. intros c Hc. apply in_map_iff in Hc as (k & <- & _). apply Rmult_le_pos; [lra|]. clear E.
    induction (seq 0 (Z.to_nat (nth dir ds 1))) as [|x l IH]; [rewrite sum_nil; lra|]. rewrite sum_cons. pose proof (Rle_0_sqr (charge_in p (slab ds dir (Z.of_nat x) (Z.of_nat k + 1)))). lra.
Qed.
Print Assumptions C58_full_slab.

(** the result of a run on a gauge field does not change under gauge transformations *)
Theorem C58_gauge_invariant : forall bb b n ds lat lat' g w w' order order' qtop sched sched' dir inp inp' out out',
  lattice_ok ds -> length ds = 4%nat -> FieldProofs.navig ds lat -> FieldProofs.group_field n 4 (FieldProofs.volume ds) lat -> CloverProofs3.fits b n ->
  FieldProofs.group_gauge n (FieldProofs.volume ds) g -> FieldProofs.gauged n 4 (FieldProofs.volume ds) g lat lat' ->
  Permutation order (seq 0 (FieldProofs.volume ds)) -> Permutation order' (seq 0 (FieldProofs.volume ds)) ->
  (dir < 4)%nat -> any_order sched -> any_order sched' ->
  exists ct, compute_slabs bb sched ds (CloverModel.compute_Gmunu_array b n lat w order qtop) dir inp out = Some ct /\
    compute_slabs bb sched' ds (CloverModel.compute_Gmunu_array b n lat' w' order' qtop) dir inp' out' = Some ct /\
    last ct 0%R = Rsqr (NORM * snd (CloverModel.compute_Gmunu b n lat w order)).
Proof.
  intros bb b n ds lat lat' g w w' order order' qtop sched sched' dir inp inp' out out' Hok L4 Nav Grp Fit GG Gau P P' Hd Any Any'.
  destruct (Properties_Clover.C57_density b n ds lat w order qtop Hok L4 Nav Grp Fit P) as (D & _ & Tot).
  destruct (Properties_Clover.C57_gauge_invariant b n ds lat lat' g w w' order order' qtop Hok L4 Nav Grp Fit GG Gau P P') as [_ Inv].
  assert (V : FieldProofs.volume ds = nsites ds) by (apply lvolume_nsites; exact Hok). rewrite V in *.
  set (q := CloverModel.compute_Gmunu_array b n lat w order qtop) in *. set (q' := CloverModel.compute_Gmunu_array b n lat' w' order' qtop) in *.
  assert (Hq : density ds q (fun i => re (q i))) by (intros i Hi; rewrite D by assumption; reflexivity).
  assert (Hq' : density ds q' (fun i => re (q i))) by (intros i Hi; rewrite Inv by assumption; now apply Hq).
  assert (Hd' : (dir < length ds)%nat) by lia.
  destruct (C58_full_slab bb sched ds q _ dir inp out Hok Hq Hd' Any) as (ct & E & _ & F & _). exists ct. split; [exact E|]. split.
  - rewrite <- E. now rewrite (C58_slab_values bb sched' ds q' _ dir), (C58_slab_values bb sched ds q _ dir) by eassumption.
  - rewrite F. f_equal. unfold charge_in. f_equal. rewrite <- Tot. unfold sites. generalize (seq 0 (nsites ds)). intro l.
    induction l as [|x l IH]; [reflexivity|]. rewrite sum_cons, IH. reflexivity.
Qed.
Print Assumptions C58_gauge_invariant.

(** without FFTW the sum over a slab is formed by all threads in one unprotected variable.  One
    thread gets it right: *)
Theorem C58_one_thread : forall ds q p dir T1 T0 vs m, lattice_ok ds -> density ds q p -> (dir < length ds)%nat ->
  1 <= T1 <= nth dir ds 1 -> 0 <= T0 < nth dir ds 1 ->
  slab_addends ds q dir T1 T0 (seq 0 (nsites (put ds dir T1))) = Some vs -> race [vs] m ->
  m = Rsqr (sum_over p (slab ds dir T0 T1)) /\ slab_direct ds q dir T1 T0 = Some m.
Proof.
  intros ds q p dir T1 T0 vs m Hok Hq Hd HT H0 E Hr. rewrite (slab_addends_ok ds q p) in E by assumption. injection E as <-. apply single_thread in Hr.
  rewrite (slab_direct_ok ds q p dir T1 Hok Hq Hd HT T0 H0). fold (slab_val ds p dir T1 T0).
  enough (G : m = Rsqr (slab_val ds p dir T1 T0)) by (split; [exact G|rewrite G; reflexivity]).
  rewrite Hr. rewrite <- (slab_val_seq ds p dir T1 Hok Hd HT T0 H0) at 1. set (f := fun i => p (slab_site ds dir T0 T1 i)).
  change (nsites (put ds dir T1)) with (fft_size (put ds dir T1)). set (J := seq 0 (fft_size (put ds dir T1))).
  assert (A : forall l m, lsumR (l ++ m) = (lsumR l + lsumR m)%R) by (induction l as [|a l IH]; intro; cbn [app lsumR]; [ring|rewrite IH; ring]).
  assert (B : forall c K, lsumR (map (fun j => c * f j)%R K) = (c * sum_over f K)%R) by (intros c K; induction K as [|a K IH]; [cbn; ring|cbn [map lsumR]; rewrite IH, sum_cons; ring]).
  assert (G : forall I, lsumR (flat_map (fun i => map (fun j => f i * f j)%R J) I) = (sum_over f I * sum_over f J)%R).
  { induction I as [|i I IH]; [cbn; ring|]. cbn [flat_map]. rewrite A, B, IH, sum_cons. ring. }
  apply G.
Qed.
Print Assumptions C58_one_thread.
(** whereas with the iterations shared between two threads, the first value added by the one may be lost *)
Theorem C58_race_loses : forall ds q p dir T1 T0 i is j js, lattice_ok ds -> density ds q p -> (dir < length ds)%nat ->
  1 <= T1 <= nth dir ds 1 -> 0 <= T0 < nth dir ds 1 ->
  Permutation ((i :: is) ++ j :: js) (seq 0 (nsites (put ds dir T1))) ->
  exists vs ws, slab_addends ds q dir T1 T0 (i :: is) = Some vs /\ slab_addends ds q dir T1 T0 (j :: js) = Some ws /\
    race [vs; ws] (Rsqr (sum_over p (slab ds dir T0 T1)) - p (slab_site ds dir T0 T1 i) * p (slab_site ds dir T0 T1 0)).
Proof.
  intros ds q p dir T1 T0 i is j js Hok Hq Hd HT H0 P. rewrite !(slab_addends_ok ds q p) by assumption.
  do 2 eexists. split; [reflexivity|]. split; [reflexivity|]. set (f := fun i => p (slab_site ds dir T0 T1 i)).
  pose proof (slab_val_seq ds p dir T1 Hok Hd HT T0 H0) as SV. unfold slab_val in SV. change (fun i => p (slab_site ds dir T0 T1 i)) with f in SV.
  change (fft_size (put ds dir T1)) with (nsites (put ds dir T1)) in SV.
  assert (A : forall l m, lsumR (l ++ m) = (lsumR l + lsumR m)%R) by (induction l as [|a l IH]; intro; cbn [app lsumR]; [ring|rewrite IH; ring]).
  assert (B : forall c K, lsumR (map (fun j => c * f j)%R K) = (c * sum_over f K)%R) by (intros c K; induction K as [|a K IH]; [cbn; ring|cbn [map lsumR]; rewrite IH, sum_cons; ring]).
  assert (G : forall J I, lsumR (flat_map (fun i => map (fun j => f i * f j)%R J) I) = (sum_over f I * sum_over f J)%R).
  { intros J I. induction I as [|x I IH]; [cbn; ring|]. cbn [flat_map]. rewrite A, B, IH, sum_cons. ring. }
  destruct (nsites (put ds dir T1)) as [|N] eqn:EN; [apply Permutation_length in P; cbn in P; lia|].
  pose proof (G (seq 0 (S N)) (i :: is)) as G1. pose proof (G (seq 0 (S N)) (j :: js)) as G2.
  pose proof (sum_over_perm f _ _ P) as PS. rewrite sum_over_app in PS.
  cbn [seq flat_map map app] in G1, G2 |- *.
  match goal with |- race [?v :: ?vs; ?w :: ?ws] _ => pose proof (race_loses v vs w ws) as R end.
  change (f i * f 0%nat)%R with (p (slab_site ds dir T0 T1 i) * p (slab_site ds dir T0 T1 0))%R in *.
  match type of R with race _ ?x => match goal with |- race _ ?y => replace y with x; [exact R|] end end.
  unfold f in G1, G2. unfold Rsqr. rewrite <- SV. rewrite G1, G2. fold f. rewrite <- (Rmult_plus_distr_r). cbn [seq] in PS. rewrite PS. reflexivity.
Qed.
Print Assumptions C58_race_loses.
(** so the sum over a slab is not determined: on a lattice of two sites with density 1, two threads may get 3 for 4 *)
Theorem C58_threads_refuted : exists ds q p dir T1 T0 vs ws m, lattice_ok ds /\ density ds q p /\ (dir < length ds)%nat /\
  1 <= T1 <= nth dir ds 1 /\ 0 <= T0 < nth dir ds 1 /\
  slab_addends ds q dir T1 T0 [0%nat] = Some vs /\ slab_addends ds q dir T1 T0 [1%nat] = Some ws /\ nsites (put ds dir T1) = 2%nat /\
  race [vs; ws] m /\ m <> Rsqr (sum_over p (slab ds dir T0 T1)).
Proof.
  assert (Hok : lattice_ok [2]). { split; [discriminate|]. split; [repeat constructor|reflexivity]. }
  assert (Hq : density [2] (fun _ => RtoC 1) (fun _ => 1%R)) by (intros i _; reflexivity).
  destruct (C58_race_loses [2] (fun _ => RtoC 1) (fun _ => 1%R) 0%nat 2 0 0%nat [] 1%nat [] Hok Hq) as (vs & ws & E & F & R); cbn [length nth]; try lia.
  { apply Permutation_refl. }
  exists [2], (fun _ => RtoC 1), (fun _ => 1%R), 0%nat, 2, 0, vs, ws. eexists. repeat (split; [assumption || reflexivity || (cbn [length nth]; lia)|]).
  split; [exact R|]. lra.
Qed.
Print Assumptions C58_threads_refuted.

(** a case: the slab of 2 slices from slice 2 of direction 1 on a 2x3 lattice wraps around; and its charge *)
Example C58_slab_sites : slab [2; 3] 1 2 2 = [0; 1; 4; 5]%nat /\ slab [2; 3] 0 1 1 = [1; 3; 5]%nat /\ slab [2; 3] 1 1 3 = sites [2; 3].
Proof. repeat split. Qed.
Example C58_case : lattice_ok [2; 3] /\ density [2; 3] (fun i => RtoC (INR i)) INR /\ any_order in_order /\ any_order (fun _ n => rev (seq 0 n)) /\
  charge_in INR (slab [2; 3] 1 2 2) = (NORM * 10)%R /\ charge_in INR (sites [2; 3]) = (NORM * 15)%R.
Proof.
  split; [split; [discriminate|split; [repeat constructor|reflexivity]]|]. split; [intros i _; reflexivity|]. split; [apply in_order_any|].
  split; [intros key n; symmetry; apply Permutation_rev|].
  split; (unfold charge_in; f_equal; replace (slab [2; 3] 1 2 2) with [0; 1; 4; 5]%nat by reflexivity; replace (sites [2; 3]) with [0; 1; 2; 3; 4; 5]%nat by reflexivity;
    rewrite ?sum_cons, ?sum_nil; cbn [INR]; ring).
Qed.

(** * C59 *)
(** the moment n of the charges per slice: i^n/n! sum_t t^n Q(t), over a list of times *)
Definition true_moment (L : Z) (times : list Z) (Q : Z -> R) (n : nat) : R :=
  (unit_sign n / IZR (factorial n) * sum_times (fun t => IZR (t ^ Z.of_nat n) * Q (t mod L)%Z) times)%R.
(** On lattices with no extent above 13 the moments of Q and of Q^2 are those over the times
    -L/2 < t < L/2, except for the tenth, which is divided by 362800 in place of 10! = 3628800.
    The charges of Q^2 are the autocorrelation, with FFTW or without.
    What is missing for the full claim: the slice L/2 (and for odd L both slices at the ends) is left
    out, the tenth moment, and all lattices with an extent of 14 or more. *)
Theorem C59_moments_partial : forall b sched tsched ds q p out Qt, lattice_ok ds -> density ds q p -> any_order sched -> (forall mu, any_order (tsched mu)) ->
  Forall (fun L => L < 14) ds ->
  exists m1 m2, compute_Qmoments b sched tsched ds q out Qt = Some (m1, m2) /\
    forall mu n, (mu < length ds)%nat -> (n < 12)%nat ->
      let c := if Nat.eqb n 10 then (3628800 / 362800)%R else 1%R in
      nth n (nth mu m1 []) 0%R = (c * true_moment (nth mu ds 1%Z) (near_times (nth mu ds 1%Z)) (fun t => charge_in p (slice ds mu t)) n)%R /\
      nth n (nth mu m2 []) 0%R = (c * true_moment (nth mu ds 1%Z) (near_times (nth mu ds 1%Z))
        (fun t => sum_over (fun t0 => charge_in p (slice ds mu (Z.of_nat t0)) * charge_in p (slice ds mu ((Z.of_nat t0 + t) mod nth mu ds 1%Z)%Z))%R (seq 0 (Z.to_nat (nth mu ds 1%Z)))) n)%R.
Proof.
  intros b sched tsched ds q p out Qt Hok Hq Any Any' HL. do 2 eexists. split; [now apply (Qmoments_ok b sched tsched ds q p)|].
  intros mu n Hm Hn. assert (M : forall S, moment (nth mu ds 1) S n = ((if Nat.eqb n 10 then (3628800 / 362800)%R else 1%R) * true_moment (nth mu ds 1%Z) (near_times (nth mu ds 1%Z)) S n)%R).
  { intro S. unfold moment, true_moment. rewrite fac_factorial by assumption. destruct (Nat.eqb_spec n 10) as [->|N].
    - change (IZR (factorial 10)) with 3628800%R. field.
    - field. apply IZR_neq. do 12 (destruct n as [|n]; [discriminate|]). lia. }
  assert (K : forall f : nat -> R, nth n (map f (seq 0 NQMOMENTS)) 0%R = f n).
  { intro f. rewrite (nth_indep _ 0%R (f 0%nat)) by (rewrite map_length, seq_length; exact Hn). rewrite (map_nth f), seq_nth by exact Hn. reflexivity. }
  assert (K' : forall f : nat -> list R, nth mu (map f (seq 0 (length ds))) [] = f mu).
  { intro f. rewrite (nth_indep _ [] (f 0%nat)) by (now rewrite map_length, seq_length). rewrite (map_nth f), seq_nth by exact Hm. reflexivity. }
  cbv zeta. rewrite !K', !K, !M. split; [reflexivity|]. f_equal. unfold true_moment. f_equal.
  assert (LP : 0 < nth mu ds 1). { destruct Hok as (_ & H & _). rewrite Forall_forall in H. apply H. now apply nth_In. }
  apply sum_times_ext. intro t. f_equal. pose proof (Z.mod_pos_bound t _ LP).
  rewrite correlation_slice by (try assumption; now apply ok_pos'). rewrite <- sum_over_mul. apply sum_over_ext. intros t0 _. unfold charge_in, NORMSQ. ring.
Qed.
Print Assumptions C59_moments_partial.

(** the slices which enter *)
Theorem C59_slices_used : forall L t, 2 <= L -> 0 <= t < L -> (exists u, In u (near_times L) /\ u mod L = t) <-> (t < L / 2 \/ L - L / 2 < t).
Proof. exact near_times_mod. Qed.
Print Assumptions C59_slices_used.

(** so the zeroth moment is not the charge: *)
Theorem C59_zeroth_moment_refuted : exists ds q p m1 m2, lattice_ok ds /\ density ds q p /\
  (forall b, compute_Qmoments b in_order (fun _ => in_order) ds q (fun _ => C0) (fun _ _ => C0) = Some (m1, m2)) /\
  nth 0 (nth 0 m1 []) 0%R <> charge_in p (sites ds).
Proof.
  set (p := fun i : nat => if Nat.eqb i 1 then 1%R else 0%R).
  assert (Hok : lattice_ok [2]). { split; [discriminate|]. split; [repeat constructor|reflexivity]. }
  assert (Hq : density [2] (fun i => RtoC (p i)) p) by (intros i _; reflexivity).
  exists [2], (fun i => RtoC (p i)), p. do 2 eexists. split; [exact Hok|]. split; [exact Hq|]. split.
  - intro b. apply (Qmoments_ok b in_order (fun _ => in_order) [2] _ p); auto using in_order_any. repeat constructor.
  - cbn [length seq map nth]. unfold NQMOMENTS. cbn [seq map nth]. unfold moment.
    replace (near_times 2) with [0] by reflexivity. cbn [sum_times fold_right]. replace (slice [2] 0 (0 mod 2)) with [0]%nat by reflexivity.
    unfold charge_in. replace (sites [2]) with [0; 1]%nat by reflexivity. rewrite !sum_cons, !sum_nil. unfold p. cbn [Nat.eqb]. cbn [nth fac].
    pose proof norm_neq. intro E. apply H. change (unit_sign 0) with 1%R in E. change (0 ^ Z.of_nat 0) with 1 in E. lra.
Qed.
Print Assumptions C59_zeroth_moment_refuted.
(** the tenth moment is not the tenth moment: *)
Theorem C59_tenth_moment_refuted : exists ds q p m1 m2, lattice_ok ds /\ density ds q p /\
  (forall b, compute_Qmoments b in_order (fun _ => in_order) ds q (fun _ => C0) (fun _ _ => C0) = Some (m1, m2)) /\
  nth 10 (nth 0 m1 []) 0%R <> true_moment 4 [-1; 0; 1; 2] (fun t => charge_in p (slice ds 0 t)) 10 /\
  charge_in p (slice ds 0 2) = 0%R /\ nth 0 ds 1 = 4.
Proof.
  set (p := fun i : nat => if Nat.eqb i 1 then 1%R else 0%R).
  assert (Hok : lattice_ok [4]). { split; [discriminate|]. split; [repeat constructor|reflexivity]. }
  assert (Hq : density [4] (fun i => RtoC (p i)) p) by (intros i _; reflexivity).
  exists [4], (fun i => RtoC (p i)), p. do 2 eexists. split; [exact Hok|]. split; [exact Hq|]. split; [|split].
  - intro b. apply (Qmoments_ok b in_order (fun _ => in_order) [4] _ p); auto using in_order_any. repeat constructor.
  - cbn [length seq map nth]. unfold NQMOMENTS. cbn [seq map nth]. unfold moment, true_moment.
    replace (near_times 4) with [-1; 0; 1] by reflexivity. cbn [sum_times fold_right].
    replace (slice [4] 0 (-1 mod 4)) with [3]%nat by reflexivity. replace (slice [4] 0 (0 mod 4)) with [0]%nat by reflexivity.
    replace (slice [4] 0 (1 mod 4)) with [1]%nat by reflexivity. replace (slice [4] 0 (2 mod 4)) with [2]%nat by reflexivity.
    unfold charge_in. rewrite !sum_cons, !sum_nil. unfold p. cbn [Nat.eqb nth fac]. change (1 ^ Z.of_nat 10) with 1.
    change (IZR (factorial 10)) with 3628800%R. change (unit_sign 10) with (-1)%R. pose proof norm_neq. intro E. apply H. lra.
  - unfold charge_in. replace (slice [4] 0 2) with [2]%nat by reflexivity. rewrite sum_cons, sum_nil. unfold p. cbn. split; [ring|reflexivity].
Qed.
Print Assumptions C59_tenth_moment_refuted.
(** and with an extent of 14 or more an int overflows, whatever the density *)
Theorem C59_long_lattice_undefined : forall b sched tsched ds q p out Qt mu, lattice_ok ds -> density ds q p -> (forall mu, any_order (tsched mu)) ->
  (mu < length ds)%nat -> 14 <= nth mu ds 1 -> compute_Qmoments b sched tsched ds q out Qt = None.
Proof. exact Qmoments_undefined. Qed.
Print Assumptions C59_long_lattice_undefined.
Theorem C59_defined_refuted : exists ds q p, lattice_ok ds /\ density ds q p /\
  forall b sched tsched out Qt, (forall mu, any_order (tsched mu)) -> compute_Qmoments b sched tsched ds q out Qt = None.
Proof.
  exists [16; 16; 16; 32], (fun i => RtoC (INR i)), INR. assert (Hok : lattice_ok [16; 16; 16; 32]) by (split; [discriminate|split; [repeat constructor|reflexivity]]).
  split; [exact Hok|]. assert (Hq : density [16; 16; 16; 32] (fun i => RtoC (INR i)) INR) by (intros i _; reflexivity). split; [exact Hq|].
  intros. apply (Qmoments_undefined b sched tsched _ _ INR out Qt 3%nat Hok Hq); [assumption|cbn; lia|cbn; lia].
Qed.
Print Assumptions C59_defined_refuted.
Example C59_times : near_times 8 = [-3; -2; -1; 0; 1; 2; 3] /\ near_times 7 = [-2; -1; 0; 1; 2] /\ near_times 1 = [].
Proof. repeat split. Qed.
Example C59_case : lattice_ok [4; 6; 8; 12] /\ Forall (fun L => L < 14) [4; 6; 8; 12] /\ slice [2; 3] 1 1 = [2; 3]%nat.
Proof. split; [split; [discriminate|split; [repeat constructor|reflexivity]]|]. split; [repeat constructor|reflexivity]. Qed.

(** * C60 *)
(** the correlator at every separation of the list is NORM^2 sum_x q(x) q(x+r), with FFTW or without *)
Theorem C60_correlator : forall b sched ds q p out l, lattice_ok ds -> (b = NoFFTW -> moderate ds) -> density ds q p -> any_order sched ->
  (forall i, In i l -> (i < nsites ds)%nat) ->
  exists ct, compute_Qcorr b sched ds q out (map Z.of_nat l) =
    Some (map (fun r => sum_over (fun x => (NORM * p x) * (NORM * p (plus_site ds x r)))%R (sites ds)) l, ct).
Proof.
  intros b sched ds q p out l Hok M Hq Any Hl.
  assert (E : map (fun r => sum_over (fun x => (NORM * p x) * (NORM * p (plus_site ds x r)))%R (sites ds)) l = map (fun r => (NORMSQ * correlation ds p r)%R) l).
  { apply map_ext. intro r. unfold correlation. rewrite <- sum_over_mul. apply sum_over_ext. intros. unfold NORMSQ. ring. }
  rewrite E. destruct b; eexists; [now apply Qcorr_fftw|apply Qcorr_direct; auto].
Qed.
Print Assumptions C60_correlator.
(** with FFTW the temporal correlator is sum_t0 Q(t0) Q(t0+t) *)
Theorem C60_temporal_fftw : forall sched ds q p out l, lattice_ok ds -> density ds q p -> any_order sched -> (forall i, In i l -> (i < nsites ds)%nat) ->
  let L := last ds 1 in let Q := fun t => charge_in p (slice ds (length ds - 1) t) in
  exists c, compute_Qcorr WithFFTW sched ds q out (map Z.of_nat l) =
    Some (c, map (fun t => sum_over (fun t0 => Q (Z.of_nat t0) * Q ((Z.of_nat t0 + Z.of_nat t) mod L)%Z)%R (seq 0 (Z.to_nat L))) (seq 0 (Z.to_nat L))).
Proof.
  intros sched ds q p out l Hok Hq Any Hl. cbv zeta. eexists. rewrite (Qcorr_fftw sched ds q p) by assumption. do 2 f_equal.
  pose proof Hok as (Hne & _). assert (EL : last ds 0 = last ds 1 /\ nth (length ds - 1) ds 1 = last ds 1 /\ (length ds - 1 < length ds)%nat).
  { destruct (exists_last Hne) as (m & L & ->). rewrite !last_last, app_length. cbn [length]. replace (length m + 1 - 1)%nat with (length m) by lia.
    rewrite app_nth2, Nat.sub_diag by lia. cbn. repeat split; lia. }
  destruct EL as (E1 & E2 & E3). rewrite E1. apply map_ext_in. intros t Ht. apply in_seq in Ht. rewrite <- E2 in *.
  rewrite correlation_slice by (try assumption; try lia; now apply ok_pos'). rewrite <- sum_over_mul. apply sum_over_ext. intros t0 _. unfold charge_in, NORMSQ. ring.
Qed.
Print Assumptions C60_temporal_fftw.
(** without FFTW the numbers written as the temporal correlator are the slice sums of the density itself *)
Theorem C60_temporal_direct : forall sched ds q p out l, lattice_ok ds -> moderate ds -> density ds q p ->
  exists c, compute_Qcorr NoFFTW sched ds q out (map Z.of_nat l) =
    Some (c, map (fun t => sum_over p (slice ds (length ds - 1) (Z.of_nat t))) (seq 0 (Z.to_nat (last ds 0)))).
Proof. intros. eexists. now apply Qcorr_direct. Qed.
Print Assumptions C60_temporal_direct.
(** so the two builds write different temporal correlators *)
Theorem C60_temporal_refuted : exists ds q p l c c' ct ct', lattice_ok ds /\ moderate ds /\ density ds q p /\
  compute_Qcorr WithFFTW in_order ds q (fun _ => C0) (map Z.of_nat l) = Some (c, ct) /\
  compute_Qcorr NoFFTW in_order ds q (fun _ => C0) (map Z.of_nat l) = Some (c', ct') /\ c = c' /\ ct <> ct'.
Proof.
  assert (Hok : lattice_ok [1]). { split; [discriminate|]. split; [repeat constructor|reflexivity]. }
  assert (M : moderate [1]) by (repeat constructor; discriminate).
  assert (Hq : density [1] (fun _ => RtoC (-1)) (fun _ => (-1)%R)) by (intros i _; reflexivity).
  exists [1], (fun _ => RtoC (-1)), (fun _ => (-1)%R), [0%nat]. do 4 eexists. split; [exact Hok|]. split; [exact M|]. split; [exact Hq|].
  split; [apply (Qcorr_fftw in_order [1] _ (fun _ => (-1)%R)); auto using in_order_any; intros i [<-|[]]; unfold nsites; cbn; lia|].
  split; [now apply (Qcorr_direct in_order [1] _ (fun _ => (-1)%R))|]. split; [reflexivity|].
  cbn [last length]. change (Z.to_nat 1) with 1%nat. cbn [seq map]. replace (slice [1] (1 - 1) (Z.of_nat 0)) with [0%nat] by reflexivity.
  unfold correlation. replace (sites [1]) with [0%nat] by reflexivity. rewrite !sum_cons, !sum_nil. intro E. injection E as E.
  assert (0 <= NORMSQ)%R by (unfold NORMSQ; apply Rle_0_sqr). rewrite sum_cons, sum_nil in E || idtac. nra.
Qed.
Print Assumptions C60_temporal_refuted.
(** the correlator summed over all separations is the square of the charge; at separation 0 it is
    the sum of the squares; both as printed by the code *)
Theorem C60_sum_rule : forall b sched ds q p out, lattice_ok ds -> (b = NoFFTW -> moderate ds) -> density ds q p -> any_order sched ->
  exists c ct sumsq, compute_Qcorr b sched ds q out (map Z.of_nat (sites ds)) = Some (c, ct) /\
    Qcorr_print ds q = Some (charge_in p (sites ds), Rsqr (charge_in p (sites ds)), sumsq) /\
    length c = nsites ds /\ lsumR c = Rsqr (charge_in p (sites ds)) /\ nth 0 c 0%R = sumsq.
Proof.
  intros b sched ds q p out Hok M Hq Any. pose proof (ok_pos' ds Hok) as P. pose proof (prodZ_pos ds P) as V.
  assert (Hl : forall i, In i (sites ds) -> (i < nsites ds)%nat) by (intros i Hi; apply in_seq in Hi; lia).
  assert (G : exists ct, compute_Qcorr b sched ds q out (map Z.of_nat (sites ds)) = Some (map (fun r => (NORMSQ * correlation ds p r)%R) (sites ds), ct)).
  { destruct b; eexists; [now apply Qcorr_fftw|apply Qcorr_direct; auto]. }
  destruct G as (ct & G). do 3 eexists. split; [exact G|]. split; [rewrite (Qcorr_print_ok ds q p Hok Hq); reflexivity|].
  split; [unfold sites; now rewrite map_length, seq_length|]. split.
  - assert (E : forall l, lsumR (map (fun r => (NORMSQ * correlation ds p r)%R) l) = (NORMSQ * sum_over (correlation ds p) l)%R).
    { induction l as [|x l IH]; [cbn; ring|]. cbn [map lsumR]. rewrite IH, sum_cons. ring. }
    rewrite E, correlation_sum by assumption. unfold charge_in, Rsqr, NORMSQ. ring.
  - unfold sites. assert (N : (0 < nsites ds)%nat) by (unfold nsites; lia). destruct (nsites ds); [lia|]. reflexivity.
Qed.
Print Assumptions C60_sum_rule.
(** the correlator does not change under gauge transformations of the field the density comes from *)
Theorem C60_gauge_invariant : forall bb b n ds lat lat' g w w' order order' qtop sched sched' out out' l,
  lattice_ok ds -> length ds = 4%nat -> (bb = NoFFTW -> moderate ds) -> FieldProofs.navig ds lat -> FieldProofs.group_field n 4 (FieldProofs.volume ds) lat -> CloverProofs3.fits b n ->
  FieldProofs.group_gauge n (FieldProofs.volume ds) g -> FieldProofs.gauged n 4 (FieldProofs.volume ds) g lat lat' ->
  Permutation order (seq 0 (FieldProofs.volume ds)) -> Permutation order' (seq 0 (FieldProofs.volume ds)) ->
  any_order sched -> any_order sched' -> (forall i, In i l -> (i < nsites ds)%nat) ->
  compute_Qcorr bb sched' ds (CloverModel.compute_Gmunu_array b n lat' w' order' qtop) out' (map Z.of_nat l) =
  compute_Qcorr bb sched ds (CloverModel.compute_Gmunu_array b n lat w order qtop) out (map Z.of_nat l).
Proof.
  intros bb b n ds lat lat' g w w' order order' qtop sched sched' out out' l Hok L4 M Nav Grp Fit GG Gau P P' Any Any' Hl.
  destruct (Properties_Clover.C57_density b n ds lat w order qtop Hok L4 Nav Grp Fit P) as (D & _ & Tot).
  destruct (Properties_Clover.C57_gauge_invariant b n ds lat lat' g w w' order order' qtop Hok L4 Nav Grp Fit GG Gau P P') as [_ Inv].
  assert (V : FieldProofs.volume ds = nsites ds) by (apply lvolume_nsites; exact Hok). rewrite V in *.
  set (q := CloverModel.compute_Gmunu_array b n lat w order qtop) in *. set (q' := CloverModel.compute_Gmunu_array b n lat' w' order' qtop) in *.
  assert (Hq : density ds q (fun i => re (q i))) by (intros i Hi; rewrite D by assumption; reflexivity).
  assert (Hq' : density ds q' (fun i => re (q i))) by (intros i Hi; rewrite Inv by assumption; now apply Hq).
  destruct bb.
  - rewrite (Qcorr_fftw sched' ds q' _ out' l Hok Hq' Any' Hl). symmetry. now apply Qcorr_fftw.
  - rewrite (Qcorr_direct sched' ds q' _ out' l Hok (M eq_refl) Hq'). symmetry. apply Qcorr_direct; auto.
Qed.
Print Assumptions C60_gauge_invariant.
Example C60_case : lattice_ok [2; 3] /\ moderate [2; 3] /\ plus_site [2; 3] 5 3 = 0%nat /\ correlation [2; 3] INR 1 = 52%R /\ correlation [2; 3] INR 0 = 55%R.
Proof.
  split; [split; [discriminate|split; [repeat constructor|reflexivity]]|]. split; [repeat constructor; discriminate|]. split; [reflexivity|].
  unfold correlation. replace (sites [2; 3]) with [0; 1; 2; 3; 4; 5]%nat by reflexivity.
  rewrite !sum_cons, !sum_nil.
  replace (plus_site [2; 3] 0 1) with 1%nat by reflexivity.
  replace (plus_site [2; 3] 1 1) with 0%nat by reflexivity.
  replace (plus_site [2; 3] 2 1) with 3%nat by reflexivity.
  replace (plus_site [2; 3] 3 1) with 2%nat by reflexivity.
  replace (plus_site [2; 3] 4 1) with 5%nat by reflexivity.
  replace (plus_site [2; 3] 5 1) with 4%nat by reflexivity.
  replace (plus_site [2; 3] 0 0) with 0%nat by reflexivity.
  replace (plus_site [2; 3] 1 0) with 1%nat by reflexivity.
  replace (plus_site [2; 3] 2 0) with 2%nat by reflexivity.
  replace (plus_site [2; 3] 3 0) with 3%nat by reflexivity.
  replace (plus_site [2; 3] 4 0) with 4%nat by reflexivity.
  replace (plus_site [2; 3] 5 0) with 5%nat by reflexivity.
  cbn [INR]. split; ring.
Qed.
