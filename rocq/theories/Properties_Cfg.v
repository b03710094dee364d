(** C65: the configuration space gluon correlator. *)
From Coq Require Import Permutation Psatz.
From Verif Require Import CInt GeomModel GeomSpec GeomProofs GeomProofs2 Cplx CMat Det Arr MatSpec MatModel MatProofs MatProofs2 ProjModel ProjProofs FftModel FftProofs QtopModel QtopSpec QtopProofs QtopProofs2 QtopProofs4.
From Verif Require Import SmearModel StaticModel StaticProofs GluonModel GluonSpec GluonProofs GluonProofs2 GluonProofs3 GluonProofs4 Properties_Gluon Properties_Gluon2 InstProofs InstProofs2.
From Verif Require Import CfgModel CfgSpec CfgProofs CfgProofs2.
Local Open Scope Z_scope.

(** the links are replaced by the gauge field *)
Section Logged.
Variables (sched : schedule) (sd : list Z) (L : Z) (NC : nat) (temp : arr) (U : field arr).
Hypothesis Hok : lattice_ok (sd ++ [L]).
Hypothesis HN : (2 <= NC)%nat.
Hypothesis Any : any_order sched.
Hypothesis HU : links_ok (sd ++ [L]) NC U.
Definition logged : field arr := log_fields (length (sd ++ [L])) NC temp (sched [0] (Z.to_nat (lvolume (sd ++ [L])))) U.
Lemma logged_ok x mu : (x < fft_size sd * Z.to_nat L)%nat -> (mu < length (sd ++ [L]))%nat -> meq NC (mx NC (logged x mu)) (gauge_field NC U x mu).
Proof.
  intros Hx Hm. pose proof (volume_NT sd L Hok) as V. apply (log_fields_ok _ NC temp _ (Z.to_nat (lvolume (sd ++ [L])))); [lia|apply Any| |rewrite V; exact Hx|exact Hm].
  intros i nu Hi Hnu. apply (links_shaped _ NC U HU); [|exact Hnu]. rewrite (lvolume_prod _ Hok) in Hi. exact Hi.
Qed.
Lemma logged_herm x mu : (x < fft_size sd * Z.to_nat L)%nat -> (mu < length (sd ++ [L]))%nat -> hermitian NC (mx NC (logged x mu)).
Proof.
  intros Hx Hm i j Hi Hj. unfold dag. rewrite (logged_ok x mu Hx Hm i j Hi Hj), (logged_ok x mu Hx Hm j i Hj Hi). apply (trf_herm_hermitian NC _ ltac:(lia) i j Hi Hj).
Qed.
Lemma logged_trl x mu : (x < fft_size sd * Z.to_nat L)%nat -> (mu < length (sd ++ [L]))%nat -> needs_traceless NC (mx NC (logged x mu)).
Proof. intros Hx Hm _. unfold traceless. rewrite (mtr_meq NC _ _ (logged_ok x mu Hx Hm)). apply trf_traceless. lia. Qed.
Lemma slice_total_logged mu t : (mu < length (sd ++ [L]))%nat -> (t < Z.to_nat L)%nat -> meq NC (slice_total sd (fun x mu => mx NC (logged x mu)) mu t) (slice_total sd (gauge_field NC U) mu t).
Proof. intros Hm Ht a b Ha Hb. unfold slice_total. apply csum_ext. intros x Hx. apply logged_ok; try assumption. now apply slice_lt. Qed.
Lemma corr_logged mu t : (mu < length (sd ++ [L]))%nat -> time_corr NC (Z.to_nat L) sd (fun x mu => mx NC (logged x mu)) mu t = time_corr NC (Z.to_nat L) sd (gauge_field NC U) mu t.
Proof.
  intro Hm. unfold time_corr. apply dsum_ext. intros tau Htau. apply inner_meq; apply slice_total_logged; try assumption. apply Nat.mod_upper_bound. lia.
Qed.
End Logged.

Definition written (res : list R) (T : nat) (f : nat -> R) : Prop := length res = T /\ forall t, (t < T)%nat -> nth_error res t = Some (f t).
Lemma written_map g T f : (forall t, (t < T)%nat -> g t = f t) -> written (map g (seq 0 T)) T f.
Proof.
  intro H. split; [now rewrite map_length, seq_length|]. intros t Ht. rewrite nth_error_map, (nth_error_nth' _ 0%nat) by (now rewrite seq_length). rewrite seq_nth by assumption. cbn [option_map Nat.add]. now rewrite H.
Qed.
(** With FFTW and one thread: the correlator of the slice sums, summed over all Nd directions, over
    (Nd-1) times the spatial volume *)
Theorem C65_fftw_partial : forall fuel sched sd L NC max_t temp inp out gsp U,
  lattice_ok (sd ++ [L]) -> sd <> [] -> (2 <= NC)%nat -> any_order sched -> links_ok (sd ++ [L]) NC U ->
  Z.of_nat (length sd) * prodZ sd * prodZ (sd ++ [L]) < two64 -> max_t <= L ->
  let T := Z.to_nat L in
  exists res, cuts_configspace WithFFTW fuel sched (sd ++ [L]) NC max_t temp inp out gsp U = Some (0, res) /\
  written res T (fun t => 1 / (INR (length sd) * INR (nsites sd)) * dsum (length (sd ++ [L])) (fun mu => time_corr NC T sd (gauge_field NC U) mu t))%R.
Proof.
  intros fuel sched sd L NC max_t temp inp out gsp U Hok Hne HN Any HU Hb Hm T. unfold cuts_configspace. fold (logged sched sd L NC temp U).
  set (sn := (1 / IZR _)%R). destruct (fftw_ok sched sd L NC Hok Any sn max_t inp out (logged sched sd L NC temp U) gsp Hm) as (g & E & F). rewrite E. cbn [bindo].
  change (0 =? -1) with false. cbv iota. rewrite (sl_Lt sd L). eexists. split; [reflexivity|]. apply written_map. intros t Ht. rewrite F by assumption.
  rewrite (dsum_ext _ _ _ (fun mu Hmu => corr_logged sched sd L NC temp U Hok HN Any HU mu t Hmu)). f_equal.
  pose proof (sl_prod sd L Hok) as P. pose proof (prodZ_pos _ (ok_pos _ (proj1 (proj2 Hok)))) as P2. unfold sn. rewrite (sl_lcu sd L Hok), (lvolume_prod _ Hok), (sl_dims sd L).
  assert (0 < length sd)%nat by (destruct sd; [contradiction|cbn; lia]).
  assert (0 <= Z.of_nat (length sd) * prodZ sd <= Z.of_nat (length sd) * prodZ sd * prodZ (sd ++ [L])) by nia.
  rewrite (u64_id (Z.of_nat (length sd) * prodZ sd)), u64_id by lia. rewrite !mult_IZR, <- INR_IZR_INZ. unfold nsites. rewrite (INR_IZR_INZ (Z.to_nat (prodZ sd))), Z2Nat.id by lia.
  assert (INR (length sd) <> 0)%R by (apply not_0_INR; lia). assert (IZR (prodZ sd) <> 0)%R by (apply IZR_neq; lia). assert (IZR (prodZ (sd ++ [L])) <> 0)%R by (apply IZR_neq; lia). field. auto.
Qed.
Print Assumptions C65_fftw_partial.
(** Without FFTW, all sources (spacing 1): the sum over the spatial directions only, 2 over the square of
    the spatial volume times the number of time slices *)
Theorem C65_direct : forall fuel sched sd L NC temp inp out gsp U,
  lattice_ok (sd ++ [L]) -> (2 <= NC)%nat -> any_order sched -> links_ok (sd ++ [L]) NC U -> prodZ sd * prodZ sd * L < two64 ->
  let T := Z.to_nat L in
  exists res, cuts_configspace NoFFTW fuel sched (sd ++ [L]) NC 1 temp inp out gsp U = Some (0, res) /\
  written res T (fun t => 2 / (INR (nsites sd) * INR (nsites sd) * INR T) * dsum (length sd) (fun mu => time_corr NC T sd (gauge_field NC U) mu t))%R.
Proof.
  intros fuel sched sd L NC temp inp out gsp U Hok HN Any HU Hb T. unfold cuts_configspace. fold (logged sched sd L NC temp U).
  cbn [Z.eqb Pos.eqb correlator_direct]. unfold correlator_direct. change (1 =? 1) with true. cbv iota.
  destruct (pointsource_ok sched sd L NC Hok Any (logged sched sd L NC temp U) (logged_herm sched sd L NC temp U Hok HN Any HU) (logged_trl sched sd L NC temp U Hok HN Any HU) gsp Hb) as (g & E & F). rewrite E. cbn [bindo].
  change (0 =? -1) with false. cbv iota. rewrite (sl_Lt sd L). eexists. split; [reflexivity|]. apply written_map. intros t Ht. rewrite F by assumption. f_equal. apply dsum_ext. intros mu Hm.
  apply corr_logged; try assumption. rewrite app_length. lia.
Qed.
Print Assumptions C65_direct.
(** with sources on every k-th site in each direction *)
Theorem C65_direct_sparse : forall fuel sched sd L NC k temp inp out gsp U,
  lattice_ok (sd ++ [L]) -> (2 <= NC)%nat -> any_order sched -> links_ok (sd ++ [L]) NC U -> 1 < k < 2 ^ 63 -> (forall M, In M sd -> M < Z.of_nat fuel) ->
  let T := Z.to_nat L in
  exists res, cuts_configspace NoFFTW fuel sched (sd ++ [L]) NC k temp inp out gsp U = Some (0, res) /\
  written res T (fun t => 2 / (INR (nsites sd) * INR (length (sparse sd k)) * INR T) * dsum (length sd) (fun mu =>
    dsum T (fun tau => inner NC (sparse_total sd k (gauge_field NC U) mu tau) (slice_total sd (gauge_field NC U) mu ((tau + t) mod T)))))%R.
Proof.
  intros fuel sched sd L NC k temp inp out gsp U Hok HN Any HU Hk Hf T. unfold cuts_configspace. fold (logged sched sd L NC temp U). unfold correlator_direct. replace (k =? 1) with false by lia.
  set (A := logged sched sd L NC temp U).
  pose proof (sparse_t_ok sd L NC k fuel Hok ltac:(lia) Hf A (logged_herm sched sd L NC temp U Hok HN Any HU) (logged_trl sched sd L NC temp U Hok HN Any HU)) as St.
  set (v := fun t => (2 / (INR (fft_size sd) * INR (S0 sd k) * INR (Z.to_nat L)) * dsum (length sd) (fun mu => dsum (Z.to_nat L) (fun tau => inner NC (sparse_total sd k (fun x mu => mx NC (A x mu)) mu tau) (slice_total sd (fun x mu => mx NC (A x mu)) mu ((tau + t) mod Z.to_nat L)))))%R).
  rewrite (sl_Lt sd L).
  assert (K : forall order gs, (forall t, In t order -> (t < Z.to_nat L)%nat) -> mfor order (fun t (gs : nat -> R) => do v <- sparse_t fuel (sd ++ [L]) NC A k t; Some (fun k => if Nat.eqb k t then v else gs k)) gs = Some (fold_left (fun gs t k => if Nat.eqb k t then v t else gs k) order gs)).
  { induction order as [|t order IH]; intros gs H; [reflexivity|]. cbn [mfor fold_left]. rewrite St by (apply H; now left). cbn [bindo]. apply IH. intros; apply H; now right. }
  destruct (perm_order _ _ (Any [6] (Z.to_nat L))) as [_ I6]. rewrite K by (intros t Ht; now apply I6). cbn [bindo]. change (0 =? -1) with false. cbv iota. eexists. split; [reflexivity|].
  apply written_map. intros t Ht. rewrite (fold_write_all v _ (Z.to_nat L)) by (assumption || apply Any). unfold v. f_equal. apply dsum_ext. intros mu Hm. apply dsum_ext. intros tau Htau.
  assert (Hm' : (mu < length (sd ++ [L]))%nat) by (rewrite app_length; lia).
  apply inner_meq; [|apply slice_total_logged; try assumption; apply Nat.mod_upper_bound; lia].
  intros a b Ha Hb. unfold sparse_total. assert (Q : forall l, (forall x, In x l -> (x < nsites sd)%nat) -> fold_right (fun x s => (mx NC (A (x + nsites sd * tau)%nat mu) a b + s)%C) C0 l = fold_right (fun x s => (gauge_field NC U (x + nsites sd * tau)%nat mu a b + s)%C) C0 l).
  { induction l as [|x l IH]; intro H; [reflexivity|]. cbn [fold_right]. rewrite IH by (intros; apply H; now right). f_equal. apply (logged_ok sched sd L NC temp U Hok HN Any HU); try assumption. apply slice_lt; [apply H; now left|assumption]. }
  apply Q. intros x Hx. apply filter_In in Hx. destruct Hx as [Hx _]. apply in_seq in Hx. lia.
Qed.
Print Assumptions C65_direct_sparse.

(** * What follows *)
(** symmetric in time *)
Theorem C65_symmetric : forall n T sd A mu t, (0 < t < T)%nat -> time_corr n T sd A mu t = time_corr n T sd A mu (T - t).
Proof. intros. now apply time_corr_sym. Qed.
Print Assumptions C65_symmetric.
Lemma inner_square n A B : (Rabs (inner n A B) <= (inner n A A + inner n B B) / 2)%R.
Proof.
  assert (K : forall m (f g : nat -> R), (Rabs (dsum m (fun k => f k * g k)) <= (dsum m (fun k => f k * f k) + dsum m (fun k => g k * g k)) / 2)%R).
  { intros m f g. induction m as [|m IH]; [rewrite !dsum_0, Rabs_R0; lra|]. rewrite !dsum_S. eapply Rle_trans; [apply Rabs_triang|].
    assert (Rabs (f m * g m) <= (f m * f m + g m * g m) / 2)%R by (pose proof (Rle_0_sqr (f m + g m)) as Q1; pose proof (Rle_0_sqr (f m - g m)) as Q2; unfold Rsqr in Q1, Q2; apply Rabs_le; split; lra). lra. }
  set (a := fun k : nat => A (k / n)%nat (k mod n)%nat). set (b := fun k : nat => B (k / n)%nat (k mod n)%nat).
  assert (E : forall M, meq n M (mx n (fun k => M (k / n)%nat (k mod n)%nat))).
  { intros M i j Hi Hj. unfold mx. rewrite Nat.mul_comm, Nat.div_add, Nat.mod_add, Nat.div_small, Nat.mod_small by lia. reflexivity. }
  rewrite (inner_meq n A (mx n a) B (mx n b) (E A) (E B)), (inner_meq n A (mx n a) A (mx n a) (E A) (E A)), (inner_meq n B (mx n b) B (mx n b) (E B) (E B)), !inner_ab, !dsum_add.
  eapply Rle_trans; [apply Rabs_triang|]. pose proof (K (n * n)%nat (fun k => re (a k)) (fun k => re (b k))). pose proof (K (n * n)%nat (fun k => im (a k)) (fun k => im (b k))). lra.
Qed.
Lemma inner_self_nonneg n A : (0 <= inner n A A)%R. Proof. apply norm2_nonneg. Qed.
(** never larger than at t = 0, where it is not negative *)
Theorem C65_largest_at_zero : forall n T sd A mu t, (t < T)%nat -> (Rabs (time_corr n T sd A mu t) <= time_corr n T sd A mu 0)%R.
Proof.
  intros n T sd A mu t Ht. unfold time_corr. set (S := slice_total sd A mu).
  rewrite (dsum_ext T (fun tau => inner n (S tau) (S ((tau + 0) mod T)%nat)) (fun tau => inner n (S tau) (S tau))) by (intros tau Htau; rewrite Nat.add_0_r, Nat.mod_small by assumption; reflexivity).
  assert (E : (dsum T (fun tau => inner n (S tau) (S tau)) = dsum T (fun tau => (inner n (S tau) (S tau) + inner n (S ((tau + t) mod T)%nat) (S ((tau + t) mod T)%nat)) * / 2))%R).
  { rewrite (dsum_ext T (fun tau => (inner n (S tau) (S tau) + inner n (S ((tau + t) mod T)%nat) (S ((tau + t) mod T)%nat)) * / 2)%R (fun tau => / 2 * (inner n (S tau) (S tau) + inner n (S ((tau + t) mod T)%nat) (S ((tau + t) mod T)%nat)))%R) by (intros; ring).
    rewrite dsum_mul, dsum_add. rewrite (dsum_cyclic T t (fun u => inner n (S u) (S u))) by assumption. lra. }
  rewrite E. clear E Ht. revert t. intro t. set (f := fun tau => inner n (S tau) (S ((tau + t) mod T)%nat)). set (g := fun tau => ((inner n (S tau) (S tau) + inner n (S ((tau + t) mod T)%nat) (S ((tau + t) mod T)%nat)) * / 2)%R).
  assert (K : forall m, (Rabs (dsum m f) <= dsum m g)%R); [|apply K].
  induction m as [|m IH]; [rewrite !dsum_0, Rabs_R0; lra|]. rewrite !dsum_S. eapply Rle_trans; [apply Rabs_triang|]. apply Rplus_le_compat; [exact IH|]. unfold f, g. apply inner_square.
Qed.
Print Assumptions C65_largest_at_zero.
(** summed over all times it is not negative *)
Theorem C65_sum : forall n T sd A mu, (0 <= dsum T (time_corr n T sd A mu))%R.
Proof.
  intros n T sd A mu. unfold time_corr. rewrite dsum_swap_any. set (S := slice_total sd A mu).
  rewrite (dsum_ext T _ (fun tau => dsum T (fun u => inner n (S tau) (S u)))).
  - rewrite (dsum_ext T _ (fun tau => inner n (S tau) (fun a b => csum T (fun x => S x a b)))) by (intros; symmetry; apply inner_csum_r).
    rewrite <- (inner_csum_l n T S). apply inner_self_nonneg.
  - intros tau Htau. rewrite <- (dsum_cyclic T tau (fun u => inner n (S tau) (S u))) by assumption. apply dsum_ext. intros t Ht. now rewrite Nat.add_comm.
Qed.
Print Assumptions C65_sum.
(** a gauge transformation that is the same everywhere changes nothing *)
Theorem C65_global_gauge : forall sd L NC U U' g mu t, lattice_ok (sd ++ [L]) -> SUn NC g -> (mu < length (sd ++ [L]))%nat ->
  (forall x mu, (x < nsites (sd ++ [L]))%nat -> (mu < length (sd ++ [L]))%nat -> meq NC (mx NC (U' x mu)) (mmul NC (mmul NC g (mx NC (U x mu))) (dag g))) ->
  time_corr NC (Z.to_nat L) sd (gauge_field NC U') mu t = time_corr NC (Z.to_nat L) sd (gauge_field NC U) mu t.
Proof.
  intros sd L NC U U' g mu t Hok Hg Hm HUU. unfold time_corr. apply dsum_ext. intros tau Htau.
  assert (R : forall u, (u < Z.to_nat L)%nat -> meq NC (slice_total sd (gauge_field NC U') mu u) (rot NC g (slice_total sd (gauge_field NC U) mu u))).
  { intros u Hu. assert (E1 : forall A : nat -> nat -> mat, meq NC (slice_total sd A mu u) (fun a b => csum (nsites sd) (fun x => C1 * A (x + nsites sd * u)%nat mu a b)%C)) by (intros A a b _ _; unfold slice_total; apply csum_ext; intros; ring).
    rewrite (E1 (gauge_field NC U')), (rot_meq NC g _ _ (E1 (gauge_field NC U))). rewrite (rot_csum NC g (nsites sd) (fun _ => C1) (fun x => gauge_field NC U (x + nsites sd * u)%nat mu)).
    intros a b Ha Hb. apply csum_ext. intros x Hx. f_equal. apply (gauge_field_rot NC g Hg U U'); try assumption. apply HUU; [|assumption].
    unfold nsites in *. rewrite prodZ_app, prodZ_cons. change (prodZ []) with 1. pose proof (sl_prod sd L Hok). destruct (sl_pos sd L Hok). nia. }
  rewrite (inner_meq NC _ _ _ _ (R tau Htau) (R ((tau + t) mod Z.to_nat L)%nat ltac:(apply Nat.mod_upper_bound; lia))). unfold inner.
  rewrite <- (rot_tr NC g Hg (mmul NC (slice_total sd (gauge_field NC U) mu tau) _)). f_equal. apply mtr_meq. rewrite (rot_dag NC g). apply (rot_mul NC g Hg).
Qed.
Print Assumptions C65_global_gauge.
Example C65_ex : let sd := [4; 4; 4] in let L := 8 in lattice_ok (sd ++ [L]) /\ links_ok (sd ++ [L]) 2 (some_links (fun x mu => Nat.eqb x 5)) /\
  Z.of_nat (length sd) * prodZ sd * prodZ (sd ++ [L]) < two64 /\ prodZ sd * prodZ sd * L < two64 /\ sparse sd 3 = [0; 3; 12; 15; 48; 51; 60; 63]%nat.
Proof.
  intros sd L. split; [split; [discriminate|]; split; [repeat (constructor; [unfold two31; lia|]); constructor|reflexivity]|]. split; [apply some_links_ok|]. repeat split; vm_compute; reflexivity.
Qed.
(** a spacing larger than the time extent: nothing is written (with FFTW) *)
Theorem C65_fftw_too_large : forall fuel sched sd L NC max_t temp inp out gsp U, L < max_t -> cuts_configspace WithFFTW fuel sched (sd ++ [L]) NC max_t temp inp out gsp U = Some (-1, []).
Proof. intros fuel sched sd L NC max_t temp inp out gsp U H. unfold cuts_configspace, correlator_fftw. rewrite last_last. replace (L <? max_t) with true by lia. reflexivity. Qed.
Print Assumptions C65_fftw_too_large.

(** * The two builds *)
(** The build with FFTW sums over all directions, the other one over the spatial ones. *)
Definition all_temporal : nat -> nat -> bool := fun x mu => Nat.eqb mu 3.
Lemma slice_total_one mu : meq 2 (slice_total [1; 1; 1] (gauge_field 2 (some_links all_temporal)) mu 0) (if Nat.eqb mu 3 then s3 else mzero).
Proof.
  intros a b Ha Hb. unfold slice_total. change (nsites [1; 1; 1]) with 1%nat. cbn [csum Nat.add Nat.mul]. rewrite (some_gauge all_temporal 0%nat mu a b Ha Hb). unfold all_temporal. ring.
Qed.
Lemma corr_one mu : time_corr 2 1 [1; 1; 1] (gauge_field 2 (some_links all_temporal)) mu 0 = if Nat.eqb mu 3 then 2%R else 0%R.
Proof.
  unfold time_corr. rewrite dsum_S, dsum_0. change ((0 + 0) mod 1)%nat with 0%nat. rewrite (inner_meq 2 _ _ _ _ (slice_total_one mu) (slice_total_one mu)). destruct (Nat.eqb mu 3).
  - unfold inner, mtr, mmul, dag, s3. cbn [csum]. cunfold. ring.
  - unfold inner, mtr, mmul, dag, mzero. cbn [csum]. cunfold. ring.
Qed.
Theorem C65_builds_agree_refuted : exists sd L U, lattice_ok (sd ++ [L]) /\ links_ok (sd ++ [L]) 2 U /\
  forall fuel sched temp inp out gsp, any_order sched -> exists res res' v,
    cuts_configspace WithFFTW fuel sched (sd ++ [L]) 2 1 temp inp out gsp U = Some (0, res) /\
    cuts_configspace NoFFTW fuel sched (sd ++ [L]) 2 1 temp inp out gsp U = Some (0, res') /\
    nth_error res 0 = Some v /\ (0 < v)%R /\ nth_error res' 0 = Some 0%R.
Proof.
  assert (Hok : lattice_ok ([1; 1; 1] ++ [1])) by (split; [discriminate|]; split; [repeat (constructor; [unfold two31; lia|]); constructor|reflexivity]).
  exists [1; 1; 1], 1, (some_links all_temporal). split; [exact Hok|]. split; [apply some_links_ok|]. intros fuel sched temp inp out gsp Any.
  destruct (C65_fftw_partial fuel sched [1; 1; 1] 1 2 1 temp inp out gsp (some_links all_temporal) Hok ltac:(discriminate) ltac:(lia) Any (some_links_ok _ _) ltac:(reflexivity) ltac:(lia)) as (res & E & _ & W).
  destruct (C65_direct fuel sched [1; 1; 1] 1 2 temp inp out gsp (some_links all_temporal) Hok ltac:(lia) Any (some_links_ok _ _) ltac:(reflexivity)) as (res' & E' & _ & W').
  exists res, res'. eexists. split; [exact E|]. split; [exact E'|]. change (Z.to_nat 1) with 1%nat in *. rewrite (W 0%nat) by lia. rewrite (W' 0%nat) by lia. split; [reflexivity|].
  change (length ([1; 1; 1] ++ [1])) with 4%nat. change (length [1; 1; 1]) with 3%nat. change (nsites [1; 1; 1]) with 1%nat. rewrite !dsum_S, !dsum_0, !corr_one. cbn [Nat.eqb INR]. split; [lra|]. f_equal. lra.
Qed.
Print Assumptions C65_builds_agree_refuted.
(** without a temporal field they differ by the number 2 (Nd-1) / (N T) only *)
Theorem C65_builds_spatial : forall fuel sched sd L NC temp inp out gsp U,
  lattice_ok (sd ++ [L]) -> sd <> [] -> (2 <= NC)%nat -> any_order sched -> links_ok (sd ++ [L]) NC U ->
  Z.of_nat (length sd) * prodZ sd * prodZ (sd ++ [L]) < two64 -> prodZ sd * prodZ sd * L < two64 ->
  (forall x, (x < nsites (sd ++ [L]))%nat -> meq NC (gauge_field NC U x (length sd)) mzero) ->
  exists res res', cuts_configspace WithFFTW fuel sched (sd ++ [L]) NC 1 temp inp out gsp U = Some (0, res) /\ cuts_configspace NoFFTW fuel sched (sd ++ [L]) NC 1 temp inp out gsp U = Some (0, res') /\
  length res' = length res /\ forall t v, nth_error res t = Some v -> nth_error res' t = Some (2 * INR (length sd) / (INR (nsites sd) * INR (Z.to_nat L)) * v)%R.
Proof.
  intros fuel sched sd L NC temp inp out gsp U Hok Hne HN Any HU B1 B2 Z0. destruct (sl_pos sd L Hok) as [_ HL]. pose proof (sl_prod sd L Hok) as HP.
  destruct (C65_fftw_partial fuel sched sd L NC 1 temp inp out gsp U Hok Hne HN Any HU B1 ltac:(lia)) as (res & E & Len & W).
  destruct (C65_direct fuel sched sd L NC temp inp out gsp U Hok HN Any HU B2) as (res' & E' & Len' & W').
  exists res, res'. split; [exact E|]. split; [exact E'|]. split; [congruence|]. intros t v Hv.
  assert (Ht : (t < Z.to_nat L)%nat) by (rewrite <- Len; apply nth_error_Some; now rewrite Hv). rewrite W in Hv by assumption. injection Hv as <-. rewrite W' by assumption. f_equal.
  rewrite app_length. cbn [length]. rewrite Nat.add_1_r, dsum_S.
  assert (T0 : time_corr NC (Z.to_nat L) sd (gauge_field NC U) (length sd) t = 0%R).
  { unfold time_corr. rewrite (dsum_ext _ _ (fun _ => 0 * 0)%R); [rewrite dsum_mul; ring|]. intros tau Htau. rewrite Rmult_0_l.
    assert (S0 : meq NC (slice_total sd (gauge_field NC U) (length sd) tau) mzero).
    { intros a b Ha Hb. unfold slice_total. rewrite (csum_ext _ _ (fun _ => C0)); [apply csum_0|]. intros x Hx. apply Z0; try assumption.
      unfold nsites in *. rewrite prodZ_app, prodZ_cons. change (prodZ []) with 1. nia. }
    rewrite (inner_meq NC _ _ _ _ S0 (fun a b _ _ => eq_refl)). apply inner_0_l. }
  rewrite T0. assert (INR (length sd) <> 0)%R by (apply not_0_INR; destruct sd; [contradiction|cbn; lia]). assert (INR (nsites sd) <> 0)%R by (apply not_0_INR; unfold nsites; lia). assert (INR (Z.to_nat L) <> 0)%R by (apply not_0_INR; lia).
  field. auto.
Qed.
Print Assumptions C65_builds_spatial.

(** * The threads of the loop over the momenta *)
Lemma nth_mid {X} (l1 : list X) x l2 : nth_error (l1 ++ x :: l2) (length l1) = Some x.
Proof. now induction l1. Qed.
Lemma set_mid l1 x l2 y : set_thread (l1 ++ x :: l2) (length l1) y = l1 ++ y :: l2.
Proof. unfold set_thread. rewrite firstn_app, firstn_all, Nat.sub_diag. cbn [firstn]. rewrite app_nil_r. f_equal. f_equal. now induction l1. Qed.
Lemma race_app ND NC A o1 : forall o2 s, race_run ND NC A (o1 ++ o2) s = do s <- race_run ND NC A o1 s; race_run ND NC A o2 s.
Proof. induction o1 as [|k o1 IH]; intros; [reflexivity|]. cbn [app race_run]. destruct (race_step ND NC A k s); [|reflexivity]. apply IH. Qed.
Lemma race_alone ND NC A i l1 l2 : forall d mu, (mu + d = ND)%nat -> race_run ND NC A (repeat (length l1) (3 * d + 1)) (mu, l1 ++ (i, Test, convolve mu NC A i) :: l2) = Some (ND, l1 ++ (i, Done, convolve ND NC A i) :: l2).
Proof.
  induction d as [|d IH]; intros mu E.
  - rewrite Nat.add_0_r in E. subst mu. cbn [Nat.mul Nat.add repeat race_run race_step]. rewrite nth_mid, Nat.ltb_irrefl, set_mid. reflexivity.
  - replace (3 * S d + 1)%nat with (S (S (S (3 * d + 1)))) by lia. cbn [repeat race_run]. unfold race_step at 1. rewrite nth_mid, set_mid. replace (Nat.ltb mu ND) with true by (symmetry; apply Nat.ltb_lt; lia). cbn [bindo].
    unfold race_step at 1. rewrite nth_mid, set_mid. replace (Nat.ltb mu ND) with true by (symmetry; apply Nat.ltb_lt; lia). cbn [bindo]. unfold race_step at 1. rewrite nth_mid, set_mid. cbn [bindo].
    replace (mu + 1)%nat with (S mu) by lia. exact (IH (S mu) ltac:(lia)).
Qed.
(** threads that take turns, each running until it is done, all compute the sum *)
Definition in_turn (ND n : nat) : list nat := flat_map (fun k => repeat k (3 * ND + 2)) (seq 0 n).
Theorem C65_threads_in_turn : forall ND NC A sites mu, exists mu', race_run ND NC A (in_turn ND (length sites)) (race_start sites mu) = Some (mu', map (fun i => (i, Done, convolve ND NC A i)) sites).
Proof.
  intros ND NC A sites mu. unfold in_turn, race_start.
  assert (K : forall rest l1 mu, exists mu', race_run ND NC A (flat_map (fun k => repeat k (3 * ND + 2)) (seq (length l1) (length rest))) (mu, l1 ++ map (fun i => (i, Start, C0)) rest) = Some (mu', l1 ++ map (fun i => (i, Done, convolve ND NC A i)) rest)).
  { induction rest as [|i rest IH]; intros l1 mu0; [exists mu0; reflexivity|]. cbn [length seq flat_map map]. rewrite race_app. replace (repeat (length l1) (3 * ND + 2)) with (length l1 :: repeat (length l1) (3 * ND + 1)) by (replace (3 * ND + 2)%nat with (S (3 * ND + 1)) by lia; reflexivity). cbn [race_run].
    unfold race_step at 1. rewrite nth_mid, set_mid. cbn [bindo]. pose proof (race_alone ND NC A i l1 (map (fun i => (i, Start, C0)) rest) ND 0 ltac:(lia)) as E. change (convolve 0 NC A i) with C0 in E.
    match goal with |- context [bindo ?x _] => let H := fresh in assert (H : x = Some (ND, l1 ++ (i, Done, convolve ND NC A i) :: map (fun i => (i, Start, C0)) rest)) by exact E; rewrite H; clear H end. cbn [bindo].
    destruct (IH (l1 ++ [(i, Done, convolve ND NC A i)]) ND) as [mu' E']. rewrite app_length in E'. cbn [length] in E'. rewrite Nat.add_1_r in E'. exists mu'. rewrite <- !app_assoc in E'. exact E'. }
  exact (K sites [] mu).
Qed.
Print Assumptions C65_threads_in_turn.
Definition field3 : field arr := fun _ _ k => match k with 0%nat => C1 | 3%nat => (- C1)%C | _ => C0 end.
Lemma trace3 i mu : trace_ab_dag 2 (field3 i mu) (field3 i mu) = (2, 0)%R.
Proof. unfold trace_ab_dag, field3. cbn. unfold trace_ab_dag_2. apply C_eq; cunfold; ring. Qed.
(** two threads that share mu: one ends with the sum 0, the other one has added five terms *)
Theorem C65_threads_refuted : exists (A : field arr) order s, race_run 4 2 A order (race_start [0; 1]%nat 0) = Some s /\ all_done s /\
  convolve 4 2 A 0 = (8, 0)%R /\ convolve 4 2 A 1 = (8, 0)%R /\ snd s = [(0%nat, Done, (10, 0)%R); (1%nat, Done, (0, 0)%R)].
Proof.
  exists field3, [0; 0; 0; 0; 1; 0; 0; 0; 0; 0; 0; 0; 0; 0; 0; 0; 0; 0; 1]%nat. eexists. split.
  { cbn [race_run race_step race_start map nth_error set_thread firstn skipn app bindo Nat.ltb Nat.leb Nat.add]. reflexivity. }
  assert (E : forall i, convolve 4 2 field3 i = (8, 0)%R) by (intro i; unfold convolve; cbn [for_]; rewrite !trace3; apply C_eq; cunfold; ring).
  split; [|split; [apply E|split; [apply E|]]].
  - intros i p c [H|[H|[]]]; injection H as _ <- _; reflexivity.
  - cbn [snd]. rewrite !trace3. repeat f_equal; apply C_eq; cunfold; ring.
Qed.
Print Assumptions C65_threads_refuted.
(** or one reads beyond the links of the site *)
Theorem C65_threads_bounds_refuted : exists (A : field arr) order, race_run 4 2 A order (race_start [0; 1]%nat 0) = None.
Proof. exists field3, [0; 1; 0; 1; 0; 1; 0; 0; 0; 0; 0; 0; 0; 0; 1; 0]%nat. cbn [race_run race_step race_start map nth_error set_thread firstn skipn app bindo Nat.ltb Nat.leb Nat.add]. reflexivity. Qed.
Print Assumptions C65_threads_bounds_refuted.

(** * A spacing of zero without FFTW *)
Lemma spacing_zero fuel sched sd L NC temp inp out gsp U : lattice_ok (sd ++ [L]) -> sd <> [] -> any_order sched -> cuts_configspace NoFFTW fuel sched (sd ++ [L]) NC 0 temp inp out gsp U = None.
Proof.
  intros Hok Hne Any. destruct (sl_pos sd L Hok) as [_ HL]. unfold cuts_configspace, correlator_direct. change (0 =? 1) with false. cbv iota. rewrite (sl_Lt sd L). set (A := log_fields _ _ _ _ _).
  assert (S0 : forall t, sparse_t fuel (sd ++ [L]) NC A 0 t = None).
  { intro t. unfold sparse_t. rewrite (sl_Lt sd L), (sl_spatial sd L).
    assert (R0 : forall a b n, recurse_sum fuel (sd ++ [L]) NC A a b 0 sd [] n = None).
    { intros a b n. destruct sd as [|M l]; [contradiction|]. cbn [recurse_sum]. rewrite strided_0; [reflexivity| |]; destruct Hok as (_ & F & _); inversion F; lia. }
    assert (K : forall n, for_ (S n) (fun tau s => do ' (loc_tr, norm) <- s; do ' (v, norm) <- recurse_sum fuel (sd ++ [L]) NC A (LCU (sd ++ [L]) * tau) (LCU (sd ++ [L]) * ((tau + t) mod Z.to_nat L)) 0 sd [] norm; Some ((loc_tr + v)%R, norm)) (Some (0%R, 0)) = None).
    { induction n as [|n IH]; [cbn [for_ bindo]; now rewrite R0|]. remember (S n) as m. cbn [for_]. now rewrite IH. }
    replace (Z.to_nat L) with (S (Z.to_nat L - 1)) at 1 by lia. now rewrite K. }
  destruct (perm_order _ _ (Any [6] (Z.to_nat L))) as [_ I6]. destruct (sched [6] (Z.to_nat L)) as [|t o]; [exfalso; apply (I6 0%nat); lia|]. cbn [mfor]. now rewrite S0.
Qed.
Theorem C65_spacing_zero_refuted : exists sd L U, lattice_ok (sd ++ [L]) /\ links_ok (sd ++ [L]) 2 U /\ forall fuel sched temp inp out gsp, any_order sched -> cuts_configspace NoFFTW fuel sched (sd ++ [L]) 2 0 temp inp out gsp U = None.
Proof.
  assert (Hok : lattice_ok ([4; 4; 4] ++ [8])) by (split; [discriminate|]; split; [repeat (constructor; [unfold two31; lia|]); constructor|reflexivity]).
  exists [4; 4; 4], 8, (some_links all_temporal). split; [exact Hok|]. split; [apply some_links_ok|]. intros. apply spacing_zero; [exact Hok|discriminate|assumption].
Qed.
Print Assumptions C65_spacing_zero_refuted.
