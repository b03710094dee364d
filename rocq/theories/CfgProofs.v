(** The configuration space correlator: both builds with all sources. *)
From Coq Require Import Permutation Psatz.
From Verif Require Import CInt GeomModel GeomSpec GeomProofs GeomProofs2 Cplx CMat Arr MatSpec MatModel MatProofs MatProofs2 ProjModel ProjProofs FftModel FftProofs QtopModel QtopSpec QtopProofs QtopProofs2 QtopProofs4.
From Verif Require Import SmearModel StaticModel StaticProofs GluonModel GluonSpec GluonProofs GluonProofs2 GluonProofs3 InstProofs InstProofs2 CfgModel CfgSpec.
Local Open Scope Z_scope.

Lemma sum_dsum f n : sum_over f (seq 0 n) = dsum n f. Proof. reflexivity. Qed.
Lemma inner_ab n a b : inner n (mx n a) (mx n b) = dsum (n * n) (fun k => re (a k) * re (b k) + im (a k) * im (b k))%R.
Proof.
  unfold inner. rewrite tr_mul_dag. induction (n * n)%nat as [|m IH]; [reflexivity|]. cbn [csum]. rewrite dsum_S, <- IH. destruct (a m), (b m). cunfold. ring.
Qed.
Lemma inner_meq n A A' B B' : meq n A A' -> meq n B B' -> inner n A B = inner n A' B'.
Proof. intros HA HB. unfold inner. f_equal. unfold mtr. apply csum_ext. intros i Hi. unfold mmul. apply csum_ext. intros j Hj. unfold dag. now rewrite (HA i j), (HB i j) by assumption. Qed.
Lemma inner_sym n A B : inner n A B = inner n B A.
Proof.
  unfold inner. transitivity (re (conj (mtr n (mmul n B (dag A))))); [|unfold conj; reflexivity]. f_equal. unfold mtr. rewrite csum_conj. apply csum_ext. intros i _. unfold mmul. rewrite csum_conj. apply csum_ext. intros j _.
  unfold dag. rewrite conj_mul, conj_conj. ring.
Qed.
(** sums of matrices *)
Lemma inner_add_l n A B D : inner n (fun a b => A a b + B a b)%C D = (inner n A D + inner n B D)%R.
Proof.
  unfold inner. transitivity (re (mtr n (mmul n A (dag D)) + mtr n (mmul n B (dag D)))%C); [|reflexivity]. f_equal. unfold mtr. rewrite <- csum_add. apply csum_ext. intros i _. unfold mmul. rewrite <- csum_add. apply csum_ext. intros j _. ring.
Qed.
Lemma inner_0_l n D : inner n mzero D = 0%R.
Proof.
  unfold inner. transitivity (re C0); [|reflexivity]. f_equal. unfold mtr. transitivity (csum n (fun _ => C0)); [|apply csum_0]. apply csum_ext. intros i _. unfold mmul, mzero. transitivity (csum n (fun _ => C0)); [|apply csum_0]. apply csum_ext. intros j _. ring.
Qed.
Lemma inner_csum_l n m (F : nat -> mat) D : inner n (fun a b => csum m (fun x => F x a b)) D = dsum m (fun x => inner n (F x) D).
Proof. induction m as [|m IH]; [apply inner_0_l|]. cbn [csum]. now rewrite inner_add_l, dsum_S, IH. Qed.
Lemma inner_csum_r n m (F : nat -> mat) D : inner n D (fun a b => csum m (fun x => F x a b)) = dsum m (fun x => inner n D (F x)).
Proof. rewrite inner_sym, inner_csum_l. apply dsum_ext. intros. apply inner_sym. Qed.

(** transforms of |f|^2 *)
Lemma fwd_conj ds h r : dft FORWARD ds h r = conj (dft BACKWARD ds (fun x => conj (h x)) r).
Proof.
  unfold dft. rewrite csum_conj. apply csum_ext. intros x _. rewrite conj_mul, conj_conj, <- cis_opp. do 2 f_equal. unfold FORWARD, BACKWARD. ring.
Qed.
Lemma back_conj ds h r : dft BACKWARD ds h r = conj (dft FORWARD ds (fun x => conj (h x)) r).
Proof. rewrite fwd_conj, conj_conj. unfold dft. apply csum_ext. intros x _. now rewrite conj_conj. Qed.
Lemma autocorrelation ds f r : Forall (fun L => 0 < L) ds ->
  dft FORWARD ds (fun k => dft BACKWARD ds f k * conj (dft BACKWARD ds f k))%C r = (RtoC (IZR (prodZ ds)) * csum (fft_size ds) (fun y => f (shift ds y r) * conj (f y)))%C.
Proof.
  intro pos. rewrite fwd_conj.
  assert (E : forall g h, (forall x, g x = h x) -> dft BACKWARD ds g r = dft BACKWARD ds h r) by (intros g h H; unfold dft; apply csum_ext; intros; now rewrite H).
  rewrite (E _ (fun k => dft FORWARD ds (fun x => conj (f x)) k * conj (dft FORWARD ds (fun x => conj (f x)) k))%C).
  - rewrite (convolution ds _ _ r pos), conj_mul, csum_conj. f_equal; [unfold RtoC, conj; f_equal; apply Ropp_0|]. apply csum_ext. intros y _. rewrite conj_mul, !conj_conj. ring.
  - intro k. rewrite (back_conj ds f k), conj_mul, !conj_conj. ring.
Qed.
Lemma autocorrelation_re ds f r : Forall (fun L => 0 < L) ds ->
  re (dft FORWARD ds (fun k => dft BACKWARD ds f k * conj (dft BACKWARD ds f k))%C r) =
  (IZR (prodZ ds) * (correlation ds (fun x => re (f x)) r + correlation ds (fun x => im (f x)) r))%R.
Proof.
  intro pos. rewrite autocorrelation by assumption. transitivity (IZR (prodZ ds) * re (csum (fft_size ds) (fun y => f (shift ds y r) * conj (f y))%C))%R; [destruct (csum _ _); cunfold; ring|].
  f_equal. unfold correlation, sites, nsites, fft_size. rewrite !sum_dsum. rewrite <- dsum_add. generalize (Z.to_nat (prodZ ds)). intro n. induction n as [|n IH]; [reflexivity|].
  cbn [csum]. rewrite dsum_S, <- IH, !plus_site_shift by assumption. destruct (f (shift ds n r)), (f n). cunfold. ring.
Qed.
Lemma dft_sum ds sg n (F : nat -> nat -> C) r : dft sg ds (fun k => csum n (fun m => F m k)) r = csum n (fun m => dft sg ds (F m) r).
Proof.
  unfold dft. rewrite csum_swap. apply csum_ext. intros x _. now rewrite csum_mul_r.
Qed.
Lemma csum_for n f s : for_ n (fun i s => (s + f i)%C) s = (s + csum n f)%C.
Proof. induction n as [|n IH]; cbn [for_ csum]; [ring|]. rewrite IH. ring. Qed.
Lemma re_csum n f : re (csum n f) = dsum n (fun i => re (f i)).
Proof. induction n as [|n IH]; [reflexivity|]. cbn [csum]. rewrite dsum_S, <- IH. destruct (csum n f), (f n). cunfold. reflexivity. Qed.
(** writing one number per iteration *)
Lemma fold_write (g : nat -> R) : forall order (s : nat -> R) k, fold_left (fun s t k => if Nat.eqb k t then g t else s k) order s k = if existsb (Nat.eqb k) order then g k else s k.
Proof.
  induction order as [|t order IH]; intros s k; [reflexivity|]. cbn [fold_left existsb]. rewrite IH. destruct (Nat.eqb_spec k t) as [->|N]; cbn [orb]; [|reflexivity].
  now destruct (existsb (Nat.eqb t) order).
Qed.
Lemma fold_write_all (g : nat -> R) order n (s : nat -> R) k : Permutation order (seq 0 n) -> (k < n)%nat -> fold_left (fun s t k => if Nat.eqb k t then g t else s k) order s k = g k.
Proof.
  intros P Hk. rewrite fold_write. replace (existsb (Nat.eqb k) order) with true; [reflexivity|]. symmetry. apply existsb_exists. exists k. split; [|apply Nat.eqb_refl].
  apply (Permutation_in k (Permutation_sym P)), in_seq. lia.
Qed.

Section Fftw.
Variable sched : schedule.
Variable sd : list Z.
Variable L : Z.
Variable NC : nat.
Hypothesis Hok : lattice_ok (sd ++ [L]).
Hypothesis Any : any_order sched.
Local Notation ds := (sd ++ [L]).
Local Notation N := (fft_size sd).
Local Notation T := (Z.to_nat L).
Lemma last_slice_sum (p : nat -> R) t : (t < T)%nat -> sum_over p (slice ds (length sd) (Z.of_nat t)) = dsum N (fun i => p (i + N * t)%nat).
Proof.
  intro Ht. pose proof (last_slice ds (Z.of_nat t) p Hok) as E. rewrite last_last, removelast_last, app_length in E. cbn [length] in E.
  replace (length sd + 1 - 1)%nat with (length sd) in E by lia. rewrite E by lia. rewrite sum_dsum, Nat2Z.id. apply dsum_ext. intros i _. f_equal. unfold fft_size. lia.
Qed.
Lemma slices_corr (p : nat -> R) t : (t < T)%nat ->
  dsum N (fun i => correlation ds p (i + N * t)%nat) = dsum T (fun tau => dsum N (fun i => p (i + N * tau)%nat) * dsum N (fun i => p (i + N * ((tau + t) mod T))%nat))%R.
Proof.
  intro Ht. destruct (sl_pos sd L Hok) as [_ HL]. rewrite <- last_slice_sum by assumption.
  assert (EL : nth (length sd) ds 1 = L) by (rewrite app_nth2, Nat.sub_diag by lia; reflexivity).
  rewrite correlation_slice; [|apply ok_pos, Hok|rewrite app_length; cbn; lia|rewrite EL; lia].
  rewrite EL. rewrite sum_dsum. apply dsum_ext. intros tau Htau. rewrite last_slice_sum by assumption. f_equal.
  replace ((Z.of_nat tau + Z.of_nat t) mod L) with (Z.of_nat ((tau + t) mod T)%nat); [apply last_slice_sum; apply Nat.mod_upper_bound; lia|].
  rewrite Nat2Z.inj_mod, Nat2Z.inj_add, Z2Nat.id by lia. reflexivity.
Qed.
Theorem fftw_ok gsnorm spacing inp out (A : field arr) gsp : spacing <= L -> exists g, correlator_fftw sched ds NC gsnorm spacing inp out A gsp = Some (0, g) /\
  forall t, (t < T)%nat -> g t = (gsnorm * IZR (prodZ ds) * dsum (length ds) (fun mu => time_corr NC T sd (fun x mu => mx NC (A x mu)) mu t))%R.
Proof.
  intros Hsp. unfold correlator_fftw. rewrite last_last. replace (L <? spacing) with false by lia.
  destruct (fft_all sched ds NC Hok Any A inp out (length ds)) as (A' & i1 & o1 & E & F & _). unfold fft_fields. rewrite E. cbn [bindo].
  rewrite (lvolume_prod _ Hok). fold (fft_size ds). set (V := fft_size ds) in *.
  destruct (fill_range (seq 0 V) V (fun i => Some (convolve (length ds) NC A' i)) (convolve (length ds) NC A') (Permutation_refl _) (fun i _ => eq_refl) i1) as (b & -> & B & _). cbn [bindo].
  unfold plan_dims. rewrite firstn_all. eexists. split; [reflexivity|]. intros t Ht.
  rewrite sl_Lt. rewrite (fold_write_all _ _ T) by (assumption || apply Any).
  rewrite (sl_LCU sd L Hok), for_dsum. rewrite (Rmult_comm _ gsnorm), Rmult_assoc. f_equal.
  assert (VNT : V = (N * T)%nat) by (unfold V; rewrite <- (volume_NT sd L Hok); unfold fft_size; now rewrite (lvolume_prod _ Hok)).
  assert (pos : Forall (fun L => 0 < L) ds) by (apply ok_pos, Hok).
  rewrite (dsum_ext N _ (fun i => IZR (prodZ ds) * dsum (length ds) (fun mu => dsum (NC * NC) (fun l => correlation ds (fun x => re (A x mu l)) (i + N * t) + correlation ds (fun x => im (A x mu l)) (i + N * t))))%R).
  - rewrite dsum_mul. f_equal. rewrite dsum_swap_any. apply dsum_ext. intros mu Hmu. rewrite dsum_swap_any. unfold time_corr.
    set (S := fun tau l => csum N (fun x => A (x + N * tau)%nat mu l)).
    rewrite (dsum_ext T _ (fun tau => dsum (NC * NC) (fun l => re (S tau l) * re (S ((tau + t) mod T)%nat l) + im (S tau l) * im (S ((tau + t) mod T)%nat l)))%R).
    + rewrite (dsum_swap_any T (NC * NC)). apply dsum_ext. intros l Hl. rewrite dsum_add, !slices_corr by assumption. rewrite <- dsum_add. apply dsum_ext. intros tau Htau. unfold S. rewrite !re_csum.
      assert (IM : forall m f, im (csum m f) = dsum m (fun i => im (f i))) by (clear; intros m f; induction m as [|m IH]; [reflexivity|]; cbn [csum]; rewrite dsum_S, <- IH; destruct (csum m f), (f m); cunfold; reflexivity).
      now rewrite !IM.
    + intros tau _. rewrite <- inner_ab. apply inner_meq; reflexivity.
  - intros i Hi. assert (Hx : (i + N * t < V)%nat) by (rewrite VNT; nia).
    rewrite fftw_execute_ok by assumption.
    rewrite (dft_ext FORWARD ds b (fun k => csum (length ds) (fun mu => csum (NC * NC) (fun l => dft BACKWARD ds (fun x => A x mu l) k * conj (dft BACKWARD ds (fun x => A x mu l) k)))%C)).
    + rewrite dft_sum, re_csum, <- dsum_mul. apply dsum_ext. intros mu Hmu. rewrite dft_sum, re_csum, <- dsum_mul. apply dsum_ext. intros l Hl. now apply autocorrelation_re.
    + intros k Hk. rewrite B by assumption. unfold convolve. rewrite csum_for. transitivity (csum (length ds) (fun mu => trace_ab_dag NC (A' k mu) (A' k mu))); [ring|]. apply csum_ext.
      intros mu Hmu. rewrite trace_ab_dag_ok, tr_mul_dag. apply csum_ext. intros l Hl. now rewrite F by assumption.
Qed.
End Fftw.

(** * Without FFTW *)
Section Direct.
Variable sched : schedule.
Variable sd : list Z.
Variable L : Z.
Variable NC : nat.
Hypothesis Hok : lattice_ok (sd ++ [L]).
Hypothesis Any : any_order sched.
Local Notation ds := (sd ++ [L]).
Local Notation N := (fft_size sd).
Local Notation T := (Z.to_nat L).
Variable A : field arr.
Hypothesis Herm : forall x mu, (x < N * T)%nat -> (mu < length ds)%nat -> hermitian NC (mx NC (A x mu)).
Hypothesis Trl : forall x mu, (x < N * T)%nat -> (mu < length ds)%nat -> needs_traceless NC (mx NC (A x mu)).
Local Notation G := (fun x mu => mx NC (A x mu)).
Lemma contract_ok x y s : (x < N * T)%nat -> (y < N * T)%nat -> contract_sites (length ds) NC A x y s = (s + dsum (length sd) (fun mu => inner NC (G x mu) (G y mu)))%R.
Proof.
  intros Hx Hy. unfold contract_sites. rewrite for_add. f_equal. replace (length ds - 1)%nat with (length sd) by (rewrite app_length; cbn; lia). apply dsum_ext. intros mu Hmu.
  assert (Hm : (mu < length ds)%nat) by (rewrite app_length; lia).
  transitivity (re (RtoC (trace_ab_herm NC (A x mu) (A y mu)))); [reflexivity|]. rewrite trace_ab_herm_ok by auto. unfold inner. f_equal.
  unfold mtr. apply csum_ext. intros i Hi. unfold mmul. apply csum_ext. intros j Hj. f_equal. symmetry. now apply (Herm y mu Hy Hm).
Qed.
Lemma slice_lt i t : (i < N)%nat -> (t < T)%nat -> (i + N * t < N * T)%nat.
Proof. intros. nia. Qed.
Lemma pairs_ok t t' s : (t < T)%nat -> (t' < T)%nat ->
  for_ N (fun i s => for_ N (fun j => contract_sites (length ds) NC A (i + N * t) (j + N * t')) s) s =
  (s + dsum (length sd) (fun mu => inner NC (slice_total sd G mu t) (slice_total sd G mu t')))%R.
Proof.
  intros Ht Ht'.
  assert (In1 : forall i s m, (i < N)%nat -> (m <= N)%nat -> for_ m (fun j => contract_sites (length ds) NC A (i + N * t) (j + N * t')) s = (s + dsum m (fun j => dsum (length sd) (fun mu => inner NC (G (i + N * t)%nat mu) (G (j + N * t')%nat mu))))%R).
  { intros i s0 m Hi. induction m as [|m IH]; intro Hm; [cbn [for_]; rewrite dsum_0; ring|]. cbn [for_]. rewrite IH, contract_ok, dsum_S by (try apply slice_lt; lia). ring. }
  assert (Out : forall m, (m <= N)%nat -> for_ m (fun i s => for_ N (fun j => contract_sites (length ds) NC A (i + N * t) (j + N * t')) s) s =
    (s + dsum m (fun i => dsum N (fun j => dsum (length sd) (fun mu => inner NC (G (i + N * t)%nat mu) (G (j + N * t')%nat mu)))))%R).
  { induction m as [|m IH]; intro Hm; [cbn [for_]; rewrite dsum_0; ring|]. cbn [for_]. rewrite IH, In1, dsum_S by lia. ring. }
  rewrite Out by lia. f_equal.
  rewrite (dsum_ext _ _ (fun i => dsum (length sd) (fun mu => dsum N (fun j => inner NC (G (i + N * t)%nat mu) (G (j + N * t')%nat mu))))) by (intros; apply dsum_swap_any).
  rewrite dsum_swap_any. apply dsum_ext. intros mu Hmu. unfold slice_total. rewrite (inner_csum_l NC (nsites sd) (fun x => G (x + nsites sd * t)%nat mu)). apply dsum_ext. intros i Hi.
  now rewrite (inner_csum_r NC (nsites sd) (fun x => G (x + nsites sd * t')%nat mu)).
Qed.
Lemma map_nodup_in {X Y} (f : X -> Y) l : (forall a b, In a l -> In b l -> f a = f b -> a = b) -> NoDup l -> NoDup (map f l).
Proof.
  induction l as [|x l IH]; intros H Nd; [constructor|]. inversion_clear Nd as [|? ? NI Nd']. cbn [map]. constructor.
  - intro K. apply in_map_iff in K. destruct K as (y & E & Hy). apply H in E; [subst; contradiction|now right|now left].
  - apply IH; [|assumption]. intros a b Ha Hb. apply H; now right.
Qed.
(** the same distance forwards and backwards *)
Lemma dsum_cyclic n k f : (k < n)%nat -> dsum n (fun i => f ((i + k) mod n)%nat) = dsum n f.
Proof.
  intro Hk. unfold dsum. change (sum_over (fun i => f ((i + k) mod n)%nat) (seq 0 n) = sum_over f (seq 0 n)).
  rewrite <- (sum_over_map f (fun i => ((i + k) mod n)%nat)). apply sum_over_perm. apply NoDup_Permutation_bis.
  - apply map_nodup_in; [|apply seq_NoDup]. intros a b Ha Hb E. apply in_seq in Ha, Hb.
    assert (forall c, (c < n)%nat -> ((c + k) mod n)%nat = if Nat.ltb (c + k) n then (c + k)%nat else (c + k - n)%nat) as M.
    { intros c Hc. destruct (Nat.ltb_spec (c + k) n); [now apply Nat.mod_small|]. replace (c + k)%nat with ((c + k - n) + 1 * n)%nat at 1 by lia. rewrite Nat.mod_add by lia. apply Nat.mod_small. lia. }
    rewrite !M in E by lia. destruct (Nat.ltb_spec (a + k) n), (Nat.ltb_spec (b + k) n); lia.
  - now rewrite map_length.
  - intros x Hx. apply in_map_iff in Hx. destruct Hx as (i & <- & _). apply in_seq. pose proof (Nat.mod_upper_bound (i + k) n). lia.
Qed.
Lemma time_corr_sym n T' sd' B mu t : (0 < t < T')%nat -> time_corr n T' sd' B mu t = time_corr n T' sd' B mu (T' - t).
Proof.
  intro Ht. unfold time_corr. rewrite <- (dsum_cyclic T' (T' - t)) by lia. apply dsum_ext. intros tau Htau. rewrite inner_sym. f_equal. f_equal.
  rewrite Nat.add_mod_idemp_l by lia. replace (tau + (T' - t) + t)%nat with (tau + 1 * T')%nat by lia. rewrite Nat.mod_add by lia. apply Nat.mod_small. lia.
Qed.
Lemma pointsource_t_ok t : prodZ sd * prodZ sd * L < two64 -> (t < T)%nat ->
  pointsource_t ds NC A t = (2 / (INR N * INR N * INR T) * dsum (length sd) (fun mu => time_corr NC T sd G mu t))%R.
Proof.
  intros Hb Ht. unfold pointsource_t. rewrite (sl_Lt sd L), (sl_LCU sd L Hok), last_last.
  pose proof (sl_prod sd L Hok) as P. destruct (sl_pos sd L Hok) as [_ HL].
  assert (F : forall m, (m <= T)%nat -> for_ m (fun tau loc_tr => for_ N (fun i loc_tr => for_ N (fun j => contract_sites (length ds) NC A (i + N * tau) (j + N * ((tau + t) mod T))) loc_tr) loc_tr) 0%R =
    dsum m (fun tau => dsum (length sd) (fun mu => inner NC (slice_total sd G mu tau) (slice_total sd G mu ((tau + t) mod T)))%R)).
  { induction m as [|m IH]; intro Hm; [reflexivity|]. cbn [for_]. rewrite IH by lia. rewrite pairs_ok, dsum_S by (try (apply Nat.mod_upper_bound); lia). reflexivity. }
  rewrite F by lia. rewrite dsum_swap_any.
  replace (lcu ds) with (prodZ sd). 2: { unfold lcu. rewrite removelast_last. symmetry. pose proof (sl_LCU sd L Hok) as E. unfold LCU, fft_size, lcu in E. rewrite removelast_last in E.
    assert (0 <= lvolume sd) by (unfold lvolume; clear; rewrite <- fold_left_rev_right; destruct (rev sd); cbn; [lia|]; apply Z.mod_pos_bound; reflexivity). lia. }
  assert (0 <= prodZ sd * prodZ sd <= prodZ sd * prodZ sd * L) by nia.
  rewrite (u64_id (prodZ sd * prodZ sd)) by lia. rewrite u64_id by lia. rewrite !mult_IZR. unfold fft_size. rewrite !INR_IZR_INZ, !Z2Nat.id by lia.
  unfold Rdiv. unfold time_corr. ring.
Qed.
Theorem pointsource_ok gs : prodZ sd * prodZ sd * L < two64 -> exists g, pointsource sched ds NC A gs = Some g /\
  forall t, (t < T)%nat -> g t = (2 / (INR N * INR N * INR T) * dsum (length sd) (fun mu => time_corr NC T sd G mu t))%R.
Proof.
  intro Hb. unfold pointsource. rewrite (sl_Lt sd L). destruct (sl_pos sd L Hok) as [_ HL]. set (h := (T / 2 + 1)%nat). eexists. split; [reflexivity|]. intros t Ht.
  set (g1 := fold_left _ (sched [4] h) gs).
  assert (h <= T)%nat. { unfold h. destruct T as [|[|n]]; [lia|cbn; lia|]. pose proof (Nat.div_mod (S (S n)) 2). pose proof (Nat.mod_upper_bound (S (S n)) 2). lia. }
  assert (G1 : forall k, (k < h)%nat -> g1 k = pointsource_t ds NC A k) by (intros k Hk; apply (fold_write_all (pointsource_t ds NC A) _ h); [apply Any|assumption]).
  assert (W : forall order (s : nat -> R), (forall k, (k < h)%nat -> s k = g1 k) -> forall k, fold_left (fun gs t k => if Nat.eqb k (h + t) then gs (T - (h + t))%nat else gs k) order s k =
     if existsb (fun t => Nat.eqb k (h + t)) order then g1 (T - k)%nat else s k).
  { induction order as [|u order IH]; intros s Hs k; [reflexivity|]. cbn [fold_left existsb]. rewrite IH.
    - destruct (Nat.eqb_spec k (h + u)) as [->|Nk]; cbn [orb]; [|reflexivity]. rewrite Hs by (unfold h; pose proof (Nat.div_mod T 2); pose proof (Nat.mod_upper_bound T 2); lia). now destruct (existsb _ order).
    - intros j Hj. destruct (Nat.eqb_spec j (h + u)); [lia|]. now apply Hs. }
  rewrite W by reflexivity. destruct (Nat.lt_ge_cases t h) as [Lt1|Ge1].
  - replace (existsb _ _) with false; [rewrite G1 by assumption; now apply pointsource_t_ok|].
    symmetry. apply Bool.not_true_iff_false. intro E. apply existsb_exists in E. destruct E as (u & _ & E). apply Nat.eqb_eq in E. lia.
  - replace (existsb _ _) with true.
    + assert (T - t < h)%nat by (unfold h in *; pose proof (Nat.div_mod T 2); pose proof (Nat.mod_upper_bound T 2); lia).
      rewrite G1 by assumption. rewrite pointsource_t_ok by (assumption || unfold h in *; lia). f_equal. apply dsum_ext. intros mu _. symmetry. apply time_corr_sym. unfold h in Ge1. lia.
    + symmetry. apply existsb_exists. exists (t - h)%nat. split; [|apply Nat.eqb_eq; lia]. apply (Permutation_in _ (Permutation_sym (Any [5] (T - h)%nat))), in_seq. lia.
Qed.
End Direct.
