(** The U(1) fields: modes, transform and links. *)
From Coq Require Import Permutation Psatz.
From Verif Require Import CInt GeomModel GeomSpec GeomProofs GeomProofs2 Cplx CMat Arr MatModel FftModel FftProofs QtopModel QtopSpec QtopProofs QtopProofs2 QtopProofs4.
From Verif Require Import SmearModel StaticModel StaticProofs GluonModel GluonSpec GluonProofs GluonProofs2 GluonProofs3 GluonProofs4 InstProofs InstProofs2 CfgProofs SmearProofs U1Model U1Spec U1Proofs U1Proofs2.
Local Open Scope Z_scope.

(** * Plane waves *)
Lemma phase_dsum_list ds : forall k x, length k = length ds -> length x = length ds -> phase ds k x = dsum (length ds) (fun mu => IZR (nth mu k 0%Z) * IZR (nth mu x 0%Z) / IZR (nth mu ds 1%Z))%R.
Proof.
  induction ds as [|d ds IH]; intros [|a k] [|b x] Hk Hx; try discriminate; [reflexivity|]. cbn [phase length]. rewrite IH by (cbn in *; lia).
  unfold dsum. cbn [seq fold_right nth]. f_equal. rewrite <- seq_shift. generalize (seq 0 (length ds)). intro l. induction l as [|m l IHl]; [reflexivity|]. cbn [map fold_right nth]. now rewrite IHl.
Qed.
Lemma wave_cis ds p x : Forall (fun L => 0 < L) ds -> wave ds p x = cis (-1 * (2 * PI * phase ds (digits ds (Z.of_nat x)) (digits ds (Z.of_nat p)))).
Proof.
  intro pos. unfold wave, cis. rewrite phase_sym, phase_dsum_list by apply digits_length. cbv zeta.
  rewrite (dsum_ext (length ds) _ (fun mu => IZR (nth mu (digits ds (Z.of_nat p)) 0%Z) * IZR (nth mu (digits ds (Z.of_nat x)) 0%Z) / IZR (nth mu ds 1%Z))%R) by (intros; now rewrite !coord_digits).
  set (a := (2 * PI * _)%R). replace (-1 * a)%R with (- a)%R by ring. now rewrite cos_neg, sin_neg.
Qed.
Lemma wave_mirror ds p x : Forall (fun L => 0 < L) ds -> wave ds (mirror ds p) x = conj (wave ds p x).
Proof.
  intro pos. rewrite !wave_cis, mirror_digits by assumption. rewrite <- cis_opp.
  destruct (phase_translate ds pos (digits ds (Z.of_nat x)) (zero_sep ds) (neg_sep (digits ds (Z.of_nat p)))) as [z E]; [apply digits_length|unfold zero_sep; now rewrite map_length|unfold neg_sep; rewrite map_length; apply digits_length|].
  unfold mdig. rewrite E.
  assert (Z0 : phase ds (digits ds (Z.of_nat x)) (zero_sep ds) = 0%R).
  { rewrite phase_dsum_list by (try apply digits_length; unfold zero_sep; now rewrite map_length). erewrite dsum_ext; [|intros i Hi; cbv beta; replace (nth i (zero_sep ds) 0%Z) with 0%Z; [unfold Rdiv; rewrite Rmult_0_r, Rmult_0_l; reflexivity|]].
    - induction (length ds) as [|n IH]; [reflexivity|]. rewrite dsum_S, IH. ring.
    - unfold zero_sep. symmetry. destruct (nth_in_or_default i (map (fun _ => 0) ds) 0) as [H|H]; [|exact H]. apply in_map_iff in H as (y & Y & _). now rewrite <- Y. }
  assert (N : phase ds (digits ds (Z.of_nat x)) (neg_sep (digits ds (Z.of_nat p))) = (- phase ds (digits ds (Z.of_nat x)) (digits ds (Z.of_nat p)))%R) by (rewrite phase_sym, (phase_sym ds _ (digits ds (Z.of_nat p))); apply phase_opp).
  rewrite Z0, N. replace (-1 * (2 * PI * (0 + - phase ds (digits ds (Z.of_nat x)) (digits ds (Z.of_nat p)) + IZR z)))%R with (- (-1 * (2 * PI * phase ds (digits ds (Z.of_nat x)) (digits ds (Z.of_nat p)))) + 2 * PI * IZR (- z))%R by (rewrite opp_IZR; ring).
  rewrite cis_add, cis_int. ring.
Qed.
Lemma mode_mirror ds noise p : Forall (fun L => 0 < L) ds -> (p < nsites ds)%nat -> mode_of ds noise (mirror ds p) = conj (mode_of ds noise p).
Proof.
  intros pos Hp. unfold mode_of. rewrite mirror_invol by assumption. cbv zeta. rewrite (Nat.eqb_sym (mirror ds p) p). destruct (Nat.eqb_spec p (mirror ds p)) as [E|N].
  - rewrite <- E. cring.
  - destruct (Nat.ltb_spec p (mirror ds p)), (Nat.ltb_spec (mirror ds p) p); try lia; [reflexivity|]. now rewrite conj_conj.
Qed.
(** the field is real *)
Lemma photon_real ds noise x : Forall (fun L => 0 < L) ds -> im (photon ds noise x) = 0%R.
Proof.
  intro pos. unfold photon. set (S := csum _ _). assert (E : conj S = S).
  { unfold S. rewrite csum_conj. rewrite <- (csum_bij (nsites ds) (fun p => mode_of ds noise p * wave ds p x)%C (mirror ds)).
    - apply csum_ext. intros p Hp. rewrite mode_mirror, wave_mirror, conj_mul by assumption. reflexivity.
    - intros; now apply mirror_lt.
    - intros a b Ha Hb E. rewrite <- (mirror_invol ds pos a Ha), E. now apply mirror_invol. }
  destruct S as [r i]. unfold conj in E. cbn in E. injection E as E. cunfold. cbn. assert (i = 0%R) by lra. subst i. ring.
Qed.

(** * The modes *)
Lemma halves_box l : Forall (fun L => 0 < L) l -> Forall (fun L => Z.even L = true) l -> in_box l (halves l).
Proof.
  intros P' E'. induction l as [|M l IH]; [constructor|]. inversion P'; inversion E'; subst. constructor; [|now apply IH]. assert (0 <= M / 2) by (apply Z.div_pos; lia). assert (M / 2 < M) by (apply Z.div_lt; lia). lia.
Qed.
Section Gen.
Variable ds : list Z.
Hypothesis Hok : lattice_ok ds.
Variable sched : schedule.
Hypothesis Any : any_order sched.
Lemma gen_pos : Forall (fun L => 0 < L) ds. Proof. apply ok_pos, Hok. Qed.
Local Notation pos := gen_pos.
Local Notation ND := (length ds).
Lemma ND_pos : (0 < ND)%nat. Proof. destruct Hok as (H & _). destruct ds; [contradiction|cbn; lia]. Qed.
(** * The links *)
Lemma links_fold NC rv e charge order : NoDup order -> forall out lat,
  let r := fold_left (fun s i => u1_link ND NC rv e charge i s) order (out, lat) in
  (forall m k, (m < ND)%nat -> fst r m k = if existsb (Nat.eqb (m + ND * k)) order then RtoC (re (out m k) * rv) else out m k) /\
  (forall x m k, (m < ND)%nat -> snd r x m k = if (existsb (Nat.eqb (m + ND * x)) order && Nat.ltb k (NC * NC))%bool then (lat x m k * cis (re (out m x) * rv * e * charge))%C else lat x m k).
Proof.
  pose proof ND_pos as NDp. induction 1 as [|i order Hi Nd IH]; intros out lat; [split; reflexivity|]. cbn [fold_left]. unfold u1_link at 2 4. cbv zeta.
  match goal with |- context [fold_left _ order (?a, ?b)] => set (o1 := a); set (l1 := b) end. specialize (IH o1 l1). cbv zeta in IH. destruct IH as [Io Il].
  assert (Ei : (i = i mod ND + ND * (i / ND))%nat) by (pose proof (Nat.div_mod i ND); lia).
  assert (Hit : forall m k, (m < ND)%nat -> (Nat.eqb m (i mod ND) && Nat.eqb k (i / ND))%bool = Nat.eqb (m + ND * k) i).
  { intros m k Hm. destruct (Nat.eqb_spec (m + ND * k) i) as [E|N].
    - assert (i mod ND = m)%nat by (symmetry; apply (Nat.mod_unique i ND k); lia). assert (i / ND = k)%nat by (symmetry; apply (Nat.div_unique i ND k m); lia). subst m k. now rewrite !Nat.eqb_refl.
    - destruct (Nat.eqb_spec m (i mod ND)), (Nat.eqb_spec k (i / ND)); try reflexivity. subst. exfalso. apply N. lia. }
  assert (No : existsb (Nat.eqb i) order = false) by (apply Bool.not_true_iff_false; intro H; apply existsb_exists in H as (j & Hj & E); apply Nat.eqb_eq in E; now subst j).
  split.
  - intros m k Hm. rewrite Io by assumption. cbn [existsb]. unfold o1. cbv beta. rewrite Hit by assumption. destruct (Nat.eqb_spec (m + ND * k) i) as [E|N]; [|reflexivity].
    rewrite E, No. cbn [orb]. assert (i mod ND = m)%nat by (symmetry; apply (Nat.mod_unique i ND k); lia). assert (i / ND = k)%nat by (symmetry; apply (Nat.div_unique i ND k m); lia). subst m k. reflexivity.
  - intros x m k Hm. rewrite Il by assumption. cbn [existsb]. unfold l1, o1. cbv beta. rewrite (Bool.andb_comm (Nat.eqb x (i / ND))), !Nat.eqb_refl. cbn [andb]. rewrite !(Hit m x) by assumption.
    destruct (Nat.eqb_spec (m + ND * x) i) as [E|N]; cbn [orb andb]; [|reflexivity].
    rewrite E, No. cbn [andb]. assert (i mod ND = m)%nat by (symmetry; apply (Nat.mod_unique i ND x); lia). assert (i / ND = x)%nat by (symmetry; apply (Nat.div_unique i ND x m); lia). subst m x. reflexivity.
Qed.
Lemma transform_fold (inp out : nat -> arr) order mu x : In mu order -> (x < nsites ds)%nat ->
  fold_left (fun out mu m => if Nat.eqb m mu then fftw_execute FORWARD (plan_dims ds ND) (inp mu) (out mu) else out m) order out mu x = dft FORWARD ds (inp mu) x.
Proof.
  intros Hin Hx. rewrite nsites_size in Hx.
  assert (Ex : forall g, fftw_execute FORWARD (plan_dims ds ND) (inp mu) g x = dft FORWARD ds (inp mu) x) by (intro g; unfold plan_dims; rewrite firstn_all; apply (fftw_execute_ok FORWARD ds (inp mu) g x pos Hx)).
  assert (K : forall order out, out mu x = dft FORWARD ds (inp mu) x \/ In mu order -> fold_left (fun out mu m => if Nat.eqb m mu then fftw_execute FORWARD (plan_dims ds ND) (inp mu) (out mu) else out m) order out mu x = dft FORWARD ds (inp mu) x).
  { clear order Hin out. induction order as [|a order IH]; intros out [H|H]; try contradiction; cbn [fold_left]; [exact H| |].
    - apply IH. left. destruct (Nat.eqb_spec mu a) as [<-|N]; [apply Ex|exact H].
    - destruct H as [->|H]; [|apply IH; now right]. apply IH. left. rewrite Nat.eqb_refl. apply Ex. }
  apply K. now right.
Qed.
(** what is written, for any lattice of even extents *)
Lemma fields_gen NC alpha charge noise inp out psq lat : Forall (fun L => Z.even L = true) ds -> (Z.to_nat (compute_zeropoint ds + 1) <= nsites ds)%nat ->
  let A := fun mu x => (re (dft FORWARD ds (upto ds (Z.to_nat (compute_zeropoint ds + 1)) (fun k => RtoC (weight ds k) * noise mu k)%C) x) * (1 / sqrt (INR (nsites ds))))%R in
  exists out' lat', suNC_cross_u1 WithFFTW sched ds NC alpha charge noise inp out psq lat = Some (0, out', lat') /\
  (forall mu x, (mu < ND)%nat -> (x < nsites ds)%nat -> out' mu x = RtoC (A mu x)) /\
  (forall x mu k, (mu < ND)%nat -> (x < nsites ds)%nat -> lat' x mu k = if Nat.ltb k (NC * NC) then (lat x mu k * cis (A mu x * sqrt (4 * PI * alpha) * charge))%C else lat x mu k).
Proof.
  intros Hev Hz A. pose proof ND_pos as NDp. unfold suNC_cross_u1. rewrite lvolume_prod by assumption. fold (nsites ds).
  destruct (mfor_write (nsites ds) (psq_entry ds) (weight ds) (psq_ok ds Hok) psq) as (psq' & E & F). rewrite E. cbn [bindo].
  unfold create_u1, periodic_dft. destruct (symmetrise_ok ds Hok Hev _ Hz (draw sched ds psq' noise inp)) as (inp' & E1 & F1). rewrite E1. cbn [bindo]. rewrite lvolume_prod by assumption. fold (nsites ds).
  set (out1 := fold_left _ (sched [1] ND) out).
  assert (Pd : prodZ ds = Z.of_nat (nsites ds)) by (unfold nsites; rewrite Z2Nat.id; [reflexivity|pose proof (prodZ_pos ds pos); lia]).
  assert (O1 : forall mu x, (mu < ND)%nat -> (x < nsites ds)%nat -> (re (out1 mu x) * (1 / sqrt (IZR (prodZ ds))))%R = A mu x).
  { intros mu x Hm Hx. unfold out1. destruct (perm_order _ _ (Any [1] ND)) as [_ I]. rewrite transform_fold by (try assumption; now apply I).
    unfold A. rewrite Pd, <- INR_IZR_INZ. f_equal. f_equal. apply dft_ext. intros k Hk. rewrite <- nsites_size in Hk. rewrite F1 by assumption.
    assert (D : forall k, (k < nsites ds)%nat -> draw sched ds psq' noise inp mu k = (RtoC (weight ds k) * noise mu k)%C) by (intros j Hj; rewrite draw_ok, F by assumption; reflexivity).
    unfold upto. now rewrite !D by (try assumption; apply mirror_lt, pos). }
  destruct (perm_order _ _ (Any [2] (nsites ds * ND)%nat)) as [Nd I].
  pose proof (links_fold NC (1 / sqrt (IZR (prodZ ds))) (sqrt (4 * PI * alpha)) charge _ Nd out1 lat) as L. cbv zeta in L. destruct L as [Lo Ll].
  destruct (fold_left _ (sched [2] _) (out1, lat)) as [out2 lat2]. cbn [fst snd bindo] in *. exists out2, lat2. split; [reflexivity|].
  assert (Ex : forall mu x, (mu < ND)%nat -> (x < nsites ds)%nat -> existsb (Nat.eqb (mu + ND * x)) (sched [2] (nsites ds * ND)%nat) = true) by (intros mu x Hm Hx; apply existsb_exists; exists (mu + ND * x)%nat; split; [apply I; nia|apply Nat.eqb_refl]).
  split.
  - intros mu x Hm Hx. rewrite Lo, Ex, O1 by assumption. reflexivity.
  - intros x mu k Hm Hx. rewrite Ll, Ex, O1 by assumption. reflexivity.
Qed.
End Gen.

Section Four.
Variables d0 d1 d2 d3 : Z.
Local Notation ds := [d0; d1; d2; d3].
Hypothesis Hok : lattice_ok ds.
Hypothesis Hev : Forall (fun L => Z.even L = true) ds.
Variable sched : schedule.
Hypothesis Any : any_order sched.
Lemma four_pos : Forall (fun L => 0 < L) ds. Proof. apply ok_pos, Hok. Qed.
Local Notation pos := four_pos.
Lemma zero_le : (Z.to_nat (compute_zeropoint ds + 1) <= nsites ds)%nat.
Proof.
  rewrite zeropoint4 by assumption. pose proof (horner_bound _ _ (halves_box ds pos Hev)). unfold nsites. lia.
Qed.
Lemma modes_ok noise k : (k < nsites ds)%nat -> upto ds (Z.to_nat (compute_zeropoint ds + 1)) (fun k => RtoC (weight ds k) * noise k)%C k = mode_of ds noise k.
Proof.
  intro Hk. rewrite zeropoint4 by assumption. pose proof (halves_box ds pos Hev) as HB. pose proof (horner_bound _ _ HB) as Hb.
  set (n := Z.to_nat (horner ds (halves ds) + 1)). unfold upto, mode_of. cbv zeta.
  assert (B : in_box ds (digits ds (Z.of_nat k))) by (apply digits_in_box, pos).
  pose proof (halves_first ds _ pos Hev B) as HF. rewrite horner_nat in HF by (exact pos || assumption). rewrite <- mirror_horner in HF by exact pos.
  destruct (Nat.eqb_spec k (mirror ds k)) as [Ek|Nk].
  - replace (Nat.ltb k n) with true by (symmetry; apply Nat.ltb_lt; unfold n; lia). reflexivity.
  - destruct (Nat.ltb_spec k (mirror ds k)); [reflexivity|]. replace (Nat.ltb (mirror ds k) n) with true by (symmetry; apply Nat.ltb_lt; unfold n; lia). reflexivity.
Qed.

Theorem fields_ok NC alpha charge noise inp out psq lat : exists out' lat', suNC_cross_u1 WithFFTW sched ds NC alpha charge noise inp out psq lat = Some (0, out', lat') /\
  (forall mu x, (mu < 4)%nat -> (x < nsites ds)%nat -> out' mu x = photon ds (noise mu) x) /\
  (forall x mu k, (mu < 4)%nat -> (x < nsites ds)%nat -> lat' x mu k = if Nat.ltb k (NC * NC) then (lat x mu k * cis (re (photon ds (noise mu) x) * sqrt (4 * PI * alpha) * charge))%C else lat x mu k).
Proof.
  destruct (fields_gen ds Hok sched Any NC alpha charge noise inp out psq lat Hev zero_le) as (out' & lat' & E & F & G). cbn [length] in F, G. exists out', lat'. split; [exact E|].
  assert (P : forall mu x, (re (dft FORWARD ds (upto ds (Z.to_nat (compute_zeropoint ds + 1)) (fun k => RtoC (weight ds k) * noise mu k)%C) x) * (1 / sqrt (INR (nsites ds))))%R = re (photon ds (noise mu) x)).
  { intros mu x. unfold photon, dft. rewrite re_real, Rmult_comm. f_equal. f_equal. rewrite <- nsites_size. apply csum_ext. intros p Hp. rewrite modes_ok by assumption. now rewrite wave_cis by exact pos. }
  split.
  - intros mu x Hm Hx. rewrite F, P by assumption. apply C_eq; cbn; [reflexivity|]. symmetry. apply photon_real, pos.
  - intros x mu k Hm Hx. rewrite G, P by assumption. reflexivity.
Qed.
End Four.
