(** The instantaneous propagators. *)
From Coq Require Import Permutation.
From Verif Require Import CInt GeomModel GeomSpec GeomProofs GeomProofs2 Cplx CMat Arr MatSpec MatModel MatProofs ProjModel ProjProofs FftModel FftProofs QtopModel QtopSpec QtopProofs QtopProofs2.
From Verif Require Import StaticModel StaticProofs CutsModel CutsSpec CutsProofs SmearModel GluonModel GluonSpec GluonProofs GluonProofs2 GluonProofs3 InstModel InstSpec.
Local Open Scope Z_scope.

Section Inst.
Variables (sched : schedule) (sd : list Z) (L : Z) (NC : nat).
Local Notation ds := (sd ++ [L]).
Hypothesis Hok : lattice_ok ds.
Hypothesis Any : any_order sched.
Let N := fft_size sd.
Let T := Z.to_nat L.
Let pos : Forall (fun L => 0 < L) sd. Proof. apply (sl_pos sd L Hok). Qed.
Lemma N_pos : (0 < N)%nat. Proof. unfold N, fft_size. pose proof (sl_prod sd L Hok). lia. Qed.
Lemma plan_sd : plan_dims ds (length ds - 1) = rev sd.
Proof. unfold plan_dims. replace (length ds - 1)%nat with (length sd) by (rewrite app_length; cbn; lia). rewrite firstn_app, firstn_all, Nat.sub_diag, app_nil_r. reflexivity. Qed.
Lemma in_slice i t t' : (i < N)%nat -> ((i + N * t) / N = t' <-> t = t')%nat.
Proof. intro H. rewrite Nat.mul_comm, Nat.div_add, Nat.div_small by (try assumption; lia). reflexivity. Qed.

Lemma fft_slice_ok t mu j A inp out : exists A' inp' out', fft_slice sched ds t mu j (Some (A, inp, out)) = Some (A', inp', out') /\
  (forall i, (i < N)%nat -> A' (i + N * t)%nat mu j = dft BACKWARD sd (fun i => A (i + N * t)%nat mu j) i) /\
  (forall x m l, (x / N <> t)%nat \/ m <> mu \/ l <> j -> A' x m l = A x m l).
Proof.
  unfold fft_slice. rewrite (sl_LCU sd L Hok).  fold N. cbn [bindo].
  destruct (fill_range _ N (fun i => Some (A (i + N * t)%nat mu j)) (fun i => A (i + N * t)%nat mu j) (Any [1; Z.of_nat t; Z.of_nat mu; Z.of_nat j] N) (fun i _ => eq_refl) out) as (o & E & F & _).
  rewrite E. cbn [bindo]. rewrite plan_sd.
  set (r := fftw_execute BACKWARD (rev sd) o inp). do 3 eexists. split; [reflexivity|].
  destruct (perm_order _ _ (Any [2; Z.of_nat t; Z.of_nat mu; Z.of_nat j] N)) as [Nd In1]. set (order := sched [2; Z.of_nat t; Z.of_nat mu; Z.of_nat j] N) in *.
  set (g := fun i (A : field arr) => putf A (i + N * t)%nat mu (upd (A (i + N * t)%nat mu) j (r i))).
  destruct (fold_sites (fun i => (i + N * t)%nat) g) with (order := order) (f := A) as [S1 S2].
  - intros; apply putf_neq; now left.
  - intros x f f' Ef m. unfold g. destruct (Nat.eq_dec m mu) as [->|Nm]; [rewrite !putf_eq, Ef; reflexivity|rewrite !putf_neq by (now right); apply Ef].
  - apply NoDup_map_in; [|assumption]. intros x y _ _ H. lia.
  - change (fold_left _ _ A) with (fold_left (fun f i => g i f) order A). split.
    + intros i Hi. rewrite S1 by (now apply In1). unfold g. rewrite putf_eq, upd_eq. unfold r. rewrite fftw_execute_ok by assumption. apply dft_ext. exact F.
    + intros x m l H. destruct (in_dec Nat.eq_dec x (map (fun i => (i + N * t)%nat) order)) as [Y|Nx]; [|now rewrite S2].
      apply in_map_iff in Y. destruct Y as (i & <- & Hi). apply In1 in Hi as Hi'. rewrite S1 by assumption. unfold g.
      destruct (Nat.eq_dec m mu) as [->|K]; [|now rewrite putf_neq by (now right)].
      rewrite putf_eq. apply upd_neq. destruct H as [H|[H|H]]; [|contradiction|assumption]. exfalso. apply H. now apply in_slice.
Qed.
Lemma fft_slice_row t mu A inp out n : exists A' inp' out', for_ n (fft_slice sched ds t mu) (Some (A, inp, out)) = Some (A', inp', out') /\
  (forall i l, (i < N)%nat -> (l < n)%nat -> A' (i + N * t)%nat mu l = dft BACKWARD sd (fun i => A (i + N * t)%nat mu l) i) /\
  (forall x m l, (x / N <> t)%nat \/ m <> mu \/ (n <= l)%nat -> A' x m l = A x m l).
Proof.
  induction n as [|n (A1 & i1 & o1 & E & F & G)]; [do 3 eexists; split; [reflexivity|split; [lia|reflexivity]]|].
  cbn [for_]. rewrite E. destruct (fft_slice_ok t mu n A1 i1 o1) as (A2 & i2 & o2 & E2 & F2 & G2). exists A2, i2, o2. split; [exact E2|]. split.
  - intros i l Hi Hl. destruct (Nat.eq_dec l n) as [->|Nl].
    + rewrite F2 by assumption. apply dft_ext. intros k Hk. apply G. right. right. lia.
    + rewrite G2 by (now right; right). apply F; [assumption|lia].
  - intros x m l H. rewrite G2 by (destruct H as [H|[H|H]]; [now left|right; now left|right; right; lia]). apply G. destruct H as [H|[H|H]]; [now left|right; now left|right; right; lia].
Qed.
Lemma fft_slice_dirs t A inp out M : exists A' inp' out', for_ M (fun mu => for_ (NC * NC) (fft_slice sched ds t mu)) (Some (A, inp, out)) = Some (A', inp', out') /\
  (forall i mu l, (i < N)%nat -> (mu < M)%nat -> (l < NC * NC)%nat -> A' (i + N * t)%nat mu l = dft BACKWARD sd (fun i => A (i + N * t)%nat mu l) i) /\
  (forall x m l, (x / N <> t)%nat \/ (M <= m)%nat -> A' x m l = A x m l).
Proof.
  induction M as [|M (A1 & i1 & o1 & E & F & G)]; [do 3 eexists; split; [reflexivity|split; [lia|reflexivity]]|].
  cbn [for_]. rewrite E. destruct (fft_slice_row t M A1 i1 o1 (NC * NC)) as (A2 & i2 & o2 & E2 & F2 & G2). exists A2, i2, o2. split; [exact E2|]. split.
  - intros i mu l Hi Hm Hl. destruct (Nat.eq_dec mu M) as [->|Nm].
    + rewrite F2 by assumption. apply dft_ext. intros k Hk. apply G. right. lia.
    + rewrite G2 by (right; now left). apply F; [assumption|lia|assumption].
  - intros x m l H. rewrite G2 by (destruct H; [now left|right; left; lia]). apply G. destruct H; [now left|right; lia].
Qed.
Lemma fft_slices A inp out M n : exists A' inp' out', for_ n (fun t => for_ M (fun mu => for_ (NC * NC) (fft_slice sched ds t mu))) (Some (A, inp, out)) = Some (A', inp', out') /\
  (forall t i mu l, (t < n)%nat -> (i < N)%nat -> (mu < M)%nat -> (l < NC * NC)%nat -> A' (i + N * t)%nat mu l = dft BACKWARD sd (fun i => A (i + N * t)%nat mu l) i) /\
  (forall x m l, (n <= x / N)%nat -> A' x m l = A x m l).
Proof.
  induction n as [|n (A1 & i1 & o1 & E & F & G)]; [do 3 eexists; split; [reflexivity|split; [lia|reflexivity]]|].
  cbn [for_]. rewrite E. destruct (fft_slice_dirs n A1 i1 o1 M) as (A2 & i2 & o2 & E2 & F2 & G2). exists A2, i2, o2. split; [exact E2|]. split.
  - intros t i mu l Ht Hi Hm Hl. destruct (Nat.eq_dec t n) as [->|Nt].
    + rewrite F2 by assumption. apply dft_ext. intros k Hk. apply G. now rewrite (proj2 (in_slice k n n Hk) eq_refl).
    + rewrite G2 by (left; now rewrite in_slice). apply F; [lia|assumption..].
  - intros x m l H. rewrite G2 by (left; lia). apply G. lia.
Qed.
Lemma volume_NT : Z.to_nat (lvolume ds) = (N * T)%nat.
Proof. rewrite (sl_volume sd L Hok). pose proof (sl_prod sd L Hok). destruct (sl_pos sd L Hok). rewrite Z2Nat.inj_mul by lia. reflexivity. Qed.
Theorem mom_gauge_spatial_ok temp inp out A : (0 < NC)%nat ->
  (forall i mu, (i < N * T)%nat -> (mu < length ds)%nat -> shaped NC (mx NC (A i mu))) ->
  exists A', mom_gauge_spatial true sched ds NC temp inp out A = Some A' /\
  forall t i mu a b, (t < T)%nat -> (i < N)%nat -> (mu < length ds)%nat -> (a < NC)%nat -> (b < NC)%nat ->
    mx NC (A' (i + N * t)%nat mu) a b = dft BACKWARD sd (fun x => gauge_field NC A (x + N * t)%nat mu a b) i.
Proof.
  intros HN Sh. unfold mom_gauge_spatial. rewrite volume_NT. rewrite (sl_Lt sd L).  fold T.
  destruct (fft_slices (log_fields (length ds) NC temp (sched [0] (N * T)%nat) A) inp out (length ds) T) as (A' & i' & o' & E & F & _).
  rewrite E. cbn [bindo].
  exists A'. split; [reflexivity|]. intros t i mu a b Ht Hi Hmu Ha Hb. unfold mx at 1. rewrite F by (try assumption; nia).
  apply dft_ext. intros x Hx. fold N in Hx. apply (log_fields_ok (length ds) NC temp (sched [0] (N * T)%nat) (N * T) A HN (Any [0] (N * T)%nat) Sh); try assumption. nia.
Qed.
Lemma slice_mode_dft (A : nat -> nat -> mat) q t mu a b i : length q = length sd -> i = Z.to_nat (horner sd (residues sd q)) ->
  dft BACKWARD sd (fun x => A (x + N * t)%nat mu a b) i = slice_mode sd A q t mu a b.
Proof.
  intros Hq ->. assert (B : in_box sd (residues sd q)) by (now apply residues_box).
  unfold dft, slice_mode. apply csum_ext. intros x Hx.
  rewrite Z2Nat.id by (apply horner_bound in B; lia). rewrite digits_horner by assumption.
  rewrite dot_phase, coords_digits by assumption.
  destruct (phase_residues sd q (digits sd (Z.of_nat x)) pos Hq) as [z Ez]. rewrite Ez. unfold BACKWARD.
  set (p := phase sd q _). replace (1 * (2 * PI * (p + IZR z)))%R with (2 * PI * p + 2 * PI * IZR z)%R by ring.
  rewrite cis_add, cis_int. unfold N, nsites, fft_size. ring.
Qed.
Lemma slice_mode_opp A q t mu : (forall x, (x < N)%nat -> hermitian NC (A (x + N * t)%nat mu)) -> meq NC (slice_mode sd A (map Z.opp q) t mu) (dag (slice_mode sd A q t mu)).
Proof.
  intros H a b Ha Hb. unfold slice_mode, dag. rewrite csum_conj. apply csum_ext. intros x Hx. rewrite !dot_phase, phase_opp, conj_mul, <- cis_opp.
  replace (2 * PI * - phase sd q (coords sd x))%R with (- (2 * PI * phase sd q (coords sd x)))%R by ring. f_equal. symmetry. apply (H x Hx a b Ha Hb).
Qed.
Lemma correct_frame D lst A A' : correct_pspace_landau sched ds NC D lst A = Some A' ->
  forall x mu, (forall idx k, In (idx, k) lst -> Z.to_nat idx <> x) \/ (D <= mu)%nat -> A' x mu = A x mu.
Proof.
  unfold correct_pspace_landau. generalize (sched [3] (length lst)). intro order. revert A. induction order as [|i order IH]; intros A E x mu H; cbn [mfor] in E; [now injection E as <-|].
  destruct (nth_error lst i) as [[idx k]|] eqn:Ei; [|discriminate]. cbn [bindo] in E. destruct ((0 <=? idx) && (idx <? lvolume ds))%bool; [|discriminate].
  rewrite (IH _ E x mu H). apply pspace_site_ok. destruct H as [H|H]; [left|now right]. apply not_eq_sym. apply (H idx k). now apply nth_error_In in Ei.
Qed.
End Inst.
