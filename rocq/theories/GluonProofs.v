(** The fields in momentum space. *)
From Coq Require Import Permutation Setoid Morphisms.
From Verif Require Import CInt GeomModel GeomSpec GeomProofs GeomProofs2 Cplx CMat Arr MatSpec MatModel MatProofs ProjModel ProjProofs FftModel FftProofs QtopModel QtopSpec QtopProofs QtopProofs2.
From Verif Require Import StaticProofs CutsModel CutsSpec CutsProofs SmearModel GluonModel GluonSpec.
Local Open Scope Z_scope.

(** * Loops over sites *)
Lemma putf_eq {L} (f : field L) i m v : putf f i m v i m = v. Proof. unfold putf. now rewrite !Nat.eqb_refl. Qed.
Lemma putf_neq {L} (f : field L) i m v j l : j <> i \/ l <> m -> putf f i m v j l = f j l.
Proof. intros [H|H]; unfold putf; apply Nat.eqb_neq in H as ->; [reflexivity|now rewrite andb_false_r]. Qed.

Section Sites.
Context {X : Type} (site : X -> nat) (g : X -> field arr -> field arr).
Hypothesis Loc : forall x f j m, j <> site x -> g x f j m = f j m.
Hypothesis Dep : forall x f f', (forall m, f (site x) m = f' (site x) m) -> forall m, g x f (site x) m = g x f' (site x) m.
Lemma fold_sites order : NoDup (map site order) -> forall f,
  (forall x, In x order -> forall m, fold_left (fun f x => g x f) order f (site x) m = g x f (site x) m) /\
  (forall i, ~ In i (map site order) -> forall m, fold_left (fun f x => g x f) order f i m = f i m).
Proof.
  induction order as [|x order IH]; intros H f; [split; [intros x []|reflexivity]|]. inversion_clear H as [|? ? NI ND].
  cbn [fold_left]. destruct (IH ND (g x f)) as [A B]. split.
  - intros y [->|Hy] m; [now apply B|]. rewrite A by assumption. apply Dep. intro m'. apply Loc. intro E. apply NI. rewrite <- E. now apply in_map.
  - intros i Hi m. rewrite B by (intro; apply Hi; now right). apply Loc. intros ->. apply Hi. now left.
Qed.
End Sites.

(** a loop over the directions at one site *)
Section Dirs.
Context (i : nat) (h : nat -> field arr -> arr).
Hypothesis Dep : forall mu f f', f i mu = f' i mu -> h mu f = h mu f'.
Lemma for_dirs ND f :
  (forall mu, (mu < ND)%nat -> for_ ND (fun mu A => putf A i mu (h mu A)) f i mu = h mu f) /\
  (forall j mu, j <> i \/ (ND <= mu)%nat -> for_ ND (fun mu A => putf A i mu (h mu A)) f j mu = f j mu).
Proof.
  induction ND as [|N [A B]]; [split; [lia|reflexivity]|]. cbn [for_]. split.
  - intros mu Hmu. destruct (Nat.eq_dec mu N) as [->|E].
    + rewrite putf_eq. apply Dep. apply B. now right.
    + rewrite putf_neq by (right; lia). apply A. lia.
  - intros j mu H. rewrite putf_neq by (destruct H; [now left|right; lia]). apply B. destruct H; [now left|right; lia].
Qed.
End Dirs.

Lemma log_fields_ok ND NC temp order V A : (0 < NC)%nat -> Permutation order (seq 0 V) ->
  (forall i mu, (i < V)%nat -> (mu < ND)%nat -> shaped NC (mx NC (A i mu))) ->
  forall i mu, (i < V)%nat -> (mu < ND)%nat -> meq NC (mx NC (log_fields ND NC temp order A i mu)) (gauge_field NC A i mu).
Proof.
  intros HN P Sh i mu Hi Hmu. destruct (perm_order _ _ P) as [Nd In1]. unfold log_fields.
  set (h := fun (i mu : nat) (A : field arr) => equiv NC (A i mu) (Hermitian_proj NC temp (A i mu))).
  assert (D : forall i mu (f f' : field arr), f i mu = f' i mu -> h i mu f = h i mu f') by (intros ? ? f f' E; unfold h; now rewrite E).
  destruct (fold_sites (fun i => i) (fun i A => for_ ND (fun mu A => putf A i mu (h i mu A)) A)) with (order := order) (f := A) as [F _].
  - intros x f j m Hj. apply (for_dirs x (h x) (D x)). now left.
  - intros x f f' E m. destruct (for_dirs x (h x) (D x) ND f) as [A1 A2], (for_dirs x (h x) (D x) ND f') as [B1 B2].
    destruct (Nat.lt_ge_cases m ND); [rewrite A1, B1 by assumption; now apply D|rewrite A2, B2 by (now right); apply E].
  - now rewrite map_id.
  - change (fold_left _ order A) with (fold_left (fun f i => (fun i A => for_ ND (fun mu A => putf A i mu (h i mu A)) A) i f) order A).
    rewrite F by (now apply In1). cbv beta. destruct (for_dirs i (h i) (D i) ND A) as [A1 _]. rewrite A1 by assumption.
    unfold h. destruct (equiv_ok NC (A i mu) (Hermitian_proj NC temp (A i mu))) as [E1 _]. rewrite E1.
    destruct (Hermitian_proj_ok NC temp (A i mu) HN (Sh i mu Hi Hmu)) as [E2 _]. exact E2.
Qed.

Lemma dot_phase : forall ds k x, dot ds k x = phase ds k x.
Proof. induction ds as [|d ds IH]; intros [|a k] [|b x]; try reflexivity. cbn [phase]. rewrite <- IH. reflexivity. Qed.
Lemma phase_residues : forall ds k x, Forall (fun L => 0 < L) ds -> length k = length ds -> exists z, phase ds (residues ds k) x = (phase ds k x + IZR z)%R.
Proof.
  induction ds as [|d ds IH]; intros [|a k] x Hd Hl; try discriminate; [exists 0; cbn; ring|]. inversion_clear Hd as [|? ? H0 H1].
  destruct x as [|b x]; [exists 0; cbn; ring|]. destruct (IH k x H1) as [z E]; [simpl in *; lia|]. exists (z - a / d * b).
  unfold residues in *. cbn [combine map fst snd phase]. rewrite E. rewrite minus_IZR, mult_IZR.
  assert (Ea : IZR (a mod d) = (IZR a - IZR (a / d) * IZR d)%R) by (rewrite <- mult_IZR, <- minus_IZR; f_equal; rewrite (Z.div_mod a d) at 2 by lia; ring).
  rewrite Ea. field. apply IZR_neq. lia.
Qed.

(** * The transform *)
Section Transform.
Variables (sched : schedule) (ds : list Z) (NC : nat).
Hypothesis Hok : lattice_ok ds.
Hypothesis Any : any_order sched.
Let V := fft_size ds.
Let pos : Forall (fun L => 0 < L) ds. Proof. apply ok_pos. apply Hok. Qed.
Lemma volume_is : Z.to_nat (lvolume ds) = V.
Proof. unfold V, fft_size. now rewrite lvolume_prod. Qed.
Lemma fft_element_ok mu j A inp out : exists A' inp' out', fft_element sched ds mu j (Some (A, inp, out)) = Some (A', inp', out') /\
  (forall i, (i < V)%nat -> A' i mu j = dft BACKWARD ds (fun i => A i mu j) i) /\
  (forall i m l, m <> mu \/ l <> j -> A' i m l = A i m l).
Proof.
  unfold fft_element. rewrite volume_is. cbn [bindo].
  destruct (fill_range _ V (fun i => Some (A i mu j)) (fun i => A i mu j) (Any [1; Z.of_nat mu; Z.of_nat j] V) (fun i _ => eq_refl) out) as (o & E & F & _).
  rewrite E. cbn [bindo]. unfold plan_dims. rewrite firstn_all.
  set (r := fftw_execute BACKWARD (rev ds) o inp). do 3 eexists. split; [reflexivity|].
  destruct (perm_order _ _ (Any [2; Z.of_nat mu; Z.of_nat j] V)) as [Nd In1].
  set (g := fun i (A : field arr) => putf A i mu (upd (A i mu) j (r i))).
  assert (L1 : forall x (f : field arr) k m, k <> x -> g x f k m = f k m) by (intros; apply putf_neq; now left).
  destruct (fold_sites (fun i => i) g) with (order := sched [2; Z.of_nat mu; Z.of_nat j] V) (f := A) as [S1 S2].
  - exact L1.
  - intros x f f' Ef m. unfold g. destruct (Nat.eq_dec m mu) as [->|N]; [rewrite !putf_eq, Ef; reflexivity|rewrite !putf_neq by (now right); apply Ef].
  - now rewrite map_id.
  - change (fold_left _ _ A) with (fold_left (fun f i => g i f) (sched [2; Z.of_nat mu; Z.of_nat j] V) A). split.
    + intros i Hi. rewrite S1 by (now apply In1). unfold g. rewrite putf_eq, upd_eq. unfold r. rewrite fftw_execute_ok by assumption. apply dft_ext. exact F.
    + intros i m l H. destruct (in_dec Nat.eq_dec i (sched [2; Z.of_nat mu; Z.of_nat j] V)) as [Y|N].
      * rewrite S1 by assumption. unfold g. destruct (Nat.eq_dec m mu) as [->|K]; [|now rewrite putf_neq by (now right)].
        rewrite putf_eq. apply upd_neq. destruct H; [contradiction|assumption].
      * rewrite S2; [reflexivity|now rewrite map_id].
Qed.
Lemma fft_row mu A inp out n : exists A' inp' out', for_ n (fft_element sched ds mu) (Some (A, inp, out)) = Some (A', inp', out') /\
  (forall i l, (i < V)%nat -> (l < n)%nat -> A' i mu l = dft BACKWARD ds (fun i => A i mu l) i) /\
  (forall i m l, m <> mu \/ (n <= l)%nat -> A' i m l = A i m l).
Proof.
  induction n as [|n (A1 & i1 & o1 & E & F & G)]; [do 3 eexists; split; [reflexivity|split; [lia|reflexivity]]|].
  cbn [for_]. rewrite E. destruct (fft_element_ok mu n A1 i1 o1) as (A2 & i2 & o2 & E2 & F2 & G2). exists A2, i2, o2. split; [exact E2|]. split.
  - intros i l Hi Hl. destruct (Nat.eq_dec l n) as [->|N].
    + rewrite F2 by assumption. apply dft_ext. intros k Hk. apply G. right. lia.
    + rewrite G2 by (now right). apply F; [assumption|lia].
  - intros i m l H. rewrite G2 by (destruct H; [now left|right; lia]). apply G. destruct H; [now left|right; lia].
Qed.
Lemma fft_all A inp out : forall N, exists A' inp' out',
  for_ N (fun mu => for_ (NC * NC) (fft_element sched ds mu)) (Some (A, inp, out)) = Some (A', inp', out') /\
  (forall i mu l, (i < V)%nat -> (mu < N)%nat -> (l < NC * NC)%nat -> A' i mu l = dft BACKWARD ds (fun i => A i mu l) i) /\
  (forall i m l, (N <= m)%nat -> A' i m l = A i m l).
Proof.
  induction N as [|N (A1 & i1 & o1 & E & F & G)]; [do 3 eexists; split; [reflexivity|split; [lia|reflexivity]]|].
  cbn [for_]. rewrite E. destruct (fft_row N A1 i1 o1 (NC * NC)) as (A2 & i2 & o2 & E2 & F2 & G2). exists A2, i2, o2. split; [exact E2|]. split.
  - intros i m l Hi Hm Hl. destruct (Nat.eq_dec m N) as [->|D].
    + rewrite F2 by assumption. apply dft_ext. intros k Hk. now apply G.
    + rewrite G2 by (now left). apply F; [assumption|lia|assumption].
  - intros i m l H. rewrite G2 by (left; lia). apply G. lia.
Qed.
Theorem mom_gauge_ok temp inp out A : (0 < NC)%nat ->
  (forall i mu, (i < V)%nat -> (mu < length ds)%nat -> shaped NC (mx NC (A i mu))) ->
  exists A', mom_gauge sched ds NC temp inp out A = Some A' /\
  forall i mu a b, (i < V)%nat -> (mu < length ds)%nat -> (a < NC)%nat -> (b < NC)%nat ->
    mx NC (A' i mu) a b = dft BACKWARD ds (fun x => gauge_field NC A x mu a b) i.
Proof.
  intros HN Sh. unfold mom_gauge. rewrite volume_is.
  destruct (fft_all (log_fields (length ds) NC temp (sched [0] V) A) inp out (length ds)) as (A' & i' & o' & E & F & _). rewrite E. cbn [bindo].
  exists A'. split; [reflexivity|]. intros i mu a b Hi Hmu Ha Hb. unfold mx at 1. rewrite F by (try assumption; nia).
  apply dft_ext. intros x Hx. apply (log_fields_ok (length ds) NC temp (sched [0] V) V A HN (Any [0] V) Sh x mu Hx Hmu a b Ha Hb).
Qed.

(** * The factors of the momentum *)
Lemma pspace_site_ok D idx k A :
  (forall mu l, (mu < D)%nat -> (l < NC * NC)%nat -> pspace_site ds NC D idx k A idx mu l = (A idx mu l * cis (PI * IZR (nth mu k 0%Z) / IZR (nth mu ds 1%Z))%R)%C) /\
  (forall j mu, j <> idx \/ (D <= mu)%nat -> pspace_site ds NC D idx k A j mu = A j mu).
Proof.
  unfold pspace_site. induction D as [|D [I1 I2]]; [split; [lia|reflexivity]|]. cbn [for_].
  set (B := for_ D _ A) in *. clearbody B.
  set (c := (1/2 * IZR (nth D k 0%Z) * twiddle ds D)%R). cbv zeta.
  assert (Ec : c = (PI * IZR (nth D k 0%Z) / IZR (nth D ds 1%Z))%R) by (unfold c, twiddle, Rdiv; generalize (/ IZR (nth D ds 1%Z))%R; intro; field).
  set (e := (cos c, (1/2 * (2 * sin c))%R)). assert (Ee : e = cis c) by (unfold e, cis; f_equal; lra).
  assert (K : forall n, (forall l, (l < n)%nat -> for_ n (fun j A => putf A idx D (upd (A idx D) j (A idx D j * e)%C)) B idx D l = (B idx D l * e)%C) /\
     (forall l, (n <= l)%nat -> for_ n (fun j A => putf A idx D (upd (A idx D) j (A idx D j * e)%C)) B idx D l = B idx D l) /\
     (forall j m, j <> idx \/ m <> D -> for_ n (fun j A => putf A idx D (upd (A idx D) j (A idx D j * e)%C)) B j m = B j m)).
  { induction n as [|n (J1 & J2 & J3)]; [split; [lia|split; reflexivity]|]. cbn [for_]. split; [|split].
    - intros l Hl. rewrite putf_eq. destruct (Nat.eq_dec l n) as [->|N]; [rewrite upd_eq, J2 by lia; reflexivity|rewrite upd_neq by assumption; apply J1; lia].
    - intros l Hl. rewrite putf_eq, upd_neq by lia. apply J2. lia.
    - intros j m H. rewrite putf_neq by assumption. now apply J3. }
  destruct (K (NC * NC)%nat) as (K1 & K2 & K3). split.
  - intros mu l Hm Hl. destruct (Nat.eq_dec mu D) as [->|N].
    + rewrite K1 by assumption. rewrite Ee, Ec. f_equal. now rewrite I2 by (right; lia).
    + rewrite K3 by (now right). apply I1; [lia|assumption].
  - intros j mu Hj. rewrite K3 by (destruct Hj; [now left|right; lia]). apply I2. destruct Hj; [now left|right; lia].
Qed.
Lemma mfor_some {A S} (l : list A) (f : A -> S -> option S) (g : A -> S -> S) : (forall a s, In a l -> f a s = Some (g a s)) ->
  forall s, mfor l f s = Some (fold_left (fun s a => g a s) l s).
Proof. induction l as [|a l IH]; intros H s; [reflexivity|]. cbn [mfor fold_left]. rewrite H by apply in_eq. apply IH. intros b t Hb. apply H. now right. Qed.
Theorem correct_pspace_ok D lst A :
  (forall idx k, In (idx, k) lst -> 0 <= idx < prodZ ds) -> NoDup (map fst lst) ->
  exists A', correct_pspace_landau sched ds NC D lst A = Some A' /\
  forall idx k mu l, In (idx, k) lst -> (mu < D)%nat -> (l < NC * NC)%nat ->
    A' (Z.to_nat idx) mu l = (A (Z.to_nat idx) mu l * cis (PI * IZR (nth mu k 0%Z) / IZR (nth mu ds 1%Z))%R)%C.
Proof.
  intros Hin Nd. unfold correct_pspace_landau. destruct (perm_order _ _ (Any [3] (length lst))) as [N0 I0].
  set (d := (0, [] : list Z)).
  assert (Nth : forall i, In i (sched [3] (length lst)) -> nth_error lst i = Some (nth i lst d)) by (intros i Hi; apply nth_error_nth'; now apply I0).
  set (g := fun i (A : field arr) => pspace_site ds NC D (Z.to_nat (fst (nth i lst d))) (snd (nth i lst d)) A).
  rewrite (mfor_some _ _ g).
  2: { intros i s Hi. rewrite (Nth i Hi). destruct (nth i lst d) as [idx k] eqn:E. cbn [bindo].
    assert (B : 0 <= idx < prodZ ds) by (apply (Hin idx k); rewrite <- E; apply nth_In; now apply I0).
    rewrite lvolume_prod by assumption. replace ((0 <=? idx) && (idx <? prodZ ds))%bool with true by lia. unfold g. now rewrite E. }
  eexists. split; [reflexivity|]. intros idx k mu l H Hm Hl.
  destruct (In_nth _ _ d H) as (i & Hi & Ei).
  destruct (fold_sites (fun i => Z.to_nat (fst (nth i lst d))) g) with (order := sched [3] (length lst)) (f := A) as [S1 _].
  - intros x f j m Hj. apply pspace_site_ok. now left.
  - intros x f f' E m. unfold g. set (s := Z.to_nat (fst (nth x lst d))) in *. set (kk := snd (nth x lst d)).
    (* the result at the site only depends on the field there *)
    clear -E. unfold pspace_site. revert m. induction D as [|D' IH]; [exact E|]. cbn [for_]. cbv zeta.
    match type of IH with forall m, ?X s m = ?Y s m => set (F := X) in *; set (F' := Y) in * end. clearbody F F'.
    assert (K : forall (e : C) n m, for_ n (fun j A => putf A s D' (upd (A s D') j (A s D' j * e)%C)) F s m = for_ n (fun j A => putf A s D' (upd (A s D') j (A s D' j * e)%C)) F' s m).
    { intro e. induction n as [|n IH2]; [exact IH|]. intro m. cbn [for_]. destruct (Nat.eq_dec m D') as [->|Nm]; [rewrite !putf_eq, IH2; reflexivity|rewrite !putf_neq by (now right); apply IH2]. }
    intro m. apply K.
  - apply (Permutation_NoDup (l := map (fun i => Z.to_nat (fst (nth i lst d))) (seq 0 (length lst)))); [apply Permutation_map; symmetry; apply Any|].
    rewrite <- (map_map (fun i => nth i lst d) (fun p => Z.to_nat (fst p))).
    assert (E : map (fun i => nth i lst d) (seq 0 (length lst)) = lst).
    { apply nth_ext with (d := d) (d' := d); [now rewrite map_length, seq_length|]. intros n Hn. rewrite map_length, seq_length in Hn.
      rewrite (nth_indep _ d (nth 0 lst d)) by (now rewrite map_length, seq_length). rewrite (map_nth (fun i => nth i lst d)). now rewrite seq_nth. }
    rewrite E. rewrite <- (map_map fst Z.to_nat). apply NoDup_map_in; [|assumption].
    intros x y Hx Hy Exy. apply in_map_iff in Hx, Hy. destruct Hx as ([x' kx] & <- & Hx), Hy as ([y' ky] & <- & Hy). cbn [fst] in *.
    apply Hin in Hx, Hy. lia.
  - specialize (S1 i). cbv beta in S1. rewrite Ei in S1. cbn [fst] in S1. rewrite S1 by (now apply I0). unfold g. rewrite Ei. cbn [fst snd].
    now apply pspace_site_ok.
Qed.

(** * Fourier modes *)
Lemma mode_dft (A : nat -> nat -> mat) k mu a b idx : length k = length ds -> idx = index_of ds (residues ds k) ->
  (dft BACKWARD ds (fun x => A x mu a b) (Z.to_nat idx) * cis (PI * IZR (nth mu k 0%Z) / IZR (nth mu ds 1%Z))%R)%C = mode ds A k mu a b.
Proof.
  intros Hk E. assert (B : in_box ds (residues ds k)) by (now apply residues_box).
  rewrite index_of_horner in E by (now apply in_box_length). subst idx.
  unfold dft, mode. rewrite <- csum_mul_r. apply csum_ext. intros x Hx.
  rewrite Z2Nat.id by (apply horner_bound in B; lia). rewrite digits_horner by assumption.
  rewrite dot_phase, coords_digits by assumption.
  destruct (phase_residues ds k (digits ds (Z.of_nat x)) pos Hk) as [z Ez]. rewrite Ez. unfold BACKWARD, half.
  set (p := phase ds k _). replace (1 * (2 * PI * (p + IZR z)))%R with (2 * PI * p + 2 * PI * IZR z)%R by ring.
  rewrite cis_add, cis_int. replace (2 * PI * (p + IZR (nth mu k 0%Z) / (2 * IZR (nth mu ds 1%Z))))%R with (2 * PI * p + PI * IZR (nth mu k 0%Z) / IZR (nth mu ds 1%Z))%R.
  - rewrite cis_add. ring.
  - destruct (Req_dec (IZR (nth mu ds 1%Z)) 0) as [Z0|Nz]; [rewrite Z0; unfold Rdiv; rewrite Rmult_0_r, Rinv_0; ring|field; assumption].
Qed.
Theorem fields_ok temp inp out U lst : (0 < NC)%nat ->
  (forall i mu, (i < V)%nat -> (mu < length ds)%nat -> shaped NC (mx NC (U i mu))) ->
  (forall idx k, In (idx, k) lst -> length k = length ds /\ idx = index_of ds (residues ds k)) -> NoDup (map fst lst) ->
  exists A A', mom_gauge sched ds NC temp inp out U = Some A /\ correct_pspace_landau sched ds NC (length ds) lst A = Some A' /\
  forall idx k mu, In (idx, k) lst -> (mu < length ds)%nat -> meq NC (mx NC (A' (Z.to_nat idx) mu)) (mode ds (gauge_field NC U) k mu).
Proof.
  intros HN Sh Hl Nd. destruct (mom_gauge_ok temp inp out U HN Sh) as (A & E & F).
  assert (Hb : forall idx k, In (idx, k) lst -> 0 <= idx < prodZ ds).
  { intros idx k Hi. destruct (Hl _ _ Hi) as [Lk ->]. assert (B : in_box ds (residues ds k)) by (now apply residues_box).
    rewrite index_of_horner by (now apply in_box_length). now apply horner_bound. }
  destruct (correct_pspace_ok (length ds) lst A Hb Nd) as (A' & E' & G). exists A, A'. split; [exact E|]. split; [exact E'|].
  intros idx k mu Hi Hmu a b Ha Hc. destruct (Hl _ _ Hi) as [Lk Ei]. unfold mx. rewrite (G idx k) by (try assumption; nia).
  change (A (Z.to_nat idx) mu (b + NC * a)%nat) with (mx NC (A (Z.to_nat idx) mu) a b). rewrite F; try assumption; [now apply mode_dft|].
  apply Hb in Hi. unfold V, fft_size. lia.
Qed.
End Transform.
