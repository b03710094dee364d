(** The Fourier acceleration: a real, symmetric and positive kernel. *)
From Coq Require Import Permutation Lia Lra Psatz.
From Verif Require Import CInt GeomModel GeomSpec GeomProofs GeomProofs2 Cplx CMat Det Arr MatModel MatSpec MatProofs MatProofs2 ProjModel ProjProofs GramModel GramProofs FieldModel FieldProofs FftModel FftProofs QtopModel QtopSpec QtopProofs QtopProofs2 QtopProofs4 SmearModel StaticModel StaticProofs GluonSpec GluonModel GluonProofs GluonProofs2 GluonProofs3 GluonProofs4 InstProofs InstProofs2 CfgSpec CfgProofs HypProofs SmearProofs U1Model U1Spec U1Proofs U1Proofs2 U1Proofs3 LandauModel LandauSpec LandauProofs LandauProofs2.
Local Open Scope Z_scope.

Section Kernel.
Variable ds : list Z.
Hypothesis Hok : lattice_ok ds.
Let pos : Forall (fun L => 0 < L) ds. Proof. apply ok_pos, Hok. Qed.
Lemma phat2_cos i : (phat2 ds i = 2 * (INR (length ds) - dsum (length ds) (fun mu => cos (IZR (coord ds mu i) * twiddle ds mu))))%R.
Proof.
  unfold phat2. generalize (length ds). intro q. induction q as [|m IH]; [rewrite !dsum_0; cbn; lra|]. rewrite !dsum_S, IH, S_INR. cbv zeta. rewrite <- one_minus_cos.
  replace (IZR (coord ds m i) * twiddle ds m)%R with (2 * (PI * IZR (coord ds m i) / IZR (nth m ds 1%Z)))%R by (unfold twiddle, Rdiv; ring). lra.
Qed.
Lemma phat2_nonneg i : (0 <= phat2 ds i)%R.
Proof. apply dsum_nonneg. intros j _. cbv zeta. apply Rle_0_sqr. Qed.
Lemma psq_landau_ok i : (i < nsites ds)%nat -> psq_landau ds i = Some (propagator ds i).
Proof.
  intro Hi. unfold psq_landau, gen_p_sq. rewrite get_mom_digits by (assumption || lia). cbn [bindo].
  rewrite (for_dsum (length ds) (fun mu => cos (IZR (nth mu (digits ds (Z.of_nat i)) 0%Z) * twiddle ds mu))%R).
  rewrite (dsum_ext (length ds) _ (fun mu => cos (IZR (coord ds mu i) * twiddle ds mu))%R) by (intros; now rewrite coord_digits).
  pose proof (phat2_cos i) as P. unfold propagator. rewrite lvolume_prod by assumption. replace (INR (nsites ds)) with (IZR (prodZ ds)) by (unfold nsites; rewrite (INR_IZR_INZ (Z.to_nat _)), Z2Nat.id; [reflexivity|pose proof (prodZ_pos ds pos); lia]).
  destruct (Req_EM_T _ _) as [E|E], (Req_EM_T (phat2 ds i) 0) as [Z0|Z0]; try reflexivity.
  - exfalso. apply Z0. rewrite P, E. ring.
  - exfalso. apply E. lra.
  - now rewrite P.
Qed.
Lemma nsites_pos : (0 < nsites ds)%nat. Proof. unfold nsites. pose proof (prodZ_pos ds pos). lia. Qed.
Lemma propagator_pos i : (0 < propagator ds i)%R.
Proof.
  unfold propagator. pose proof (phat2_nonneg i) as P. pose proof nsites_pos as Np. apply lt_0_INR in Np.
  assert (HN : (0 < length ds)%nat) by (destruct Hok as (H & _); destruct ds; [contradiction|cbn; lia]). apply lt_0_INR in HN.
  apply Rdiv_lt_0_compat; [apply Rdiv_lt_0_compat; lra|]. destruct (Req_EM_T (phat2 ds i) 0); lra.
Qed.
Lemma cos_mod c L : 0 < L -> cos (IZR ((- c) mod L) * (2 * PI / IZR L)) = cos (IZR c * (2 * PI / IZR L)).
Proof.
  intro HL. rewrite Z.mod_eq by lia. rewrite minus_IZR, mult_IZR, opp_IZR. assert (IZR L <> 0)%R by (apply IZR_neq; lia).
  replace ((- IZR c - IZR L * IZR (- c / L)) * (2 * PI / IZR L))%R with (- (IZR c * (2 * PI / IZR L) + 2 * PI * IZR (- c / L)))%R by (field; assumption).
  rewrite cos_neg. pose proof (cis_add (IZR c * (2 * PI / IZR L)) (2 * PI * IZR (- c / L))) as E. rewrite cis_int in E.
  apply (f_equal re) in E. unfold cis in E. cunfold. cbn in E. lra.
Qed.
Lemma phat2_mirror p : phat2 ds (mirror ds p) = phat2 ds p.
Proof.
  rewrite !phat2_cos. do 2 f_equal. apply dsum_ext. intros mu Hm. rewrite !coord_digits by assumption. rewrite mirror_digits by assumption.
  assert (K : forall l x m, Forall (fun L => 0 < L) l -> length x = length l -> (m < length l)%nat -> nth m (mdig l x) 0 = (- nth m x 0) mod (nth m l 1)).
  { induction l as [|L l IH]; intros [|c x] m Hp Hl Hm'; try discriminate; [cbn in *; lia|]. rewrite mdig_cons. inversion Hp. subst. destruct m; [reflexivity|]. cbn [nth]. apply IH; cbn in *; try assumption; lia. }
  rewrite K by (try assumption; apply digits_length). unfold twiddle. apply cos_mod.
  rewrite Forall_forall in pos. apply pos, nth_In, Hm.
Qed.
Lemma propagator_mirror p : propagator ds (mirror ds p) = propagator ds p.
Proof. unfold propagator. now rewrite phat2_mirror. Qed.

Lemma translate_zero : forall l v, Forall (fun L => 0 < L) l -> in_box l v -> translate l (digits l 0) v = v.
Proof.
  induction l as [|L l IH]; intros v Hp Hb; inversion Hb as [|? b ? v' B B']; subst; [reflexivity|]. inversion Hp; subst. cbn [digits]. rewrite Zdiv_0_l, Zmod_0_l.
  change (translate (L :: l) (0 :: digits l 0) (b :: v')) with ((0 + b) mod L :: translate l (digits l 0) v'). rewrite IH by assumption. rewrite Z.mod_small by lia. reflexivity.
Qed.
Lemma phase_zero k : length k = length ds -> phase ds k (digits ds 0) = 0%R.
Proof.
  clear. revert k. induction ds as [|L l IH]; intros [|a k] H; try discriminate; [reflexivity|]. cbn [digits phase]. rewrite Zdiv_0_l, Zmod_0_l, IH by (cbn in H; lia). unfold Rdiv. ring.
Qed.
Lemma wave_ortho x y : (x < nsites ds)%nat -> (y < nsites ds)%nat -> csum (nsites ds) (fun p => wave ds p y * conj (wave ds p x))%C = (mid x y * RtoC (INR (nsites ds)))%C.
Proof.
  intros Hx Hy. set (dg := fun j => digits ds (Z.of_nat j)). assert (Ld : forall j, length (dg j) = length ds) by (intro; apply digits_length).
  assert (Bd : forall j, in_box ds (dg j)) by (intro; now apply digits_in_box).
  transitivity (csum (fft_size ds) (fun p => cis (2 * PI * phase ds (digits ds (Z.of_nat p)) (diff3 (dg x) (dg y) (dg 0%nat))))).
  - apply csum_ext. intros p Hp. rewrite !wave_cis by assumption. rewrite <- cis_opp, <- cis_add. f_equal. fold (dg p) (dg y) (dg x). rewrite phase_diff3 by apply Ld.
    change (dg 0%nat) with (digits ds 0). rewrite phase_zero by apply Ld. rewrite (phase_sym ds (dg x)), (phase_sym ds (dg y)). ring.
  - rewrite (ortho ds pos) by (rewrite diff3_length; rewrite ?Ld; reflexivity).
    pose proof (periods_diff3 ds pos (dg x) (dg y) (dg 0%nat) (Ld x) (Bd y) (Bd 0%nat)) as P. change (translate ds (dg 0%nat) (dg x)) with (translate ds (digits ds 0) (dg x)) in P. rewrite (translate_zero ds (dg x) pos (Bd x)) in P.
    assert (I : IZR (prodZ ds) = INR (nsites ds)) by (unfold nsites; rewrite (INR_IZR_INZ (Z.to_nat _)), Z2Nat.id; [reflexivity|pose proof (prodZ_pos ds pos); lia]).
    assert (J : dg y = dg x <-> x = y).
    { split; [|now intros ->]. intro E. apply (site_horner ds y (dg x) pos Hy (Bd x)) in E. rewrite E. apply (site_horner ds x (dg x) pos Hx (Bd x)). reflexivity. }
    unfold mid. destruct (Nat.eqb_spec x y) as [Exy|Exy].
    + destruct (periods ds _); [rewrite I; ring|]. exfalso. apply J in Exy. apply P in Exy. discriminate.
    + destruct (periods ds _); [|ring]. exfalso. apply Exy, J, P. reflexivity.
Qed.
Local Open Scope C_scope.
Notation V := (nsites ds).
Definition mode_at (f : nat -> C) (p : nat) : C := csum V (fun y => f y * wave ds p y).
Definition kernel (x y : nat) : C := csum V (fun p => RtoC (propagator ds p) * wave ds p y * conj (wave ds p x)).
Definition kern (x y : nat) : R := re (kernel x y).
Lemma kernel_real x y : kernel x y = RtoC (kern x y).
Proof.
  unfold kern. set (S := kernel x y). assert (E : conj S = S).
  { unfold S, kernel. rewrite csum_conj. rewrite <- (csum_bij V (fun p => RtoC (propagator ds p) * wave ds p y * conj (wave ds p x)) (mirror ds)).
    - apply csum_ext. intros p Hp. rewrite propagator_mirror, !wave_mirror, !conj_mul, conj_RtoC by assumption. reflexivity.
    - intros; now apply mirror_lt.
    - intros a b Ha Hb E. rewrite <- (mirror_invol ds pos a Ha), E. now apply mirror_invol. }
  destruct S as [r i]. unfold conj in E. cbn in E. injection E as E. unfold RtoC. cbn. assert (i = 0%R) by lra. now subst i.
Qed.
Lemma quad_form (f : nat -> C) : csum V (fun x => csum V (fun y => RtoC (kern x y) * f y) * conj (f x)) = csum V (fun p => RtoC (propagator ds p * Cplx.norm2 (mode_at f p))).
Proof.
  transitivity (csum V (fun x => csum V (fun p => RtoC (propagator ds p) * mode_at f p * conj (f x * wave ds p x)))).
  - apply csum_ext. intros x Hx. rewrite <- csum_mul_r.
    transitivity (csum V (fun y => csum V (fun p => RtoC (propagator ds p) * (f y * wave ds p y) * conj (f x * wave ds p x)))).
    + apply csum_ext. intros y Hy. rewrite <- kernel_real. unfold kernel. rewrite <- !csum_mul_r. apply csum_ext. intros p Hp. rewrite conj_mul. ring.
    + rewrite CMat.csum_swap. apply csum_ext. intros p Hp. unfold mode_at. rewrite <- csum_mul_l, <- csum_mul_r. apply csum_ext. intros y Hy. ring.
  - rewrite CMat.csum_swap. apply csum_ext. intros p Hp. rewrite csum_mul_l, <- csum_conj. fold (mode_at f p). rewrite RtoC_mul.
    replace (RtoC (Cplx.norm2 (mode_at f p))) with (mode_at f p * conj (mode_at f p)); [ring|]. destruct (mode_at f p) as [u w]. unfold RtoC, Cplx.norm2. cunfold. cbn. f_equal; ring.
Qed.
Lemma modes_zero (f : nat -> C) : (forall p, (p < V)%nat -> mode_at f p = C0) -> forall x, (x < V)%nat -> f x = C0.
Proof.
  intros H x Hx.
  assert (E : csum V (fun p => mode_at f p * conj (wave ds p x)) = RtoC (INR V) * f x).
  { unfold mode_at. transitivity (csum V (fun y => f y * csum V (fun p => wave ds p y * conj (wave ds p x)))).
    - transitivity (csum V (fun p => csum V (fun y => f y * (wave ds p y * conj (wave ds p x))))).
      + apply csum_ext. intros p Hp. rewrite <- csum_mul_r. apply csum_ext. intros y Hy. ring.
      + rewrite CMat.csum_swap. apply csum_ext. intros y Hy. now rewrite csum_mul_l.
    - rewrite <- (csum_delta_l V x (fun y => RtoC (INR V) * f y) Hx). apply csum_ext. intros y Hy.
      assert (O : csum V (fun p => wave ds p y * conj (wave ds p x)) = mid x y * RtoC (INR V)); [|rewrite O; ring].
      now apply wave_ortho. }
  rewrite (csum_ext V _ (fun _ => C0)), csum_0 in E by (intros p Hp; rewrite H by assumption; ring).
  pose proof nsites_pos as Np. apply lt_0_INR in Np. destruct (f x) as [u w]. unfold RtoC in E. cunfold. cbn in E. injection E as E1 E2. unfold C0. f_equal; nra.
Qed.
(** ** one pass *)
Lemma accel_kern X x i j : (x < V)%nat -> accelerated ds X x i j = csum V (fun y => RtoC (kern x y) * X y i j).
Proof.
  intro Hx. unfold accelerated. transitivity (csum V (fun p => csum V (fun y => X y i j * (RtoC (propagator ds p) * wave ds p y * conj (wave ds p x))))).
  - apply csum_ext. intros p Hp. rewrite <- !csum_mul_r. apply csum_ext. intros y Hy. ring.
  - rewrite CMat.csum_swap. apply csum_ext. intros y Hy. rewrite csum_mul_l. fold (kernel x y). rewrite kernel_real. ring.
Qed.
Lemma accel_anti n X : (forall x, (x < V)%nat -> antihermitian n (X x)) -> forall x, (x < V)%nat -> antihermitian n (accelerated ds X x).
Proof.
  intros H x Hx i j Hi Hj. unfold dag, mscale. rewrite !accel_kern by assumption. rewrite conj_csum, <- csum_mul_l. apply csum_ext. intros y Hy.
  rewrite conj_mul, conj_RtoC. rewrite (anti_off n (X y) i j) by (try assumption; now apply H). rewrite ?RtoC_opp. unfold RtoC. destruct (X y i j). cring.
Qed.
Lemma accel_traceless n X : (forall x, (x < V)%nat -> traceless n (X x)) -> forall x, (x < V)%nat -> traceless n (accelerated ds X x).
Proof.
  intros H x Hx. unfold traceless, mtr in *. rewrite (csum_ext n _ (fun i => csum V (fun y => RtoC (kern x y) * X y i i))) by (intros; now apply accel_kern).
  rewrite CMat.csum_swap. rewrite (csum_ext V _ (fun _ => C0)); [apply csum_0|]. intros y Hy. rewrite csum_mul_l, H by assumption. ring.
Qed.
Lemma inner_entries n A B : inner n A B = dsum n (fun i => dsum n (fun j => re (A i j * conj (B i j)))).
Proof.
  unfold inner, mtr. rewrite GluonProofs2.re_csum. apply dsum_ext. intros i Hi. unfold mmul. rewrite GluonProofs2.re_csum. reflexivity.
Qed.
Lemma accel_inner n X : dsum V (fun x => inner n (accelerated ds X x) (X x)) =
  dsum n (fun i => dsum n (fun j => dsum V (fun p => propagator ds p * Cplx.norm2 (mode_at (fun y => X y i j) p))))%R.
Proof.
  rewrite (dsum_ext V _ (fun x => dsum n (fun i => dsum n (fun j => re (accelerated ds X x i j * conj (X x i j)))))) by (intros; apply inner_entries).
  rewrite dsum_swap_any. apply dsum_ext. intros i Hi. rewrite dsum_swap_any. apply dsum_ext. intros j Hj.
  transitivity (re (csum V (fun x => csum V (fun y => RtoC (kern x y) * X y i j) * conj (X x i j)))).
  - rewrite GluonProofs2.re_csum. apply dsum_ext. intros x Hx. now rewrite accel_kern.
  - rewrite (quad_form (fun y => X y i j)). rewrite GluonProofs2.re_csum. reflexivity.
Qed.
Lemma norm2_nonneg z : (0 <= Cplx.norm2 z)%R. Proof. destruct z. unfold Cplx.norm2. cbn. nra. Qed.
Lemma norm2_zero z : Cplx.norm2 z = 0%R -> z = C0. Proof. destruct z as [u w]. unfold Cplx.norm2, C0. cbn. intro H. f_equal; nra. Qed.
Lemma term_nonneg f p : (0 <= propagator ds p * Cplx.norm2 (mode_at f p))%R.
Proof. apply Rmult_le_pos; [left; apply propagator_pos|apply norm2_nonneg]. Qed.
Theorem accel_nonneg n X : (0 <= dsum V (fun x => inner n (accelerated ds X x) (X x)))%R.
Proof. rewrite accel_inner. do 3 (apply dsum_nonneg; intros). apply term_nonneg. Qed.
Theorem accel_zero n X : dsum V (fun x => inner n (accelerated ds X x) (X x)) = 0%R -> forall x i j, (x < V)%nat -> (i < n)%nat -> (j < n)%nat -> X x i j = C0.
Proof.
  intros H x i j Hx Hi Hj. rewrite accel_inner in H. apply (modes_zero (fun y => X y i j)); [|assumption]. intros p Hp. apply norm2_zero.
  set (A := fun i j => dsum V (fun p => propagator ds p * Cplx.norm2 (mode_at (fun y => X y i j) p))%R) in *. set (B := fun i => dsum n (fun j => A i j)).
  assert (N0 : forall i j, (0 <= A i j)%R) by (intros; apply dsum_nonneg; intros; apply term_nonneg).
  assert (N1 : forall i, (0 <= B i)%R) by (intros; apply dsum_nonneg; intros; apply N0).
  assert (T1 : (B i <= dsum n B)%R) by (apply (dsum_term n B i); auto). change (dsum n B = 0%R) in H.
  assert (T2 : (A i j <= B i)%R) by (apply (dsum_term n (fun j => A i j) j); auto).
  assert (T3 : (propagator ds p * Cplx.norm2 (mode_at (fun y => X y i j) p) <= A i j)%R) by (apply (dsum_term V (fun p => propagator ds p * Cplx.norm2 (mode_at (fun y => X y i j) p))%R p); [intros; apply term_nonneg|assumption]).
  pose proof (term_nonneg (fun y => X y i j) p). pose proof (propagator_pos p). pose proof (norm2_nonneg (mode_at (fun y => X y i j) p)). nra.
Qed.
Lemma two_diag m (k : nat -> R) (P Q : nat -> C) : csum m (fun y => RtoC (k y) * ((- im (P y))%R, im (Q y))) = ((- im (csum m (fun y => RtoC (k y) * P y)%C))%R, im (csum m (fun y => RtoC (k y) * Q y))).
Proof.
  induction m as [|m IH]; cbn [csum]; [unfold C0; cbn; f_equal; ring|]. rewrite IH.
  destruct (csum m (fun y => RtoC (k y) * P y)), (csum m (fun y => RtoC (k y) * Q y)), (P m), (Q m). unfold RtoC. cunfold. cbn. f_equal; ring.
Qed.
Lemma carries_accel n f f' X : (2 <= n)%nat -> (forall x, (x < V)%nat -> carries n f x (X x)) ->
  (forall c x, (c < TRUE_HERM n)%nat -> (x < V)%nat -> f' c x = csum V (fun y => RtoC (kern x y) * f c y)) ->
  forall x, (x < V)%nat -> carries n f' x (accelerated ds X x).
Proof.
  intros Hn Ca E x Hx.
  assert (G : forall c i j, (c < TRUE_HERM n)%nat -> (forall y, (y < V)%nat -> f c y = X y i j) -> f' c x = accelerated ds X x i j).
  { intros c i j Hc H. rewrite E, accel_kern by assumption. apply csum_ext. intros y Hy. now rewrite H. }
  destruct (Nat.eq_dec n 3) as [->|N3].
  - unfold carries in *. change (TRUE_HERM 3) with 4%nat in *. split; [|split; [|split]].
    + rewrite E by (lia || assumption). rewrite !accel_kern by assumption.
      rewrite (csum_ext V _ (fun y => RtoC (kern x y) * ((- im (X y 1%nat 1%nat))%R, im (X y 0%nat 0%nat)))) by (intros y Hy; now destruct (Ca y Hy) as (-> & _)).
      apply two_diag.
    + apply G; [lia|]. intros y Hy. apply (Ca y Hy).
    + apply G; [lia|]. intros y Hy. apply (Ca y Hy).
    + apply G; [lia|]. intros y Hy. apply (Ca y Hy).
  - assert (U : forall g y Y, carries n g y Y <-> packed n (fun c => g c y) Y) by (intros; destruct n as [|[|[|[|m]]]]; try lia; reflexivity).
    apply U. intros i j Hi Hj. apply G.
    + replace (TRUE_HERM n) with (HERMSIZE n) by (destruct n as [|[|[|[|m]]]]; try lia; reflexivity). apply off_bound; lia.
    + intros y Hy. apply (proj1 (U _ _ _) (Ca y Hy) i j Hi Hj).
Qed.
End Kernel.

Definition accel_step (dims : list Z) (psq : nat -> R) : fields * fields -> nat -> fields * fields := fun '(inp, out) mu =>
      let o := fftw_execute FORWARD (plan_dims dims (length dims)) (inp mu) (out mu) in
      let o := for_ (Z.to_nat (lvolume dims)) (fun i o => upd o i (o i * RtoC (psq i))%C) o in
      let v := fftw_execute BACKWARD (plan_dims dims (length dims)) o (inp mu) in
      (fun c => if Nat.eqb c mu then v else inp c, fun c => if Nat.eqb c mu then o else out c).
Lemma scale_loop (psq : nat -> R) : forall m o k, for_ m (fun i o => upd o i (o i * RtoC (psq i))%C) o k = if Nat.ltb k m then (o k * RtoC (psq k))%C else o k.
Proof.
  induction m as [|m IH]; intros o k; [reflexivity|]. cbn [for_]. unfold upd at 1. rewrite !IH. destruct (Nat.eqb_spec k m) as [->|N].
  - rewrite Nat.ltb_irrefl. now rewrite (proj2 (Nat.ltb_lt m (S m)) ltac:(lia)).
  - destruct (Nat.ltb_spec k m), (Nat.ltb_spec k (S m)); try lia; reflexivity.
Qed.
Section Accel.
Variable ds : list Z.
Hypothesis Hok : lattice_ok ds.
Let pos : Forall (fun L => 0 < L) ds. Proof. apply ok_pos, Hok. Qed.
Variable psq : nat -> R.
Hypothesis Hpsq : forall i, (i < nsites ds)%nat -> psq_landau ds i = Some (psq i).
Lemma accel_one inp out c x : (x < nsites ds)%nat -> fst (accel_step ds psq (inp, out) c) c x = csum (nsites ds) (fun y => RtoC (kern ds x y) * inp c y)%C.
Proof.
  intro Hx. unfold accel_step. cbn [fst]. rewrite Nat.eqb_refl. unfold plan_dims. rewrite firstn_all. rewrite fftw_execute_ok by assumption. unfold dft. change (fft_size ds) with (nsites ds).
  transitivity (csum (nsites ds) (fun p => csum (nsites ds) (fun y => inp c y * (RtoC (propagator ds p) * wave ds p y * conj (wave ds p x))))%C).
  - apply csum_ext. intros p Hp. rewrite scale_loop. rewrite lvolume_prod by assumption. fold (nsites ds). rewrite (proj2 (Nat.ltb_lt _ _) Hp).
    rewrite fftw_execute_ok by assumption. unfold dft. change (fft_size ds) with (nsites ds).
    assert (Ep : psq p = propagator ds p) by (pose proof (Hpsq p Hp) as H; rewrite psq_landau_ok in H by assumption; congruence). rewrite Ep.
    rewrite <- !csum_mul_r. apply csum_ext. intros y Hy. rewrite !wave_cis by assumption. rewrite <- cis_opp.
    replace (- (-1 * (2 * PI * phase ds (digits ds (Z.of_nat x)) (digits ds (Z.of_nat p)))))%R with (BACKWARD * (2 * PI * phase ds (digits ds (Z.of_nat x)) (digits ds (Z.of_nat p))))%R by (unfold BACKWARD; ring).
    rewrite (phase_sym ds (digits ds (Z.of_nat y))). unfold FORWARD. ring.
  - rewrite CMat.csum_swap. apply csum_ext. intros y Hy. rewrite csum_mul_l. fold (kernel ds x y). rewrite kernel_real by assumption. ring.
Qed.
Lemma accel_other inp out c mu : c <> mu -> fst (accel_step ds psq (inp, out) mu) c = inp c.
Proof. intro H. unfold accel_step. cbn [fst]. now apply Nat.eqb_neq in H as ->. Qed.
Lemma accel_fold : forall order inp out c, NoDup order -> 
  (In c order -> forall x, (x < nsites ds)%nat -> fst (fold_left (accel_step ds psq) order (inp, out)) c x = csum (nsites ds) (fun y => RtoC (kern ds x y) * inp c y)%C) /\
  (~ In c order -> fst (fold_left (accel_step ds psq) order (inp, out)) c = inp c).
Proof.
  induction order as [|m order IH]; intros inp out c Nd; [split; [contradiction|reflexivity]|]. inversion Nd as [|? ? Nm Nd']; subst. cbn [fold_left].
  destruct (accel_step ds psq (inp, out) m) as [inp1 out1] eqn:E. pose proof (IH inp1 out1 c Nd') as [I1 I2]. split.
  - intros [->|Hc] x Hx.
    + rewrite I2 by assumption. rewrite <- (accel_one inp out c x Hx), E. reflexivity.
    + rewrite I1 by assumption. assert (c <> m) by (intros ->; contradiction). pose proof (accel_other inp out c m H) as K. rewrite E in K. cbn [fst] in K. now rewrite K.
  - intro H. rewrite I2 by (intro; apply H; now right). assert (c <> m) by (intros ->; apply H; now left). pose proof (accel_other inp out c m H0) as K. rewrite E in K. exact K.
Qed.
Theorem FOURIER_ok sched n inp out X : any_order sched -> (2 <= n)%nat -> (forall x, (x < nsites ds)%nat -> carries n inp x (X x)) ->
  forall x, (x < nsites ds)%nat -> carries n (fst (FOURIER_ACCELERATE3 WithFFTW sched ds n psq (inp, out))) x (accelerated ds X x).
Proof.
  intros Any Hn Ca x Hx. apply (carries_accel ds Hok n inp _ X Hn Ca); [|assumption]. intros c y Hc Hy. unfold FOURIER_ACCELERATE3. fold (accel_step ds psq).
  destruct (perm_order _ _ (Any [2] (TRUE_HERM n))) as [Nd I]. apply (accel_fold _ inp out c Nd); [|assumption]. now apply I.
Qed.
End Accel.
