(** The U(1) fields: time slices, odd extents, three dimensions. *)
From Coq Require Import Permutation Psatz.
From Verif Require Import CInt GeomModel GeomSpec GeomProofs GeomProofs2 Cplx CMat Arr MatModel FftModel FftProofs QtopModel QtopSpec QtopProofs QtopProofs2 QtopProofs4.
From Verif Require Import SmearModel StaticModel StaticProofs GluonModel GluonSpec GluonProofs GluonProofs2 GluonProofs3 GluonProofs4 InstProofs InstProofs2 CfgProofs SmearProofs DraughtProofs2 U1Model U1Spec U1Proofs U1Proofs2 U1Proofs3.
Local Open Scope Z_scope.

(** * The sum over a time slice *)
Section Slice.
Variables (sd : list Z) (L : Z).
Local Notation ds := (sd ++ [L]).
Hypothesis pos : Forall (fun L => 0 < L) ds.
Lemma sd_pos : Forall (fun L => 0 < L) sd /\ 0 < L.
Proof. apply Forall_app in pos as [H1 H2]. split; [assumption|]. now inversion H2. Qed.
Lemma slice_digits i t : (i < nsites sd)%nat -> digits ds (Z.of_nat (i + nsites sd * t)) = digits sd (Z.of_nat i) ++ [Z.of_nat t mod L].
Proof.
  intro Hi. destruct sd_pos as [Ps PL]. pose proof (prodZ_pos sd Ps) as Pp. rewrite digits_app by (assumption || lia).
  replace (Z.of_nat (i + nsites sd * t)) with (Z.of_nat i + prodZ sd * Z.of_nat t) by (unfold nsites in *; nia). rewrite digits_shift by assumption. f_equal. cbn [digits]. f_equal. f_equal.
  rewrite Z.mul_comm, Z.div_add, Z.div_small by (unfold nsites in *; lia). lia.
Qed.
Lemma zero_digits p : spatially_zero ds p = forallb (fun c => c =? 0) (digits sd (Z.of_nat p)).
Proof.
  destruct sd_pos as [Ps PL]. unfold spatially_zero. rewrite app_length. cbn [length]. replace (length sd + 1 - 1)%nat with (length sd) by lia.
  assert (E : map (fun mu => coord ds mu p) (seq 0 (length sd)) = digits sd (Z.of_nat p)).
  { rewrite <- coords_digits by assumption. unfold coords. apply map_ext_in. intros mu Hmu. apply in_seq in Hmu. unfold coord. rewrite firstn_app, app_nth1 by lia. replace (mu - length sd)%nat with 0%nat by lia. cbn [firstn]. now rewrite app_nil_r. }
  rewrite <- E. generalize (seq 0 (length sd)). intro l. induction l as [|m l IH]; [reflexivity|]. cbn [forallb map]. now rewrite IH.
Qed.
Lemma periods_zero l x : in_box l x -> periods l x = forallb (fun c => c =? 0) x.
Proof.
  induction 1 as [|M c l x Hc H IH]; [reflexivity|]. unfold periods in *. cbn [combine forallb fst snd]. rewrite IH. f_equal. rewrite Z.mod_small by lia. reflexivity.
Qed.
Lemma mirror_zero p : spatially_zero ds (mirror ds p) = spatially_zero ds p.
Proof.
  destruct sd_pos as [Ps PL]. rewrite !zero_digits. pose proof (mirror_digits ds pos p) as E. rewrite !digits_app in E by (assumption || lia).
  assert (M : forall a b x y, length a = length x -> mdig (a ++ b) (x ++ y) = mdig a x ++ mdig b y).
  { clear. induction a as [|M a IH]; intros b [|c x] y H; try discriminate; [reflexivity|]. cbn [app]. rewrite !mdig_cons. cbn [app]. f_equal. apply IH. cbn in H. lia. }
  rewrite M in E by (symmetry; apply digits_length). apply app_inj_tail in E as [E _]. rewrite E.
  pose proof (digits_in_box sd (Z.of_nat p) Ps) as B. clear -B. induction B as [|d c l x Hc B IH]; [reflexivity|]. rewrite mdig_cons. cbn [forallb]. rewrite IH. f_equal.
  destruct (Z.eqb_spec c 0) as [->|N]; [reflexivity|]. rewrite negmod by lia. lia.
Qed.
Lemma mode_zero noise p : spatially_zero ds p = true -> mode_of ds noise p = C0.
Proof.
  intro H. unfold mode_of. assert (W : forall q, spatially_zero ds q = true -> (RtoC (weight ds q) * noise q)%C = C0) by (intros q Hq; unfold weight; rewrite Hq; destruct (noise q); cring).
  cbv zeta. rewrite !W by (rewrite ?mirror_zero; assumption). destruct (Nat.eqb _ _); [reflexivity|]. destruct (Nat.ltb _ _); [reflexivity|]. cring.
Qed.
Theorem slice_sum noise t : csum (nsites sd) (fun i => photon ds noise (i + nsites sd * t)%nat) = C0.
Proof.
  destruct sd_pos as [Ps PL]. unfold photon.
  rewrite (csum_mul_l (nsites sd) (RtoC (1 / sqrt (INR (nsites ds)))) (fun i => csum (nsites ds) (fun p => mode_of ds noise p * wave ds p (i + nsites sd * t)%nat)%C)). rewrite csum_swap.
  rewrite (csum_ext _ _ (fun _ => C0)); [rewrite csum_0; cring|]. intros p Hp. rewrite (csum_mul_l (nsites sd) (mode_of ds noise p) (fun i => wave ds p (i + nsites sd * t)%nat)).
  destruct (spatially_zero ds p) eqn:Z0; [rewrite mode_zero by assumption; ring|].
  rewrite (csum_ext _ _ (fun i => conj (cis (2 * PI * (IZR (Z.of_nat t mod L) * IZR (Z.of_nat p / prodZ sd mod L) / IZR L))) * conj (cis (2 * PI * phase sd (digits sd (Z.of_nat i)) (digits sd (Z.of_nat p)))))%C).
  - rewrite (csum_mul_l (nsites sd) _ (fun i => conj (cis (2 * PI * phase sd (digits sd (Z.of_nat i)) (digits sd (Z.of_nat p)))))). rewrite <- csum_conj. rewrite nsites_size, ortho by (assumption || apply digits_length).
    rewrite periods_zero by (now apply digits_in_box). rewrite <- zero_digits, Z0. cring.
  - intros i Hi. rewrite wave_cis by assumption. rewrite slice_digits by assumption. rewrite digits_app by (assumption || lia). rewrite phase_app by (rewrite digits_length; reflexivity). cbn [digits phase].
    rewrite <- !cis_opp, <- cis_add. f_equal. ring.
Qed.
End Slice.

(** * Odd extents *)
Lemma odd_temp ds : Forall (fun L => 0 < L < two31) ds -> forall mu DIMS, (mu + length ds <= DIMS)%nat ->
  site_2piBZ_temp ds (map Z.opp (map (fun p => fst p - Z.shiftr (snd p) 1) (combine (digits ds 0) ds))) mu DIMS = map (fun L => if Z.even L then 0 else -1) ds.
Proof.
  induction 1 as [|L ds F0 F IH]; intros mu DIMS HD; [reflexivity|]. cbn [length] in HD. cbn [digits]. rewrite Z.mod_0_l, Z.div_0_l by lia. cbn [combine map fst snd site_2piBZ_temp]. f_equal; [|apply IH; lia].
  replace (mu =? DIMS)%nat with false by (symmetry; apply Nat.eqb_neq; lia). rewrite Z.shiftr_div_pow2 by lia. change (2 ^ 1) with 2. cbv zeta.
  destruct (half_bounds L F0) as (Hh & Hh'). rewrite (i32_id (L/2)) by (unfold two31 in *; lia). rewrite (i32_id L) by (unfold two31 in *; lia).
  assert (P : L = 2 * (L / 2) + if Z.even L then 0 else 1) by (rewrite (Z.div_mod L 2) at 1 by lia; rewrite Zmod_even; lia). set (h := L / 2) in *. replace (- (0 - h) >=? h) with true by lia.
  destruct (Z.even L).
  - replace (- (0 - h) - L <? h) with true by lia. lia.
  - replace (- (0 - h) - L <? h) with true by lia. lia.
Qed.
Lemma u64_neg n : - two64 < n < 0 -> u64 n = two64 + n.
Proof. intro H. unfold u64. symmetry. apply (Z.mod_unique_pos _ _ (-1)); unfold two64 in *; lia. Qed.
Lemma u64_lin d a b : u64 (d * u64 a + b) = u64 (d * a + b).
Proof. unfold u64. rewrite (Z.add_mod (d * (a mod _))), Z.mul_mod_idemp_r, <- Z.add_mod by discriminate. reflexivity. Qed.
Section Odd.
Variables d0 d1 d2 d3 : Z.
Local Notation ds := [d0; d1; d2; d3].
Hypothesis Hok : lattice_ok ds.
Hypothesis Hodd : Exists (fun L => Z.even L = false) ds.
Lemma odd_site : exists b, conjugate_site ds 0 = Some b /\ prodZ ds <= b.
Proof.
  pose proof (ok_volume ds Hok) as Hv. pose proof Hok as (_ & F & P). unfold conjugate_site, get_mom_pipi. change (length ds) with 4%nat.
  rewrite (mom_pipi_digits ds 0 0 1 4%nat F ltac:(lia) ltac:(lia) ltac:(cbn; lia) ltac:(lia)). cbn [bindo]. rewrite Z.div_1_r. unfold get_site_2piBZ.
  rewrite (odd_temp ds F) by (cbn; lia). cbn [map gen_site bindo]. eexists. split; [reflexivity|].
  cbn [removelast] in P. unfold prodZ in P |- *. cbn [fold_right] in P |- *. rewrite ?Z.mul_1_r in *.
  repeat match goal with H : Forall _ (_ :: _) |- _ => inversion H; clear H; subst end.
  assert (T : forall L, let t := (if Z.even L then 0 else -1) in -1 <= t <= 0) by (intro L; cbv zeta; destruct (Z.even L); lia).
  pose proof (T d0) as T0. pose proof (T d1) as T1. pose proof (T d2) as T2. pose proof (T d3) as T3. cbv zeta in *.
  assert (Neg : (if Z.even d0 then 0 else -1) < 0 \/ (if Z.even d1 then 0 else -1) < 0 \/ (if Z.even d2 then 0 else -1) < 0 \/ (if Z.even d3 then 0 else -1) < 0).
  { clear -Hodd. inversion Hodd as [? ? E|? ? H]; subst; [rewrite E; lia|]. inversion H as [? ? E|? ? H1]; subst; [rewrite E; lia|]. inversion H1 as [? ? E|? ? H2]; subst; [rewrite E; lia|]. inversion H2 as [? ? E|? ? H3]; subst; [rewrite E; lia|]. inversion H3. }
  set (t0 := if Z.even d0 then 0 else -1) in *. set (t1 := if Z.even d1 then 0 else -1) in *. set (t2 := if Z.even d2 then 0 else -1) in *. set (t3 := if Z.even d3 then 0 else -1) in *. clearbody t0 t1 t2 t3.
  assert (M : forall d x B, 0 < d -> - B <= x <= 0 -> - (d * B) <= d * x <= 0) by (intros; nia).
  assert (M' : forall d x, 0 < d -> x < 0 -> d * x < 0) by (intros; nia).
  pose proof (M d2 t3 1 ltac:(lia) ltac:(lia)) as B2. pose proof (M d1 (d2 * t3 + t2) (d2 + 1) ltac:(lia) ltac:(lia)) as B1. pose proof (M d0 (d1 * (d2 * t3 + t2) + t1) (d1 * (d2 + 1) + 1) ltac:(lia) ltac:(lia)) as B0.
  assert (Q : d0 * (d1 * (d2 + 1) + 1) = d0 * (d1 * d2) + d0 * d1 + d0) by ring.
  assert (U0 : d0 <= d0 * (d1 * d2)) by (assert (1 <= d1 * d2) by nia; nia). assert (U1 : d0 * d1 <= d0 * (d1 * d2)) by (rewrite Z.mul_assoc; nia).
  assert (N : d0 * (d1 * (d2 * t3 + t2) + t1) + t0 < 0).
  { destruct (Z.eq_dec t0 0) as [Z0|]; [|lia]. enough (d1 * (d2 * t3 + t2) + t1 < 0) by (pose proof (M' d0 _ ltac:(lia) H); lia).
    destruct (Z.eq_dec t1 0) as [Z1|]; [|lia]. enough (d2 * t3 + t2 < 0) by (pose proof (M' d1 _ ltac:(lia) H); lia).
    destruct (Z.eq_dec t2 0) as [Z2|]; [|lia]. pose proof (M' d2 t3 ltac:(lia) ltac:(lia)). lia. }
  rewrite !u64_lin. replace (d0 * (d1 * u64 (d2 * t3 + t2) + t1) + t0) with (d0 * d1 * u64 (d2 * t3 + t2) + (d0 * t1 + t0)) by ring. rewrite u64_lin.
  replace (d0 * d1 * (d2 * t3 + t2) + (d0 * t1 + t0)) with (d0 * (d1 * (d2 * t3 + t2) + t1) + t0) by ring.
  rewrite u64_neg by (unfold two31, two64 in *; lia).
  assert (V62 : d0 * (d1 * (d2 * d3)) <= (two31 - 1) * (two31 - 1)).
  { replace (d0 * (d1 * (d2 * d3))) with (d0 * (d1 * d2) * d3) by ring. apply Z.mul_le_mono_nonneg; lia. }
  unfold two31, two64 in *. lia.
Qed.
Theorem odd_fails sched NC alpha charge noise inp out psq lat : suNC_cross_u1 WithFFTW sched ds NC alpha charge noise inp out psq lat = None.
Proof.
  pose proof (gen_pos ds Hok) as pos. unfold suNC_cross_u1. rewrite lvolume_prod by assumption. fold (nsites ds).
  destruct (mfor_write (nsites ds) (psq_entry ds) (weight ds) (psq_ok ds Hok) psq) as (psq' & E & F). rewrite E. cbn [bindo].
  unfold create_u1, periodic_dft. assert (Zp : 0 <= compute_zeropoint ds) by (unfold compute_zeropoint; rewrite Z.shiftr_nonneg; unfold u64, two64; apply Z.mod_pos_bound; lia).
  replace (Z.to_nat (compute_zeropoint ds + 1)) with (S (Z.to_nat (compute_zeropoint ds))) by lia. cbn [seq mfor]. unfold symmetrise at 1. rewrite lvolume_prod by assumption. change (Z.of_nat 0) with 0. pose proof (prodZ_pos ds pos) as Pp.
  replace (0 <? prodZ ds) with true by lia. destruct odd_site as (b & Eb & Hb). rewrite Eb. cbn [bindo]. replace (0 =? b) with false by lia. replace (b <? 0) with false by lia. replace (b <? prodZ ds) with false by lia. reflexivity.
Qed.
End Odd.

(** * Three dimensions: the sites beyond the tenth keep what was drawn *)
Definition cube4 : list Z := [4; 4; 4].
Lemma cube4_ok : lattice_ok cube4.
Proof. split; [discriminate|]; split; [repeat (constructor; [unfold two31; lia|]); constructor|reflexivity]. Qed.
Lemma cube4_even : Forall (fun L => Z.even L = true) cube4. Proof. repeat constructor. Qed.
Definition one_mode (k0 mu k : nat) : C := if Nat.eqb k k0 then C1 else C0.
Lemma cube4_zero : (Z.to_nat (compute_zeropoint cube4 + 1) = 11)%nat. Proof. reflexivity. Qed.
Lemma cube4_mirror : mirror cube4 63%nat = 21%nat. Proof. vm_compute. reflexivity. Qed.
Lemma upto_one k : (k < nsites cube4)%nat -> upto cube4 11%nat (fun k => RtoC (weight cube4 k) * one_mode 63%nat 0%nat k)%C k = (mid 63%nat k * RtoC (weight cube4 63%nat))%C.
Proof.
  intro Hk. unfold upto, one_mode, mid.
  assert (Z1 : forall w, (RtoC w * C0)%C = C0) by (intro; cring).
  destruct (Nat.eqb_spec k 63) as [->|N].
  - rewrite cube4_mirror. cbn [Nat.eqb Nat.ltb Nat.leb]. ring.
  - replace (Nat.eqb 63 k) with false by (symmetry; apply Nat.eqb_neq; lia). rewrite Z1. destruct (Nat.eqb k (mirror cube4 k)); [destruct (Nat.ltb k 11); cring|]. destruct (Nat.ltb k (mirror cube4 k)); [cring|].
    destruct (Nat.ltb_spec (mirror cube4 k) 11); [|cring]. replace (Nat.eqb (mirror cube4 k) 63) with false by (symmetry; apply Nat.eqb_neq; lia). rewrite Z1. cring.
Qed.
Lemma cube4_weight : (0 < weight cube4 63%nat)%R.
Proof.
  unfold weight. replace (spatially_zero cube4 63%nat) with false by (vm_compute; reflexivity). unfold Rdiv. rewrite Rmult_1_l. apply Rinv_0_lt_compat, sqrt_lt_R0, phat2_pos; [exact cube4_ok|vm_compute; reflexivity].
Qed.
Lemma cube4_photon x : photon cube4 (one_mode 63%nat 0%nat) x = C0.
Proof.
  unfold photon. rewrite (csum_ext _ _ (fun _ => C0)); [rewrite csum_0; cring|]. intros p Hp.
  assert (M : mode_of cube4 (one_mode 63%nat 0%nat) p = C0); [|rewrite M; ring]. unfold mode_of, one_mode. cbv zeta. assert (Z1 : forall w, (RtoC w * C0)%C = C0) by (intro; cring).
  destruct (Nat.eqb_spec p (mirror cube4 p)) as [E|N].
  - destruct (Nat.eqb_spec p 63) as [->|N63]; [rewrite cube4_mirror in E; discriminate E|]. rewrite Z1. reflexivity.
  - destruct (Nat.ltb_spec p (mirror cube4 p)) as [Lt|Ge].
    + destruct (Nat.eqb_spec p 63) as [->|N63]; [rewrite cube4_mirror in Lt; lia|]. apply Z1.
    + destruct (Nat.eqb_spec (mirror cube4 p) 63) as [E|N63]; [|rewrite Z1; cring]. pose proof (mirror_invol cube4 (gen_pos _ cube4_ok) p Hp) as I. rewrite E, cube4_mirror in I. lia.
Qed.
Lemma cube4_field sched NC alpha charge inp out psq lat : any_order sched -> exists out' lat', suNC_cross_u1 WithFFTW sched cube4 NC alpha charge (one_mode 63%nat) inp out psq lat = Some (0, out', lat') /\ re (out' 0%nat 0%nat) <> 0%R.
Proof.
  intro Any. destruct (fields_gen cube4 cube4_ok sched Any NC alpha charge (one_mode 63%nat) inp out psq lat cube4_even) as (out' & lat' & E & F & _); [rewrite cube4_zero; change (nsites cube4) with 64%nat; lia|].
  exists out', lat'. split; [exact E|]. rewrite F by (change (nsites cube4) with 64%nat; cbn; lia). rewrite cube4_zero.
  assert (D : dft FORWARD cube4 (upto cube4 11%nat (fun k => RtoC (weight cube4 k) * one_mode 63%nat 0%nat k)%C) 0%nat = RtoC (weight cube4 63%nat)).
  { unfold dft. rewrite (csum_ext _ _ (fun k => mid 63%nat k * RtoC (weight cube4 63%nat))%C); [rewrite csum_delta_l by (change (fft_size cube4) with 64%nat; lia); reflexivity|]. intros k Hk. rewrite upto_one by exact Hk.
    rewrite phase_sym. assert (P : phase cube4 (digits cube4 (Z.of_nat k)) (digits cube4 (Z.of_nat 0)) = 0%R).
    { change (digits cube4 (Z.of_nat 0)) with [0; 0; 0]. unfold cube4. cbn [digits phase]. unfold Rdiv. ring. }
    rewrite P, !Rmult_0_r, cis_0. ring. }
  cbn [re fst RtoC]. change (fun k : nat => (RtoC (weight cube4 k) * one_mode 63%nat 0%nat k)%C) with (fun k => RtoC (weight cube4 k) * one_mode 63%nat 0%nat k)%C. rewrite D. cbn [re fst RtoC]. pose proof cube4_weight as W.
  assert (P : (0 < 1 / sqrt (INR (nsites cube4)))%R). { unfold Rdiv. rewrite Rmult_1_l. apply Rinv_0_lt_compat, sqrt_lt_R0, lt_0_INR. change (nsites cube4) with 64%nat. lia. }
  intro H. apply Rmult_integral in H as [H|H]; lra.
Qed.
