(** C57: the clover field strength, the action density and the topological charge. *)
From Coq Require Import PeanoNat Lia List ZArith Reals Lra Setoid Morphisms Permutation.
From Verif Require Import CMat Det Arr MatSpec MmulModel MmulProofs MatModel MatProofs MatProofs2 Su2Model Su2Proofs FieldModel FieldProofs FieldProofs2 FieldProofs3 ProjModel ProjProofs CloverModel CloverProofs CloverProofs2 CloverProofs3 CloverProofs4 CloverProofs5 CloverProofs6 CloverProofs7 CloverProofs8 CloverProofs9 CloverProofs10.
Import ListNotations.
Local Open Scope R_scope.

(** The energy and the charge are those of F_munu = the traceless Hermitian part of the sum of
    the weighted rectangles around the site: sum over planes of tr F^2, and
    -1/8 epsilon_abcd tr F_ab F_cd, whatever the order in which the sites are visited. *)
Theorem C57_energy_and_charge : forall b n ds lat w order, GeomSpec.lattice_ok ds -> length ds = 4%nat -> navig ds lat ->
  group_field n 4 (volume ds) lat -> fits b n -> Permutation order (seq 0 (volume ds)) ->
  compute_Gmunu b n lat w order =
  (factor b * lsum (map (energy n lat b) (seq 0 (volume ds))),
   factor b * (- / 8 * lsum (map (charge n lat b) (seq 0 (volume ds))))).
Proof.
  intros b n ds lat w order Hok L Nav Grp Fit P. pose proof (navig_geom ds lat Hok Nav) as Geo. rewrite L in Geo. now apply Gmunu_ok.
Qed.
Print Assumptions C57_energy_and_charge.

(** the topological charge density at each site is real and adds up to the total *)
Theorem C57_density : forall b n ds lat w order qtop, GeomSpec.lattice_ok ds -> length ds = 4%nat -> navig ds lat ->
  group_field n 4 (volume ds) lat -> fits b n -> Permutation order (seq 0 (volume ds)) ->
  (forall i, (i < volume ds)%nat -> compute_Gmunu_array b n lat w order qtop i = RtoC (factor b * (- / 8 * charge n lat b i))) /\
  (forall i, (volume ds <= i)%nat -> compute_Gmunu_array b n lat w order qtop i = qtop i) /\
  lsum (map (fun i => re (compute_Gmunu_array b n lat w order qtop i)) (seq 0 (volume ds))) = snd (compute_Gmunu b n lat w order).
Proof.
  intros b n ds lat w order qtop Hok L Nav Grp Fit P. pose proof (navig_geom ds lat Hok Nav) as Geo. rewrite L in Geo.
  assert (ND : NoDup order) by (eapply Permutation_NoDup; [symmetry; exact P|apply seq_NoDup]).
  assert (In1 : forall i, In i order <-> (i < volume ds)%nat).
  { intro i. split; intro H; [apply (Permutation_in _ P), in_seq in H; lia|apply (Permutation_in _ (Permutation_sym P)), in_seq; lia]. }
  assert (A : forall i, (i < volume ds)%nat -> compute_Gmunu_array b n lat w order qtop i = RtoC (factor b * (- / 8 * charge n lat b i))).
  { intros i Hi. rewrite (array_ok n (volume ds) lat b w Geo Grp Fit order qtop ND) by apply In1.
    destruct (in_dec Nat.eq_dec i order) as [|N]; [reflexivity|]. exfalso. apply N. now apply In1. }
  split; [exact A|]. split.
  - intros i Hi. rewrite (array_ok n (volume ds) lat b w Geo Grp Fit order qtop ND) by apply In1.
    destruct (in_dec Nat.eq_dec i order) as [H|]; [apply In1 in H; lia|reflexivity].
  - rewrite (C57_energy_and_charge b n ds) by assumption. cbn [snd].
    rewrite (lsum_ext _ _ (fun i => factor b * (- / 8 * charge n lat b i))).
    + generalize (seq 0 (volume ds)) as l. clear. induction l as [|x l IH]; cbn [map lsum]; [lra|]. rewrite IH. lra.
    + intros i Hi. apply seq_lt in Hi. now rewrite A.
Qed.
Print Assumptions C57_density.

(** the per-thread sums of the threaded routine add up to the same numbers, however the
    sites are dealt out to the threads and in whatever order they are done *)
Theorem C57_threads : forall b n ds lat w order CLINE Nthreads sched red, GeomSpec.lattice_ok ds -> length ds = 4%nat -> navig ds lat ->
  group_field n 4 (volume ds) lat -> fits b n -> Permutation order (seq 0 (volume ds)) -> (2 <= CLINE)%nat ->
  (forall t i, In (t, i) sched -> (t < Nthreads)%nat) -> Permutation (map snd sched) (seq 0 (volume ds)) ->
  let red' := compute_Gmunu_th b n lat w CLINE Nthreads sched red in
  rsum Nthreads (fun t => red' (0 + CLINE * t)%nat) = fst (compute_Gmunu b n lat w order) /\
  rsum Nthreads (fun t => red' (1 + CLINE * t)%nat) = snd (compute_Gmunu b n lat w order).
Proof.
  intros b n ds lat w order CLINE Nth sched red Hok L Nav Grp Fit P HC Ht Ps. pose proof (navig_geom ds lat Hok Nav) as Geo. rewrite L in Geo.
  cbv zeta. destruct (Gmunu_th_ok n (volume ds) lat b w CLINE Nth Geo Grp Fit HC sched red Ht Ps) as [E F].
  unfold share in E, F. rewrite E, F.
  rewrite (C57_energy_and_charge b n ds lat w order), (C57_energy_and_charge b n ds lat w (seq 0 (volume ds))) by (try assumption; apply Permutation_refl).
  now split.
Qed.
Print Assumptions C57_threads.

(** what the gradient flow stores: t, t^2 GG/(16 V), NORM Q, the plaquette *)
Theorem C57_measurement : forall b n ds lat w CLINE Nthreads sched red plaq t, GeomSpec.lattice_ok ds -> length ds = 4%nat -> navig ds lat ->
  group_field n 4 (volume ds) lat -> fits b n -> (2 <= CLINE)%nat ->
  (forall t i, In (t, i) sched -> (t < Nthreads)%nat) -> Permutation (map snd sched) (seq 0 (volume ds)) ->
  update_meas_list b n lat w CLINE Nthreads (volume ds) sched red plaq t =
  (t, t * t * (factor b * lsum (map (energy n lat b) (seq 0 (volume ds))) / (16 * INR (volume ds))),
   factor b * (- / 8 * lsum (map (charge n lat b) (seq 0 (volume ds)))) * NORM, plaq).
Proof.
  intros b n ds lat w CLINE Nth sched red plaq t Hok L Nav Grp Fit HC Ht Ps. pose proof (navig_geom ds lat Hok Nav) as Geo. rewrite L in Geo.
  unfold update_meas_list. rewrite flow_sums_ok.
  destruct (Gmunu_th_ok n (volume ds) lat b w CLINE Nth Geo Grp Fit HC sched red Ht Ps) as [E F]. rewrite E, F.
  rewrite (C57_energy_and_charge b n ds) by (try assumption; apply Permutation_refl). reflexivity.
Qed.
Print Assumptions C57_measurement.
(** the constant NORM of the code as a decimal fraction; it stands for -1/(64 pi^2) *)
Example C57_NORM : NORM = - 1583143494411527678811 / 10 ^ 24.
Proof. unfold NORM. lra. Qed.

Theorem C57_gauge_invariant : forall b n ds lat lat' g w w' order order' qtop, GeomSpec.lattice_ok ds -> length ds = 4%nat -> navig ds lat ->
  group_field n 4 (volume ds) lat -> fits b n -> group_gauge n (volume ds) g -> gauged n 4 (volume ds) g lat lat' ->
  Permutation order (seq 0 (volume ds)) -> Permutation order' (seq 0 (volume ds)) ->
  compute_Gmunu b n lat' w' order' = compute_Gmunu b n lat w order /\
  forall i, (i < volume ds)%nat -> compute_Gmunu_array b n lat' w' order' qtop i = compute_Gmunu_array b n lat w order qtop i.
Proof.
  intros b n ds lat lat' g w w' order order' qtop Hok L Nav Grp Fit GG Gau P P'. pose proof (navig_geom ds lat Hok Nav) as Geo. rewrite L in Geo.
  assert (Nav' : navig ds lat').
  { intros i mu Hi Hm. destruct Gau as [S _]. destruct (S i) as [-> ->]. now apply Nav. }
  assert (Grp' : group_field n 4 (volume ds) lat') by (eapply gauged_group; [apply (g_nbr _ _ _ Geo)|exact GG|exact Grp|exact Gau]).
  split; [now apply (Gmunu_gauged n (volume ds) lat lat' g)|]. intros i Hi.
  destruct (C57_density b n ds lat w order qtop Hok L Nav Grp Fit P) as [A _].
  destruct (C57_density b n ds lat' w' order' qtop Hok L Nav' Grp' Fit P') as [A' _]. rewrite A, A' by assumption.
  now rewrite (charge_gauged n (volume ds) lat lat' g Geo Gau GG b i Hi).
Qed.
Print Assumptions C57_gauge_invariant.

(** pure gauge fields have neither energy nor charge *)
Theorem C57_vacuum : forall b n ds lat g w order, GeomSpec.lattice_ok ds -> length ds = 4%nat -> navig ds lat ->
  group_gauge n (volume ds) g -> fits b n ->
  (forall i mu, (i < volume ds)%nat -> (mu < 4)%nat -> meq n (lnk n lat i mu) (mmul n (g i) (dag (g (nbr (lat i) mu))))) ->
  Permutation order (seq 0 (volume ds)) -> compute_Gmunu b n lat w order = (0, 0).
Proof.
  intros b n ds lat g w order Hok L Nav GG Fit Pure P. pose proof (navig_geom ds lat Hok Nav) as Geo. rewrite L in Geo.
  apply (pure_Gmunu n (volume ds) lat g Geo GG Pure); try assumption.
  intros i mu Hi Hm. eapply SUn_ext; [symmetry; now apply Pure|]. apply SUn_mmul; [now apply GG|apply SUn_dag, GG; now apply (g_nbr _ _ _ Geo)].
Qed.
Print Assumptions C57_vacuum.

(** the energy is not negative, and bounds the charge *)
Theorem C57_bound : forall b n ds lat w order, GeomSpec.lattice_ok ds -> length ds = 4%nat -> navig ds lat ->
  group_field n 4 (volume ds) lat -> fits b n -> Permutation order (seq 0 (volume ds)) ->
  0 <= fst (compute_Gmunu b n lat w order) /\
  2 * Rabs (snd (compute_Gmunu b n lat w order)) <= fst (compute_Gmunu b n lat w order).
Proof.
  intros b n ds lat w order Hok L Nav Grp Fit P. pose proof (navig_geom ds lat Hok Nav) as Geo. rewrite L in Geo.
  split; [now apply (GG_nonneg n (volume ds))|now apply (Q_bound n (volume ds))].
Qed.
Print Assumptions C57_bound.
(** no energy means no field strength anywhere *)
Theorem C57_zero_energy : forall b n ds lat w order, GeomSpec.lattice_ok ds -> length ds = 4%nat -> navig ds lat ->
  group_field n 4 (volume ds) lat -> fits b n -> Permutation order (seq 0 (volume ds)) ->
  fst (compute_Gmunu b n lat w order) = 0 ->
  forall i mu nu, (i < volume ds)%nat -> (mu < 4)%nat -> (nu < 4)%nat -> meq n (strength n lat b i mu nu) mzero.
Proof.
  intros b n ds lat w order Hok L Nav Grp Fit P. pose proof (navig_geom ds lat Hok Nav) as Geo. rewrite L in Geo.
  now apply GG_zero.
Qed.
Print Assumptions C57_zero_energy.

(** the plaquette build: the energy is 192 NC V (1 - average plaquette) *)
Theorem C57_plaquette : forall n ds lat w order tmp, GeomSpec.lattice_ok ds -> length ds = 4%nat -> navig ds lat ->
  group_field n 4 (volume ds) lat -> (2 <= n)%nat -> Permutation order (seq 0 (volume ds)) ->
  fst (compute_Gmunu Plaquette n lat w order) = 192 * INR n * INR (volume ds) * (1 - av_plaquette n 4 (volume ds) tmp lat).
Proof.
  intros n ds lat w order tmp Hok L Nav Grp Hn P. pose proof (navig_geom ds lat Hok Nav) as Geo. rewrite L in Geo.
  apply GG_plaquette; try assumption. unfold volume. apply GeomProofs.ok_volume in Hok as V. rewrite GeomProofs.lvolume_prod by assumption. lia.
Qed.
Print Assumptions C57_plaquette.

(** * The weights *)
(** the sum over the seven loops of a quadrant of weight times f(extents) *)
Definition moment (k : weights) (f : R -> R -> R) : R :=
  lsum (map (fun '(w, _, a, b) => w * f (INR a) (INR b)) (cells 1 k)).
(** the sum of the loops is normalised and free of the next two orders in the lattice spacing,
    for the build without k5 and for every k5 *)
Theorem C57_weights : forall b, (exists q, b = Improved q) \/ b = ImprovedNK5 ->
  moment (Clover_k b) (fun x y => x * y) = 1 /\
  moment (Clover_k b) (fun x y => x * y * (x ^ 2 + y ^ 2)) = 0 /\
  moment (Clover_k b) (fun x y => x * y * (x ^ 4 + y ^ 4)) = 0 /\
  moment (Clover_k b) (fun x y => x ^ 3 * y ^ 3) = 0.
Proof.
  intros b [[q ->]| ->]; unfold moment, cells; cbn [map lsum Clover_k k1 k2 k3 k4 k5 INR]; repeat split; field.
Qed.
Print Assumptions C57_weights.
(** the loops that are left out because their weight is at most 1e-8 *)
Theorem C57_dropped : forall b f, In f [k1; k2; k3; k4; k5] ->
  (f (used b) = f (Clover_k b) \/ (f (used b) = 0 /\ Rabs (f (Clover_k b)) <= / 100000000)) /\
  (f (Clover_k b) = 0 -> f (used b) = 0).
Proof.
  assert (K : forall x, (kept x (Rabs x) = x \/ kept x (Rabs x) = 0 /\ Rabs x <= / 100000000) /\ (x = 0 -> kept x (Rabs x) = 0)).
  { intro x. unfold kept, CL_TOL. destruct (Rlt_dec (/ 100000000) (Rabs x)); [split; [now left|intros ->; reflexivity]|].
    split; [right; split; [reflexivity|lra]|reflexivity]. }
  intros b f H. destruct b as [| | |q]; try (split; [now left|auto]).
  repeat (destruct H as [<-|H]; [apply K|]). destruct H.
Qed.
Print Assumptions C57_dropped.

(** * Four colours and more *)
(** With four or more colours the clover build gives a pure gauge field energy: the loops of
    the third quadrant use the product of two daggered links that forgets the conjugations. *)
Theorem C57_many_colours_refuted : exists ds, GeomSpec.lattice_ok ds /\ length ds = 4%nat /\ forall n, (4 <= n)%nat ->
  exists lat g, navig ds lat /\ group_gauge n (volume ds) g /\ group_field n 4 (volume ds) lat /\
  (forall i mu, (i < volume ds)%nat -> (mu < 4)%nat -> meq n (lnk n lat i mu) (mmul n (g i) (dag (g (nbr (lat i) mu))))) /\
  forall w, fst (compute_Gmunu Standard n lat w (seq 0 (volume ds))) = 6912 / 625.
Proof.
  exists [1; 1; 1; 2]%Z. split; [apply w_dims|]. split; [reflexivity|]. intros n Hn. exists (w_lat n), w_gauge.
  change (volume [1; 1; 1; 2]%Z) with 2%nat.
  split; [apply init_navig_ok, w_dims|]. split; [apply w_gauge_ok; lia|]. split; [apply w_group; lia|].
  split; [intros; apply w_pure; [lia|assumption|assumption]|]. intro w. now rewrite w_GG.
Qed.
Print Assumptions C57_many_colours_refuted.

(** * Examples *)
(** an SU(3) field on 1x1x1x2 with one link turned: not a vacuum *)
Definition c57_link (i mu : nat) : mat := if (Nat.eqb mu 0 && Nat.eqb i 0)%bool then twist else mid.
Definition c57_lat : lattice := init_navig [1; 1; 1; 2]%Z (fun i mu => pack 3 (c57_link i mu)).
Lemma c57_group : group_field 3 4 2 c57_lat.
Proof.
  intros i mu Hi Hm. eapply SUn_ext; [symmetry; apply (mx_pack 3)|]. unfold c57_link.
  destruct (_ && _)%bool; [apply twist_SU; lia|apply SUn_mid].
Qed.
Example C57_ex : GeomSpec.lattice_ok [1; 1; 1; 2]%Z /\ navig [1; 1; 1; 2]%Z c57_lat /\ group_field 3 4 (volume [1; 1; 1; 2]%Z) c57_lat /\
  fits Standard 3 /\ fits ImprovedNK5 3 /\ fits (Improved (1/20)) 2 /\ fits Plaquette 5 /\
  (forall w, 0 < fst (compute_Gmunu Plaquette 3 c57_lat w [1; 0]%nat)).
Proof.
  split; [apply w_dims|]. split; [apply init_navig_ok, w_dims|]. split; [apply c57_group|].
  split; [split; [lia|tauto]|]. split; [split; [lia|tauto]|]. split; [split; [lia|tauto]|]. split; [split; [lia|tauto]|]. intro w.
  assert (P : Permutation [1; 0]%nat (seq 0 (volume [1; 1; 1; 2]%Z))) by apply perm_swap.
  assert (Nav : navig [1; 1; 1; 2]%Z c57_lat) by apply init_navig_ok, w_dims.
  assert (F : fits Plaquette 3) by (split; [lia|tauto]).
  destruct (C57_bound Plaquette 3 _ c57_lat w _ w_dims eq_refl Nav c57_group F P) as [G _].
  destruct (Req_dec (fst (compute_Gmunu Plaquette 3 c57_lat w [1; 0]%nat)) 0) as [E|N]; [exfalso|lra].
  pose proof (C57_zero_energy Plaquette 3 _ c57_lat w _ w_dims eq_refl Nav c57_group F P E 0 3 0 ltac:(vm_compute; lia) ltac:(lia) ltac:(lia))%nat as Z.
  assert (N0 : nbr (c57_lat 0%nat) 0%nat = 0%nat) by (vm_compute; reflexivity).
  assert (N3 : nbr (c57_lat 0%nat) 3%nat = 1%nat) by (vm_compute; reflexivity).
  assert (Geo : geom_ok 4 2 c57_lat) by apply (navig_geom [1; 1; 1; 2]%Z c57_lat w_dims Nav).
  assert (Lk : forall i mu, meq 3 (lnk 3 c57_lat i mu) (c57_link i mu)) by (intros; apply (mx_pack 3)).
  assert (W : meq 3 (walk 3 c57_lat 0 (quadrant 1 3 0 1 1)) (dag twist)).
  { rewrite (plaquette_walk 3 2 c57_lat 0 3 0 Geo) by lia. unfold plaquette. rewrite N0, N3, !Lk. unfold c57_link. cbn [Nat.eqb andb].
    now rewrite dag_mid, !mmul_1_l. }
  assert (H : meq 3 (herm (loops_sum 3 c57_lat 0 3 0 (loops Plaquette))) (diag (lean (-(4/5))))).
  { intros p q Hp Hq. unfold herm, aherm, mscale, msub, dag. cbn [loops loops_sum]. unfold madd, mscale, mzero. rewrite !W by assumption.
    unfold dag, twist, embed, diag, lean, mid, ph. destruct p as [|[|[|p]]], q as [|[|[|q]]]; try lia; cbn [Nat.eqb]; apply C_eq; cunfold; cbn; lra. }
  specialize (Z 0 0 ltac:(lia) ltac:(lia))%nat. unfold strength, trf, msub, mscale in Z.
  assert (T : mtr 3 (herm (loops_sum 3 c57_lat 0 3 0 (loops Plaquette))) = C0).
  { rewrite H. unfold mtr, diag, lean, mid. cbn [csum Nat.eqb]. apply C_eq; cunfold; cbn; ring. }
  rewrite T, H in Z by lia. unfold diag, lean, mid, mzero in Z. cbn [Nat.eqb] in Z. apply (f_equal re) in Z. cbn in Z. lra.
Qed.
(** a schedule with two threads *)
Example C57_sched : Permutation (map snd [(1, 0); (0, 1)]%nat) (seq 0 (volume [1; 1; 1; 2]%Z)) /\
  forall t i, In (t, i) [(1, 0); (0, 1)]%nat -> (t < 2)%nat.
Proof. split; [apply Permutation_refl|]. intros t i [H|[H|[]]]; injection H; lia. Qed.
