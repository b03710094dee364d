(* Properties C01 - C06: lattice geometry and the draughtboard. *)
From Coq Require Import Permutation.
From Verif Require Import CInt GeomModel GeomSpec GeomProofs GeomProofs2 DraughtModel DraughtProofs DraughtProofs2.

(* An anisotropic lattice used to show that hypotheses are satisfiable. *)
Definition lat_ex : list Z := [4; 6; 5; 8].
Example lat_ex_ok : lattice_ok lat_ex.
Proof. unfold lattice_ok, lat_ex, two31, prodZ. cbn. repeat split; try discriminate; try lia. repeat constructor; lia. Qed.
Example lat_ex_box : in_box lat_ex [3; 0; 4; 7] /\ index_of lat_ex [3;0;4;7] = 939.
Proof. split; [repeat constructor; lia|reflexivity]. Qed.

(* ---------------- C01 ---------------- *)
Theorem C01_coords_of_site : forall ds i, lattice_ok ds -> 0 <= i < lvolume ds ->
  exists x, get_mom_2piBZ ds i (length ds) = Some x /\ in_box ds x /\
            index_of ds x = i /\ gen_site ds x = Some i.
Proof. exact coords_of_site. Qed.
Print Assumptions C01_coords_of_site.

Theorem C01_site_of_coords : forall ds x, lattice_ok ds -> in_box ds x ->
  exists i, gen_site ds x = Some i /\ i = index_of ds x /\ 0 <= i < lvolume ds /\
            get_mom_2piBZ ds i (length ds) = Some x.
Proof. exact site_of_coords. Qed.
Print Assumptions C01_site_of_coords.

Theorem C01_volume : forall ds, lattice_ok ds -> lvolume ds = prodZ ds.
Proof. exact lvolume_prod. Qed.
Print Assumptions C01_volume.

Example C01_ex : 0 <= 700 < lvolume lat_ex /\ get_mom_2piBZ lat_ex 700 4 = Some [0;1;4;5].
Proof. vm_compute. intuition discriminate. Qed.

(* without the bound on the time-slice volume the claim is false: "int subvol"
   overflows and two sites get the same coordinates *)
Theorem C01_large_lattice_refuted : exists ds i j, Forall (fun L => 0 < L < two31) ds /\ 
  0 <= i < prodZ ds /\ 0 <= j < prodZ ds /\ i <> j /\
  get_mom_2piBZ ds i (length ds) = get_mom_2piBZ ds j (length ds).
Proof.
  exists [65536; 32768; 2; 2], 0, 2147483648. destruct large_lattice_collision as (H1 & H2 & H3).
  repeat split; try assumption; try discriminate; try lia; exact H3.
Qed.
Print Assumptions C01_large_lattice_refuted.

(* ---------------- C02 ---------------- *)
Theorem C02_neighbor_step : forall ds i mu x, lattice_ok ds -> (mu < length ds)%nat ->
  in_box ds x -> index_of ds x = i ->
  exists j y, neighbor ds i mu = Some j /\ 0 <= j < lvolume ds /\
              in_box ds y /\ index_of ds y = j /\ stepped ds x y mu 1.
Proof. exact neighbor_step. Qed.
Print Assumptions C02_neighbor_step.

Theorem C02_back_step : forall ds i mu x, lattice_ok ds -> (mu < length ds)%nat ->
  in_box ds x -> index_of ds x = i ->
  exists j y, back ds i mu = Some j /\ 0 <= j < lvolume ds /\
              in_box ds y /\ index_of ds y = j /\ stepped ds x y mu (-1).
Proof. exact back_step. Qed.
Print Assumptions C02_back_step.

Theorem C02_inverse : forall ds i mu, lattice_ok ds -> (mu < length ds)%nat -> 0 <= i < lvolume ds ->
  (do j <- neighbor ds i mu; back ds j mu) = Some i /\
  (do j <- back ds i mu; neighbor ds j mu) = Some i.
Proof. exact back_neighbor. Qed.
Print Assumptions C02_inverse.

Theorem C02_commute : forall ds i mu nu, lattice_ok ds -> (mu < length ds)%nat -> (nu < length ds)%nat ->
  0 <= i < lvolume ds ->
  (do j <- neighbor ds i mu; neighbor ds j nu) = (do j <- neighbor ds i nu; neighbor ds j mu) /\
  (do j <- neighbor ds i mu; back ds j nu) = (do j <- back ds i nu; neighbor ds j mu).
Proof. exact neighbors_commute. Qed.
Print Assumptions C02_commute.

Theorem C02_period : forall ds i mu L, lattice_ok ds -> nth_error ds mu = Some L -> 0 <= i < lvolume ds ->
  iter_opt (Z.to_nat L) (fun j => neighbor ds j mu) i = Some i /\
  (forall n, (0 < n < Z.to_nat L)%nat -> iter_opt n (fun j => neighbor ds j mu) i <> Some i).
Proof. exact neighbor_period. Qed.
Print Assumptions C02_period.

Example C02_ex : neighbor lat_ex 939 0 = Some 936 /\ back lat_ex 939 1 = Some 959 /\ neighbor lat_ex 939 3 = Some 99.
Proof. vm_compute. auto. Qed.

(* ---------------- C03 ---------------- *)
Theorem C03_hirep_order : forall ds i, lattice_ok ds -> 0 <= i < lvolume ds ->
  exists x, get_mom_2piBZ_hirep2 ds i = Some x /\ in_box ds x /\
            index_of (hirep_order 0 ds) (hirep_order 0 x) = i.
Proof. exact hirep_coords. Qed.
Print Assumptions C03_hirep_order.

Theorem C03_hirep_permutation : forall ds, lattice_ok ds ->
  (forall i, 0 <= i < lvolume ds -> exists s, hirep_site ds i = Some s /\ 0 <= s < lvolume ds) /\
  (forall i j, 0 <= i < lvolume ds -> 0 <= j < lvolume ds -> hirep_site ds i = hirep_site ds j -> i = j) /\
  (forall s, 0 <= s < lvolume ds -> exists i, 0 <= i < lvolume ds /\ hirep_site ds i = Some s).
Proof. exact hirep_permutation. Qed.
Print Assumptions C03_hirep_permutation.

Example C03_ex : hirep_site lat_ex 700 = Some 611 /\ hirep_order 0 lat_ex = [5;6;4;8].
Proof. vm_compute. auto. Qed.

(* ---------------- C04 ---------------- *)
(* full claim: for every lattice; proved for every momentum without a
   coordinate L/2 in an odd direction (so for all even extents) *)
Theorem C04_momconv_partial : forall ds i x, lattice_ok ds -> in_box ds x -> index_of ds x = i -> zone_ok ds x ->
  exists p, TwoPI_mpipi_momconv ds i (length ds) = Some p /\ zone_rep ds x p /\
            get_site_pipiBZ ds p (length ds) = Some i.
Proof. exact momconv_zone. Qed.
Print Assumptions C04_momconv_partial.

Theorem C04_even_extents : forall ds i x, lattice_ok ds -> Forall (fun L => Z.even L = true) ds ->
  in_box ds x -> index_of ds x = i ->
  exists p, TwoPI_mpipi_momconv ds i (length ds) = Some p /\ zone_rep ds x p /\
            get_site_pipiBZ ds p (length ds) = Some i.
Proof. intros ds i x Hok He Hx E. exact (momconv_zone ds i x Hok Hx E (zone_ok_even ds x Hx He)). Qed.
Print Assumptions C04_even_extents.

Theorem C04_momconv_refuted : exists ds i x p, lattice_ok ds /\ 0 <= i < lvolume ds /\
  get_mom_2piBZ ds i (length ds) = Some x /\ TwoPI_mpipi_momconv ds i (length ds) = Some p /\ ~ zone_rep ds x p.
Proof.
  exists [5;5;5;5], 2, [2;0;0;0], [2;-1;0;0]. destruct momconv_odd_wrong as (H1 & H2).
  split; [unfold lattice_ok, two31, prodZ; cbn; repeat split; try discriminate; try lia; repeat constructor; lia|].
  split; [vm_compute; intuition discriminate|]. split; [exact H1|]. split; [exact H2|].
  intros (_ & H & _). cbn in H. inversion H as [|? ? ? ? _ H']; subst. inversion H' as [|? ? ? ? H'' _]; subst. discriminate H''.
Qed.
Print Assumptions C04_momconv_refuted.

Example C04_ex : zone_ok lat_ex [3;5;1;4] /\ TwoPI_mpipi_momconv lat_ex (index_of lat_ex [3;5;1;4]) 4 = Some [-1;-1;1;-4].
Proof. split; [unfold zone_ok, lat_ex; repeat (constructor; [first [left; reflexivity | right; vm_compute; discriminate]|]); constructor|vm_compute; reflexivity]. Qed.

(* ---------------- C05 ---------------- *)
Theorem C05_spacing : forall ds x sep, lattice_ok ds -> in_box ds x -> sep_ok ds sep ->
  compute_spacing ds sep (index_of ds x) (length ds) = Some (index_of ds (translate ds x sep)) /\
  in_box ds (translate ds x sep).
Proof. exact compute_spacing_spec. Qed.
Print Assumptions C05_spacing.

Theorem C05_compose : forall ds k s t, lattice_ok ds -> 0 <= k < lvolume ds ->
  sep_ok ds s -> sep_ok ds t -> sep_ok ds (add_sep s t) ->
  (do j <- compute_spacing ds s k (length ds); compute_spacing ds t j (length ds))
  = compute_spacing ds (add_sep s t) k (length ds).
Proof. exact spacing_compose. Qed.
Print Assumptions C05_compose.

Theorem C05_inverse : forall ds k s, lattice_ok ds -> 0 <= k < lvolume ds ->
  sep_ok ds s -> sep_ok ds (neg_sep s) ->
  (do j <- compute_spacing ds s k (length ds); compute_spacing ds (neg_sep s) j (length ds)) = Some k.
Proof. exact spacing_inverse. Qed.
Print Assumptions C05_inverse.

Theorem C05_zero : forall ds k, lattice_ok ds -> 0 <= k < lvolume ds ->
  compute_spacing ds (zero_sep ds) k (length ds) = Some k.
Proof. exact spacing_zero. Qed.
Print Assumptions C05_zero.

Theorem C05_unit : forall ds k mu, lattice_ok ds -> 0 <= k < lvolume ds -> (mu < length ds)%nat ->
  compute_spacing ds (unit_sep ds mu 1) k (length ds) = neighbor ds k mu /\
  compute_spacing ds (unit_sep ds mu (-1)) k (length ds) = back ds k mu.
Proof. exact spacing_unit. Qed.
Print Assumptions C05_unit.

Theorem C05_rsq_min : forall ds x, lattice_ok ds -> Forall (fun L => L <= 65536) ds -> in_box ds x ->
  (length ds < 1000)%nat ->
  exists r, image_of ds x r /\ compute_rsq ds (index_of ds x) (length ds) = Some (sumsq r) /\
    (forall r', image_of ds x r' -> sumsq r <= sumsq r').
Proof. exact compute_rsq_min. Qed.
Print Assumptions C05_rsq_min.

(* separations below -L land on the wrong site (unsigned wrap-around) *)
Theorem C05_far_separation_refuted : exists ds x sep j, lattice_ok ds /\ in_box ds x /\
  compute_spacing ds sep (index_of ds x) (length ds) = Some j /\ j <> index_of ds (translate ds x sep).
Proof.
  exists [3;3], [0;0], [-4;0], 0. split; [unfold lattice_ok, two31, prodZ; cbn; repeat split; try discriminate; try lia; repeat constructor; lia|].
  split; [repeat constructor; lia|]. split; [exact (proj1 spacing_far_wrong)|]. vm_compute. discriminate.
Qed.
Print Assumptions C05_far_separation_refuted.

Example C05_ex : sep_ok lat_ex [2;-6;1;3] /\ sep_ok lat_ex (neg_sep [2;-6;1;3]) /\ 
  sep_ok lat_ex (add_sep [2;-6;1;3] [1;1;-1;-8]) /\
  compute_spacing lat_ex [2;-6;1;3] 939 4 = Some (index_of lat_ex [1;0;0;2]) /\
  compute_rsq lat_ex (index_of lat_ex [3;0;4;7]) 4 = Some 3.
Proof.
  split; [|split; [|split; [|split]]].
  - unfold sep_ok, lat_ex, two31. repeat (constructor; [lia|]). constructor.
  - unfold sep_ok, lat_ex, two31. repeat (constructor; [lia|]). constructor.
  - unfold sep_ok, lat_ex, two31. cbn [add_sep combine map fst snd]. repeat (constructor; [lia|]). constructor.
  - vm_compute; reflexivity.
  - vm_compute; reflexivity.
Qed.

(* ---------------- C06 ---------------- *)
(* every site of the first k directions is listed exactly once *)
Theorem C06_partition : forall ds k, lattice_ok ds -> (k <= length ds)%nat -> 1 < prodZ (firstn k ds) ->
  exists nc sq, init_cb ds (prodZ (firstn k ds)) k = Some (CbOk nc sq) /\ length sq = nc /\ (nc = 2 \/ nc = 3)%nat /\
    Permutation (concat sq) (zseq (prodZ (firstn k ds))) /\ Forall (fun s => s <> []) sq.
Proof. exact cb_partition_ok. Qed.
Print Assumptions C06_partition.

(* a lattice with a single site is refused *)
Theorem C06_single_site : forall ds k, lattice_ok ds -> (k <= length ds)%nat -> prodZ (firstn k ds) = 1 ->
  init_cb ds (prodZ (firstn k ds)) k = Some CbFailure.
Proof. exact cb_single. Qed.
Print Assumptions C06_single_site.

(* full claim: for all extents; proved when every odd extent is 1 or not 3n+1 *)
Theorem C06_not_neighbours_partial : forall ds k nc sq c s i j t,
  lattice_ok ds -> (k <= length ds)%nat -> race_free_extents (firstn k ds) ->
  init_cb ds (prodZ (firstn k ds)) k = Some (CbOk nc sq) ->
  nth_error sq c = Some s -> In i s -> In j s -> i <> j -> 0 <= t ->
  i + prodZ (firstn k ds) * t < lvolume ds -> j + prodZ (firstn k ds) * t < lvolume ds ->
  forall mu, (mu < length ds)%nat ->
  neighbor ds (i + prodZ (firstn k ds) * t) mu <> Some (j + prodZ (firstn k ds) * t).
Proof. exact cb_not_neighbours. Qed.
Print Assumptions C06_not_neighbours_partial.

Theorem C06_race_refuted : exists ds sq s i j mu, lattice_ok ds /\ init_cb ds (lvolume ds) (length ds) = Some (CbOk 3 sq) /\
  nth_error sq 0 = Some s /\ In i s /\ In j s /\ i <> j /\ neighbor ds i mu = Some j.
Proof.
  destruct cb_race_seven as (sq & s & H1 & H2 & H3 & H4 & H5). exists [7;2], sq, s, 6, 0, 0%nat.
  split; [unfold lattice_ok, two31, prodZ; cbn; repeat split; try discriminate; try lia; repeat constructor; lia|].
  repeat split; try assumption. discriminate.
Qed.
Print Assumptions C06_race_refuted.

(* every order of execution of the loop over one colour gives the same field:
   heat bath / over-relaxation sweeps *)
Theorem C06_link_schedule : forall (A : Type) ds (F : list A -> A -> A) mu nc sq c s s' f,
  lattice_ok ds -> race_free_extents ds -> (mu < length ds)%nat ->
  init_cb ds (lvolume ds) (length ds) = Some (CbOk nc sq) -> nth_error sq c = Some s -> Permutation s s' ->
  exists f1 f2, run_color ds F mu s f = Some f1 /\ run_color ds F mu s' f = Some f2 /\
    forall i nu, f1 i nu = f2 i nu.
Proof. intros A. exact (@link_phase_schedule A). Qed.
Print Assumptions C06_link_schedule.

(* gauge fixing, Landau and Coulomb *)
Theorem C06_landau_schedule : forall (A S : Type) ds (G : list A -> S) ML MR DIMS nc sq c s s' f,
  lattice_ok ds -> (DIMS <= length ds)%nat -> race_free_extents ds ->
  init_cb ds (lvolume ds) (length ds) = Some (CbOk nc sq) -> nth_error sq c = Some s -> Permutation s s' ->
  exists f1 f2, or_color ds G ML MR DIMS 0 s f = Some f1 /\ or_color ds G ML MR DIMS 0 s' f = Some f2 /\
    forall i nu, f1 i nu = f2 i nu.
Proof. intros A S. exact (@or_landau_schedule A S). Qed.
Print Assumptions C06_landau_schedule.

Theorem C06_coulomb_schedule : forall (A S : Type) ds (G : list A -> S) ML MR DIMS t T nc sq c s s' f,
  lattice_ok ds -> (DIMS <= length ds)%nat -> race_free_extents (removelast ds) ->
  nth_error ds (length ds - 1) = Some T -> 0 <= t < T ->
  init_cb ds (lcu ds) (length ds - 1) = Some (CbOk nc sq) -> nth_error sq c = Some s -> Permutation s s' ->
  exists f1 f2, or_color ds G ML MR DIMS t s f = Some f1 /\ or_color ds G ML MR DIMS t s' f = Some f2 /\
    forall i nu, f1 i nu = f2 i nu.
Proof. intros A S. exact (@or_coulomb_schedule A S). Qed.
Print Assumptions C06_coulomb_schedule.

Example C06_ex : race_free_extents [3;4;2] /\ exists a b c, init_cb [3;4;2] 24 3 = Some (CbOk 3 [a;b;c]) /\
  firstn 3 a = [0;5;6] /\ Permutation a (rev a) /\ init_cb [3;4;2] (lcu [3;4;2]) 2 <> None.
Proof.
  split; [unfold race_free_extents; repeat (constructor; [first [left; reflexivity | right; left; reflexivity | right; right; vm_compute; discriminate]|]); constructor|].
  eexists _, _, _. split; [vm_compute; reflexivity|]. split; [reflexivity|]. split; [apply Permutation_rev|].
  vm_compute. discriminate.
Qed.
