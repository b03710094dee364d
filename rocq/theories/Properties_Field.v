(** C30-C33: the gauge field. *)
From Coq Require Import PeanoNat Lia List ZArith Reals Lra Permutation Setoid.
From Verif Require Import CMat Det Arr MatSpec MmulModel MmulProofs MatModel MatProofs MatProofs2 MatEx Su2Model Su2Proofs
  FieldModel FieldProofs FieldProofs2 FieldProofs3.
From Verif Require GeomModel GeomSpec GeomProofs GeomProofs2 CInt.
Import ListNotations.
Local Open Scope C_scope.

(** ** C30.  [navig ds lat]: the tables are those of init_navig; [group_field]: the
    links are special unitary.  The left and right scratch arrays may differ. *)
Theorem C30_plaquettes : forall n ds tmp tmp1 tmp2 gauge order lat, GeomSpec.lattice_ok ds -> navig ds lat ->
  let ND := length ds in let V := volume ds in
  group_field n ND V lat -> group_gauge n V (fun i => mx n (gauge i)) -> Permutation order (seq 0 V) ->
  let lat' := gtransform n ND tmp gauge order lat in
  all_plaquettes n ND V tmp1 lat' = all_plaquettes n ND V tmp2 lat /\
  av_plaquette n ND V tmp1 lat' = av_plaquette n ND V tmp2 lat /\
  s_plaq n ND V tmp1 lat' = s_plaq n ND V tmp2 lat /\ t_plaq n ND V tmp1 lat' = t_plaq n ND V tmp2 lat.
Proof.
  intros n ds tmp tmp1 tmp2 gauge order lat Hok Nav ND V F G P lat'.
  pose proof (navig_geom ds lat Hok Nav) as Geo. fold ND V in Geo.
  eapply plaquettes_gauged; [exact Geo|intros i Hi; apply (G i Hi)|apply gtransform_gauged; try assumption; apply Geo|].
  unfold ND. destruct Hok as (H & _). destruct ds; [congruence|cbn; lia].
Qed.
Print Assumptions C30_plaquettes.
(** what is summed: the real trace of U_mu(x) U_nu(x+mu) U_mu(x+nu)^dag U_nu(x)^dag *)
Theorem C30_face : forall n tmp lat i mu nu,
  face n tmp lat i mu nu = re (mtr n (mmul n (mmul n (mmul n (mx n (O (lat i) mu)) (mx n (O (lat (nbr (lat i) mu)) nu)))
     (dag (mx n (O (lat (nbr (lat i) nu)) mu)))) (dag (mx n (O (lat i) nu))))).
Proof. intros. apply complete_plaquette_ok. Qed.
Print Assumptions C30_face.
(** the averages: every plaquette counted once, normalised to 1.  [planes D]: the pairs nu < mu < D *)
Theorem C30_planes : forall D, NoDup (planes D) /\ forall mu nu, In (mu, nu) (planes D) <-> (nu < mu < D)%nat.
Proof. intro D. split; [apply planes_nodup|intros; apply planes_in]. Qed.
Print Assumptions C30_planes.
Theorem C30_average : forall n ND V tmp lat, (0 < n)%nat -> (3 <= ND)%nat -> (0 < V)%nat ->
  av_plaquette n ND V tmp lat = mean (plaq_values n V lat (planes ND)) /\
  s_plaq n ND V tmp lat = mean (plaq_values n V lat (planes (ND - 1))) /\
  (ND = 4%nat -> t_plaq n ND V tmp lat = mean (plaq_values n V lat (map (fun nu => (3, nu)%nat) (seq 0 3)))) /\
  (ND = 4%nat -> all_plaquettes n ND V tmp lat =
     (s_plaq n ND V tmp lat, t_plaq n ND V tmp lat, av_plaquette n ND V tmp lat)).
Proof.
  intros n ND V tmp lat Hn HD HV.
  assert (T : ND = 4%nat -> t_plaq n ND V tmp lat = mean (plaq_values n V lat (map (fun nu => (3, nu)%nat) (seq 0 3)))).
  { intros ->. rewrite t_plaq_mean by lia. change (INR (4 - 2)) with 2%R. change (time_planes 4) with (map (fun nu => (3, nu)%nat) (seq 0 3)). lra. }
  split; [now apply av_plaquette_mean; try lia|]. split; [now apply s_plaq_mean|]. split; [exact T|].
  intro E4. rewrite all_plaquettes_parts. f_equal. rewrite T, s_plaq_mean, av_plaquette_mean by (assumption || lia). subst ND.
  unfold mean. rewrite !plaq_values_len, !(plaq_values_sum _ _ _ _ tmp).
  change (planes 4) with (planes (4 - 1) ++ map (fun nu => (3, nu)%nat) (seq 0 3)).
  set (P := planes (4 - 1)). set (Q := map (fun nu => (3, nu)%nat) (seq 0 3)).
  assert (E : forall l, lsum (map (fun i => lsum (map (fun q => face n tmp lat i (fst q) (snd q)) (P ++ Q))) l) =
    (lsum (map (fun i => lsum (map (fun q => face n tmp lat i (fst q) (snd q)) P)) l) +
     lsum (map (fun i => lsum (map (fun q => face n tmp lat i (fst q) (snd q)) Q)) l))%R).
  { induction l as [|x l IH]; cbn [map lsum]; [lra|]. rewrite IH, map_app, lsum_app. lra. }
  rewrite E. change (length P) with 3%nat. change (length Q) with 3%nat. change (length (P ++ Q)) with 6%nat.
  rewrite !mult_INR. replace (INR 3) with 3%R by (cbn; lra). replace (INR 6) with 6%R by (cbn; lra).
  apply (lt_INR 0) in Hn, HV. cbn [INR] in Hn, HV. field. lra.
Qed.
Print Assumptions C30_average.
(** for unitary links every average lies between -1 and 1; for unit links it is 1 *)
Theorem C30_range : forall n ds tmp lat, GeomSpec.lattice_ok ds -> navig ds lat -> (0 < n)%nat ->
  let ND := length ds in let V := volume ds in (2 <= ND)%nat -> group_field n ND V lat ->
  (Rabs (av_plaquette n ND V tmp lat) <= 1)%R.
Proof.
  intros n ds tmp lat Hok Nav Hn ND V HD F. pose proof (navig_geom ds lat Hok Nav) as Geo. fold ND V in Geo.
  assert (HV : (0 < V)%nat) by (unfold V, volume; rewrite GeomProofs.lvolume_prod by assumption; assert (0 < GeomSpec.prodZ ds)%Z by (apply GeomProofs.prodZ_pos, GeomProofs.ok_pos; apply Hok); lia).
  rewrite av_plaquette_mean by assumption. apply mean_bound.
  - intro E. apply (f_equal (@length _)) in E. rewrite plaq_values_len in E. pose proof (planes_len ND). cbn in E. nia.
  - intros x Hx. unfold plaq_values in Hx. apply in_flat_map in Hx. destruct Hx as (i & Hi & Hx). apply in_seq in Hi.
    apply in_map_iff in Hx. destruct Hx as ([mu nu] & <- & Hq). apply planes_in in Hq. cbn [fst snd].
    assert (U : unitary n (plaquette n (mx n (O (lat i) mu)) (mx n (O (lat (nbr (lat i) mu)) nu)) (mx n (O (lat (nbr (lat i) nu)) mu)) (mx n (O (lat i) nu)))).
    { unfold plaquette. repeat apply unitary_mmul; try apply unitary_dag; apply F; try lia; apply Geo; lia. }
    apply re_mtr_bound in U. assert (0 < INR n)%R by (apply (lt_INR 0); lia).
    unfold Rdiv. rewrite Rabs_mult, Rabs_inv, (Rabs_pos_eq (INR n)) by lra.
    apply (Rmult_le_reg_r (INR n)); [assumption|]. rewrite Rmult_assoc, Rinv_l by lra. lra.
Qed.
Print Assumptions C30_range.
Theorem C30_unit : forall n ND V tmp lat, (0 < n)%nat -> (3 <= ND)%nat -> (0 < V)%nat ->
  (forall i mu, meq n (mx n (O (lat i) mu)) mid) ->
  av_plaquette n ND V tmp lat = 1%R /\ s_plaq n ND V tmp lat = 1%R /\ t_plaq n ND V tmp lat = (2 / INR (ND - 2))%R.
Proof.
  intros n ND V tmp lat Hn HD HV H.
  assert (K : forall ps, (0 < length ps)%nat -> mean (plaq_values n V lat ps) = 1%R).
  { intros ps Hps. apply mean_const.
    - intro E. apply (f_equal (@length _)) in E. rewrite plaq_values_len in E. cbn in E. nia.
    - intros x Hx. unfold plaq_values in Hx. apply in_flat_map in Hx. destruct Hx as (i & _ & Hx).
      apply in_map_iff in Hx. destruct Hx as (q & <- & _).
      assert (P : meq n (plaquette n (mx n (O (lat i) (fst q))) (mx n (O (lat (nbr (lat i) (fst q))) (snd q)))
         (mx n (O (lat (nbr (lat i) (snd q))) (fst q))) (mx n (O (lat i) (snd q)))) mid).
      { unfold plaquette. rewrite !H. rewrite !mmul_1_l. pose proof (unitary_mid n) as [U _]. rewrite mmul_1_l in U. now rewrite U, !mmul_1_l. }
      unfold mtr. rewrite (csum_ext n _ (fun _ => C1)) by (intros j Hj; rewrite (P j j Hj Hj); unfold mid; now rewrite Nat.eqb_refl).
      replace (re (csum n (fun _ => C1))) with (INR n); [apply Rinv_r, not_0_INR; lia|].
      clear. induction n as [|m IH]; [reflexivity|]. cbn [csum]. rewrite S_INR, re_add, <- IH. reflexivity. }
  pose proof (planes_len ND). pose proof (planes_len (ND - 1)).
  rewrite av_plaquette_mean, s_plaq_mean, t_plaq_mean by lia. rewrite !K; [split; [reflexivity|split; [reflexivity|lra]]|..].
  - unfold time_planes. rewrite map_length, seq_length. lia.
  - nia.
  - nia.
Qed.
Print Assumptions C30_unit.
(** the temporal plaquette and the combined one are not averages when ND is not 4:
    on three-dimensional lattices of unit links t_plaq returns 2 *)
Theorem C30_t_plaq_refuted : exists lat, navig [2; 2; 2]%Z lat /\ group_field 3 3 8 lat /\
  (forall i mu, meq 3 (mx 3 (O (lat i) mu)) mid) /\ t_plaq 3 3 8 (fun _ => C0) lat = 2%R.
Proof.
  set (one := fun k => if Nat.eqb (k mod 4) 0 then C1 else C0).
  assert (One : meq 3 (mx 3 one) mid) by (split3; reflexivity).
  exists (init_navig [2; 2; 2]%Z (fun _ _ => one)).
  assert (Hok : GeomSpec.lattice_ok [2; 2; 2]%Z) by (split; [discriminate|]; split; [|reflexivity]; repeat (apply Forall_cons; [unfold CInt.two31; lia|]); constructor).
  split; [now apply init_navig_ok|]. split; [|split].
  - intros i mu _ _. apply (SUn_ext 3 mid); [symmetry; exact One|apply SUn_mid].
  - intros i mu. exact One.
  - refine (eq_trans (proj2 (proj2 (C30_unit 3 3 8 _ _ _ _ _ _))) _); try lia; [intros i mu; exact One|].
    change (INR (3 - 2)) with 1%R. lra.
Qed.
Print Assumptions C30_t_plaq_refuted.
Theorem C30_polyakov : forall n ds tmp tmp1 tmp2 gauge order lat dir, GeomSpec.lattice_ok ds -> navig ds lat ->
  let ND := length ds in let V := volume ds in
  group_field n ND V lat -> group_gauge n V (fun i => mx n (gauge i)) -> Permutation order (seq 0 V) ->
  poly n ds tmp1 (gtransform n ND tmp gauge order lat) dir = poly n ds tmp2 lat dir.
Proof.
  intros n ds tmp tmp1 tmp2 gauge order lat dir Hok Nav ND V F G P.
  pose proof (navig_geom ds lat Hok Nav) as Geo. fold ND V in Geo.
  eapply poly_gauged; [assumption|assumption|intros i Hi; apply (G i Hi)|apply gtransform_gauged; try assumption; apply Geo].
Qed.
Print Assumptions C30_polyakov.
(** the loops averaged are the closed ordered products starting from each site with
    coordinate zero in the direction of the loop, once *)
Theorem C30_loop_starts : forall ds dir, GeomSpec.lattice_ok ds ->
  let l := map (fun i => poly_site ds i dir) (seq 0 (Z.to_nat (subvol ds 0 dir))) in
  NoDup l /\ forall k, In (Some k) l <->
    exists x, GeomSpec.in_box ds x /\ GeomSpec.index_of ds x = Z.of_nat k /\ (forall c, nth_error x dir = Some c -> c = 0%Z).
Proof. exact start_sites_ok. Qed.
Print Assumptions C30_loop_starts.
Theorem C30_loop : forall n p lat s dir len, meq n (mx n (small_poly n p lat s dir len)) (line n lat dir (len - 1) s).
Proof. intros. apply small_poly_ok. Qed.
Print Assumptions C30_loop.

(** a 2x3 lattice with links that are not all equal, and a gauge field *)
Definition ex_lat : lattice := init_navig [2; 3]%Z (fun i mu => if Nat.eqb i 1 then ex_su3 else fun k => if Nat.eqb (k mod 4) 0 then C1 else C0).
Definition ex_gauge (i : nat) : arr := if Nat.even i then ex_su3 else fun k => if Nat.eqb (k mod 4) 0 then C1 else C0.
Lemma ex_one_ok : SUn 3 (mx 3 (fun k => if Nat.eqb (k mod 4) 0 then C1 else C0)).
Proof. apply (SUn_ext 3 mid); [|apply SUn_mid]. split3; reflexivity. Qed.
Lemma ex_dims : GeomSpec.lattice_ok [2; 3]%Z.
Proof.
  split; [discriminate|]. split; [|reflexivity].
  constructor; [unfold CInt.two31; lia|]. constructor; [unfold CInt.two31; lia|]. constructor.
Qed.
Example C30_ex : GeomSpec.lattice_ok [2; 3]%Z /\ navig [2; 3]%Z ex_lat /\ volume [2; 3]%Z = 6%nat /\
  group_field 3 2 6 ex_lat /\ group_gauge 3 6 (fun i => mx 3 (ex_gauge i)) /\ map (nbr (ex_lat 5%nat)) [0; 1]%nat = [4; 1]%nat.
Proof.
  split; [exact ex_dims|]. split; [apply init_navig_ok, ex_dims|]. split; [reflexivity|]. split; [|split].
  - intros i mu _ _. unfold lnk. cbn. destruct (Nat.eqb i 1); [apply SUn_3, ex_su3_ok|apply ex_one_ok].
  - intros i _. unfold ex_gauge. destruct (Nat.even i); [apply SUn_3, ex_su3_ok|apply ex_one_ok].
  - reflexivity.
Qed.

(** ** C31 *)
Theorem C31_transform : forall n ds tmp gauge order lat, GeomSpec.lattice_ok ds -> navig ds lat ->
  let ND := length ds in let V := volume ds in
  group_field n ND V lat -> group_gauge n V (fun i => mx n (gauge i)) -> Permutation order (seq 0 V) ->
  let lat' := gtransform n ND tmp gauge order lat in
  same_geom lat lat' /\ forall i mu, (i < V)%nat -> (mu < ND)%nat ->
    meq n (mx n (O (lat' i) mu)) (mmul n (mmul n (mx n (gauge i)) (mx n (O (lat i) mu))) (dag (mx n (gauge (nbr (lat i) mu))))) /\
    SUn n (mx n (O (lat' i) mu)).
Proof.
  intros n ds tmp gauge order lat Hok Nav ND V F G P lat'. pose proof (navig_geom ds lat Hok Nav) as Geo. fold ND V in Geo.
  pose proof (gtransform_gauged n ND V tmp gauge order lat P (g_nbr _ _ _ Geo) F G) as Ga.
  split; [apply Ga|]. intros i mu Hi Hm. split; [now apply Ga|]. now apply (gauged_group n ND V _ lat lat' (g_nbr _ _ _ Geo) G F Ga).
Qed.
Print Assumptions C31_transform.
Theorem C31_compose : forall n ds tmp tmp1 tmp2 g h hg o1 o2 o3 lat, GeomSpec.lattice_ok ds -> navig ds lat ->
  let ND := length ds in let V := volume ds in
  group_field n ND V lat -> group_gauge n V (fun i => mx n (g i)) -> group_gauge n V (fun i => mx n (h i)) ->
  Permutation o1 (seq 0 V) -> Permutation o2 (seq 0 V) -> Permutation o3 (seq 0 V) ->
  (forall i, (i < V)%nat -> meq n (mx n (hg i)) (mmul n (mx n (h i)) (mx n (g i)))) ->
  forall i mu, (i < V)%nat -> (mu < ND)%nat ->
    meq n (mx n (O (gtransform n ND tmp1 h o2 (gtransform n ND tmp g o1 lat) i) mu)) (mx n (O (gtransform n ND tmp2 hg o3 lat i) mu)).
Proof.
  intros n ds tmp tmp1 tmp2 g h hg o1 o2 o3 lat Hok Nav ND V F G H P1 P2 P3 E i mu Hi Hm.
  pose proof (navig_geom ds lat Hok Nav) as Geo. fold ND V in Geo.
  pose proof (gtransform_gauged n ND V tmp g o1 lat P1 (g_nbr _ _ _ Geo) F G) as G1. set (l1 := gtransform n ND tmp g o1 lat) in *.
  pose proof (gauged_group n ND V _ lat l1 (g_nbr _ _ _ Geo) G F G1) as F1.
  assert (Geo1 : geom_ok ND V l1) by (eapply geom_ok_same; [apply G1|exact Geo]).
  pose proof (gtransform_gauged n ND V tmp1 h o2 l1 P2 (g_nbr _ _ _ Geo1) F1 H) as G2.
  assert (HG : group_gauge n V (fun i => mx n (hg i))).
  { intros j Hj. eapply SUn_ext; [symmetry; now apply E|]. apply SUn_mmul; [now apply H|now apply G]. }
  pose proof (gtransform_gauged n ND V tmp2 hg o3 lat P3 (g_nbr _ _ _ Geo) F HG) as G3.
  pose proof (gauged_compose n ND V _ _ _ _ _ G1 G2) as G12. destruct G12 as [_ A]. destruct G3 as [_ B].
  specialize (A i mu Hi Hm). specialize (B i mu Hi Hm). unfold lnk in *. rewrite A, B.
  rewrite !E by (try assumption; now apply Geo). reflexivity.
Qed.
Print Assumptions C31_compose.
Theorem C31_inverse : forall n ds tmp tmp1 g gd o1 o2 lat, GeomSpec.lattice_ok ds -> navig ds lat ->
  let ND := length ds in let V := volume ds in
  group_field n ND V lat -> group_gauge n V (fun i => mx n (g i)) ->
  Permutation o1 (seq 0 V) -> Permutation o2 (seq 0 V) ->
  (forall i, (i < V)%nat -> meq n (mx n (gd i)) (dag (mx n (g i)))) ->
  forall i mu, (i < V)%nat -> (mu < ND)%nat ->
    meq n (mx n (O (gtransform n ND tmp1 gd o2 (gtransform n ND tmp g o1 lat) i) mu)) (mx n (O (lat i) mu)).
Proof.
  intros n ds tmp tmp1 g gd o1 o2 lat Hok Nav ND V F G P1 P2 E i mu Hi Hm.
  pose proof (navig_geom ds lat Hok Nav) as Geo. fold ND V in Geo.
  pose proof (gtransform_gauged n ND V tmp g o1 lat P1 (g_nbr _ _ _ Geo) F G) as G1. set (l1 := gtransform n ND tmp g o1 lat) in *.
  pose proof (gauged_group n ND V _ lat l1 (g_nbr _ _ _ Geo) G F G1) as F1.
  assert (Geo1 : geom_ok ND V l1) by (eapply geom_ok_same; [apply G1|exact Geo]).
  assert (GD : group_gauge n V (fun i => mx n (gd i))).
  { intros j Hj. eapply SUn_ext; [symmetry; now apply E|]. now apply SUn_dag, G. }
  pose proof (gtransform_gauged n ND V tmp1 gd o2 l1 P2 (g_nbr _ _ _ Geo1) F1 GD) as G2.
  pose proof (gauged_inverse n ND V _ lat l1 (g_nbr _ _ _ Geo) (fun j Hj => proj1 (G j Hj)) G1) as [_ A]. destruct G2 as [_ B].
  specialize (A i mu Hi Hm). specialize (B i mu Hi Hm). unfold lnk in *. rewrite A, B.
  rewrite !E by (try assumption; now apply Geo1). reflexivity.
Qed.
Print Assumptions C31_inverse.
(** transforming the time slices one by one, in any order, is the same transformation *)
Theorem C31_slices : forall n ds T tmp gauge slices lat, GeomSpec.lattice_ok (ds ++ [T]) -> navig (ds ++ [T]) lat ->
  let LCU := Z.to_nat (GeomSpec.prodZ ds) in let ND := length (ds ++ [T]) in let V := volume (ds ++ [T]) in
  Permutation (map fst slices) (seq 0 (Z.to_nat T)) -> (forall t order, In (t, order) slices -> Permutation order (seq 0 LCU)) ->
  group_field n ND V lat -> (forall t i, (t < Z.to_nat T)%nat -> (i < LCU)%nat -> SUn n (mx n (gauge t i))) ->
  gauged n ND V (fun j => mx n (gauge (j / LCU)%nat (j mod LCU)%nat)) lat
    (fold_left (fun lat '(t, order) =>
       gtransform_slice n ND LCU tmp (gauge t) (gauge (if Nat.eqb (S t) (Z.to_nat T) then 0 else S t)%nat) t order lat) slices lat).
Proof. exact slice_transform_gauged. Qed.
Print Assumptions C31_slices.
Example C31_ex : exists g h : nat -> arr, group_gauge 3 6 (fun i => mx 3 (g i)) /\ group_gauge 3 6 (fun i => mx 3 (h i)) /\
  ~ meq 3 (mmul 3 (mx 3 (h 0%nat)) (mx 3 (g 0%nat))) mid.
Proof.
  exists ex_gauge, ex_gauge. split; [apply C30_ex|]. split; [apply C30_ex|].
  intro H. specialize (H 0 0 ltac:(lia) ltac:(lia))%nat. unfold mmul, mx, mid, ex_gauge, ex_su3, lst in H.
  cbn [csum Nat.add Nat.mul nth Nat.eqb Nat.even] in H. apply (f_equal re) in H. cunfold. lra.
Qed.

(** ** C32.  [steps] is any sequence of (subgroup, site, random number) *)
Theorem C32_gauge_transformation : forall n ds p DIMS steps lat lat', GeomSpec.lattice_ok ds -> navig ds lat ->
  let ND := length ds in let V := volume ds in
  (forall k i r, In (k, i, r) steps -> (k < n*(n-1)/2)%nat /\ (i < V)%nat) ->
  OR_steps n ND p DIMS steps lat = Some lat' ->
  exists g, group_gauge n V g /\ gauged n ND V g lat lat'.
Proof.
  intros n ds p DIMS steps lat lat' Hok Nav ND V Hs H.
  apply (OR_steps_gauged n ND V p DIMS steps lat lat' (navig_geom ds lat Hok Nav) Hs H).
Qed.
Print Assumptions C32_gauge_transformation.
Theorem C32_observables : forall n ds p DIMS steps lat lat' tmp1 tmp2 dir, GeomSpec.lattice_ok ds -> navig ds lat ->
  let ND := length ds in let V := volume ds in
  (forall k i r, In (k, i, r) steps -> (k < n*(n-1)/2)%nat /\ (i < V)%nat) ->
  OR_steps n ND p DIMS steps lat = Some lat' ->
  all_plaquettes n ND V tmp1 lat' = all_plaquettes n ND V tmp2 lat /\
  av_plaquette n ND V tmp1 lat' = av_plaquette n ND V tmp2 lat /\
  poly n ds tmp1 lat' dir = poly n ds tmp2 lat dir /\
  (group_field n ND V lat -> group_field n ND V lat').
Proof.
  intros n ds p DIMS steps lat lat' tmp1 tmp2 dir Hok Nav ND V Hs H.
  destruct (C32_gauge_transformation n ds p DIMS steps lat lat' Hok Nav Hs H) as (g & Hg & Ga). fold ND V in Hg, Ga.
  pose proof (navig_geom ds lat Hok Nav) as Geo. fold ND V in Geo.
  assert (HD : (0 < ND)%nat) by (unfold ND; destruct Hok as (Q & _); destruct ds; [congruence|cbn; lia]).
  destruct (plaquettes_gauged n ND V g lat lat' Geo (fun j Hj => proj1 (Hg j Hj)) Ga tmp2 tmp1 HD) as (A & B & _).
  split; [exact A|]. split; [exact B|]. split; [now apply (poly_gauged n ds g); [| |intros j Hj; apply Hg|]|].
  intro F. apply (gauged_group n ND V g lat lat' (g_nbr _ _ _ Geo) Hg F Ga).
Qed.
Print Assumptions C32_observables.
(** a step is undefined exactly when both sums over the links at the site vanish *)
Theorem C32_defined : forall n ND lat k p i DIMS rng,
  OR_single n ND lat k p i DIMS rng = None <-> or_sums n k i DIMS lat = (C0, C0).
Proof.
  intros n ND lat k p i DIMS rng. unfold OR_single. destruct (or_sums n k i DIMS lat) as [s0 s1].
  destruct (or_rotation s0 s1 rng p) as [[t0 t1]|] eqn:E.
  - split; [discriminate|]. intro H. injection H as -> ->. assert (X : or_rotation C0 C0 rng p = None) by (apply or_rotation_none; now split). congruence.
  - apply or_rotation_none in E. destruct E as [-> ->]. now split.
Qed.
Print Assumptions C32_defined.
(** ... which happens: diag(i,-i,1) on every link *)
Definition diag_i : arr := lst [Ci; C0; C0; C0; - Ci; C0; C0; C0; C1].
Lemma diag_i_ok : SU3 (mx 3 diag_i).
Proof.
  split; [split; split3|]; unfold det3, mmul, dag, mx, mid, diag_i, lst; cbn [csum Nat.add Nat.mul nth Nat.eqb]; apply C_eq; cunfold; lra.
Qed.
Theorem C32_undefined_refuted : exists lat, navig [2; 3]%Z lat /\ group_field 3 2 6 lat /\
  forall i p rng, OR_single 3 2 lat 0 p i 2 rng = None.
Proof.
  exists (init_navig [2; 3]%Z (fun _ _ => diag_i)). split; [apply init_navig_ok, ex_dims|]. split.
  - intros i mu _ _. apply SUn_3, diag_i_ok.
  - intros i p rng. apply C32_defined. unfold or_sums, or_idx1, or_idx2. change (su2_data 3 0) with (0, 1, 3, 4)%nat. cbn.
    unfold diag_i, lst. cbn. f_equal; apply C_eq; cunfold; lra.
Qed.
Print Assumptions C32_undefined_refuted.
Example C32_ex : exists lat', OR_steps 3 2 (1/2) 2 [(0, 5, 1%R)]%nat ex_lat = Some lat'.
Proof.
  cbn [OR_steps]. destruct (OR_single 3 2 ex_lat 0 (1/2) 5 2 1) as [l1|] eqn:E; [eexists; reflexivity|].
  exfalso. apply C32_defined in E. unfold or_sums in E. change (su2_data 3 0) with (0, 1, 3, 4)%nat in E. cbn [for_] in E.
  assert (B0 : bck (ex_lat 5%nat) 0%nat = 4%nat) by (vm_compute; reflexivity).
  assert (B1 : bck (ex_lat 5%nat) 1%nat = 3%nat) by (vm_compute; reflexivity). rewrite B0, B1 in E.
  apply (f_equal (fun p => re (fst p))) in E. unfold ex_lat, init_navig in E. cbn [O] in E.
  change (or_idx1 3 0) with 0%nat in E. change (or_idx1 3 4) with 4%nat in E. change (or_idx2 3 0) with 0%nat in E.
  change (or_idx2 3 4) with 4%nat in E.
  cbn [Nat.eqb] in E. change (0 mod 4)%nat with 0%nat in E. change (4 mod 4)%nat with 0%nat in E. cbn [Nat.eqb fst] in E. cunfold. lra.
Qed.

(** ** C33.  The staples, and their sum over the directions below [dir] other than mu *)
Theorem C33_staples : forall n ds tmp1 tmp2 stap lat i mu dir, GeomSpec.lattice_ok ds -> navig ds lat ->
  let ND := length ds in let V := volume ds in
  group_field n ND V lat -> (i < V)%nat -> (mu < dir)%nat -> (dir <= ND)%nat ->
  holds n (all_staples n tmp1 tmp2 stap lat i mu dir) stap
    (madd (mx n stap) (msum (map (staple n lat i mu) (filter (fun nu => negb (Nat.eqb nu mu)) (seq 0 dir))))).
Proof.
  intros n ds tmp1 tmp2 stap lat i mu dir Hok Nav ND V F Hi Hm Hd.
  apply (all_staples_ok n ND V); try assumption. now apply navig_geom.
Qed.
Print Assumptions C33_staples.
Theorem C33_staples_covariant_partial : forall n ds g lat lat' a1 a2 b1 b2 z i mu dir, GeomSpec.lattice_ok ds -> navig ds lat ->
  let ND := length ds in let V := volume ds in
  group_field n ND V lat -> group_gauge n V g -> gauged n ND V g lat lat' -> (forall k, (k < n*n)%nat -> z k = C0) ->
  (i < V)%nat -> (mu < dir)%nat -> (dir <= ND)%nat ->
  meq n (mx n (all_staples n a1 a2 z lat' i mu dir))
        (mmul n (mmul n (g i) (mx n (all_staples n b1 b2 z lat i mu dir))) (dag (g (nbr (lat i) mu)))).
Proof.
  intros n ds g lat lat' a1 a2 b1 b2 z i mu dir Hok Nav ND V F G Ga Hz Hi Hm Hd.
  pose proof (navig_geom ds lat Hok Nav) as Geo. fold ND V in Geo.
  assert (Geo' : geom_ok ND V lat') by (eapply geom_ok_same; [apply Ga|exact Geo]).
  pose proof (gauged_group n ND V g lat lat' (g_nbr _ _ _ Geo) G F Ga) as F'.
  destruct (all_staples_ok n ND V a1 a2 z lat' i mu dir Geo' F' Hi Hm Hd) as [E1 _].
  destruct (all_staples_ok n ND V b1 b2 z lat i mu dir Geo F Hi Hm Hd) as [E2 _].
  assert (Z : meq n (mx n z) mzero) by (intros p q Hp Hq; apply Hz; unfold mx; nia).
  rewrite E1, E2, Z, !madd_0_l. apply (staple_sum_gauged n ND V); try assumption; [intros j Hj; apply (G j Hj)|lia].
Qed.
Print Assumptions C33_staples_covariant_partial.
Example C33_ex : navig [2; 3]%Z ex_lat /\ group_field 3 2 6 ex_lat /\ filter (fun nu => negb (Nat.eqb nu 1)) (seq 0 4) = [0; 2; 3]%nat.
Proof. split; [apply C30_ex|]. split; [apply C30_ex|reflexivity]. Qed.
