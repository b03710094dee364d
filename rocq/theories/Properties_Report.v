(** C70: what is reported about a gauge fixed field. *)
From Coq Require Import Permutation Lia Lra.
From Verif Require Import CInt GeomModel GeomSpec GeomProofs GeomProofs2 Cplx CMat Det Arr MatModel MatSpec MatProofs ProjModel ProjProofs HypProofs FieldModel FieldProofs FieldProofs2 FieldProofs3 QtopModel NumModel GluonSpec GluonProofs GluonProofs2 GluonProofs3 GluonProofs4 QtopProofs2 LandauModel LandauSpec LandauProofs LandauProofs2 LandauProofs6 ReportModel ReportSpec ReportProofs ReportProofs2.
Import ListNotations.
Local Open Scope R_scope.

Definition sites3 (ds : list Z) : nat := Z.to_nat (prodZ ds).
Lemma slice_group n ds T lat : lattice_ok (ds ++ [T]) -> group_field n (length (ds ++ [T])) (volume (ds ++ [T])) lat -> group_field n (length (ds ++ [T])) (sites3 ds * Z.to_nat T) lat.
Proof. intros Hok F. destruct (slice_dims ds T Hok) as (_ & _ & _ & E). cbv zeta in E. unfold sites3. now rewrite <- E. Qed.
Lemma nd_pos (ds : list Z) T : (0 < length (ds ++ [T]))%nat.
Proof. rewrite app_length. cbn. lia. Qed.
Lemma slices_shape n ds T tmp lat t : (2 <= n)%nat -> lattice_ok (ds ++ [T]) -> group_field n (length (ds ++ [T])) (volume (ds ++ [T])) lat -> (t < Z.to_nat T)%nat ->
  meq n (mx n (slice_field n (length (ds ++ [T])) (sites3 ds) tmp lat t)) (slice_charge n (length (ds ++ [T])) (sites3 ds) lat t) /\
  herm_traceless n (mx n (slice_field n (length (ds ++ [T])) (sites3 ds) tmp lat t)).
Proof.
  intros Hn Hok F Ht. pose proof (slice_field_ok n _ _ (Z.to_nat T) tmp lat t Hn (nd_pos ds T) Ht (slice_group n ds T lat Hok F)) as E. split; [exact E|].
  eapply herm_traceless_meq; [exact E|]. apply slice_charge_shape. lia.
Qed.

(** In Landau gauge the sums of the temporal field over the time slices are the same, and the temporal
    constance printed is 0: for every SU(N) field on every lattice of at least two time slices, however the
    slices are shared out. *)
Theorem C70_constant : forall sched n ds T tmp lat, any_order sched -> (2 <= n)%nat -> lattice_ok (ds ++ [T]) -> (1 < T)%Z -> navig (ds ++ [T]) lat ->
  group_field n (length (ds ++ [T])) (volume (ds ++ [T])) lat -> landau_gauge n (length (ds ++ [T])) (volume (ds ++ [T])) lat ->
  (forall t, (t < Z.to_nat T)%nat -> meq n (slice_charge n (length (ds ++ [T])) (sites3 ds) lat t) (slice_charge n (length (ds ++ [T])) (sites3 ds) lat 0)) /\
  const_time sched n (length (ds ++ [T])) (sites3 ds) (Z.to_nat T) tmp lat = Some 0.
Proof.
  intros sched n ds T tmp lat Any Hn Hok HT Nav F L. pose proof (landau_slices n ds T lat Hok Nav L) as S0. split; [exact S0|].
  apply const_time_zero; [assumption|assumption|lia|]. intros t Ht. left.
  destruct (slices_shape n ds T tmp lat t Hn Hok F Ht) as [E1 H1]. destruct (slices_shape n ds T tmp lat 0 Hn Hok F ltac:(lia)) as [E0 H0].
  apply slice_difference_same; try assumption. rewrite E0, E1. symmetry. now apply S0.
Qed.
Print Assumptions C70_constant.

(** From SU(3) on the converse for the slices: 0 is printed only if the sums over all slices are the same. *)
Theorem C70_detects : forall sched n ds T tmp lat, any_order sched -> (3 <= n)%nat -> lattice_ok (ds ++ [T]) -> (1 < T)%Z ->
  group_field n (length (ds ++ [T])) (volume (ds ++ [T])) lat ->
  const_time sched n (length (ds ++ [T])) (sites3 ds) (Z.to_nat T) tmp lat = Some 0 <->
  (forall t, (t < Z.to_nat T)%nat -> meq n (slice_charge n (length (ds ++ [T])) (sites3 ds) lat t) (slice_charge n (length (ds ++ [T])) (sites3 ds) lat 0)).
Proof.
  intros sched n ds T tmp lat Any Hn Hok HT F. rewrite const_time_zero by (assumption || lia). destruct (slices_shape n ds T tmp lat 0 ltac:(lia) Hok F ltac:(lia)) as [E0 H0]. split; intros K t Ht.
  - destruct (slices_shape n ds T tmp lat t ltac:(lia) Hok F Ht) as [E1 H1]. destruct (K t Ht) as [D|D]; [|subst; reflexivity].
    apply slice_difference_zero in D; [|assumption|assumption|assumption]. rewrite <- E1, <- E0. now symmetry.
  - destruct (slices_shape n ds T tmp lat t ltac:(lia) Hok F Ht) as [E1 H1]. left. apply slice_difference_zero; [assumption|assumption|assumption|]. rewrite E0, E1. symmetry. now apply K.
Qed.
Print Assumptions C70_detects.

(** What is printed from SU(3) on: the absolute values of the entries of the differences to the first slice, by N^2 (T-1). *)
Theorem C70_value : forall sched n ds T tmp lat, any_order sched -> (3 <= n)%nat -> lattice_ok (ds ++ [T]) -> (1 < T)%Z ->
  group_field n (length (ds ++ [T])) (volume (ds ++ [T])) lat ->
  const_time sched n (length (ds ++ [T])) (sites3 ds) (Z.to_nat T) tmp lat =
  Some (dsum (Z.to_nat T - 1) (fun k => entries_apart n (slice_charge n (length (ds ++ [T])) (sites3 ds) lat 0) (slice_charge n (length (ds ++ [T])) (sites3 ds) lat (S k))) / INR (n * n * (Z.to_nat T - 1))).
Proof.
  intros sched n ds T tmp lat Any Hn Hok HT F. rewrite const_time_value by (assumption || lia). do 2 f_equal. apply dsum_ext. intros k Hk.
  destruct (slices_shape n ds T tmp lat 0 ltac:(lia) Hok F ltac:(lia)) as [E0 H0]. destruct (slices_shape n ds T tmp lat (S k) ltac:(lia) Hok F ltac:(lia)) as [E1 H1].
  rewrite slice_difference_value by assumption. unfold entries_apart. apply dsum_ext. intros i Hi. apply dsum_ext. intros j Hj. now rewrite (E0 i j Hi Hj), (E1 i j Hi Hj).
Qed.
Print Assumptions C70_value.

(** For SU(2) only the entry above the diagonal is compared.  Missing: the diagonal. *)
Theorem C70_su2_partial : forall sched ds T tmp lat, any_order sched -> lattice_ok (ds ++ [T]) -> (1 < T)%Z ->
  group_field 2 (length (ds ++ [T])) (volume (ds ++ [T])) lat ->
  const_time sched 2 (length (ds ++ [T])) (sites3 ds) (Z.to_nat T) tmp lat = Some 0 <->
  (forall t, (t < Z.to_nat T)%nat -> slice_charge 2 (length (ds ++ [T])) (sites3 ds) lat t 0%nat 1%nat = slice_charge 2 (length (ds ++ [T])) (sites3 ds) lat 0 0%nat 1%nat).
Proof.
  intros sched ds T tmp lat Any Hok HT F. rewrite const_time_zero by (assumption || lia). destruct (slices_shape 2 ds T tmp lat 0 ltac:(lia) Hok F ltac:(lia)) as [E0 _].
  pose proof (E0 0 1 ltac:(lia) ltac:(lia))%nat as A0. unfold mx in A0. cbn [Nat.add Nat.mul] in A0. split; intros K t Ht; destruct (slices_shape 2 ds T tmp lat t ltac:(lia) Hok F Ht) as [E1 _];
    pose proof (E1 0 1 ltac:(lia) ltac:(lia))%nat as A1; unfold mx in A1; cbn [Nat.add Nat.mul] in A1.
  - destruct (K t Ht) as [D|D]; [|subst; reflexivity]. cbn [slice_difference] in D. rewrite Rminus_diag_eq, Rabs_R0 in D by reflexivity. rewrite <- A0, <- A1. symmetry. apply cabs_sub. lra.
  - left. cbn [slice_difference]. rewrite Rminus_diag_eq, Rabs_R0 by reflexivity. rewrite A0, A1, (proj2 (cabs_sub _ _)) by (symmetry; now apply K). ring.
Qed.
Print Assumptions C70_su2_partial.

(** * Small fields *)
(** diag(i,-i), diag(-i,i) and the unit matrix *)
Definition turn (s : Z) : arr := fun k => match k with 0%nat => (match s with 0%Z => C1 | Zpos _ => Ci | Zneg _ => - Ci end)%C | 3%nat => (match s with 0%Z => C1 | Zpos _ => - Ci | Zneg _ => Ci end)%C | _ => C0 end.
Lemma turn_SUn s : SUn 2 (mx 2 (turn s)).
Proof.
  apply SUn_2. split; [split; intros i j Hi Hj; unfold mmul, dag, mx, mid; cbn [csum]; destruct i as [|[|i]]; try lia; destruct j as [|[|j]]; try lia; cbn [Nat.add Nat.mul Nat.eqb turn]; destruct s; cring
    |unfold det2, mx; cbn [Nat.add Nat.mul turn]; destruct s; cring].
Qed.
Definition sgn (s : Z) : C := match s with 0%Z => C0 | Zpos _ => C1 | Zneg _ => (- C1)%C end.
Lemma herm_turn s : meq 2 (herm (mx 2 (turn s))) (mscale (sgn s) sigma3).
Proof. intros i j Hi Hj. unfold herm, aherm, mscale, msub, dag, mx, sigma3. destruct i as [|[|i]]; try lia; destruct j as [|[|j]]; try lia; cbn [Nat.add Nat.mul turn]; destruct s; cbn [sgn]; unfold RtoC, C1, C0, Ci; cunfold; cbn; f_equal; field. Qed.
Lemma trf_turn s : meq 2 (trf 2 (herm (mx 2 (turn s)))) (mscale (sgn s) sigma3).
Proof. rewrite trf_traceless0; [exact (herm_turn s)|]. rewrite herm_turn. unfold mtr, mscale, sigma3. cbn [csum]. ring. Qed.

(** An SU(2) field on 2 x 2 sites: the links of the second time slice in time direction are diag(i,-i), the others unit matrices. *)
Definition steps_lat : lattice := init_navig [2; 2]%Z (fun i mu => turn (if (Nat.leb 2 i && Nat.eqb mu 1)%bool then 1 else 0)).
Lemma box_ok : lattice_ok [2; 2]%Z.
Proof. split; [discriminate|]. split; [repeat (constructor; [unfold two31; lia|]); constructor|reflexivity]. Qed.
Lemma steps_field : group_field 2 2 4 steps_lat.
Proof. intros x mu _ _. unfold lnk, steps_lat, init_navig. cbn [O]. apply turn_SUn. Qed.
Lemma steps_charge t : (t < 2)%nat -> meq 2 (slice_charge 2 2 2 steps_lat t) (mscale (match t with 0%nat => C0 | _ => C1 + C1 end)%C sigma3).
Proof.
  intros Ht i j Hi Hj. unfold slice_charge, msum. cbn [csum]. unfold lnk, steps_lat, init_navig. cbn [O Nat.sub].
  destruct t as [|[|t]]; [| |lia]; cbn [Nat.mul Nat.add Nat.leb Nat.eqb andb]; rewrite !(trf_turn _ i j Hi Hj); cbn [sgn]; unfold mscale; ring.
Qed.
(** For SU(2) 0 is printed although the sums differ, so that the field is not in Landau gauge. *)
Theorem C70_su2_refuted : exists ds T lat, lattice_ok (ds ++ [T]) /\ (1 < T)%Z /\ navig (ds ++ [T]) lat /\ group_field 2 (length (ds ++ [T])) (volume (ds ++ [T])) lat /\
  (forall sched tmp, any_order sched -> const_time sched 2 (length (ds ++ [T])) (sites3 ds) (Z.to_nat T) tmp lat = Some 0) /\
  ~ meq 2 (slice_charge 2 (length (ds ++ [T])) (sites3 ds) lat 1) (slice_charge 2 (length (ds ++ [T])) (sites3 ds) lat 0) /\
  ~ landau_gauge 2 (length (ds ++ [T])) (volume (ds ++ [T])) lat.
Proof.
  exists [2%Z], 2%Z, steps_lat. assert (Nav : navig ([2] ++ [2])%Z steps_lat) by (apply init_navig_ok; exact box_ok).
  assert (D : ~ meq 2 (slice_charge 2 (length ([2] ++ [2])%Z) (sites3 [2%Z]) steps_lat 1) (slice_charge 2 (length ([2] ++ [2])%Z) (sites3 [2%Z]) steps_lat 0)).
  { intro E. change (length ([2] ++ [2])%Z) with 2%nat in E. change (sites3 [2%Z]) with 2%nat in E. rewrite !steps_charge in E by lia. specialize (E 0 0 ltac:(lia) ltac:(lia))%nat. unfold mscale, sigma3, C1, C0 in E. apply (f_equal re) in E. cbn in E. lra. }
  split; [exact box_ok|]. split; [lia|]. split; [exact Nav|]. split; [exact steps_field|]. split; [|split; [exact D|]].
  - intros sched tmp Any. apply C70_su2_partial; [exact Any|exact box_ok|lia|exact steps_field|]. intros t Ht. change (length ([2] ++ [2])%Z) with 2%nat. change (sites3 [2%Z]) with 2%nat. change (Z.to_nat 2) with 2%nat in Ht.
    rewrite !steps_charge by lia. unfold mscale, sigma3. ring.
  - intro L. apply D. apply (C70_constant (fun _ m => seq 0 m) 2 [2%Z] 2 (fun _ => C0) steps_lat); [intros k m; apply Permutation_refl|lia|exact box_ok|lia|exact Nav|exact steps_field|exact L|change (Z.to_nat 2) with 2%nat; lia].
Qed.
Print Assumptions C70_su2_refuted.
(** On one time slice nothing but "not a number" is printed, also in Landau gauge. *)
Theorem C70_one_slice_refuted : exists ds T lat, lattice_ok (ds ++ [T]) /\ navig (ds ++ [T]) lat /\ group_field 3 (length (ds ++ [T])) (volume (ds ++ [T])) lat /\
  landau_gauge 3 (length (ds ++ [T])) (volume (ds ++ [T])) lat /\
  (forall sched tmp, const_time sched 3 (length (ds ++ [T])) (sites3 ds) (Z.to_nat T) tmp lat = None).
Proof.
  set (lat := init_navig [2; 1]%Z (fun _ _ k => if Nat.eqb (k mod 4) 0 then C1 else C0)). assert (Hok : lattice_ok [2; 1]%Z) by (split; [discriminate|]; split; [repeat (constructor; [unfold two31; lia|]); constructor|reflexivity]).
  assert (Li : forall x mu, lnk 3 lat x mu = mx 3 (fun k => if Nat.eqb (k mod 4) 0 then C1 else C0)) by reflexivity.
  exists [2%Z], 1%Z, lat. split; [exact Hok|]. split; [now apply init_navig_ok|]. split; [|split].
  - intros x mu _ _. rewrite Li. apply SUn_3. split; [split; intros i j Hi Hj; unfold mmul, dag, mx, mid; cbn [csum]; destruct i as [|[|[|i]]]; try lia; destruct j as [|[|[|j]]]; try lia; cbn [Nat.add Nat.mul Nat.eqb Nat.modulo Nat.divmod snd Nat.sub]; cring
      |unfold det3, mx; cbn [Nat.add Nat.mul Nat.eqb Nat.modulo Nat.divmod snd Nat.sub]; cring].
  - intros x Hx i j Hi Hj. unfold divergence, msum. rewrite (csum_ext _ _ (fun _ => C0)); [apply csum_0|]. intros mu _. rewrite !Li. unfold msub. ring.
  - intros sched tmp. unfold const_time. reflexivity.
Qed.
Print Assumptions C70_one_slice_refuted.

(** The functional printed is 1 minus the average link trace; it lies between 0 and 2 and is 0 exactly for the unit field. *)
Theorem C70_functional : forall sched n ND V lat, any_order sched -> (0 < n)%nat -> (0 < ND)%nat -> (0 < V)%nat -> group_field n ND V lat ->
  gauge_functional sched n ND V lat = 1 - functional n ND V lat / INR (ND * n * V) /\ 0 <= gauge_functional sched n ND V lat <= 2 /\
  (gauge_functional sched n ND V lat = 0 <-> (forall x mu, (x < V)%nat -> (mu < ND)%nat -> meq n (lnk n lat x mu) mid)).
Proof. intros sched n ND V lat Any Hn HN HV F. split; [now apply gauge_functional_value|]. split; [now apply functional_range|now apply functional_zero]. Qed.
Print Assumptions C70_functional.

(** * The maximum *)
Lemma values_in n ND V tmp lat parts r : (2 <= n)%nat -> group_field n ND V lat -> geom_ok ND V lat -> Permutation (concat parts) (seq 0 V) -> In r (concat (site_values n ND tmp lat parts)) <->
  exists x, (x < V)%nat /\ r = 2 * re (mtr n (mmul n (divergence n ND lat x) (divergence n ND lat x))).
Proof.
  intros Hn F Geo P. unfold site_values. rewrite <- concat_map, in_map_iff.
  assert (D : forall x, (x < V)%nat -> snd (latt_deriv n ND tmp lat x (fun _ => C0)) = 2 * re (mtr n (mmul n (divergence n ND lat x) (divergence n ND lat x)))).
  { intros x Hx. destruct (latt_deriv n ND tmp lat x (fun _ => C0)) as [s v] eqn:Q. now apply (latt_deriv_ok n ND V lat Hn F Geo tmp x _ s v Hx (fun _ _ => eq_refl)) in Q. }
  split.
  - intros (x & <- & Hx). apply (Permutation_in _ P), in_seq in Hx. exists x. split; [lia|]. apply D. lia.
  - intros (x & Hx & ->). exists x. split; [now apply D|]. apply (Permutation_in _ (Permutation_sym P)), in_seq. lia.
Qed.
(** The maximum printed is the violation 2 Tr D(x)^2 at some site, or 0 if no site has any, however the threads
    interleave; with one thread it is the largest.  Missing: the largest with several threads. *)
Theorem C70_maximum_partial : forall n ND V tmp lat parts s, (2 <= n)%nat -> group_field n ND V lat -> geom_ok ND V lat -> Permutation (concat parts) (seq 0 V) ->
  max_steps (start_max (site_values n ND tmp lat parts)) s -> finished s ->
  let viol x := 2 * re (mtr n (mmul n (divergence n ND lat x) (divergence n ND lat x))) in
  (fst s = 0 /\ (forall x, (x < V)%nat -> viol x <= 0) \/ exists x, (x < V)%nat /\ fst s = viol x /\ 0 < viol x) /\
  (length parts = 1%nat -> forall x, (x < V)%nat -> viol x <= fst s).
Proof.
  intros n ND V tmp lat parts s Hn F Geo P St Fi viol. pose proof (fun r => values_in n ND V tmp lat parts r Hn F Geo P) as VI. split.
  - destruct (maximum_some _ _ St Fi) as [[E K]|[Ps K]].
    + left. split; [exact E|]. intros x Hx. apply K, VI. now exists x.
    + right. apply VI in K as (x & Hx & E). exists x. split; [exact Hx|]. fold (viol x) in E. split; [exact E|lra].
  - intros L x Hx. destruct parts as [|l [|l' parts]]; try discriminate. unfold site_values in St. cbn [map] in St. rewrite (maximum_one _ _ St Fi). apply largest_in.
    specialize (VI (viol x)). unfold site_values in VI. cbn [map concat] in VI. rewrite app_nil_r in VI. apply VI. now exists x.
Qed.
Print Assumptions C70_maximum_partial.

(** Three sites in one dimension: D is -1, 2, -1 times sigma_3 *)
Definition peak_lat : lattice := init_navig [3]%Z (fun i _ => turn (match i with 0%nat => 1 | 1%nat => -1 | _ => 0 end)%Z).
Lemma peak_ok : lattice_ok [3]%Z.
Proof. split; [discriminate|]. split; [repeat (constructor; [unfold two31; lia|]); constructor|reflexivity]. Qed.
Lemma peak_field : group_field 2 1 3 peak_lat.
Proof. intros x mu _ _. unfold lnk, peak_lat, init_navig. cbn [O]. apply turn_SUn. Qed.
Lemma peak_viol tmp x : (x < 3)%nat -> snd (latt_deriv 2 1 tmp peak_lat x (fun _ => C0)) = match x with 1%nat => 16 | _ => 4 end.
Proof.
  intro Hx. destruct (latt_deriv 2 1 tmp peak_lat x (fun _ => C0)) as [s v] eqn:Q. apply (latt_deriv_ok 2 1 3 peak_lat ltac:(lia) peak_field (navig_geom [3]%Z peak_lat peak_ok (init_navig_ok _ _ peak_ok)) tmp x _ s v Hx (fun _ _ => eq_refl)) in Q. destruct Q as [_ ->].
  assert (D : meq 2 (divergence 2 1 peak_lat x) (mscale (match x with 1%nat => C1 + C1 | _ => - C1 end)%C sigma3)).
  { intros i j Hi Hj. unfold divergence, msum, msub. cbn [csum]. unfold lnk.
    destruct x as [|[|[|x]]]; [change (bck (peak_lat 0%nat) 0%nat) with 2%nat|change (bck (peak_lat 1%nat) 0%nat) with 0%nat|change (bck (peak_lat 2%nat) 0%nat) with 1%nat|lia]; unfold peak_lat, init_navig; cbn [O]; rewrite !(trf_turn _ i j Hi Hj); cbn [sgn]; unfold mscale; ring. }
  rewrite D. unfold mtr, mmul, mscale, sigma3. cbn [csum]. destruct x as [|[|[|x]]]; try lia; unfold C1, C0; cunfold; cbn; ring.
Qed.
(** With two threads, the first with the sites 0 and 1, a test of the second before and its write after those
    of the first leave 4, the violation at site 2, although that at site 1 is 16. *)
Theorem C70_maximum_refuted : exists n ND V lat parts, group_field n ND V lat /\ geom_ok ND V lat /\ Permutation (concat parts) (seq 0 V) /\
  forall tmp, exists s, max_steps (start_max (site_values n ND tmp lat parts)) s /\ finished s /\
    exists x, (x < V)%nat /\ fst s < 2 * re (mtr n (mmul n (divergence n ND lat x) (divergence n ND lat x))).
Proof.
  exists 2%nat, 1%nat, 3%nat, peak_lat, [[0; 1]; [2]]%nat. pose proof (navig_geom [3]%Z peak_lat peak_ok (init_navig_ok _ _ peak_ok)) as Geo. split; [exact peak_field|]. split; [exact Geo|]. split; [apply Permutation_refl|].
  intro tmp. exists (4, [mkWorker [] None; mkWorker [] None]). split; [|split].
  - unfold start_max, site_values. cbn [map]. rewrite !peak_viol by lia.
    eapply steps_more; [apply (step_more 0 [mkWorker [4; 16] None] [] 4 []); lra|]. cbn [app].
    eapply steps_more; [apply (step_more 0 [] [mkWorker [] (Some 4)] 4 [16]); lra|]. cbn [app].
    eapply steps_more; [apply (step_write 0 [] [mkWorker [] (Some 4)] 4 [16])|]. cbn [app].
    eapply steps_more; [apply (step_more 4 [] [mkWorker [] (Some 4)] 16 []); lra|]. cbn [app].
    eapply steps_more; [apply (step_write 4 [] [mkWorker [] (Some 4)] 16 [])|]. cbn [app].
    eapply steps_more; [apply (step_write 16 [mkWorker [] None] [] 4 [])|]. cbn [app]. apply steps_none.
  - repeat constructor.
  - exists 1%nat. split; [lia|]. pose proof (peak_viol tmp 1 ltac:(lia)) as E. destruct (latt_deriv 2 1 tmp peak_lat 1 (fun _ => C0)) as [s v] eqn:Q. apply (latt_deriv_ok 2 1 3 peak_lat ltac:(lia) peak_field Geo tmp 1 _ s v ltac:(lia) (fun _ _ => eq_refl)) in Q. destruct Q as [_ Q]. cbn [snd] in E. rewrite <- Q, E. cbn [fst]. lra.
Qed.
Print Assumptions C70_maximum_refuted.

(** A field in Landau gauge other than the unit field: diag(i,-i,1) on every link of 2 x 2 sites; its sum over a
    slice is not 0.  And one whose slices differ, which is seen. *)
Definition turn3 (s : bool) : arr := fun k => match k with 0%nat => if s then Ci else C1 | 4%nat => if s then (- Ci)%C else C1 | 8%nat => C1 | _ => C0 end.
Lemma turn3_SUn s : SUn 3 (mx 3 (turn3 s)).
Proof.
  apply SUn_3. split; [split; intros i j Hi Hj; unfold mmul, dag, mx, mid; cbn [csum]; destruct i as [|[|[|i]]]; try lia; destruct j as [|[|[|j]]]; try lia; cbn [Nat.add Nat.mul Nat.eqb turn3]; destruct s; cring
    |unfold det3, mx; cbn [Nat.add Nat.mul turn3]; destruct s; cring].
Qed.
Lemma turn3_entry s : trf 3 (herm (mx 3 (turn3 s))) 0%nat 0%nat = if s then C1 else C0.
Proof.
  rewrite trf_herm_at by lia. unfold herm, aherm, mscale, msub, dag, mid, mx. cbn [Nat.eqb Nat.add Nat.mul rsum turn3]. destruct s; unfold RtoC, C1, C0, Ci; apply C_eq; cunfold; cbn; field.
Qed.
Definition still_lat : lattice := init_navig [2; 2]%Z (fun _ _ => turn3 true).
Definition moved_lat : lattice := init_navig [2; 2]%Z (fun i mu => turn3 (Nat.leb 2 i && Nat.eqb mu 1)).
Example C70_case : lattice_ok ([2] ++ [2])%Z /\ navig ([2] ++ [2])%Z still_lat /\ group_field 3 2 4 still_lat /\ landau_gauge 3 2 4 still_lat /\
  slice_charge 3 2 2 still_lat 0 0%nat 0%nat = (C1 + C1)%C /\ const_time (fun _ m => seq 0 m) 3 2 2 2 (fun _ => C0) still_lat = Some 0 /\
  gauge_functional (fun _ m => seq 0 m) 3 2 4 still_lat <> 0 /\
  group_field 3 2 4 moved_lat /\ const_time (fun _ m => seq 0 m) 3 2 2 2 (fun _ => C0) moved_lat <> Some 0.
Proof.
  assert (Any : any_order (fun _ m => seq 0 m)) by (intros k m; apply Permutation_refl).
  assert (Nav : navig ([2] ++ [2])%Z still_lat) by (apply init_navig_ok; exact box_ok).
  assert (F : group_field 3 2 4 still_lat) by (intros x mu _ _; apply turn3_SUn). assert (F' : group_field 3 2 4 moved_lat) by (intros x mu _ _; apply turn3_SUn).
  assert (L : landau_gauge 3 2 4 still_lat).
  { intros x Hx i j Hi Hj. unfold divergence, msum. rewrite (csum_ext _ _ (fun _ => C0)); [apply csum_0|]. intros mu _. unfold lnk, still_lat, init_navig, msub. cbn [O]. ring. }
  split; [exact box_ok|]. split; [exact Nav|]. split; [exact F|]. split; [exact L|]. split; [|split; [|split; [|split]]].
  - unfold slice_charge, msum. cbn [csum]. unfold lnk, still_lat, init_navig. cbn [O]. rewrite turn3_entry. ring.
  - exact (proj2 (C70_constant (fun _ m => seq 0 m) 3 [2%Z] 2 (fun _ => C0) still_lat Any ltac:(lia) box_ok ltac:(lia) Nav F L)).
  - intro E. apply (proj1 (functional_zero _ 3 2 4 still_lat Any ltac:(lia) ltac:(lia) ltac:(lia) F)) with (x := 0%nat) (mu := 0%nat) in E; [|lia|lia]. specialize (E 0 0 ltac:(lia) ltac:(lia))%nat. unfold lnk, still_lat, init_navig, mx, mid in E. cbn in E. unfold Ci, C1 in E. apply (f_equal re) in E. cbn in E. lra.
  - exact F'.
  - intro E. apply (proj1 (C70_detects (fun _ m => seq 0 m) 3 [2%Z] 2 (fun _ => C0) moved_lat Any ltac:(lia) box_ok ltac:(lia) F')) with (t := 1%nat) in E; [|change (Z.to_nat 2) with 2%nat; lia].
    specialize (E 0 0 ltac:(lia) ltac:(lia))%nat. change (length ([2] ++ [2])%Z) with 2%nat in E. change (sites3 [2%Z]) with 2%nat in E. unfold slice_charge, msum in E. cbn [csum] in E. unfold lnk, moved_lat, init_navig in E. cbn [O Nat.mul Nat.add Nat.sub Nat.leb Nat.eqb andb] in E. rewrite !turn3_entry in E. unfold C1, C0 in E. apply (f_equal re) in E. cbn in E. lra.
Qed.
