(** Proofs about the axial gauges, continued: axial_gauge. *)
From Coq Require Import PeanoNat Lia List ZArith Reals Lra Permutation Setoid Morphisms.
From Verif Require Import CMat Det Arr MatSpec MmulModel MmulProofs MatModel MatProofs MatProofs2 Su2Model Su2Proofs GramModel GramProofs FieldModel FieldProofs FieldProofs2 AxialModel AxialProofs AxialProofs2.
From Verif Require GeomModel GeomSpec GeomProofs GeomProofs2 CInt.
Import ListNotations.

Section Axial.
Variables (ds : list Z) (mu : nat).
Hypotheses (Hok : GeomSpec.lattice_ok ds) (Hm : (mu < length ds)%nat).
Let V := volume ds.
Let sv := svol ds mu.
Let L := ext ds mu.
Lemma coords_pos : forall x, GeomSpec.in_box ds x -> exists a c b, (a < sv)%nat /\ (c < L)%nat /\
  nth_error x mu = Some (Z.of_nat c) /\ GeomSpec.index_of ds x = Z.of_nat (pos sv L a c b).
Proof.
  intros x Hx. destruct (ds_split ds mu Hm) as [E Lm]. pose proof Hx as Hx'. rewrite E in Hx.
  apply box_split in Hx. destruct Hx as (x1 & c & x2 & -> & B1 & B2 & B3).
  pose proof (GeomProofs.in_box_length _ _ B1) as L1. pose proof (GeomProofs.in_box_length _ _ B3) as L2. rewrite Lm in L1.
  pose proof (GeomProofs.horner_bound _ _ B1) as H1. pose proof (GeomProofs.horner_bound _ _ B3) as H3.
  exists (Z.to_nat (GeomProofs.horner (firstn mu ds) x1)), (Z.to_nat c), (Z.to_nat (GeomProofs.horner (skipn (S mu) ds) x2)).
  unfold sv, svol, L, ext. split; [lia|]. split; [lia|]. split.
  - rewrite nth_error_app2, L1, Nat.sub_diag by lia. cbn. f_equal. lia.
  - rewrite E at 1. rewrite index_split by (try assumption; lia). unfold pos.
    rewrite Nat2Z.inj_add, Nat2Z.inj_mul, Nat2Z.inj_add, Nat2Z.inj_mul, !Z2Nat.id by lia. reflexivity.
Qed.
Lemma pos_coords : forall a c b, (a < sv)%nat -> (c < L)%nat -> (pos sv L a c b < V)%nat -> exists x, GeomSpec.in_box ds x /\
  nth_error x mu = Some (Z.of_nat c) /\ GeomSpec.index_of ds x = Z.of_nat (pos sv L a c b).
Proof.
  intros a c b Ha Hc Hj. destruct (GeomProofs2.index_coords ds (Z.of_nat (pos sv L a c b)) Hok) as (x & Hx & E); [unfold V, volume in Hj; lia|].
  exists x. split; [assumption|]. split; [|assumption]. destruct (coords_pos x Hx) as (a' & c' & b' & Ha' & Hc' & Ec & E').
  rewrite E in E'. apply Nat2Z.inj in E'. apply pos_inj in E'; try assumption; try (now apply svol_pos); try (now apply ext_pos). destruct E' as (_ & -> & _). exact Ec.
Qed.
Lemma start_pos : forall k, In (Some k) (start_sites ds mu) <-> exists a b, (a < sv)%nat /\ (k < V)%nat /\ k = pos sv L a 0 b.
Proof.
  intro k. pose proof (svol_pos ds Hok mu) as P1. pose proof (ext_pos ds Hok mu Hm) as P2. rewrite (proj2 (start_sites_ok ds mu Hok)). split.
  - intros (x & Hx & E & Z0). destruct (coords_pos x Hx) as (a & c & b & Ha & Hc & Ec & E').
    specialize (Z0 _ Ec). assert (c = 0%nat) by lia. subst c. exists a, b. split; [assumption|]. rewrite E in E'. apply Nat2Z.inj in E'. split; [|assumption].
    rewrite GeomProofs.index_of_horner in E by (now apply GeomProofs.in_box_length). pose proof (GeomProofs.horner_bound _ _ Hx).
    unfold V, volume. rewrite GeomProofs.lvolume_prod by assumption. lia.
  - intros (a & b & Ha & Hk & ->). destruct (pos_coords a 0 b Ha P2 Hk) as (x & Hx & Ec & E). exists x. split; [assumption|]. split; [assumption|].
    intros c Hc. rewrite Ec in Hc. injection Hc. lia.
Qed.
Lemma sets_fold : forall n lat l g Lz, nth_error ds mu = Some Lz ->
  fold_left (fun gauge i => match gauge, nth_error ds mu, poly_site ds i mu with
      | Some gauge, Some L, Some k => Some (gauge_set n (Z.to_nat L) lat mu k gauge)
      | _, _, _ => None
      end) l (Some g) =
  Some (fold_left (fun g k => gauge_set n (Z.to_nat Lz) lat mu k g) (map (fun i => match poly_site ds i mu with Some k => k | None => 0%nat end) l) g).
Proof.
  intros n lat l. induction l as [|i l IH]; intros g Lz EL; [reflexivity|]. cbn [fold_left map].
  destruct (poly_site_lt ds i mu Hok) as (k & -> & _). specialize (IH (gauge_set n (Z.to_nat Lz) lat mu k g) Lz EL). rewrite EL in IH |- *. exact IH.
Qed.
Lemma axial_gauge_ok : forall n tmp mem o1 o2 sets trans lat, (2 <= n)%nat -> navig ds lat ->
  (forall i nu, (i < V)%nat -> (nu < length ds)%nat -> leading n (lnk n lat i nu)) ->
  Permutation o1 (seq 0 V) -> Permutation o2 (seq 0 V) -> Permutation sets (seq 0 V) -> Permutation trans (seq 0 V) ->
  exists lat' lat0 g, axial_gauge n ds tmp mem mu o1 o2 sets trans lat = Some lat' /\ reunited n (length ds) V lat lat0 /\ group_field n (length ds) V lat0 /\
  group_gauge n V g /\ gauged n (length ds) V g lat0 lat' /\
  forall a b c, (a < sv)%nat -> (c < L)%nat -> (pos sv L a c b < V)%nat ->
    meq n (lnk n lat' (pos sv L a c b) mu) (if Nat.eqb (S c) L then path n lat0 mu L (pos sv L a 0 b) else mid).
Proof.
  intros n tmp mem o1 o2 sets trans lat Hn Nav Ld P1 P2 Ps Pt. unfold axial_gauge.
  set (ND := length ds) in *. set (lat0 := latt_reunitU n ND o1 lat). pose proof (latt_reunitU_ok n ND V o1 lat P1) as R0. fold lat0 in R0.
  pose proof (reunited_group n ND V lat lat0 Hn R0 Ld) as F0. pose proof (navig_same ds _ _ (proj1 R0) Nav) as Nav0.
  pose proof (navig_geom ds lat0 Hok Nav0) as Geo0. fold ND V in Geo0.
  assert (XL : exists Lz, nth_error ds mu = Some Lz) by (destruct (nth_error ds mu) as [Lz|] eqn:EL; [now exists Lz|apply nth_error_None in EL; unfold ND in Hm; lia]).
  destruct XL as [Lz EL].
  assert (EE : Z.to_nat Lz = L) by (unfold L, ext; f_equal; symmetry; now apply nth_error_nth).
  rewrite (sets_fold n lat0 _ _ Lz EL), EE.
  set (l := map _ (filter _ sets)). set (g1 := fold_left _ l _).
  pose proof (svol_pos ds Hok mu) as Q1. pose proof (ext_pos ds Hok mu Hm) as Q2. fold sv in Q1. fold L in Q2.
  assert (Inl : forall k, In k l <-> exists a b, (a < sv)%nat /\ (k < V)%nat /\ k = pos sv L a 0 b).
  { intro k. rewrite <- start_pos. unfold l, start_sites. rewrite !in_map_iff. split.
    - intros (i & E & Hi). apply filter_In in Hi. destruct Hi as [_ Hi]. apply Nat.ltb_lt in Hi. exists i.
      destruct (poly_site_lt ds i mu Hok) as (k' & E' & _). rewrite E' in E |- *. subst k'. split; [reflexivity|]. apply in_seq. lia.
    - intros (i & E & Hi). apply in_seq in Hi. exists i. rewrite E. split; [reflexivity|]. apply filter_In. rewrite Nat.ltb_lt.
      split; [|lia]. apply (Permutation_in _ (Permutation_sym Ps)), in_seq. split; [lia|]. unfold V, volume. rewrite GeomProofs.lvolume_prod by assumption.
      destruct Hi as [_ Hi]. cbn [Nat.add] in Hi |- *. eapply Nat.lt_le_trans; [exact Hi|]. rewrite subvol_mask.
      pose proof (ds_pos ds Hok) as DP. clear - DP. 
      assert (K : forall ds k, Forall (fun L => 0 < L)%Z ds -> (0 < GeomSpec.prodZ (mask ds k mu) <= GeomSpec.prodZ ds)%Z).
      { induction ds0 as [|d ds0 IH]; intros k H; [cbn; lia|]. inversion H; subst. specialize (IH (S k) H3). cbn [mask]. rewrite !GeomProofs.prodZ_cons. destruct (Nat.eqb k mu); nia. }
      specialize (K ds 0%nat DP). lia. }
  destruct (gauge_sets_ok n ND V sv L mu lat0 Geo0 F0 Hm Q1 Q2 (nbr_line ds Hok lat0 mu Nav0 Hm) l (fresh_gauge n mem)) as [S1 S2].
  { intros i Hi. apply Inl in Hi. destruct Hi as (a & b & Ha & Hb & ->). now exists a, b. }
  fold g1 in S1, S2.
  assert (On : forall a b c, (a < sv)%nat -> (c < L)%nat -> (pos sv L a 0 b < V)%nat -> meq n (mx n (g1 (pos sv L a c b))) (path n lat0 mu c (pos sv L a 0 b))).
  { intros a b c Ha Hc Hp. apply S1; try assumption. apply Inl. now exists a, b. }
  assert (HG1 : group_gauge n V (fun i => mx n (g1 i))).
  { intros i Hi. destruct (pos_all sv L Q1 Q2 i) as (a & c & b & Ha & Hc & ->).
    assert (P0 : (pos sv L a 0 b < V)%nat) by (unfold pos in *; nia).
    eapply SUn_ext; [symmetry; now apply On|]. now apply (path_group n ND V). }
  pose proof (gtransform_gauged n ND V tmp g1 trans lat0 Pt (g_nbr _ _ _ Geo0) F0 HG1) as Ga.
  set (lat1 := gtransform n ND tmp g1 trans lat0) in *.
  pose proof (latt_reunitU_ok n ND V o2 lat1 P2) as R1.
  pose proof (gauged_group n ND V _ lat0 lat1 (g_nbr _ _ _ Geo0) HG1 F0 Ga) as F1.
  eexists. exists lat0, (fun i => mx n (g1 i)). split; [reflexivity|]. split; [exact R0|]. split; [exact F0|]. split; [exact HG1|].
  split; [now apply (gauged_reunited n ND V _ lat0 lat1)|].
  intros a b c Ha Hc Hp. rewrite (reunited_same n ND V lat1) by assumption.
  assert (P0 : (pos sv L a 0 b < V)%nat) by (unfold pos in *; nia).
  apply (line_trivial n ND V sv L mu lat0 Geo0 F0 Hm Q1 Q2 (nbr_line ds Hok lat0 mu Nav0 Hm) (fun i => mx n (g1 i)) lat1 a b c Ga Ha P0); [|assumption].
  intros c' Hc'. now apply On.
Qed.
End Axial.
