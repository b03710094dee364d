(** Proofs about the axial gauges, continued: latt_reunitU, mag and axial_gauge. *)
From Coq Require Import PeanoNat Lia List ZArith Reals Lra Permutation Setoid Morphisms.
From Verif Require Import CMat Det Arr MatSpec MmulModel MmulProofs MatModel MatProofs MatProofs2 Su2Model Su2Proofs GramModel GramProofs FieldModel FieldProofs FieldProofs2 AxialModel AxialProofs.
From Verif Require GeomModel GeomSpec GeomProofs GeomProofs2 CInt.
Import ListNotations.

(** * latt_reunitU *)
(** lat0 is lat with every link matrix reunitarised *)
Definition reunited (n ND V : nat) (lat lat0 : lattice) : Prop := same_geom lat lat0 /\
  forall i mu, (i < V)%nat -> (mu < ND)%nat -> O (lat0 i) mu = gram_reunit n (O (lat i) mu).
Lemma reunit_site : forall n ND lat i, let lat' := for_ ND (fun mu lat => put lat i mu (gram_reunit n (O (lat i) mu))) lat in
  same_geom lat lat' /\ forall j m, O (lat' j) m = if (Nat.eqb j i && Nat.ltb m ND)%bool then gram_reunit n (O (lat i) m) else O (lat j) m.
Proof.
  intros n ND lat i lat'. subst lat'.
  apply (for_ind (fun k l => same_geom lat l /\ forall j m, O (l j) m = if (Nat.eqb j i && Nat.ltb m k)%bool
     then gram_reunit n (O (lat i) m) else O (lat j) m)).
  - split; [apply same_geom_refl|]. intros j m. now rewrite Bool.andb_false_r.
  - intros k l Hk [G H]. split; [eapply same_geom_trans; [exact G|apply put_geom]|].
    intros j m. rewrite O_put. destruct (Nat.eqb_spec j i) as [->|Nj]; cbn [andb]; [|rewrite H, (proj2 (Nat.eqb_neq j i) Nj); reflexivity].
    destruct (Nat.eqb_spec m k) as [->|Nm].
    + rewrite (proj2 (Nat.ltb_lt k (S k))) by lia. rewrite H, Nat.eqb_refl. rewrite (proj2 (Nat.ltb_ge k k)) by lia. reflexivity.
    + rewrite H, Nat.eqb_refl. cbn [andb]. destruct (Nat.ltb_spec m k) as [Q|Q].
      * now rewrite (proj2 (Nat.ltb_lt m (S k))) by lia.
      * now rewrite (proj2 (Nat.ltb_ge m (S k))) by lia.
Qed.
Lemma latt_reunitU_list : forall n ND order lat, NoDup order -> let lat' := latt_reunitU n ND order lat in
  same_geom lat lat' /\ forall j m, (m < ND)%nat -> O (lat' j) m = if in_dec Nat.eq_dec j order then gram_reunit n (O (lat j) m) else O (lat j) m.
Proof.
  intros n ND order. induction order as [|i order IH] using rev_ind; intros lat N; cbn zeta; unfold latt_reunitU.
  - split; [apply same_geom_refl|]. intros j m _. reflexivity.
  - rewrite fold_left_app. cbn [fold_left]. fold (latt_reunitU n ND order lat).
    apply NoDup_remove in N. rewrite app_nil_r in N. destruct N as [N Ni].
    destruct (IH lat N) as [G H]. destruct (reunit_site n ND (latt_reunitU n ND order lat) i) as [G2 H2].
    split; [eapply same_geom_trans; eassumption|]. intros j m Hm. rewrite H2, !H by assumption.
    rewrite (proj2 (Nat.ltb_lt m ND) Hm), Bool.andb_true_r. destruct (Nat.eqb_spec j i) as [->|Nj].
    + destruct (in_dec Nat.eq_dec i order) as [Q|_]; [contradiction|].
      destruct (in_dec Nat.eq_dec i (order ++ [i])) as [_|Q]; [reflexivity|]. exfalso. apply Q, in_or_app. right. now left.
    + destruct (in_dec Nat.eq_dec j order) as [Q|Q]; destruct (in_dec Nat.eq_dec j (order ++ [i])) as [Q2|Q2]; try reflexivity.
      * exfalso. apply Q2, in_or_app. now left.
      * apply in_app_or in Q2. destruct Q2 as [?|[?|[]]]; [contradiction|congruence].
Qed.
Lemma latt_reunitU_ok : forall n ND V order lat, Permutation order (seq 0 V) -> reunited n ND V lat (latt_reunitU n ND order lat).
Proof.
  intros n ND V order lat P. destruct (latt_reunitU_list n ND order lat) as [G H].
  { apply (Permutation_NoDup (Permutation_sym P)), seq_NoDup. }
  split; [exact G|]. intros i mu Hi Hm. rewrite H by assumption. destruct (in_dec Nat.eq_dec i order) as [_|Q]; [reflexivity|].
  exfalso. apply Q. apply (Permutation_in _ (Permutation_sym P)), in_seq. lia.
Qed.
Lemma reunited_group : forall n ND V lat lat0, (2 <= n)%nat -> reunited n ND V lat lat0 ->
  (forall i mu, (i < V)%nat -> (mu < ND)%nat -> leading n (lnk n lat i mu)) -> group_field n ND V lat0.
Proof.
  intros n ND V lat lat0 Hn [_ H] Ld i mu Hi Hm. unfold lnk. rewrite H by assumption. apply (gram_reunit_ok n _ Hn). now apply Ld.
Qed.
Lemma reunited_same : forall n ND V lat lat0, (2 <= n)%nat -> reunited n ND V lat lat0 -> group_field n ND V lat ->
  forall i mu, (i < V)%nat -> (mu < ND)%nat -> meq n (lnk n lat0 i mu) (lnk n lat i mu).
Proof. intros n ND V lat lat0 Hn [_ H] F i mu Hi Hm. unfold lnk. rewrite H by assumption. apply (gram_reunit_ok n _ Hn). now apply F. Qed.
Lemma gauged_reunited : forall n ND V g l0 l1 l2, (2 <= n)%nat -> gauged n ND V g l0 l1 -> group_field n ND V l1 -> reunited n ND V l1 l2 -> gauged n ND V g l0 l2.
Proof.
  intros n ND V g l0 l1 l2 Hn [S1 H1] F R. split; [eapply same_geom_trans; [exact S1|apply R]|].
  intros i mu Hi Hm. rewrite (reunited_same n ND V l1 l2) by assumption. now apply H1.
Qed.
Lemma leading_group : forall n U, (2 <= n)%nat -> SUn n U -> leading n U.
Proof.
  assert (K : forall m n U, (m <= n)%nat -> SUn n U -> indep m n U).
  { intros m n U Hm HU a H i Hi. pose proof (SUn_orthonormal n U n HU (le_n n)) as ON.
    assert (Z : csum n (fun c => csum m (fun r => a r * U r c) * conj (U i c))%C = C0).
    { rewrite (csum_ext n _ (fun _ => C0)); [apply csum_0|]. intros c Hc. rewrite H by assumption. ring. }
    rewrite (csum_ext n _ (fun c => csum m (fun r => a r * (U r c * conj (U i c))))%C) in Z
      by (intros c Hc; rewrite <- csum_mul_r; apply csum_ext; intros; ring).
    rewrite csum_swap in Z. rewrite (csum_ext m _ (fun r => a r * mid r i)%C) in Z.
    - rewrite csum_delta_r in Z by assumption. exact Z.
    - intros r Hr. rewrite csum_mul_l. f_equal. apply ON; lia. }
  intros n U Hn HU. destruct n as [|[|[|[|n]]]]; try lia; unfold leading.
  - apply K; [lia|now apply SUn_tr].
  - apply K; [lia|now apply SUn_tr].
  - apply K; [lia|assumption].
Qed.

(** * The maximal tree *)
Section Mag.
Variables (ds : list Z).
Hypothesis (Hok : GeomSpec.lattice_ok ds).
Let V := volume ds.
Let ND := length ds.
Definition svol (mu : nat) : nat := Z.to_nat (GeomSpec.prodZ (firstn mu ds)).
Definition ext (mu : nat) : nat := Z.to_nat (nth mu ds 0%Z).
Lemma ds_split : forall mu, (mu < ND)%nat -> ds = firstn mu ds ++ nth mu ds 0%Z :: skipn (S mu) ds /\ length (firstn mu ds) = mu.
Proof.
  intros mu Hm. split; [|rewrite firstn_length; unfold ND in Hm; lia].
  rewrite <- (firstn_skipn mu ds) at 1. f_equal. clear Hok. revert mu Hm. unfold ND. clear. induction ds as [|d l IH]; intros mu Hm; [cbn in Hm; lia|].
  destruct mu; [reflexivity|]. apply IH. cbn in Hm. lia.
Qed.
Lemma ds_pos : Forall (fun L => 0 < L)%Z ds.
Proof. destruct Hok as (_ & Hd & _). now apply GeomProofs.ok_pos. Qed.
Lemma firstn_pos : forall m, (0 < GeomSpec.prodZ (firstn m ds))%Z.
Proof. intro m. apply GeomProofs.prodZ_pos. pose proof ds_pos as P. rewrite <- (firstn_skipn m ds) in P. now apply Forall_app in P. Qed.
Lemma svol_pos : forall m, (0 < svol m)%nat.
Proof. intro m. pose proof (firstn_pos m). unfold svol. lia. Qed.
Lemma ext_pos : forall mu, (mu < ND)%nat -> (0 < ext mu)%nat.
Proof.
  intros mu Hm. pose proof ds_pos as P. rewrite (proj1 (ds_split mu Hm)) in P. apply Forall_app in P. destruct P as [_ P].
  inversion P as [|? ? Q _]; subst. unfold ext. lia.
Qed.
Lemma svol_S : forall mu, (mu < ND)%nat -> svol (S mu) = (svol mu * ext mu)%nat.
Proof.
  intros mu Hm. pose proof (firstn_pos mu). pose proof (ext_pos mu Hm) as E. unfold svol, ext in *.
  assert (Q : firstn (S mu) ds = firstn mu ds ++ [nth mu ds 0%Z]).
  { clear - Hm. subst ND. revert mu Hm. induction ds as [|d l IH]; intros mu Hm; [cbn in Hm; lia|]. destruct mu; [reflexivity|].
    cbn [firstn nth app]. f_equal. apply IH. cbn in Hm. lia. }
  rewrite Q, GeomProofs.prodZ_app. cbn [GeomSpec.prodZ fold_right]. rewrite Z.mul_1_r, Z2Nat.inj_mul by lia. reflexivity.
Qed.
Lemma svol_le : forall m k, (m <= k)%nat -> (k <= ND)%nat -> (svol m <= svol k)%nat.
Proof.
  intros m k H. induction H as [|k H IH]; intro K; [lia|]. rewrite svol_S by lia. specialize (IH ltac:(lia)). pose proof (ext_pos k ltac:(lia)). nia.
Qed.
Lemma svol_V : svol ND = V.
Proof. unfold svol, V, volume, ND. rewrite firstn_all, GeomProofs.lvolume_prod by assumption. reflexivity. Qed.
Lemma svol_le_V : forall m, (m <= ND)%nat -> (svol m <= V)%nat.
Proof. intros m H. rewrite <- svol_V. now apply svol_le. Qed.
Lemma nbr_line : forall lat mu, navig ds lat -> (mu < ND)%nat -> forall a c b, (a < svol mu)%nat -> (c < ext mu)%nat ->
  (pos (svol mu) (ext mu) a c b < V)%nat ->
  nbr (lat (pos (svol mu) (ext mu) a c b)) mu = pos (svol mu) (ext mu) a (if Nat.eqb (S c) (ext mu) then 0 else S c) b.
Proof.
  intros lat mu Nav Hm a c b Ha Hc Hj. destruct (ds_split mu Hm) as [E Lm].
  pose proof (nbr_index (firstn mu ds) (nth mu ds 0%Z) (skipn (S mu) ds) lat) as N. cbn zeta in N. rewrite <- E, Lm in N.
  apply N; assumption.
Qed.
Lemma navig_same : forall l l', same_geom l l' -> navig ds l -> navig ds l'.
Proof. intros l l' S N i mu Hi Hm. rewrite (proj1 (S i)), (proj2 (S i)). now apply N. Qed.

(** links of the tree: the coordinates above direction rho are 0, and the link
    does not cross the boundary *)
Definition tree_trivial (n : nat) (lat : lattice) (upto : nat) : Prop := forall rho a c, (rho < upto)%nat -> (a < svol rho)%nat -> (S c < ext rho)%nat ->
  meq n (lnk n lat (a + svol rho * c) rho) mid.
Definition mag_inv (n : nat) (lat0 : lattice) (mu : nat) (st : lattice * (nat -> arr) * nat) : Prop :=
  let '(lat, gauge, sv) := st in
  sv = svol mu /\
  (exists g, group_gauge n V g /\ gauged n ND V g lat0 lat) /\
  (forall i, (i < V)%nat -> SUn n (mx n (gauge i))) /\
  (forall i, (svol mu <= i < V)%nat -> meq n (mx n (gauge i)) mid) /\
  tree_trivial n lat mu.
Lemma seq_perm_in : forall l i, Permutation l (seq 0 V) -> (i < V)%nat -> In i l.
Proof. intros l i P H. apply (Permutation_in _ (Permutation_sym P)), in_seq. lia. Qed.
Lemma MAG_fix_ok : forall n tmp mem sets trans lat0, navig ds lat0 -> group_field n ND V lat0 ->
  (forall mu, (mu < ND)%nat -> Permutation (sets mu) (seq 0 V)) -> (forall mu, (mu < ND)%nat -> Permutation (trans mu) (seq 0 V)) ->
  let lat' := MAG_fix n (map Z.to_nat ds) tmp mem sets trans lat0 in
  (exists g, group_gauge n V g /\ gauged n ND V g lat0 lat') /\ tree_trivial n lat' ND.
Proof.
  intros n tmp mem sets trans lat0 Nav F0 Ps Pt. cbn zeta. unfold MAG_fix. rewrite map_length. fold ND.
  match goal with |- context [for_ ?m ?f ?x] => pose proof (for_ind (mag_inv n lat0) m f x) as I end.
  match type of I with _ -> _ -> mag_inv _ _ _ ?t => destruct t as [[lat' g'] sv'] end.
  cbn [fst]. destruct I as (_ & I2 & _ & _ & I5); [| |split; assumption].
  - unfold mag_inv. split; [reflexivity|]. split.
    + exists (fun _ => mid). split; [intros i _; apply SUn_mid|apply gauged_refl].
    + assert (Id : forall i, meq n (mx n (fresh_gauge n mem i)) mid) by (intro i; apply (identity_ok n)).
      split; [intros i _; eapply SUn_ext; [symmetry; apply Id|apply SUn_mid]|]. split; [intros i _; apply Id|]. intros rho a c H. lia.
  - intros mu [[lat g] sv] Hm (-> & (h & Gh & Gau) & HG & HI & HT). unfold mag_inv.
    assert (Ex : nth mu (map Z.to_nat ds) 0%nat = ext mu) by (unfold ext; change 0%nat with (Z.to_nat 0) at 1; apply map_nth).
    rewrite Ex. pose proof (navig_same _ _ (proj1 Gau) Nav) as Nav1. pose proof (navig_geom ds lat0 Hok Nav) as Geo0. fold ND V in Geo0.
    pose proof (navig_geom ds lat Hok Nav1) as Geo. fold ND V in Geo.
    pose proof (gauged_group n ND V h lat0 lat (g_nbr _ _ _ Geo0) Gh F0 Gau) as F.
    set (l := filter (fun i => Nat.ltb i (svol mu)) (sets mu)).
    set (g1 := fold_left (fun gauge i => gauge_set n (ext mu) lat mu i gauge) l g).
    assert (Inl : forall i, In i l <-> (i < svol mu)%nat).
    { intro i. unfold l. rewrite filter_In, Nat.ltb_lt. split; [tauto|]. intro H. split; [|assumption]. apply seq_perm_in; [now apply Ps|].
      pose proof (svol_le_V mu). lia. }
    pose proof (svol_pos mu) as P1. pose proof (ext_pos mu Hm) as P2. pose proof (svol_S mu Hm) as SS. pose proof (svol_le_V (S mu) ltac:(lia)) as SL.
    assert (P0 : forall a, pos (svol mu) (ext mu) a 0 0 = a) by (intro a; unfold pos; lia).
    assert (Pc : forall a c, pos (svol mu) (ext mu) a c 0 = (a + svol mu * c)%nat) by (intros; unfold pos; lia).
    destruct (gauge_sets_ok n ND V (svol mu) (ext mu) mu lat Geo F Hm P1 P2 (nbr_line lat mu Nav1 Hm) l g) as [S1 S2].
    { intros i Hi. apply Inl in Hi. exists i, 0%nat. rewrite P0. repeat split; [assumption|]. pose proof (svol_le_V mu). lia. }
    fold g1 in S1, S2.
    assert (B0 : forall a b, (a < svol mu)%nat -> In (pos (svol mu) (ext mu) a 0 b) l -> b = 0%nat).
    { intros a b Ha H. apply Inl in H. unfold pos in H. destruct b; [reflexivity|]. nia. }
    assert (On : forall a c, (a < svol mu)%nat -> (c < ext mu)%nat -> meq n (mx n (g1 (a + svol mu * c)%nat)) (path n lat mu c a)).
    { intros a c Ha Hc. rewrite <- Pc. rewrite <- (P0 a) at 2. apply S1; [assumption| |assumption]. apply Inl. now rewrite P0. }
    assert (Off : forall j, (svol (S mu) <= j)%nat -> g1 j = g j).
    { intros j Hj. apply S2. intros a b c Ha H Hc Q. apply B0 in H; [|assumption]. subst b. rewrite Pc in Q. rewrite SS in Hj. nia. }
    assert (Dec : forall j, (j < svol (S mu))%nat -> exists a c, (a < svol mu)%nat /\ (c < ext mu)%nat /\ j = (a + svol mu * c)%nat).
    { intros j Hj. exists (j mod svol mu)%nat, (j / svol mu)%nat. split; [apply Nat.mod_upper_bound; lia|]. split.
      - apply Nat.div_lt_upper_bound; lia.
      - pose proof (Nat.div_mod j (svol mu) ltac:(lia)). lia. }
    assert (HG1 : forall i, (i < V)%nat -> SUn n (mx n (g1 i))).
    { intros i Hi. destruct (Nat.lt_ge_cases i (svol (S mu))) as [Q|Q].
      - destruct (Dec i Q) as (a & c & Ha & Hc & ->). eapply SUn_ext; [symmetry; now apply On|]. apply (path_group n ND V); try assumption.
        pose proof (svol_le_V mu). lia.
      - rewrite Off by assumption. now apply HG. }
    assert (HI1 : forall i, (svol (S mu) <= i < V)%nat -> meq n (mx n (g1 i)) mid).
    { intros i Hi. rewrite Off by lia. apply HI. pose proof (svol_le mu (S mu) ltac:(lia) ltac:(lia)). lia. }
    pose proof (gtransform_gauged n ND V tmp g1 (trans mu) lat (Pt mu Hm) (g_nbr _ _ _ Geo) F HG1) as Ga.
    set (lat1 := gtransform n ND tmp g1 (trans mu) lat) in *.
    split; [now rewrite svol_S|]. split; [|split; [exact HG1|split; [exact HI1|]]].
    + exists (fun i => mmul n (mx n (g1 i)) (h i)). split; [|eapply gauged_compose; eassumption].
      intros i Hi. apply SUn_mmul; [now apply HG1|now apply Gh].
    + intros rho a c Hr Ha Hc. destruct (Nat.eq_dec rho mu) as [->|Nr].
      * pose proof (line_trivial n ND V (svol mu) (ext mu) mu lat Geo F Hm P1 P2 (nbr_line lat mu Nav1 Hm) (fun i => mx n (g1 i)) lat1 a 0 c Ga Ha) as LT.
        rewrite P0, Pc in LT. rewrite LT; [rewrite (proj2 (Nat.eqb_neq (S c) (ext mu))) by lia; reflexivity| | |lia].
        -- pose proof (svol_le_V mu). lia.
        -- intros c' Hc'. rewrite Pc. now apply On.
      * assert (Hr' : (rho < ND)%nat) by lia. pose proof (svol_S rho Hr') as Sr. pose proof (svol_le (S rho) mu ltac:(lia) ltac:(lia)) as Le.
        assert (One : forall i, (i < svol mu)%nat -> meq n (mx n (g1 i)) mid).
        { intros i Hi. pose proof (On i 0%nat Hi P2) as Q. rewrite Nat.mul_0_r, Nat.add_0_r in Q. exact Q. }
        assert (Lt : (a + svol rho * S c < svol mu)%nat) by nia.
        destruct Ga as [_ Ga]. rewrite Ga by (try assumption; pose proof (svol_le_V mu); nia).
        pose proof (nbr_line lat rho Nav1 Hr' a c 0) as Nb. unfold pos in Nb. rewrite !Nat.mul_0_r, !Nat.add_0_r in Nb.
        rewrite Nb by (try lia; pose proof (svol_le_V mu); nia). rewrite (proj2 (Nat.eqb_neq (S c) (ext rho))) by lia.
        rewrite !One by nia. rewrite (HT rho a c) by (try assumption; lia). now rewrite dag_mid, !mmul_1_r.
Qed.
Lemma mag_ok : forall n tmp mem o1 o2 sets trans lat, (2 <= n)%nat -> navig ds lat ->
  (forall i mu, (i < V)%nat -> (mu < ND)%nat -> leading n (lnk n lat i mu)) ->
  Permutation o1 (seq 0 V) -> Permutation o2 (seq 0 V) ->
  (forall mu, (mu < ND)%nat -> Permutation (sets mu) (seq 0 V)) -> (forall mu, (mu < ND)%nat -> Permutation (trans mu) (seq 0 V)) ->
  let lat' := mag n (map Z.to_nat ds) tmp mem o1 o2 sets trans lat in
  exists lat0 g, reunited n ND V lat lat0 /\ group_field n ND V lat0 /\ group_gauge n V g /\ gauged n ND V g lat0 lat' /\ tree_trivial n lat' ND.
Proof.
  intros n tmp mem o1 o2 sets trans lat Hn Nav Ld P1 P2 Ps Pt. cbn zeta. unfold mag. rewrite map_length. fold ND.
  set (lat0 := latt_reunitU n ND o1 lat). pose proof (latt_reunitU_ok n ND V o1 lat P1) as R0. fold lat0 in R0.
  pose proof (reunited_group n ND V lat lat0 Hn R0 Ld) as F0. pose proof (navig_same _ _ (proj1 R0) Nav) as Nav0.
  destruct (MAG_fix_ok n tmp mem sets trans lat0 Nav0 F0 Ps Pt) as [(g & Gg & Ga) T].
  set (lat1 := MAG_fix n (map Z.to_nat ds) tmp mem sets trans lat0) in *.
  pose proof (latt_reunitU_ok n ND V o2 lat1 P2) as R1. pose proof (navig_geom ds lat0 Hok Nav0) as Geo0.
  pose proof (gauged_group n ND V g lat0 lat1 (g_nbr _ _ _ Geo0) Gg F0 Ga) as F1.
  exists lat0, g. split; [exact R0|]. split; [exact F0|]. split; [exact Gg|]. split; [now apply (gauged_reunited n ND V g lat0 lat1)|].
  intros rho a c Hr Ha Hc. rewrite (reunited_same n ND V lat1) by (try assumption; pose proof (svol_S rho Hr); pose proof (svol_le_V (S rho) ltac:(lia)); nia).
  now apply T.
Qed.
(** a gauge transformation that keeps the tree is the same at every site *)
Lemma tree_rigid : forall n g l1 l2, navig ds l1 -> group_gauge n V g -> gauged n ND V g l1 l2 -> tree_trivial n l1 ND -> tree_trivial n l2 ND ->
  forall i, (i < V)%nat -> meq n (g i) (g 0%nat).
Proof.
  intros n g l1 l2 Nav Gg [_ Ga] T1 T2.
  assert (St : forall rho a c, (rho < ND)%nat -> (a < svol rho)%nat -> (S c < ext rho)%nat -> meq n (g (a + svol rho * S c)%nat) (g (a + svol rho * c)%nat)).
  { intros rho a c Hr Ha Hc. pose proof (svol_S rho Hr). pose proof (svol_le_V (S rho) ltac:(lia)).
    assert (B : (a + svol rho * S c < V)%nat) by nia.
    assert (B' : (a + svol rho * c < V)%nat) by nia.
    pose proof (nbr_line l1 rho Nav Hr a c 0) as Nb. unfold pos in Nb. rewrite !Nat.mul_0_r, !Nat.add_0_r in Nb.
    specialize (Ga (a + svol rho * c)%nat rho B' Hr). rewrite Nb in Ga by (try assumption; lia).
    rewrite (proj2 (Nat.eqb_neq (S c) (ext rho))) in Ga by lia. rewrite (T1 rho a c), (T2 rho a c), mmul_1_r in Ga by assumption.
    destruct (Gg _ B) as [[_ U] _]. destruct (Gg _ B') as [[U' _] _].
    rewrite <- (mmul_1_r n (g (a + svol rho * c)%nat)), <- U, <- mmul_assoc, <- Ga, mmul_1_l. reflexivity. }
  assert (K : forall m, (m <= ND)%nat -> forall i, (i < svol m)%nat -> meq n (g i) (g 0%nat)).
  { induction m as [|m IH]; intros Hm i Hi.
    - unfold svol in Hi. cbn in Hi. replace i with 0%nat by lia. reflexivity.
    - rewrite svol_S in Hi by lia. pose proof (svol_pos m). pose proof (ext_pos m ltac:(lia)).
      assert (Line : forall c a, (a < svol m)%nat -> (c < ext m)%nat -> meq n (g (a + svol m * c)%nat) (g 0%nat)).
      { induction c; intros a Ha Hc; [rewrite Nat.mul_0_r, Nat.add_0_r; apply IH; [lia|assumption]|].
        rewrite St by (try assumption; lia). apply IHc; [assumption|lia]. }
      pose proof (Nat.div_mod i (svol m) ltac:(lia)) as DM.
      replace i with (i mod svol m + svol m * (i / svol m))%nat by lia. apply Line; [apply Nat.mod_upper_bound; lia|]. apply Nat.div_lt_upper_bound; lia. }
  intros i Hi. apply (K ND); [lia|]. rewrite svol_V. exact Hi.
Qed.
(** the sites of the tree by their coordinates *)
Lemma horner_zero : forall d x, length x = length d -> (forall c, In c x -> c = 0%Z) -> GeomProofs.horner d x = 0%Z.
Proof.
  induction d as [|e d IH]; intros [|c x] Lx Z0; try discriminate; [reflexivity|]. cbn [GeomProofs.horner].
  rewrite IH, (Z0 c); [lia|now left|cbn in Lx; lia|intros q Hq; apply Z0; now right].
Qed.
Lemma tree_coords : forall mu x c L, GeomSpec.in_box ds x -> (mu < ND)%nat -> nth_error x mu = Some c -> nth_error ds mu = Some L -> (c + 1 < L)%Z ->
  (forall nu q, (mu < nu)%nat -> nth_error x nu = Some q -> q = 0%Z) ->
  exists a k, GeomSpec.index_of ds x = Z.of_nat (a + svol mu * k) /\ (a < svol mu)%nat /\ (S k < ext mu)%nat.
Proof.
  intros mu x c L Hx Hm Ec EL Hc Z0. destruct (ds_split mu Hm) as [E Lm]. pose proof Hx as Hx'. rewrite E in Hx.
  apply box_split in Hx. destruct Hx as (x1 & c' & x2 & -> & B1 & B2 & B3).
  pose proof (GeomProofs.in_box_length _ _ B1) as L1. pose proof (GeomProofs.in_box_length _ _ B3) as L2. rewrite Lm in L1.
  assert (c' = c) by (rewrite nth_error_app2, L1, Nat.sub_diag in Ec by lia; cbn in Ec; congruence). subst c'.
  assert (nth mu ds 0%Z = L) by (now apply nth_error_nth). 
  assert (H2 : GeomProofs.horner (skipn (S mu) ds) x2 = 0%Z).
  { apply horner_zero; [assumption|]. intros q Hq. apply In_nth_error in Hq. destruct Hq as [k Hk]. apply (Z0 (mu + S k)%nat q); [lia|].
    rewrite nth_error_app2 by lia. replace (mu + S k - length x1)%nat with (S k) by lia. exact Hk. }
  assert (Ei : GeomSpec.index_of ds (x1 ++ c :: x2) = (GeomProofs.horner (firstn mu ds) x1 + GeomSpec.prodZ (firstn mu ds) * c)%Z).
  { rewrite E at 1. rewrite index_split by (try assumption; lia). rewrite H2. ring. }
  rewrite Ei.
  pose proof (GeomProofs.horner_bound _ _ B1) as HB. exists (Z.to_nat (GeomProofs.horner (firstn mu ds) x1)), (Z.to_nat c).
  unfold svol, ext. rewrite H. split; [|split; lia].
  rewrite Nat2Z.inj_add, Nat2Z.inj_mul, !Z2Nat.id by lia. ring.
Qed.
End Mag.
