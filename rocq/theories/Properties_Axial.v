(** C54-C56: axial gauges, projection by trace maximisation, the residual gauge. *)
From Coq Require Import PeanoNat Lia List ZArith Reals Lra Permutation Setoid.
From Verif Require Import CMat Det Arr MatSpec MmulModel MmulProofs MatModel MatProofs MatProofs2 MatEx Su2Model Su2Proofs GramModel GramProofs
  FieldModel FieldProofs FieldProofs2 FieldProofs3 AxialModel AxialProofs AxialProofs2 AxialProofs3 GivensProofs GivensProofs2 GivensProofs3 ResidualProofs ResidualProofs2.
From Verif Require GeomModel GeomSpec GeomProofs GeomProofs2 CInt.
Import ListNotations.
Local Open Scope C_scope.

(** ** C54.  The site with coordinates x *)
Definition at_ (ds x : list Z) : nat := Z.to_nat (GeomSpec.index_of ds x).
(** every link can be reunitarised *)
Definition usable (n ND V : nat) (lat : lattice) : Prop := forall i mu, (i < V)%nat -> (mu < ND)%nat -> leading n (lnk n lat i mu).
Definition any_order (V : nat) (l : list nat) : Prop := Permutation l (seq 0 V).

(** the field is a gauge transform of the reunitarised field, and the links of the maximal tree are unit matrices *)
Theorem C54_mag : forall n ds tmp mem o1 o2 sets trans lat, (2 <= n)%nat -> GeomSpec.lattice_ok ds -> navig ds lat ->
  let ND := length ds in let V := volume ds in
  usable n ND V lat -> any_order V o1 -> any_order V o2 -> (forall mu, any_order V (sets mu)) -> (forall mu, any_order V (trans mu)) ->
  let lat' := mag n (map Z.to_nat ds) tmp mem o1 o2 sets trans lat in
  (exists lat0 g, reunited n ND V lat lat0 /\ group_field n ND V lat0 /\ group_gauge n V g /\ gauged n ND V g lat0 lat') /\
  forall x mu c L, GeomSpec.in_box ds x -> nth_error x mu = Some c -> nth_error ds mu = Some L -> (c + 1 < L)%Z ->
    (forall nu q, (mu < nu)%nat -> nth_error x nu = Some q -> q = 0%Z) ->
    meq n (lnk n lat' (at_ ds x) mu) mid.
Proof.
  intros n ds tmp mem o1 o2 sets trans lat Hn Hok Nav ND V Us P1 P2 Ps Pt lat'.
  destruct (mag_ok ds Hok n tmp mem o1 o2 sets trans lat Hn Nav Us P1 P2 (fun mu _ => Ps mu) (fun mu _ => Pt mu)) as (lat0 & g & R & F & G & Ga & Tr).
  split; [exists lat0, g; repeat (split; [assumption|]); assumption|].
  intros x mu c L Hx Ec EL Hc Z0. assert (Hm : (mu < ND)%nat) by (apply nth_error_Some; congruence).
  destruct (tree_coords ds mu x c L Hx Hm Ec EL Hc Z0) as (a & k & E & Ha & Hk). unfold at_. rewrite E, Nat2Z.id. now apply Tr.
Qed.
Print Assumptions C54_mag.
Lemma same_field : forall n ND V lat lat0 g lat', (2 <= n)%nat -> geom_ok ND V lat -> group_field n ND V lat -> reunited n ND V lat lat0 -> gauged n ND V g lat0 lat' -> gauged n ND V g lat lat'.
Proof.
  intros n ND V lat lat0 g lat' Hn Geo F R [S G]. split; [eapply same_geom_trans; [apply R|exact S]|].
  intros i mu Hi Hm. rewrite G by assumption. rewrite (reunited_same n ND V lat lat0 Hn R F) by assumption. destruct R as [R _]. now rewrite (proj1 (R i)).
Qed.
(** a special unitary field keeps its plaquettes and Polyakov loops *)
Theorem C54_mag_observables : forall n ds tmp mem o1 o2 sets trans lat t1 t2, (2 <= n)%nat -> GeomSpec.lattice_ok ds -> navig ds lat ->
  let ND := length ds in let V := volume ds in
  group_field n ND V lat -> any_order V o1 -> any_order V o2 -> (forall mu, any_order V (sets mu)) -> (forall mu, any_order V (trans mu)) ->
  let lat' := mag n (map Z.to_nat ds) tmp mem o1 o2 sets trans lat in
  group_field n ND V lat' /\
  all_plaquettes n ND V t1 lat' = all_plaquettes n ND V t2 lat /\
  av_plaquette n ND V t1 lat' = av_plaquette n ND V t2 lat /\
  forall dir, poly n ds t1 lat' dir = poly n ds t2 lat dir.
Proof.
  intros n ds tmp mem o1 o2 sets trans lat t1 t2 Hn Hok Nav ND V F P1 P2 Ps Pt lat'.
  pose proof (navig_geom ds lat Hok Nav) as Geo. fold ND V in Geo.
  destruct (C54_mag n ds tmp mem o1 o2 sets trans lat Hn Hok Nav) as [(lat0 & g & R & F0 & Gg & Ga) _]; try assumption.
  { intros i mu Hi Hm. apply leading_group; [assumption|]. now apply F. }
  fold lat' ND V in R, F0, Gg, Ga. pose proof (same_field n ND V lat lat0 g lat' Hn Geo F R Ga) as G.
  split; [apply (gauged_group n ND V g lat lat'); try assumption; apply Geo|].
  destruct (plaquettes_gauged n ND V g lat lat' Geo (fun i Hi => proj1 (Gg i Hi)) G t2 t1) as (Q1 & Q2 & _).
  { unfold ND. destruct Hok as (H & _). destruct ds; [congruence|cbn; lia]. }
  split; [exact Q1|]. split; [exact Q2|]. intro dir. apply (poly_gauged n ds g lat lat' t2 t1 dir Hok Nav); [|assumption].
  intros i Hi. apply (Gg i Hi).
Qed.
Print Assumptions C54_mag_observables.
(** the gauge is complete: gauge equivalent fields end up the same up to one constant rotation *)
Theorem C54_mag_complete : forall n ds tmp mem o1 o2 sets trans tmp' mem' o1' o2' sets' trans' l1 l2 h, (2 <= n)%nat -> GeomSpec.lattice_ok ds -> navig ds l1 ->
  let ND := length ds in let V := volume ds in
  group_field n ND V l1 -> group_gauge n V h -> gauged n ND V h l1 l2 ->
  any_order V o1 -> any_order V o2 -> (forall mu, any_order V (sets mu)) -> (forall mu, any_order V (trans mu)) ->
  any_order V o1' -> any_order V o2' -> (forall mu, any_order V (sets' mu)) -> (forall mu, any_order V (trans' mu)) ->
  let m1 := mag n (map Z.to_nat ds) tmp mem o1 o2 sets trans l1 in
  let m2 := mag n (map Z.to_nat ds) tmp' mem' o1' o2' sets' trans' l2 in
  exists W, SUn n W /\ forall i mu, (i < V)%nat -> (mu < ND)%nat ->
    meq n (lnk n m2 i mu) (mmul n (mmul n W (lnk n m1 i mu)) (dag W)).
Proof.
  intros n ds tmp mem o1 o2 sets trans tmp' mem' o1' o2' sets' trans' l1 l2 h Hn Hok Nav1 ND V F1 Gh Gah A1 A2 A3 A4 B1 B2 B3 B4 m1 m2.
  pose proof (navig_geom ds l1 Hok Nav1) as Geo1. fold ND V in Geo1.
  pose proof (gauged_group n ND V h l1 l2 (g_nbr _ _ _ Geo1) Gh F1 Gah) as F2.
  pose proof (navig_same ds l1 l2 (proj1 Gah) Nav1) as Nav2. pose proof (navig_geom ds l2 Hok Nav2) as Geo2. fold ND V in Geo2.
  assert (L1 : usable n ND V l1) by (intros i mu Hi Hm; apply leading_group; [assumption|now apply F1]).
  assert (L2 : usable n ND V l2) by (intros i mu Hi Hm; apply leading_group; [assumption|now apply F2]).
  destruct (mag_ok ds Hok n tmp mem o1 o2 sets trans l1 Hn Nav1 L1 A1 A2 (fun mu _ => A3 mu) (fun mu _ => A4 mu)) as (k1 & g1 & R1 & _ & G1 & Ga1 & T1).
  destruct (mag_ok ds Hok n tmp' mem' o1' o2' sets' trans' l2 Hn Nav2 L2 B1 B2 (fun mu _ => B3 mu) (fun mu _ => B4 mu)) as (k2 & g2 & R2 & _ & G2 & Ga2 & T2).
  fold m1 in Ga1, T1. fold m2 in Ga2, T2. fold ND V in G1, G2, Ga1, Ga2, R1, R2.
  pose proof (same_field n ND V l1 k1 g1 m1 Hn Geo1 F1 R1 Ga1) as C1. pose proof (same_field n ND V l2 k2 g2 m2 Hn Geo2 F2 R2 Ga2) as C2.
  pose proof (gauged_inverse n ND V g1 l1 m1 (g_nbr _ _ _ Geo1) (fun i Hi => proj1 (G1 i Hi)) C1) as I1.
  pose proof (gauged_compose n ND V _ _ m1 l1 l2 I1 Gah) as I2. pose proof (gauged_compose n ND V _ _ m1 l2 m2 I2 C2) as I3. cbv beta in I3.
  pose proof (navig_same ds l1 m1 (proj1 C1) Nav1) as NavM. pose proof (navig_geom ds m1 Hok NavM) as GeoM. fold ND V in GeoM.
  set (k := fun i => mmul n (g2 i) (mmul n (h i) (dag (g1 i)))) in *.
  assert (Gk : group_gauge n V k).
  { intros i Hi. apply SUn_mmul; [now apply G2|]. apply SUn_mmul; [now apply Gh|]. apply SUn_dag. now apply G1. }
  pose proof (tree_rigid ds Hok n k m1 m2 NavM Gk I3 T1 T2) as Rg. fold V in Rg.
  assert (V0 : (0 < V)%nat).
  { unfold V, volume. rewrite GeomProofs.lvolume_prod by assumption. pose proof Hok as (_ & Hd & _).
    pose proof (GeomProofs.prodZ_pos _ (GeomProofs.ok_pos _ Hd)). lia. }
  exists (k 0%nat). split; [now apply Gk|]. intros i mu Hi Hm. destruct I3 as [_ I3]. rewrite I3 by assumption.
  rewrite (Rg i Hi), (Rg (nbr (m1 i) mu)); [reflexivity|]. now apply (g_nbr _ _ _ GeoM).
Qed.
Print Assumptions C54_mag_complete.
(** the partial axial gauge: unit links along DIR except the last of each line, which carries the ordered product of the whole line *)
Theorem C54_axial : forall n ds DIR tmp mem o1 o2 sets trans lat, (2 <= n)%nat -> GeomSpec.lattice_ok ds -> (DIR < length ds)%nat -> navig ds lat ->
  let ND := length ds in let V := volume ds in
  usable n ND V lat -> any_order V o1 -> any_order V o2 -> any_order V sets -> any_order V trans ->
  exists lat' lat0 g, axial_gauge n ds tmp mem DIR o1 o2 sets trans lat = Some lat' /\
  reunited n ND V lat lat0 /\ group_field n ND V lat0 /\ group_gauge n V g /\ gauged n ND V g lat0 lat' /\
  forall x c L, GeomSpec.in_box ds x -> nth_error x DIR = Some c -> nth_error ds DIR = Some L ->
    ((c + 1 < L)%Z -> meq n (lnk n lat' (at_ ds x) DIR) mid) /\
    ((c + 1 = L)%Z -> meq n (lnk n lat' (at_ ds x) DIR) (path n lat0 DIR (Z.to_nat L) (nbr (lat (at_ ds x)) DIR))).
Proof.
  intros n ds DIR tmp mem o1 o2 sets trans lat Hn Hok Hm Nav ND V Us P1 P2 Ps Pt.
  destruct (axial_gauge_ok ds DIR Hok Hm n tmp mem o1 o2 sets trans lat Hn Nav Us P1 P2 Ps Pt) as (lat' & lat0 & g & E & R & F & G & Ga & Lk).
  exists lat', lat0, g. repeat (split; [assumption|]).
  intros x c L Hx Ec EL. destruct (coords_pos ds DIR Hm x Hx) as (a & c' & b & Ha & Hc & Ec' & Ei).
  rewrite Ec in Ec'. injection Ec' as ->. assert (EE : Z.to_nat L = ext ds DIR) by (unfold ext; f_equal; symmetry; now apply nth_error_nth).
  assert (LP : (0 < L)%Z) by (pose proof (ext_pos ds Hok DIR Hm); lia).
  assert (Hp : (pos (svol ds DIR) (ext ds DIR) a c' b < volume ds)%nat).
  { pose proof (GeomProofs.horner_bound _ _ Hx). rewrite GeomProofs.index_of_horner in Ei by (now apply GeomProofs.in_box_length).
    unfold volume. rewrite GeomProofs.lvolume_prod by assumption. lia. }
  unfold at_. rewrite Ei, Nat2Z.id. specialize (Lk a b c' Ha Hc Hp). split; intro Q; rewrite Lk.
  - rewrite (proj2 (Nat.eqb_neq _ _)) by lia. reflexivity.
  - rewrite (proj2 (Nat.eqb_eq _ _)) by lia. rewrite (nbr_line ds Hok lat DIR Nav Hm) by assumption. rewrite (proj2 (Nat.eqb_eq (S c') _)) by lia. now rewrite EE.
Qed.
Print Assumptions C54_axial.

(** a 2x3 lattice with links that are not all equal: [ex_lat] of Properties_Field *)
Definition ax_one : arr := fun k => if Nat.eqb (k mod 4) 0 then C1 else C0.
Definition ax_lat : lattice := init_navig [2; 3]%Z (fun i mu => if Nat.eqb i 1 then ex_su3 else ax_one).
Lemma ax_one_ok : SUn 3 (mx 3 ax_one).
Proof. apply (SUn_ext 3 mid); [|apply SUn_mid]. split3; reflexivity. Qed.
Lemma ax_dims : GeomSpec.lattice_ok [2; 3]%Z.
Proof.
  split; [discriminate|]. split; [|reflexivity].
  constructor; [unfold CInt.two31; lia|]. constructor; [unfold CInt.two31; lia|]. constructor.
Qed.
Example C54_ex : GeomSpec.lattice_ok [2; 3]%Z /\ navig [2; 3]%Z ax_lat /\ group_field 3 2 6 ax_lat /\ usable 3 2 6 ax_lat /\ any_order 6 [3;1;0;5;4;2]%nat /\
  GeomSpec.in_box [2; 3]%Z [1; 1]%Z /\ at_ [2; 3]%Z [1; 1]%Z = 3%nat.
Proof.
  assert (F : group_field 3 2 6 ax_lat).
  { intros i mu _ _. unfold lnk. cbn. destruct (Nat.eqb i 1); [apply SUn_3, ex_su3_ok|apply ax_one_ok]. }
  split; [exact ax_dims|]. split; [apply init_navig_ok, ax_dims|]. split; [exact F|]. split; [|split; [|split; [|reflexivity]]].
  - intros i mu Hi Hm. apply leading_group; [lia|now apply F].
  - apply NoDup_Permutation; [|apply seq_NoDup|].
    + repeat (constructor; [cbn; intuition lia|]). constructor.
    + intro x. rewrite in_seq. cbn. lia.
  - constructor; [lia|]. constructor; [lia|constructor].
Qed.

(** ** C55.  [overlap n U W] is Re Tr(U W^dag), what the projection is meant to maximise over SU(n).
    [leading]: the vectors Gram-Schmidt starts from are independent *)
Theorem C55_projection : forall n tol tmp U r, (2 <= n)%nat -> leading n (mx n U) -> givens_reunit n tol tmp U = Some r ->
  SUn n (mx n r) /\ (forall x, (n*n <= x)%nat -> r x = U x) /\
  (overlap n (mx n U) (mx n (gram_reunit n U)) <= overlap n (mx n U) (mx n r))%R.
Proof. exact givens_reunit_group. Qed.
Print Assumptions C55_projection.
Theorem C55_fixes_group : forall n tol tmp U, (2 <= n)%nat -> SUn n (mx n U) ->
  exists r, givens_reunit n tol tmp U = Some r /\ meq n (mx n r) (mx n U).
Proof. exact givens_reunit_id. Qed.
Print Assumptions C55_fixes_group.
(** when a rotation in the plane of two colours would improve on Gram-Schmidt, the result improves on it;
    [embed a b t0 t1] is the rotation with entries t0, t1, -t1*, t0* in rows and columns a, b *)
Theorem C55_improves : forall n tol tmp U r a b t0 t1, (2 <= n)%nat -> leading n (mx n U) -> givens_reunit n tol tmp U = Some r ->
  (a < n)%nat -> (b < n)%nat -> a <> b -> unit2 t0 t1 ->
  let G := mx n (gram_reunit n U) in
  (overlap n (mx n U) G < overlap n (mx n U) (mmul n (embed a b t0 t1) G))%R ->
  (overlap n (mx n U) G < overlap n (mx n U) (mx n r))%R.
Proof. exact givens_reunit_improves. Qed.
Print Assumptions C55_improves.
(** two colours: the only maximum over SU(2); no result exactly when all overlaps vanish *)
Theorem C55_su2_maximum : forall tol tmp U, leading 2 (mx 2 U) ->
  match givens_reunit 2 tol tmp U with
  | Some r => SUn 2 (mx 2 r) /\ forall X, SUn 2 X -> (overlap 2 (mx 2 U) X <= overlap 2 (mx 2 U) (mx 2 r))%R /\
      (overlap 2 (mx 2 U) X = overlap 2 (mx 2 U) (mx 2 r) -> meq 2 X (mx 2 r))
  | None => forall X, SUn 2 X -> overlap 2 (mx 2 U) X = 0%R
  end.
Proof.
  intros tol tmp U L. destruct (givens_reunit 2 tol tmp U) as [r|] eqn:E.
  - split; [now apply (givens_reunit_group 2 tol tmp U r)|]. now apply (givens_two_max tol tmp U r).
  - intros X HX. destruct (givens_two_tracks tol tmp U L) as [W G]. cbv zeta in G.
    destruct (SU2_overlap (mx 2 U) _ X W HX) as (p & q & _ & _ & ->). cbv zeta.
    match type of G with match givens_su2 ?a ?b with _ => _ end => pose proof (givens_su2_ok a b) as K; destruct (givens_su2 a b) as [[t0 t1]|] end.
    + destruct G as (r & E' & _). congruence.
    + destruct K as [-> ->]. cunfold. ring.
Qed.
Print Assumptions C55_su2_maximum.
(** three colours: a division by zero for a matrix of full rank *)
Theorem C55_defined_refuted : exists U, leading 3 (mx 3 U) /\ mdet 3 (mx 3 U) <> C0 /\ forall tol tmp, givens_reunit 3 tol tmp U = None.
Proof.
  exists (dg 1 1 (-1)). split; [apply dg_leading|]. split; [|intros; apply givens_undefined].
  intro E. apply (f_equal re) in E. revert E. unfold mdet, cofactor, minor, skip, sgn, mx, dg. cbn -[Rplus Rmult Ropp]. cunfold. lra.
Qed.
Print Assumptions C55_defined_refuted.
(** three colours: the result need not be the maximum *)
Theorem C55_maximum_refuted : exists U X, leading 3 (mx 3 U) /\ SUn 3 X /\ forall tol tmp, (0 < tol)%R ->
  exists r, givens_reunit 3 tol tmp U = Some r /\ (overlap 3 (mx 3 U) (mx 3 r) < overlap 3 (mx 3 U) X)%R.
Proof.
  exists (dg 1 1 (-3/4)), dz. split; [apply dg_leading|]. split; [apply dz_SUn|]. intros tol tmp Ht.
  destruct (givens_stuck tol tmp (-3/4) ltac:(lra) Ht) as (r & E & _). exists r. split; [exact E|]. now apply (givens_not_max tol tmp r).
Qed.
Print Assumptions C55_maximum_refuted.
Definition shear : arr := fun k => if Nat.eqb k 2 then C0 else C1.
Lemma gram_shear : meq 2 (mx 2 (gram_reunit 2 shear)) mid.
Proof.
  assert (E : forall x, (x = 1)%R -> sqrt x = 1%R) by (intros x ->; apply sqrt_1).
  unfold gram_reunit, gram_reunit_2, shear, mx, upd. split2; cbn [Nat.eqb Nat.add Nat.mul]; apply C_eq; cunfold; rewrite ?E by ring; cbn; try field; try lra.
Qed.
Example C55_improves_ex : leading 2 (mx 2 shear) /\ (exists r, givens_reunit 2 (1/100) (fun _ => C0) shear = Some r) /\ unit2 (RtoC (12/13)) (RtoC (5/13)) /\
  (overlap 2 (mx 2 shear) (mx 2 (gram_reunit 2 shear)) < overlap 2 (mx 2 shear) (mmul 2 (embed 0 1 (RtoC (12/13)) (RtoC (5/13))) (mx 2 (gram_reunit 2 shear))))%R.
Proof.
  assert (L : leading 2 (mx 2 shear)).
  { intros a H i Hi. pose proof (H 0%nat ltac:(lia)) as H0. unfold tr_, mx, shear in H0. cbn [csum Nat.add Nat.mul Nat.eqb] in H0.
    destruct i as [|i]; [|lia]. rewrite <- H0. ring. }
  assert (U2 : unit2 (RtoC (12/13)) (RtoC (5/13))) by (unfold unit2, norm2; cunfold; field).
  assert (O1 : overlap 2 (mx 2 shear) (mx 2 (gram_reunit 2 shear)) = 2%R).
  { rewrite (overlap_ext 2 _ _ _ gram_shear). unfold overlap. rewrite dag_mid, mmul_1_r. unfold mtr, mx, shear. cbn [csum Nat.add Nat.mul Nat.eqb]. cunfold. ring. }
  assert (O2 : overlap 2 (mx 2 shear) (mmul 2 (embed 0 1 (RtoC (12/13)) (RtoC (5/13))) (mx 2 (gram_reunit 2 shear))) = (29/13)%R).
  { assert (E : meq 2 (mmul 2 (embed 0 1 (RtoC (12/13)) (RtoC (5/13))) (mx 2 (gram_reunit 2 shear))) (embed 0 1 (RtoC (12/13)) (RtoC (5/13)))).
    { rewrite gram_shear. apply mmul_1_r. }
    rewrite (overlap_ext 2 _ _ _ E). unfold overlap. rewrite re_mtr_embed_dag by lia. unfold mtr, mx, shear. cbn [csum Nat.add Nat.mul Nat.eqb]. cunfold. field. }
  split; [exact L|]. split; [|split; [exact U2|]].
  - destruct (givens_reunit 2 (1/100) (fun _ => C0) shear) as [r|] eqn:E; [now exists r|]. exfalso.
    pose proof (C55_su2_maximum (1/100) (fun _ => C0) shear L) as K. rewrite E in K.
    specialize (K (mx 2 (gram_reunit 2 shear))). rewrite O1 in K. enough (2 = 0)%R by lra. apply K.
    apply (SUn_ext 2 mid); [symmetry; apply gram_shear|apply SUn_mid].
  - rewrite O1, O2. lra.
Qed.
Example C55_ex : leading 3 (mx 3 (dg 1 1 2)) /\ SUn 3 (mx 3 ex_su3) /\
  exists r, givens_reunit 3 (1/100) (fun _ => C0) (dg 1 1 2) = Some r.
Proof.
  split; [apply dg_leading|]. split; [apply SUn_3, ex_su3_ok|].
  destruct (givens_stuck (1/100) (fun _ => C0) 2 ltac:(lra) ltac:(lra)) as (r & E & _). now exists r.
Qed.

(** ** C56.  The lattice has extents ds and T in time; slice_sum is the sum of the temporal links of a slice *)
Theorem C56_gauge : forall n ds T tol tmp mem order lat lat', (2 <= n)%nat -> GeomSpec.lattice_ok (ds ++ [T]) -> navig (ds ++ [T]) lat ->
  let LCU := Z.to_nat (GeomSpec.prodZ ds) in let ND := length (ds ++ [T]) in let V := volume (ds ++ [T]) in let Tn := Z.to_nat T in
  group_field n ND V lat -> any_order V order ->
  (forall t, (S t < Tn)%nat -> leading n (mx n (time_average n ND LCU tmp lat t))) ->
  residual_fix n ND LCU Tn tol tmp mem order lat = Some lat' ->
  exists h : nat -> mat, (forall t, (t < Tn)%nat -> SUn n (h t)) /\ gauged n ND V (fun i => h (i / LCU)%nat) lat lat' /\
  forall i mu, (i < V)%nat -> (mu < length ds)%nat -> mtr n (lnk n lat' i mu) = mtr n (lnk n lat i mu).
Proof.
  intros n ds T tol tmp mem order lat lat' Hn Hok Nav LCU ND V Tn F Po Ld E.
  destruct (residual_fix_ok ds T lat n Hok Nav Hn F tol tmp mem order lat' Po Ld E) as (h & _ & H1 & H2 & _).
  exists h. split; [exact H1|]. split; [exact H2|]. now apply (gauged_space ds T lat n Hok Nav Hn h lat').
Qed.
Print Assumptions C56_gauge.
(** the temporal links of the slices but the last: their summed real trace is at least what
    reunitarised averages would give; for two colours it is the largest a rotation of the next slice can give,
    and no smaller than before *)
Theorem C56_temporal : forall n ds T tol tmp mem order lat lat', (2 <= n)%nat -> GeomSpec.lattice_ok (ds ++ [T]) -> navig (ds ++ [T]) lat ->
  let LCU := Z.to_nat (GeomSpec.prodZ ds) in let ND := length (ds ++ [T]) in let V := volume (ds ++ [T]) in let Tn := Z.to_nat T in
  group_field n ND V lat -> any_order V order ->
  (forall t, (S t < Tn)%nat -> leading n (mx n (time_average n ND LCU tmp lat t))) ->
  residual_fix n ND LCU Tn tol tmp mem order lat = Some lat' ->
  forall t, (S t < Tn)%nat ->
  let sum l := rsum LCU (fun x => re (mtr n (lnk n l (x + LCU * t)%nat (length ds)))) in
  let S := slice_sum n ND LCU lat t in
  (overlap n S (mx n (gram_reunit n (time_average n ND LCU tmp lat t))) <= sum lat')%R /\
  (n = 2%nat -> (forall X, SUn 2 X -> overlap n S X <= sum lat')%R /\ (sum lat <= sum lat')%R).
Proof.
  intros n ds T tol tmp mem order lat lat' Hn Hok Nav LCU ND V Tn F Po Ld E t Ht sum S.
  destruct (residual_fix_ok ds T lat n Hok Nav Hn F tol tmp mem order lat' Po Ld E) as (h & _ & H1 & H2 & H3).
  destruct (H3 t Ht) as (P & EP & EH).
  assert (EN : (length (ds ++ [T]) - 1)%nat = length ds) by (rewrite app_length; cbn [length]; lia).
  assert (ES : forall l, sum l = re (mtr n (slice_sum n ND LCU l t))).
  { intro l. unfold sum, ND, LCU. rewrite slice_trace. now rewrite EN. }
  assert (EO : sum lat' = overlap n S (mx n P)) by (rewrite ES; now apply (residual_overlap ds T lat n Hok Nav Hn h lat' (mx n P) H1 H2 t Ht)).
  rewrite EO. split.
  - apply (average_le ds T lat n Hok Hn tmp t). apply (givens_reunit_group n tol tmp _ P Hn (Ld t Ht) EP).
  - intros ->. assert (Mx : forall X, SUn 2 X -> (overlap 2 S X <= overlap 2 S (mx 2 P))%R).
    { intros X HX. apply (average_le ds T lat 2 Hok Hn tmp t). now apply (givens_two_max tol tmp _ P (Ld t Ht) EP). }
    split; [exact Mx|]. rewrite ES. fold S. replace (re (mtr 2 S)) with (overlap 2 S mid); [apply Mx, SUn_mid|].
    unfold overlap. now rewrite dag_mid, mmul_1_r.
Qed.
Print Assumptions C56_temporal.

(** three colours: the summed trace of the temporal links can become smaller *)
Theorem C56_decrease_refuted : exists lat, GeomSpec.lattice_ok [22; 2]%Z /\ navig [22; 2]%Z lat /\ group_field 3 2 44 lat /\
  forall tol tmp mem order, any_order 44 order ->
  leading 3 (mx 3 (time_average 3 2 22 tmp lat 0)) /\
  exists lat', residual_fix 3 2 22 2 tol tmp mem order lat = Some lat' /\
  let sum l := rsum 22 (fun x => re (mtr 3 (lnk 3 l x 1))) in (sum lat' < sum lat)%R.
Proof.
  exists down_lat. split; [exact down_dims|]. split; [apply init_navig_ok, down_dims|]. split; [exact down_group|].
  intros tol tmp mem order Po. split.
  { apply (leading_ext 3 (mx 3 (zarr (8/22) (8/22) (8/22 * (-3/4))))); [symmetry; apply down_average|apply zarr_leading; lra]. }
  destruct (down_decreases tol tmp mem order Po) as (lat' & E & D). exists lat'. split; [exact E|]. cbv zeta.
  rewrite !(slice_trace [22]%Z 2 3) in D. cbn [app length Nat.sub] in D. change (Z.to_nat (GeomSpec.prodZ [22%Z])) with 22%nat in D.
  assert (R : forall l, rsum 22 (fun x => re (mtr 3 (lnk 3 l (x + 22 * 0)%nat 1))) = rsum 22 (fun x => re (mtr 3 (lnk 3 l x 1)))).
  { intro l. apply rsum_ext. intros x Hx. now rewrite Nat.mul_0_r, Nat.add_0_r. }
  now rewrite !R in D.
Qed.
Print Assumptions C56_decrease_refuted.
(** the averages of a lattice whose temporal links agree within each slice are in the group: the step is defined *)
Lemma residual_defined : forall n ND LCU T tol tmp mem order lat,
  (forall t, (S t < T)%nat -> givens_reunit n tol tmp (time_average n ND LCU tmp lat t) <> None) ->
  exists lat', residual_fix n ND LCU T tol tmp mem order lat = Some lat'.
Proof.
  intros n ND LCU T tol tmp mem order lat H. unfold residual_fix.
  assert (K : residual_gauge n ND LCU T tol tmp mem lat <> None).
  { unfold residual_gauge. match goal with |- context [for_ _ ?f ?z] => apply (for_ind (fun k g => g <> None) (T-1) f z) end; [discriminate|].
    intros k [g|] Hk Hg; [|congruence]. destruct (givens_reunit n tol tmp _) eqn:E; [discriminate|]. exfalso. apply (H k); [lia|exact E]. }
  destruct (residual_gauge n ND LCU T tol tmp mem lat); [eauto|congruence].
Qed.
Definition res_lat : lattice := init_navig [2; 3]%Z (fun i mu => if andb (Nat.eqb mu 1) (Nat.eqb (i / 2) 1) then ex_su3 else ax_one).
Example C56_ex : GeomSpec.lattice_ok [2; 3]%Z /\ navig [2; 3]%Z res_lat /\ group_field 3 2 6 res_lat /\ any_order 6 [3;1;0;5;4;2]%nat /\
  (forall tmp t, (S t < 3)%nat -> leading 3 (mx 3 (time_average 3 2 2 tmp res_lat t))) /\
  forall tol tmp mem, exists lat', residual_fix 3 2 2 3 tol tmp mem [3;1;0;5;4;2]%nat res_lat = Some lat'.
Proof.
  assert (F : group_field 3 2 6 res_lat).
  { intros i mu _ _. unfold lnk. cbn. destruct (_ && _)%bool; [apply SUn_3, ex_su3_ok|apply ax_one_ok]. }
  assert (S : forall tmp t, (S t < 3)%nat -> SUn 3 (mx 3 (time_average 3 2 2 tmp res_lat t))).
  { intros tmp t Ht. apply (SUn_ext 3 (lnk 3 res_lat (2 * t) 1)); [|apply F; lia].
    rewrite time_average_ok. intros i j Hi Hj. unfold mscale, slice_sum. cbn [csum].
    assert (E : lnk 3 res_lat (1 + 2 * t) 1 i j = lnk 3 res_lat (2 * t) 1 i j).
    { destruct t as [|[|t]]; [reflexivity|reflexivity|lia]. }
    change (2 - 1)%nat with 1%nat. rewrite E. change (0 + 2*t)%nat with (2*t)%nat. generalize (lnk 3 res_lat (2*t) 1 i j). intros [x y]. cunfold. cbn [INR]. f_equal; field. }
  split; [exact ax_dims|]. split; [apply init_navig_ok, ax_dims|]. split; [exact F|]. split; [apply C54_ex|]. split.
  - intros tmp t Ht. apply leading_group; [lia|now apply S].
  - intros tol tmp mem. apply residual_defined. intros t Ht E. destruct (givens_reunit_id 3 tol tmp _ ltac:(lia) (S tmp t Ht)) as (r & E' & _). congruence.
Qed.
