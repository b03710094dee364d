(** C62: hypercubic smearing. *)
From Coq Require Import PeanoNat List Reals Lra Lia ZArith Permutation Setoid.
From Verif Require CInt GeomModel GeomSpec.
From Verif Require Import CMat Det Arr MatSpec MatModel MatProofs MmulModel ProjProofs FieldModel FieldProofs FieldProofs2 ExpSpec SpecCalc ExpModel ExpProofs ExpProofs2 ApeModel
  SmearModel SmearProofs SmearProofs2 Properties_Smear HypModel HypSpec HypProofs HypProofs3 HypProofs5 HypProofs6 HypProofs7.
Import ListNotations.
Local Open Scope nat_scope.

(** the projection routines and what they compute: stout links for two and three colours
    (wherever the exponential is computed without expansion, C35), APE links for two colours
    (for three APE links are not covariant, C33) *)
Inductive projects (n : nat) : projection -> (R -> R -> mat -> mat -> mat -> Prop) -> Prop :=
| by_stout : n = 2 \/ n = 3 -> projects n (project_STOUT n) (stout_K n)
| by_ape : forall tol tmp, n = 2 -> projects n (project_APE 2 tol tmp) ape_K.
(** the field lat of C arrays holds the links U, all in the group *)
Definition links (n V : nat) (lat : field arr) (U : nat -> nat -> mat) : Prop :=
  forall i mu, i < V -> mu < 4 -> meq n (mx n (lat i mu)) (U i mu) /\ SUn n (U i mu).
Definition fwd (geo : lattice) (i mu : nat) : nat := nbr (geo i) mu.
Definition bwd (geo : lattice) (i mu : nat) : nat := bck (geo i) mu.
(** every work-shared loop runs each of its iterations once, in any order *)
Definition hyp_orders (V LCU T : nat) (sc : hsched) : Prop :=
  Permutation (h_lv1 sc) (seq 0 V) /\ Permutation (h_lv2 sc) (seq 0 V) /\ Permutation (h_first sc) (seq 0 LCU) /\ Permutation (h_last sc) (seq 0 LCU) /\
  forall t, t < T -> Permutation (h_slice sc t) (seq 0 LCU).

Lemma projects_Kext : forall n project K, projects n project K ->
  forall sa al S S' U U' M, meq n S S' -> meq n U U' -> K sa al S U M -> K sa al S' U' M.
Proof.
  intros n project K [Hn|tol tmp Hn] sa al S S' U U' M ES EU H.
  - exact (stout_Kext n sa al S S' U U' M Hn ES EU H).
  - subst n. exact (ape_Kext sa al S S' U U' M ES EU H).
Qed.
Lemma projects_Kcomp : forall n project K, projects n project K ->
  forall sl S U sa al M, SUn n (mx n U) -> shaped n (mx n S) -> K sa al (mx n S) (mx n U) M ->
  exists r, project sl S U sa al = Some r /\ meq n (mx n r) M /\ SUn n M.
Proof.
  intros n project K [Hn|tol tmp Hn] sl S U sa al M HU HS H.
  - exact (stout_Kcomp n sl S U sa al M Hn HU HS H).
  - subst n. exact (ape_Kcomp tol tmp sl S U sa al M HU HS H).
Qed.
Lemma projects_Kcov : forall n project K, projects n project K ->
  forall g h sa al S U M, SUn n g -> SUn n h -> K sa al S U M ->
  K sa al (mmul n (mmul n g S) (dag h)) (mmul n (mmul n g U) (dag h)) (mmul n (mmul n g M) (dag h)).
Proof.
  intros n project K [Hn|tol tmp Hn] g h sa al S U M Hg Hh H.
  - exact (stout_Kcov n g h sa al S U M Hn Hg Hh H).
  - subst n. exact (ape_Kcov g h sa al S U M Hg Hh H).
Qed.

(** ** the routines compute the hypercubic links *)
(** Us s: the links after s sweeps, each obtained from the one before by hyp_step (HypSpec.v):
    three levels with weights alpha3/2, alpha2/4, alpha1/6.  Any schedule, any previous contents of the
    temporaries, any four-dimensional lattice, any number of sweeps. *)
Theorem C62_fast : forall n project K ds geo junk sm scs smiters lat lev1 lev2 lat2 lat3 lat4 Us, projects n project K ->
  GeomSpec.lattice_ok ds -> navig ds geo -> length ds = 4 -> links n (volume ds) lat (Us 0) ->
  (forall s, s < smiters -> hyp_step n (volume ds) (fwd geo) (bwd geo) K sm (Us s) (Us (S s))) ->
  (forall s, hyp_orders (volume ds) (lcu ds) (ntime ds) (scs s)) ->
  exists lat', HYPSLsmear4D_expensive project n junk geo sm (lcu ds) (ntime ds) scs smiters lat lev1 lev2 lat2 lat3 lat4 = Some lat' /\
    links n (volume ds) lat' (Us smiters).
Proof.
  intros n project K ds geo junk sm scs smiters lat lev1 lev2 lat2 lat3 lat4 Us HP Hok Nav H4 H0 Hs Ho. unfold HYPSLsmear4D_expensive.
  destruct (hyp4D_sweeps_ok n ds geo Hok Nav H4 project junk K (projects_Kext n project K HP) (projects_Kcomp n project K HP) sm scs smiters lat lev1 lev2 lat2 lat3 lat4 Us H0 Hs Ho)
    as (lat' & b1 & b2 & c2 & c3 & c4 & E & X).
  rewrite E. exists lat'. split; [reflexivity|exact X].
Qed.
Print Assumptions C62_fast.
(** the recursive routine called for all four directions *)
Theorem C62_recursive : forall n project K ds geo junk sm scs smiters lat lat2 lat3 lat4 Us, projects n project K ->
  GeomSpec.lattice_ok ds -> navig ds geo -> length ds = 4 -> links n (volume ds) lat (Us 0) ->
  (forall s, s < smiters -> hyp_step n (volume ds) (fwd geo) (bwd geo) K sm (Us s) (Us (S s))) ->
  (forall s, orders (lcu ds) (ntime ds) (lcu ds) (scs s)) ->
  exists lat', HYsmearND project n junk geo 4 sm 4 (lcu ds) (ntime ds) scs smiters lat lat2 lat3 lat4 = Some lat' /\
    links n (volume ds) lat' (Us smiters).
Proof.
  intros n project K ds geo junk sm scs smiters lat lat2 lat3 lat4 Us HP Hok Nav H4 H0 Hs Ho.
  apply (hynd_sweeps_ok n ds geo Hok Nav H4 project junk sm 4 (hyp_step n (volume ds) (fwd geo) (bwd geo) K sm)); try assumption.
  - now right.
  - intros l U U' i mu HF HR Hi Hm. exact (hynd4 n ds geo Hok Nav H4 project junk K (projects_Kext n project K HP) (projects_Kcomp n project K HP) sm l U U' i mu HF HR Hi Hm).
  - intros U U' _ X. discriminate.
Qed.
Print Assumptions C62_recursive.
(** the two give the same links *)
Theorem C62_fast_is_recursive : forall n project K ds geo junk junk' sm scs scs' smiters lat lev1 lev2 lat2 lat3 lat4 lat2' lat3' lat4' Us, projects n project K ->
  GeomSpec.lattice_ok ds -> navig ds geo -> length ds = 4 -> links n (volume ds) lat (Us 0) ->
  (forall s, s < smiters -> hyp_step n (volume ds) (fwd geo) (bwd geo) K sm (Us s) (Us (S s))) ->
  (forall s, hyp_orders (volume ds) (lcu ds) (ntime ds) (scs s)) -> (forall s, orders (lcu ds) (ntime ds) (lcu ds) (scs' s)) ->
  exists l l', HYPSLsmear4D_expensive project n junk geo sm (lcu ds) (ntime ds) scs smiters lat lev1 lev2 lat2 lat3 lat4 = Some l /\
    HYsmearND project n junk' geo 4 sm 4 (lcu ds) (ntime ds) scs' smiters lat lat2' lat3' lat4' = Some l' /\
    forall i mu, i < volume ds -> mu < 4 -> meq n (mx n (l i mu)) (mx n (l' i mu)).
Proof.
  intros n project K ds geo junk junk' sm scs scs' smiters lat lev1 lev2 lat2 lat3 lat4 lat2' lat3' lat4' Us HP Hok Nav H4 H0 Hs Ho Ho'.
  destruct (C62_fast n project K ds geo junk sm scs smiters lat lev1 lev2 lat2 lat3 lat4 Us HP Hok Nav H4 H0 Hs Ho) as (l & E & X).
  destruct (C62_recursive n project K ds geo junk' sm scs' smiters lat lat2' lat3' lat4' Us HP Hok Nav H4 H0 Hs Ho') as (l' & E' & X').
  exists l, l'. split; [exact E|]. split; [exact E'|]. intros i mu Hi Hm. rewrite (proj1 (X i mu Hi Hm)). symmetry. apply (X' i mu Hi Hm).
Qed.
Print Assumptions C62_fast_is_recursive.
(** spatial links: HYPSLsmear3D, and the recursive routine called for three directions *)
Theorem C62_spatial : forall n project K ds geo junk junk' sm ord1 ord2 scs smiters lat lev1 lat2 lat2' lat3' lat4' Us, projects n project K ->
  GeomSpec.lattice_ok ds -> navig ds geo -> length ds = 4 -> links n (volume ds) lat (Us 0) ->
  (forall s, s < smiters -> hyp3_step n (volume ds) (fwd geo) (bwd geo) K sm (Us s) (Us (S s))) ->
  (forall s t, t < ntime ds -> Permutation (ord1 s t) (seq 0 (lcu ds)) /\ Permutation (ord2 s t) (seq 0 (lcu ds))) ->
  (forall s, orders (lcu ds) (ntime ds) (lcu ds) (scs s)) ->
  (exists l, HYPSLsmear3D project n junk geo sm (lcu ds) (ntime ds) ord1 ord2 smiters lat lev1 lat2 = Some l /\ links n (volume ds) l (Us smiters)) /\
  (exists l, HYsmearND project n junk' geo 4 sm 3 (lcu ds) (ntime ds) scs smiters lat lat2' lat3' lat4' = Some l /\ links n (volume ds) l (Us smiters)).
Proof.
  intros n project K ds geo junk junk' sm ord1 ord2 scs smiters lat lev1 lat2 lat2' lat3' lat4' Us HP Hok Nav H4 H0 Hs Ho Ho'. split.
  - unfold HYPSLsmear3D.
    destruct (hyp3D_sweeps_ok n ds geo Hok Nav H4 project junk K (projects_Kext n project K HP) (projects_Kcomp n project K HP) sm ord1 ord2 smiters lat lev1 lat2 Us H0 Hs Ho)
      as (l & b1 & c2 & E & X).
    rewrite E. exists l. split; [reflexivity|exact X].
  - apply (hynd_sweeps_ok n ds geo Hok Nav H4 project junk' sm 3 (hyp3_step n (volume ds) (fwd geo) (bwd geo) K sm)); try assumption.
    + now left.
    + intros l U U' i mu HF HR Hi Hm. exact (hynd3 n ds geo Hok Nav H4 project junk' K (projects_Kext n project K HP) (projects_Kcomp n project K HP) sm l U U' i mu HF HR Hi Hm).
    + intros U U' (V1 & _ & _ & X) _ i Hi. now apply X.
Qed.
Print Assumptions C62_spatial.

(** ** gauge covariance *)
(** The links of lat' are those of lat after the gauge transformation g.  So are the smeared
    ones, for all four routines. *)
Definition transformed (n V : nat) (geo : lattice) (g : nat -> mat) (U U' : nat -> nat -> mat) : Prop :=
  forall i mu, i < V -> mu < 4 -> meq n (U' i mu) (mmul n (mmul n (g i) (U i mu)) (dag (g (nbr (geo i) mu)))).
Definition fat_of (R' : (nat -> nat -> mat) -> (nat -> nat -> mat) -> Prop) (k : nat) (U U' : nat -> nat -> mat) : Prop :=
  exists Us : nat -> nat -> nat -> mat, Us 0 = U /\ Us k = U' /\ forall s, s < k -> R' (Us s) (Us (S s)).
Theorem C62_covariant : forall n project K ds geo junk junk' sm scs scs' g smiters U U' lat lev1 lev2 lat2 lat3 lat4 lat' lev1' lev2' lat2' lat3' lat4', projects n project K ->
  GeomSpec.lattice_ok ds -> navig ds geo -> length ds = 4 -> group_gauge n (volume ds) g ->
  links n (volume ds) lat U -> links n (volume ds) lat' (fun i mu => mmul n (mmul n (g i) (U i mu)) (dag (g (nbr (geo i) mu)))) ->
  fat_of (hyp_step n (volume ds) (fwd geo) (bwd geo) K sm) smiters U U' ->
  (forall s, hyp_orders (volume ds) (lcu ds) (ntime ds) (scs s)) -> (forall s, hyp_orders (volume ds) (lcu ds) (ntime ds) (scs' s)) ->
  exists l l', HYPSLsmear4D_expensive project n junk geo sm (lcu ds) (ntime ds) scs smiters lat lev1 lev2 lat2 lat3 lat4 = Some l /\
    HYPSLsmear4D_expensive project n junk' geo sm (lcu ds) (ntime ds) scs' smiters lat' lev1' lev2' lat2' lat3' lat4' = Some l' /\
    links n (volume ds) l U' /\ transformed n (volume ds) geo g (fun i mu => mx n (l i mu)) (fun i mu => mx n (l' i mu)).
Proof.
  intros n project K ds geo junk junk' sm scs scs' g smiters U U' lat lev1 lev2 lat2 lat3 lat4 lat' lev1' lev2' lat2' lat3' lat4' HP Hok Nav H4 Hg H0 H0' (Us & E0 & Ek & Hs) Ho Ho'.
  subst U U'. pose proof (navig_geom ds geo Hok Nav) as G. fold (volume ds) in G. rewrite H4 in G.
  destruct (C62_fast n project K ds geo junk sm scs smiters lat lev1 lev2 lat2 lat3 lat4 Us HP Hok Nav H4 H0 Hs Ho) as (l & E & X).
  destruct (C62_fast n project K ds geo junk' sm scs' smiters lat' lev1' lev2' lat2' lat3' lat4' (fun s i mu => gauge_links n (fwd geo) g mu (fun j => Us s j mu) i) HP Hok Nav H4 H0') as (l' & E' & X').
  - intros s Hs'. exact (hyp_step_cov n 4 (volume ds) geo G g Hg K (projects_Kext n project K HP) (projects_Kcov n project K HP) sm (Us s) (Us (S s)) eq_refl (Hs s Hs')).
  - exact Ho'.
  - exists l, l'. split; [exact E|]. split; [exact E'|]. split; [exact X|]. intros i mu Hi Hm.
    rewrite (proj1 (X' i mu Hi Hm)), (proj1 (X i mu Hi Hm)). reflexivity.
Qed.
Print Assumptions C62_covariant.
Theorem C62_spatial_covariant : forall n project K ds geo junk junk' sm ord1 ord2 ord1' ord2' g smiters U U' lat lev1 lat2 lat' lev1' lat2', projects n project K ->
  GeomSpec.lattice_ok ds -> navig ds geo -> length ds = 4 -> group_gauge n (volume ds) g ->
  links n (volume ds) lat U -> links n (volume ds) lat' (fun i mu => mmul n (mmul n (g i) (U i mu)) (dag (g (nbr (geo i) mu)))) ->
  fat_of (hyp3_step n (volume ds) (fwd geo) (bwd geo) K sm) smiters U U' ->
  (forall s t, t < ntime ds -> Permutation (ord1 s t) (seq 0 (lcu ds)) /\ Permutation (ord2 s t) (seq 0 (lcu ds))) ->
  (forall s t, t < ntime ds -> Permutation (ord1' s t) (seq 0 (lcu ds)) /\ Permutation (ord2' s t) (seq 0 (lcu ds))) ->
  exists l l', HYPSLsmear3D project n junk geo sm (lcu ds) (ntime ds) ord1 ord2 smiters lat lev1 lat2 = Some l /\
    HYPSLsmear3D project n junk' geo sm (lcu ds) (ntime ds) ord1' ord2' smiters lat' lev1' lat2' = Some l' /\
    links n (volume ds) l U' /\ transformed n (volume ds) geo g (fun i mu => mx n (l i mu)) (fun i mu => mx n (l' i mu)).
Proof.
  intros n project K ds geo junk junk' sm ord1 ord2 ord1' ord2' g smiters U U' lat lev1 lat2 lat' lev1' lat2' HP Hok Nav H4 Hg H0 H0' (Us & E0 & Ek & Hs) Ho Ho'.
  subst U U'. pose proof (navig_geom ds geo Hok Nav) as G. fold (volume ds) in G. rewrite H4 in G.
  assert (Os : forall s, orders (lcu ds) (ntime ds) (lcu ds) ((fun _ : nat => ex_sched (lcu ds) (lcu ds)) s)) by (intro s; apply ex_orders).
  destruct (C62_spatial n project K ds geo junk junk sm ord1 ord2 _ smiters lat lev1 lat2 lat2 lat2 lat2 Us HP Hok Nav H4 H0 Hs Ho Os) as [(l & E & X) _].
  destruct (C62_spatial n project K ds geo junk' junk' sm ord1' ord2' (fun _ : nat => ex_sched (lcu ds) (lcu ds)) smiters lat' lev1' lat2' lat2' lat2' lat2' (fun s i mu => gauge_links n (fwd geo) g mu (fun j => Us s j mu) i) HP Hok Nav H4 H0') as [(l' & E' & X') _].
  - intros s Hs'. exact (hyp3_step_cov n 4 (volume ds) geo G g Hg K (projects_Kext n project K HP) (projects_Kcov n project K HP) sm (Us s) (Us (S s)) eq_refl (Hs s Hs')).
  - exact Ho'.
  - exact Os.
  - exists l, l'. split; [exact E|]. split; [exact E'|]. split; [exact X|]. intros i mu Hi Hm.
    rewrite (proj1 (X' i mu Hi Hm)), (proj1 (X i mu Hi Hm)). reflexivity.
Qed.
Print Assumptions C62_spatial_covariant.

(** ** two colours, APE links, parameters below 1/2: no hypothesis on the field but that it is in the group *)
Theorem C62_su2 : forall ds geo junk junk' sm tol tmp tmp' scs scs' smiters U lat lev1 lev2 lat2 lat3 lat4 lat2' lat3' lat4',
  GeomSpec.lattice_ok ds -> navig ds geo -> length ds = 4 -> links 2 (volume ds) lat U -> (forall k, k < 3 -> (0 <= sm k < 1/2)%R) ->
  (forall s, hyp_orders (volume ds) (lcu ds) (ntime ds) (scs s)) -> (forall s, orders (lcu ds) (ntime ds) (lcu ds) (scs' s)) ->
  exists U' l l', fat_of (hyp_step 2 (volume ds) (fwd geo) (bwd geo) ape_K sm) smiters U U' /\
    HYPSLsmear4D_expensive (project_APE 2 tol tmp) 2 junk geo sm (lcu ds) (ntime ds) scs smiters lat lev1 lev2 lat2 lat3 lat4 = Some l /\
    HYsmearND (project_APE 2 tol tmp') 2 junk' geo 4 sm 4 (lcu ds) (ntime ds) scs' smiters lat lat2' lat3' lat4' = Some l' /\
    links 2 (volume ds) l U' /\ links 2 (volume ds) l' U'.
Proof.
  intros ds geo junk junk' sm tol tmp tmp' scs scs' smiters U lat lev1 lev2 lat2 lat3 lat4 lat2' lat3' lat4' Hok Nav H4 H0 Ha Ho Ho'.
  pose proof (navig_geom ds geo Hok Nav) as G. fold (volume ds) in G. rewrite H4 in G.
  destruct (chain_exists 4 eq_refl (hyp_step 2 (volume ds) (fwd geo) (bwd geo) ape_K sm) (fun U => forall i mu, i < volume ds -> mu < 4 -> SUn 2 (U i mu)) smiters U) as (Us & E0 & Hs & _).
  { intros W HW. exact (hyp_exists 4 (volume ds) geo G eq_refl sm Ha W HW). }
  { intros i mu Hi Hm. now apply H0. }
  rewrite <- E0 in H0.
  destruct (C62_fast 2 _ _ ds geo junk sm scs smiters lat lev1 lev2 lat2 lat3 lat4 Us (by_ape 2 tol tmp eq_refl) Hok Nav H4 H0 Hs Ho) as (l & E & X).
  destruct (C62_recursive 2 _ _ ds geo junk' sm scs' smiters lat lat2' lat3' lat4' Us (by_ape 2 tol tmp' eq_refl) Hok Nav H4 H0 Hs Ho') as (l' & E' & X').
  exists (Us smiters), l, l'. split; [exists Us; auto|]. auto.
Qed.
Print Assumptions C62_su2.
Theorem C62_su2_spatial : forall ds geo junk sm tol tmp ord1 ord2 smiters U lat lev1 lat2,
  GeomSpec.lattice_ok ds -> navig ds geo -> length ds = 4 -> links 2 (volume ds) lat U -> (forall k, k < 3 -> (0 <= sm k < 1/2)%R) ->
  (forall s t, t < ntime ds -> Permutation (ord1 s t) (seq 0 (lcu ds)) /\ Permutation (ord2 s t) (seq 0 (lcu ds))) ->
  exists U' l, fat_of (hyp3_step 2 (volume ds) (fwd geo) (bwd geo) ape_K sm) smiters U U' /\
    HYPSLsmear3D (project_APE 2 tol tmp) 2 junk geo sm (lcu ds) (ntime ds) ord1 ord2 smiters lat lev1 lat2 = Some l /\ links 2 (volume ds) l U'.
Proof.
  intros ds geo junk sm tol tmp ord1 ord2 smiters U lat lev1 lat2 Hok Nav H4 H0 Ha Ho.
  pose proof (navig_geom ds geo Hok Nav) as G. fold (volume ds) in G. rewrite H4 in G.
  destruct (chain_exists 4 eq_refl (hyp3_step 2 (volume ds) (fwd geo) (bwd geo) ape_K sm) (fun U => forall i mu, i < volume ds -> mu < 4 -> SUn 2 (U i mu)) smiters U) as (Us & E0 & Hs & _).
  { intros W HW. exact (hyp3_exists 4 (volume ds) geo G eq_refl sm Ha W HW). }
  { intros i mu Hi Hm. now apply H0. }
  rewrite <- E0 in H0.
  assert (Os : forall s, orders (lcu ds) (ntime ds) (lcu ds) ((fun _ : nat => ex_sched (lcu ds) (lcu ds)) s)) by (intro s; apply ex_orders).
  destruct (C62_spatial 2 _ _ ds geo junk junk sm ord1 ord2 _ smiters lat lev1 lat2 lat2 lat2 lat2 Us (by_ape 2 tol tmp eq_refl) Hok Nav H4 H0 Hs Ho Os) as [(l & E & X) _].
  exists (Us smiters), l. split; [exists Us; auto|]. auto.
Qed.
Print Assumptions C62_su2_spatial.

(** ** the weights *)
(** docs/Smearing_info.tex: the staples of level k have weight alpha_k / (2 (Nd - k)).  So it is
    in four dimensions. *)
Theorem C62_weights : forall sm k, 1 <= k <= 3 -> smear_alphas 4 sm k = (sm (k - 1)%nat / (2 * (4 - INR k)))%R.
Proof.
  intros sm k Hk. unfold smear_alphas. destruct k as [|[|[|[|k]]]]; try lia; cbn; f_equal; try lra; f_equal; lra.
Qed.
Print Assumptions C62_weights.
(** In every other number of dimensions it is not, whatever the parameter *)
Theorem C62_weights_not_four : forall ND sm k, 3 <= ND -> ND <> 4 -> 1 <= k < ND -> sm (k - 1)%nat <> 0%R ->
  smear_alphas ND sm k <> (sm (k - 1)%nat / (2 * (INR ND - INR k)))%R.
Proof.
  intros ND sm k H3 H4 Hk Hs E. unfold smear_alphas in E. set (x := sm (k - 1)%nat) in *.
  replace (ND - (k - 1) - 1) with (ND - k) in E by lia. rewrite mult_INR in E. rewrite !minus_INR in E by lia. cbn [INR] in E.
  assert (A : (0 < INR ND - INR k)%R) by (assert (X : (INR k < INR ND)%R) by (apply lt_INR; lia); lra).
  assert (B : (INR ND <> 4)%R) by (replace 4%R with (INR 4) by (cbn; lra); intro X; apply INR_eq in X; lia).
  assert (D : (3 <= INR ND)%R) by (replace 3%R with (INR 3) by (cbn; lra); apply le_INR; lia).
  set (d := INR ND) in *. set (c := INR k) in *. clearbody d c x.
  apply (f_equal (fun y => (y * (2 * (d - c) * (d - (1 + 1))))%R)) in E.
  replace (x / ((d - c) * (d - (1 + 1))) * (2 * (d - c) * (d - (1 + 1))))%R with (2 * x)%R in E by (field; split; lra).
  replace (x / (2 * (d - c)) * (2 * (d - c) * (d - (1 + 1))))%R with (x * (d - 2))%R in E by (field; lra).
  apply Hs. assert (Y : (x * (d - 4) = 0)%R) by lra. apply Rmult_integral in Y. destruct Y as [Y|Y]; [exact Y|lra].
Qed.
Print Assumptions C62_weights_not_four.
Theorem C62_weights_refuted : exists ND (sm : nat -> R) k, 3 <= ND /\ 1 <= k < ND /\ smear_alphas ND sm k <> (sm (k - 1)%nat / (2 * (INR ND - INR k)))%R.
Proof.
  exists 5, (fun _ => (3/4)%R), 1. split; [lia|]. split; [lia|]. apply C62_weights_not_four; try lia. lra.
Qed.
Print Assumptions C62_weights_refuted.

(** ** the hypotheses are met *)
(** stout links: two colours and links plus or minus one, any signs, any parameters: fixed *)
Lemma is_exp_0 : forall n A, meq n A mzero -> is_exp n A mid.
Proof.
  intros n A EA i j Hi Hj. apply (Ccv_ext (fun _ => mid i j)); [|apply Ccv_const]. intro N. induction N as [|N IH].
  - cbn [csum mpow]. unfold mid. cbn [fact]. replace (INR 1) with 1%R by reflexivity. rewrite Rinv_1. destruct (Nat.eqb i j); apply C_eq; cunfold; ring.
  - change (csum (S (S N)) ?f) with (Cadd (csum (S N) f) (f (S N))). rewrite <- IH. cbv beta.
    assert (Z : mpow n A (S N) i j = C0).
    { assert (M : meq n (mpow n A (S N)) mzero).
      { cbn [mpow]. transitivity (mmul n (mpow n A N) mzero); [apply mmul_proper; [reflexivity|exact EA]|]. intros p q _ _. unfold mmul, mzero. erewrite csum_ext; [apply csum_0|]. intros. cbv beta. destruct (mpow n A N p i0). apply C_eq; cunfold; ring. }
      now apply M. }
    rewrite Z. destruct (mid i j). apply C_eq; cunfold; ring.
Qed.
Definition sgn (b : bool) : R := if b then 1%R else (-1)%R.
Definition zlink (b : bool) : mat := mscale (RtoC (sgn b)) mid.
Definition realm (M : mat) : Prop := exists s : R, meq 2 M (mscale (RtoC s) mid).
Lemma real_K : forall sa al S b, realm S -> stout_K 2 sa al S (zlink b) (zlink b).
Proof.
  intros sa al S b [s E].
  assert (Q : meq 2 (mscale (RtoC sa) (trf 2 (herm (mmul 2 S (dag (zlink b)))))) mzero).
  { assert (P : meq 2 (mmul 2 S (dag (zlink b))) (mscale (RtoC (s * sgn b)) mid)).
    { rewrite E. unfold zlink. split2; unfold mmul, dag, mscale, mid; cbn [csum Nat.eqb]; apply C_eq; cunfold; ring. }
    assert (H : meq 2 (herm (mmul 2 S (dag (zlink b)))) mzero).
    { unfold herm, aherm. rewrite P. split2; unfold msub, dag, mscale, mid, mzero; cbn [Nat.eqb]; apply C_eq; cunfold; ring. }
    assert (T : mtr 2 (herm (mmul 2 S (dag (zlink b)))) = C0) by (rewrite H; unfold mtr, mzero; cbn [csum]; ring).
    unfold trf. rewrite T, H. split2; unfold msub, mscale, mid, mzero, Cdiv; cbn [Nat.eqb]; destruct (Cinv (RtoC (INR 2))); apply C_eq; cunfold; ring. }
  split.
  - left. unfold zz. rewrite <- mdet_2, (mdet_ext 2 _ _ Q), mdet_2. unfold det2, mzero. cunfold. ring.
  - exists mid. split; [|symmetry; apply mmul_1_l]. apply is_exp_0. rewrite Q. intros i j _ _. unfold mscale, mzero. ring.
Qed.
Lemma realm_around : forall nb bk (z : nat -> nat -> bool) i mu nu rho, realm (around 2 nb bk (fun s => zlink (z s rho)) (fun s => zlink (z s mu)) i mu nu).
Proof.
  intros nb bk z i mu nu rho. unfold around.
  exists (sgn (z i rho) * sgn (z (nb i nu) mu) * sgn (z (nb i mu) rho) + sgn (z (bk i nu) rho) * sgn (z (bk i nu) mu) * sgn (z (nb (bk i nu) mu) rho))%R.
  unfold zlink. split2; unfold madd, mmul, dag, mscale, mid; cbn [csum Nat.eqb]; apply C_eq; cunfold; ring.
Qed.
Lemma realm_sum : forall (l : list nat) f, (forall d, realm (f d)) -> realm (msum l f).
Proof.
  intros l f H. induction l as [|d l [s IH]]; [exists 0%R; split2; unfold msum, mscale, mid, mzero; cbn [fold_right Nat.eqb]; apply C_eq; cunfold; ring|].
  destruct (H d) as [t E]. exists (t + s)%R. cbn [msum fold_right]. fold (msum l f). rewrite E, IH.
  split2; unfold madd, mscale, mid; cbn [Nat.eqb]; apply C_eq; cunfold; ring.
Qed.
Example C62_stout_ex : forall V nb bk (a : nat -> R) (z : nat -> nat -> bool),
  hyp_step 2 V nb bk (stout_K 2) a (fun i mu => zlink (z i mu)) (fun i mu => zlink (z i mu)) /\
  hyp3_step 2 V nb bk (stout_K 2) a (fun i mu => zlink (z i mu)) (fun i mu => zlink (z i mu)).
Proof.
  intros V nb bk a z. split.
  - exists (fun mu _ i => zlink (z i mu)), (fun mu _ i => zlink (z i mu)). split; [|split]; intros; apply real_K; try apply realm_sum; intros; cbv zeta; apply realm_around.
  - exists (fun mu _ i => zlink (z i mu)). split; [|split]; intros; [| |reflexivity]; apply real_K; try apply realm_sum; intros; cbv zeta; apply realm_around.
Qed.
(** APE links: a 2x2x3x2 lattice with links diag(i,-i) in one direction, 1 in the others *)
Definition ex4 : list Z := [2; 2; 3; 2]%Z.
Definition ex4_link (mu : nat) : arr := fun k => match k with 0 => if Nat.eqb mu 1 then Ci else C1 | 3 => if Nat.eqb mu 1 then Copp Ci else C1 | _ => C0 end.
Definition ex4_h (V L : nat) : hsched := mkH (rev (seq 0 V)) (seq 0 V) (rev (seq 0 L)) (fun _ => seq 0 L) (seq 0 L).
Example C62_su2_ex : GeomSpec.lattice_ok ex4 /\ navig ex4 (init_navig ex4 (fun _ mu => ex4_link mu)) /\
  links 2 (volume ex4) (fun _ mu => ex4_link mu) (fun _ mu => mx 2 (ex4_link mu)) /\
  hyp_orders (volume ex4) (lcu ex4) (ntime ex4) (ex4_h (volume ex4) (lcu ex4)) /\ orders (lcu ex4) (ntime ex4) (lcu ex4) (ex_sched (lcu ex4) (lcu ex4)).
Proof.
  assert (D : GeomSpec.lattice_ok ex4) by (split; [discriminate|]; split; [repeat (constructor; [unfold CInt.two31; lia|]); constructor|reflexivity]).
  split; [exact D|]. split; [apply init_navig_ok; exact D|]. split.
  - intros i mu _ _. split; [reflexivity|]. apply SUn_2. unfold ex4_link.
    destruct (Nat.eqb mu 1); (split; [split|]; [split2|split2|]; unfold det2, mmul, dag, mid, mx; cbn [csum Nat.add Nat.mul Nat.eqb]; apply C_eq; cunfold; ring).
  - split; [|apply ex_orders]. unfold hyp_orders, ex4_h. cbn [h_lv1 h_lv2 h_first h_last h_slice].
    split; [symmetry; apply Permutation_rev|]. split; [reflexivity|]. split; [symmetry; apply Permutation_rev|]. split; [reflexivity|]. intros; reflexivity.
Qed.
