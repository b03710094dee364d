(** Hypercubic smearing: the sweeps compute the hypercubic links. *)
From Coq Require Import PeanoNat List Reals Lia Lra Permutation Bool.
From Verif Require GeomModel GeomSpec.
From Verif Require Import CMat MatSpec MmulModel MmulProofs MatModel MatProofs MatProofs2 Det ProjProofs FieldModel FieldProofs FieldProofs2 ExpProofs2
  SmearModel SmearProofs SmearProofs2 HypModel HypSpec HypProofs HypProofs2.
Import ListNotations.
Local Open Scope nat_scope.

(** the links of F are the group matrices U *)
Definition repf (n D V : nat) (F : field arr) (U : nat -> nat -> mat) : Prop :=
  forall i mu, i < V -> mu < D -> meq n (mx n (F i mu)) (U i mu) /\ SUn n (U i mu).

Lemma fourth_is : forall mu nu rho, mu < 4 -> nu < 4 -> rho < 4 -> mu <> nu -> mu <> rho -> nu <> rho ->
  fourth mu nu rho = 6 - mu - nu - rho /\ 6 - mu - nu - rho < 4 /\ 6 - mu - nu - rho <> mu /\ 6 - mu - nu - rho <> nu /\ 6 - mu - nu - rho <> rho.
Proof.
  intros mu nu rho Hm Hn Hr N1 N2 N3.
  destruct mu as [|[|[|[|?]]]]; try lia; destruct nu as [|[|[|[|?]]]]; try lia; destruct rho as [|[|[|[|?]]]]; try lia;
    (split; [reflexivity|lia]).
Qed.
Lemma third_is : forall mu nu, mu < 3 -> nu < 3 -> mu <> nu -> third mu nu = 3 - mu - nu /\ 3 - mu - nu < 3 /\ 3 - mu - nu <> mu /\ 3 - mu - nu <> nu.
Proof.
  intros mu nu Hm Hn N1. destruct mu as [|[|[|?]]]; try lia; destruct nu as [|[|[|?]]]; try lia; (split; [reflexivity|lia]).
Qed.
Lemma except_2 : forall D mu nu, filter (fun d => negb (Nat.eqb d mu || Nat.eqb d nu)) (seq 0 D) = except D [mu; nu].
Proof. intros. unfold except. apply filter_ext. intro d. cbn [existsb]. now rewrite orb_false_r. Qed.
Lemma except_1 : forall D mu, filter (fun d => negb (Nat.eqb d mu)) (seq 0 D) = except D [mu].
Proof. intros. unfold except. apply filter_ext. intro d. cbn [existsb]. now rewrite orb_false_r. Qed.
Lemma except_1' : forall D mu, filter (fun d => negb (Nat.eqb mu d)) (seq 0 D) = except D [mu].
Proof. intros. rewrite <- except_1. apply filter_ext. intro d. now rewrite Nat.eqb_sym. Qed.
Lemma in_except : forall D l d, In d (except D l) -> d < D /\ ~ In d l.
Proof.
  intros D l d H. unfold except in H. apply filter_In in H. destruct H as [H1 H2]. apply in_seq in H1. split; [lia|]. intro X.
  assert (Y : existsb (Nat.eqb d) l = true) by (apply existsb_exists; exists d; split; [assumption|apply Nat.eqb_refl]). rewrite Y in H2. discriminate.
Qed.

Section Main.
Variables (n : nat) (ds : list Z) (geo : lattice).
Hypothesis Hok : GeomSpec.lattice_ok ds.
Hypothesis Nav : navig ds geo.
Hypothesis H4 : length ds = 4.
Variables (project : projection) (junk : nat -> arr).
Variable K : R -> R -> mat -> mat -> mat -> Prop.
Hypothesis Kext : forall sa al S S' U U' M, meq n S S' -> meq n U U' -> K sa al S U M -> K sa al S' U' M.
Hypothesis Kcomp : forall sl S U sa al M, SUn n (mx n U) -> shaped n (mx n S) -> K sa al (mx n S) (mx n U) M ->
  exists r, project sl S U sa al = Some r /\ meq n (mx n r) M /\ SUn n M.
Let LCU := lcu ds.
Let T := ntime ds.
Let V := volume ds.
Let nb (i mu : nat) := nbr (geo i) mu.
Let bk (i mu : nat) := bck (geo i) mu.

Lemma G4 : geom_ok 4 V geo.
Proof. rewrite <- H4. exact (navig_geom ds geo Hok Nav). Qed.
Lemma proj_ok : forall sl S A sa al S' A' M, meq n (mx n S) S' -> shaped n S' -> meq n (mx n A) A' -> SUn n A' -> K sa al S' A' M ->
  exists r, project sl S A sa al = Some r /\ meq n (mx n r) M /\ SUn n M.
Proof.
  intros sl S A sa al S' A' M ES Sh EA SA HK. apply Kcomp.
  - eapply SUn_ext; [symmetry; exact EA|exact SA].
  - eapply shaped_ext; [exact ES|exact Sh].
  - eapply Kext; [symmetry; exact ES|symmetry; exact EA|exact HK].
Qed.

(** ** level 1 *)
Lemma lv1_ok : forall D src sa al order lat lev1 U W, (D = 3 \/ D = 4) -> NoDup order -> (forall i, In i order -> src + i < V) -> repf n D V lat U ->
  (forall i mu sg, In i order -> mu < D -> sg < D -> mu <> sg -> K sa al (around n nb bk (fun s => U s sg) (fun s => U s mu) (src + i) mu sg) (U (src + i) mu) (W mu sg i)) ->
  exists lev', get_lv1 project n junk geo D src sa al order lat lev1 = Some lev' /\
    forall i mu sg, In i order -> mu < D -> sg < D -> mu <> sg -> meq n (mx n (lev' i (step D mu sg))) (W mu sg i) /\ SUn n (W mu sg i).
Proof.
  intros D src sa al order lat lev1 U W HD Nd Hs HF HK. unfold get_lv1.
  apply (level_ok D order (fun i mu nu sl => project sl (a_plus_b n (upper n junk geo (fun s => lat s nu) (fun s => lat s mu) (src + i) mu nu)
      (lower n junk geo (fun s => lat s nu) (fun s => lat s mu) (src + i) mu nu)) (lat (src + i) mu) sa al)
    (fun i mu sg r => meq n (mx n r) (W mu sg i) /\ SUn n (W mu sg i))); [exact HD|exact Nd|].
  intros i mu nu sl Hi Hm Hn Hne.
  destruct (pair_ok n V geo junk 4 G4 (fun s => lat s nu) (fun s => lat s mu) (fun s => U s nu) (fun s => U s mu) (src + i) mu nu) as [E Sh].
  - intros s H. now apply HF.
  - intros s H. now apply HF.
  - now apply Hs.
  - lia.
  - lia.
  - destruct (HF (src + i) mu (Hs i Hi) Hm) as [EU SU].
    exact (proj_ok sl _ _ sa al _ _ _ E Sh EU SU (HK i mu nu Hi Hm Hn Hne)).
Qed.

(** ** level 2 *)
Lemma lv2_staples_ok : forall lev1 (V1 : nat -> nat -> nat -> mat) i mu nu,
  (forall mu sg, mu < 4 -> sg < 4 -> mu <> sg -> isf n V (fun s => lev1 s (step 4 mu sg)) (V1 mu sg)) ->
  i < V -> mu < 4 -> nu < 4 -> mu <> nu ->
  let M rho := let sg := 6 - mu - nu - rho in around n nb bk (V1 rho sg) (V1 mu sg) i mu rho in
  meq n (mx n (lv2_staples n junk geo lev1 i mu nu)) (msum (except 4 [mu; nu]) M) /\ shaped n (msum (except 4 [mu; nu]) M).
Proof.
  intros lev1 V1 i mu nu HL1 Hi Hm Hn Hne M.
  assert (St : forall s rho, rho < 4 -> rho <> mu -> rho <> nu ->
    meq n (mx n (a_plus_b n (a_plus_b n s (upper n junk geo (fun s => lev1 s (step 4 rho (fourth mu nu rho))) (fun s => lev1 s (step 4 mu (fourth mu nu rho))) i mu rho))
       (lower n junk geo (fun s => lev1 s (step 4 rho (fourth mu nu rho))) (fun s => lev1 s (step 4 mu (fourth mu nu rho))) i mu rho)))
      (madd (mx n s) (M rho)) /\ shaped n (M rho)).
  { intros s rho Hr N1 N2. destruct (fourth_is mu nu rho Hm Hn Hr) as (F & F1 & F2 & F3 & F4); try lia. rewrite F.
    apply (add2_ok n V geo junk 4 G4); try assumption; apply HL1; lia. }
  split.
  - unfold lv2_staples. rewrite <- except_2.
    apply (sum_loop0 n junk (fun rho => (Nat.eqb rho mu || Nat.eqb rho nu)%bool)).
    intros s rho Hr Sk. apply in_seq in Hr. apply orb_false_iff in Sk. destruct Sk as [K1 K2]. apply Nat.eqb_neq in K1, K2. apply St; lia.
  - apply shaped_sum. intros rho Hr. apply in_except in Hr. destruct Hr as [H1 H2]. apply (St (junk 0) rho); [assumption| |]; intro; subst; apply H2; cbn; auto.
Qed.
Lemma lv2_ok : forall sa al order lat lev1 lev2 U V1 V2, NoDup order -> (forall i, In i order -> i < V) -> repf n 4 V lat U ->
  (forall mu sg, mu < 4 -> sg < 4 -> mu <> sg -> isf n V (fun s => lev1 s (step 4 mu sg)) (V1 mu sg)) ->
  (forall i mu nu, In i order -> mu < 4 -> nu < 4 -> mu <> nu ->
     K sa al (msum (except 4 [mu; nu]) (fun rho => let sg := 6 - mu - nu - rho in around n nb bk (V1 rho sg) (V1 mu sg) i mu rho)) (U i mu) (V2 mu nu i)) ->
  exists lev', get_lv2 project n junk geo sa al order lat lev1 lev2 = Some lev' /\
    forall i mu nu, In i order -> mu < 4 -> nu < 4 -> mu <> nu -> meq n (mx n (lev' i (step 4 mu nu))) (V2 mu nu i) /\ SUn n (V2 mu nu i).
Proof.
  intros sa al order lat lev1 lev2 U V1 V2 Nd Hs HF HL1 HK. unfold get_lv2.
  apply (level_ok 4 order (fun i mu nu sl => project sl (lv2_staples n junk geo lev1 i mu nu) (lat i mu) sa al)
    (fun i mu nu r => meq n (mx n r) (V2 mu nu i) /\ SUn n (V2 mu nu i))); [now right|exact Nd|].
  intros i mu nu sl Hi Hm Hn Hne. destruct (lv2_staples_ok lev1 V1 i mu nu HL1 (Hs i Hi) Hm Hn Hne) as [E Sh].
  destruct (HF i mu (Hs i Hi) Hm) as [EU SU].
  exact (proj_ok sl _ _ sa al _ _ _ E Sh EU SU (HK i mu nu Hi Hm Hn Hne)).
Qed.
(** ** level 3 *)
Lemma gen_staples_ok : forall lev2 (V2 : nat -> nat -> nat -> mat) i mu,
  (forall mu nu, mu < 4 -> nu < 4 -> mu <> nu -> isf n V (fun s => lev2 s (step 4 mu nu)) (V2 mu nu)) ->
  i < V -> mu < 4 -> let M nu := around n nb bk (V2 nu mu) (V2 mu nu) i mu nu in
  meq n (mx n (gen_staples_4D n junk geo lev2 i mu)) (msum (except 4 [mu]) M) /\ shaped n (msum (except 4 [mu]) M).
Proof.
  intros lev2 V2 i mu HL2 Hi Hm M.
  assert (St : forall s nu, nu < 4 -> nu <> mu ->
    meq n (mx n (a_plus_b n (a_plus_b n s (upper n junk geo (fun s => lev2 s (step 4 nu mu)) (fun s => lev2 s (step 4 mu nu)) i mu nu))
       (lower n junk geo (fun s => lev2 s (step 4 nu mu)) (fun s => lev2 s (step 4 mu nu)) i mu nu)))
      (madd (mx n s) (M nu)) /\ shaped n (M nu)).
  { intros s nu Hr N1. apply (add2_ok n V geo junk 4 G4); try assumption; apply HL2; lia. }
  split.
  - unfold gen_staples_4D. rewrite <- except_1'. apply (sum_loop0 n junk (fun nu => Nat.eqb mu nu)).
    intros s nu Hr Sk. apply in_seq in Hr. apply Nat.eqb_neq in Sk. apply St; lia.
  - apply shaped_sum. intros nu Hr. apply in_except in Hr. destruct Hr as [H1 H2]. apply (St (junk 0) nu); [assumption|]; intro; subst; apply H2; cbn; auto.
Qed.

(** ** HYPSLsmear4D_expensive *)
Definition horders (sc : hsched) : Prop :=
  Permutation (h_lv1 sc) (seq 0 V) /\ Permutation (h_lv2 sc) (seq 0 V) /\ Permutation (h_first sc) (seq 0 LCU) /\ Permutation (h_last sc) (seq 0 LCU) /\
  forall t, t < T -> Permutation (h_slice sc t) (seq 0 LCU).
Lemma hyp4D_sweep_ok : forall sm sc lat lev1 lev2 lat2 lat3 lat4 U U', repf n 4 V lat U -> hyp_step n V nb bk K sm U U' -> horders sc ->
  exists lat' b1 b2 c2 c3 c4, hyp4D_sweep project n junk geo sm LCU T sc (lat, lev1, lev2, lat2, lat3, lat4) = Some (lat', b1, b2, c2, c3, c4) /\ repf n 4 V lat' U'.
Proof.
  intros sm sc lat lev1 lev2 lat2 lat3 lat4 U U' HF (V1 & V2 & K1 & K2 & K3) (O1 & O2 & O3 & O4 & O5). unfold hyp4D_sweep.
  assert (Pi : forall l m i, Permutation l (seq 0 m) -> In i l <-> i < m) by (intros l m i P; exact (perm_in m l i P)).
  assert (Pn : forall l m, Permutation l (seq 0 m) -> NoDup l) by (intros l m P; exact (perm_nodup m l P)).
  replace (sm 2%nat * (1/2))%R with (sm 2%nat / 2)%R by field.
  destruct (lv1_ok 4 0 (sm 2%nat / 2) (1 - sm 2%nat) (h_lv1 sc) lat lev1 U V1) as (l1 & E1 & A1).
  { now right. } { exact (Pn _ _ O1). } { intros i Hi. now apply (Pi _ _ i O1) in Hi. } { exact HF. }
  { intros i mu sg Hi Hm Hs Hne. cbn [Nat.add]. apply K1; try assumption. now apply (Pi _ _ i O1). }
  rewrite E1.
  assert (A1' : forall mu sg, mu < 4 -> sg < 4 -> mu <> sg -> isf n V (fun s => l1 s (step 4 mu sg)) (V1 mu sg)).
  { intros mu sg Hm Hs Hne s H. apply A1; try assumption. now apply (Pi _ _ s O1). }
  destruct (lv2_ok (sm 1%nat / 4) (1 - sm 1%nat) (h_lv2 sc) lat l1 lev2 U V1 V2) as (l2 & E2 & A2); try assumption.
  { exact (Pn _ _ O2). } { intros i Hi. now apply (Pi _ _ i O2) in Hi. }
  { intros i mu nu Hi Hm Hs Hne. apply K2; try assumption. now apply (Pi _ _ i O2). }
  rewrite E2.
  assert (A2' : forall mu nu, mu < 4 -> nu < 4 -> mu <> nu -> isf n V (fun s => l2 s (step 4 mu nu)) (V2 mu nu)).
  { intros mu sg Hm Hs Hne s H. apply A2; try assumption. now apply (Pi _ _ s O2). }
  destruct (lcu_pos ds Hok) as (HL & HT & HV). fold LCU T V in HL, HT, HV.
  assert (HR : forall j mu, j < V -> mu < 4 -> exists r, project (junk 3) (gen_staples_4D n junk geo l2 j mu) (lat j mu) (sm 0%nat / 6)%R (1 - sm 0%nat)%R = Some r /\
     meq n (mx n r) (U' j mu) /\ SUn n (U' j mu)).
  { intros j mu Hj Hm. destruct (gen_staples_ok l2 V2 j mu A2' Hj Hm) as [E Sh]. destruct (HF j mu Hj Hm) as [EU SU].
    exact (proj_ok (junk 3) _ _ _ _ _ _ _ E Sh EU SU (K3 j mu Hj Hm)). }
  set (nw := fun j mu => match project (junk 3) (gen_staples_4D n junk geo l2 j mu) (lat j mu) (sm 0%nat / 6)%R (1 - sm 0%nat)%R with Some r => r | None => junk 0 end).
  assert (Hnw : forall j mu, j < LCU * T -> mu < 4 -> project (junk 3) (gen_staples_4D n junk geo l2 j mu) (lat j mu) (sm 0%nat / 6)%R (1 - sm 0%nat)%R = Some (nw j mu)).
  { intros j mu Hj Hm. rewrite <- HV in Hj. destruct (HR j mu Hj Hm) as (r & E & _). unfold nw. now rewrite E. }
  assert (Hb : forall t, t < T -> bck (geo (LCU * t)) 3 = LCU * ((t + T - 1) mod T)).
  { intros t Ht. pose proof (nav_bk ds geo Hok Nav t Ht) as B. rewrite H4 in B. exact B. }
  assert (B0 : bck (geo 0) 3 = LCU * (T - 1)).
  { replace 0 with (LCU * 0) at 1 by lia. rewrite Hb by lia. cbn [Nat.add]. now rewrite Nat.mod_small by lia. }
  rewrite B0.
  destruct (first_ok project junk (gen_staples_4D n junk geo l2) (sm 0%nat / 6)%R (1 - sm 0%nat)%R LCU T lat nw Hnw (h_first sc) (LCU * (T - 1)) lat4) as (a4 & E4 & A4).
  { exact (Pn _ _ O3). } { intros i Hi. apply (Pi _ _ i O3) in Hi. nia. }
  rewrite E4.
  destruct (window_ok project junk (gen_staples_4D n junk geo l2) (sm 0%nat / 6)%R (1 - sm 0%nat)%R LCU T lat nw HL Hnw (fun j => bck (geo j) 3) (h_slice sc) (h_last sc) lat2 lat3 a4 HT Hb)
    as (l & c2 & c3 & E5 & R1 & R2).
  { exact O5. } { exact O4. } { intros i mu Hi Hm. apply A4; [now apply (Pi _ _ i O3)|assumption]. }
  cbv zeta in E5. cbv zeta. rewrite E5. do 6 eexists. split; [reflexivity|].
  intros j mu Hj Hm. pose proof Hj as Hj'. rewrite HV in Hj'. cbv zeta in R1. rewrite (R1 j mu Hj' Hm).
  destruct (HR j mu Hj Hm) as (r & E & X). unfold nw. rewrite E. exact X.
Qed.

Lemma hyp4D_sweeps_ok : forall sm scs k lat lev1 lev2 lat2 lat3 lat4 (Us : nat -> nat -> nat -> mat), repf n 4 V lat (Us 0) ->
  (forall s, s < k -> hyp_step n V nb bk K sm (Us s) (Us (S s))) -> (forall s, horders (scs s)) ->
  exists lat' b1 b2 c2 c3 c4, hyp4D_sweeps project n junk geo sm LCU T scs k (lat, lev1, lev2, lat2, lat3, lat4) = Some (lat', b1, b2, c2, c3, c4) /\ repf n 4 V lat' (Us k).
Proof.
  intros sm scs k lat lev1 lev2 lat2 lat3 lat4 Us H0 Hs Ho. induction k as [|k IH].
  - do 6 eexists. split; [reflexivity|exact H0].
  - destruct IH as (l & b1 & b2 & c2 & c3 & c4 & E & R1); [intros s X; apply Hs; lia|]. cbn [hyp4D_sweeps]. rewrite E.
    apply (hyp4D_sweep_ok sm (scs k) l b1 b2 c2 c3 c4 (Us k) (Us (S k))); [exact R1|apply Hs; lia|apply Ho].
Qed.

(** ** Slices *)
Lemma nb_time : forall t i, S t < T -> i < LCU -> nb (LCU * t + i) 3 = LCU * S t + i.
Proof.
  intros t i Ht Hi. destruct (lcu_pos ds Hok) as (HL & HT & HV). fold LCU T V in HL, HT, HV.
  destruct (nav_slice ds geo Hok Nav (LCU * t + i) 3) as [E _]; [fold V; rewrite HV; nia|lia|]. fold LCU T in E.
  unfold nb. rewrite (proj1 (E ltac:(lia))). rewrite (slice_at LCU T HL) by assumption. rewrite Nat.mod_small by lia.
  replace ((LCU * t + i) mod LCU) with i by (rewrite (Nat.add_comm (LCU * t) i), (Nat.mul_comm LCU t), Nat.mod_add, Nat.mod_small by lia; reflexivity). lia.
Qed.
Lemma slice0 : forall i, i < LCU -> slice_of LCU i = 0.
Proof. intros i H. now apply Nat.div_small. Qed.
Lemma nb_in_slice : forall i mu, i < LCU -> mu < 3 -> nb i mu < LCU /\ bk i mu < LCU.
Proof.
  intros i mu Hi Hm. destruct (lcu_pos ds Hok) as (HL & HT & HV). fold LCU T V in HL, HT, HV.
  destruct (nav_slice ds geo Hok Nav i mu) as [_ E]; [fold V; rewrite HV; nia|lia|]. fold LCU T in E. destruct (E ltac:(lia)) as [E1 E2].
  rewrite (slice0 i Hi) in E1, E2. unfold slice_of in E1, E2. apply Nat.div_small_iff in E1, E2; try lia. split; assumption.
Qed.
Lemma nb_shift : forall t i mu, t < T -> i < LCU -> mu < 3 -> nb (LCU * t + i) mu = LCU * t + nb i mu /\ bk (LCU * t + i) mu = LCU * t + bk i mu.
Proof.
  destruct (lcu_pos ds Hok) as (HL & HT & HV). fold LCU T V in HL, HT, HV.
  induction t as [|t IH]; intros i mu Ht Hi Hm.
  - rewrite Nat.mul_0_r. split; reflexivity.
  - destruct (IH i mu ltac:(lia) Hi Hm) as [I1 I2]. destruct (nb_in_slice i mu Hi Hm) as [B1 B2].
    assert (Hj : LCU * t + i < V) by (rewrite HV; nia).
    rewrite <- (nb_time t i Ht Hi). unfold nb at 1 2, bk at 1. split.
    + rewrite (g_nn _ _ _ G4) by lia. fold (nb (LCU * t + i) mu). rewrite I1. fold (nb (LCU * t + nb i mu) 3). now rewrite nb_time.
    + change (nb (LCU * t + i) 3) with (nbr (geo (LCU * t + i)) 3). rewrite <- (g_bnc _ _ _ G4) by lia. fold (bk (LCU * t + i) mu). rewrite I2. fold (nb (LCU * t + bk i mu) 3). now rewrite nb_time.
Qed.
Lemma G3 : geom_ok 3 LCU geo.
Proof.
  destruct (lcu_pos ds Hok) as (HL & HT & HV). fold LCU T V in HL, HT, HV.
  assert (I : forall i, i < LCU -> i < V) by (intros; rewrite HV; nia). constructor; intros.
  - now apply nb_in_slice.
  - now apply nb_in_slice.
  - apply (g_nb _ _ _ G4); [now apply I|lia].
  - apply (g_bn _ _ _ G4); [now apply I|lia].
  - apply (g_nn _ _ _ G4); [now apply I|lia|lia].
  - apply (g_bnc _ _ _ G4); [now apply I|lia|lia].
Qed.

(** ** HYPSLsmear3D *)
Lemma msum_eq : forall (l : list nat) (f g : nat -> mat), (forall d, In d l -> f d = g d) -> msum l f = msum l g.
Proof.
  induction l as [|d l IH]; intros f g H; [reflexivity|]. unfold msum in *. cbn [fold_right].
  rewrite (H d) by now left. rewrite (IH f g) by (intros e He; apply H; now right). reflexivity.
Qed.
Lemma staples3D_ok : forall lev1 (W : nat -> nat -> nat -> mat) i mu,
  (forall mu sg, mu < 3 -> sg < 3 -> mu <> sg -> isf n LCU (fun s => lev1 s (step 3 mu sg)) (W mu sg)) ->
  i < LCU -> mu < 3 -> let M nu := let sg := 3 - mu - nu in around n nb bk (W nu sg) (W mu sg) i mu nu in
  meq n (mx n (staples3D n junk geo lev1 i mu)) (msum (except 3 [mu]) M) /\ shaped n (msum (except 3 [mu]) M).
Proof.
  intros lev1 W i mu HL1 Hi Hm M.
  assert (St : forall s nu, nu < 3 -> nu <> mu ->
    meq n (mx n (a_plus_b n (a_plus_b n s (upper n junk geo (fun s => lev1 s (step 3 nu (third mu nu))) (fun s => lev1 s (step 3 mu (third mu nu))) i mu nu))
       (lower n junk geo (fun s => lev1 s (step 3 nu (third mu nu))) (fun s => lev1 s (step 3 mu (third mu nu))) i mu nu)))
      (madd (mx n s) (M nu)) /\ shaped n (M nu)).
  { intros s nu Hr N1. destruct (third_is mu nu Hm Hr) as (F & F1 & F2 & F3); [lia|]. rewrite F.
    apply (add2_ok n LCU geo junk 3 G3); try assumption; apply HL1; lia. }
  split.
  - unfold staples3D. rewrite <- except_1. apply (sum_loop0 n junk (fun nu => Nat.eqb nu mu)).
    intros s nu Hr Sk. apply in_seq in Hr. apply Nat.eqb_neq in Sk. apply St; lia.
  - apply shaped_sum. intros nu Hr. apply in_except in Hr. destruct Hr as [H1 H2]. apply (St (junk 0) nu); [assumption|]; intro; subst; apply H2; cbn; auto.
Qed.
Lemma slice3_ok : forall ord src (stap : nat -> nat -> arr) a b (lat lat2 : field arr) (nw : nat -> nat -> arr), NoDup ord ->
  (forall i mu, In i ord -> mu < 3 -> project (junk 3) (stap i mu) (lat (src + i) mu) a b = Some (nw i mu)) ->
  exists lat' c2, mfor ord (fun i '((lat, lat2) : field arr * field arr) =>
          match last_level project junk (fun it mu => stap i mu) a b i (src + i) lat lat2 3 with
          | None => None
          | Some lat2 => Some (for_ 3 (fun mu lat => putf lat (src + i) mu (lat2 i mu)) lat, lat2)
          end) (lat, lat2) = Some (lat', c2) /\
    (forall i mu, In i ord -> mu < 3 -> lat' (src + i) mu = nw i mu) /\
    (forall j mu, ~ (exists i, j = src + i /\ In i ord /\ mu < 3) -> lat' j mu = lat j mu).
Proof.
  intros ord src stap a b lat lat2 nw Nd H.
  match goal with |- context[mfor ?ll ?ff ?ss] => destruct (mfor_ind (fun (pre : list nat) (st : field arr * field arr) => let '(l, c2) := st in
     (forall i mu, In i pre -> mu < 3 -> l (src + i) mu = nw i mu) /\
     (forall j mu, ~ (exists i, j = src + i /\ In i pre /\ mu < 3) -> l j mu = lat j mu)) ll ff ss) as ([l c2] & E & X1 & X2) end.
  - split; [intros i mu []|reflexivity].
  - intros pre i post [l c2] Eo (I1 & I2). destruct (split_notin ord pre post i Nd Eo) as [Ni Ii].
    destruct (last_level_ok project junk (fun it mu => stap i mu) a b i (src + i) l c2 3 (nw i)) as (d' & E & L1 & L2).
    { intros mu Hm. rewrite I2; [now apply H|]. intros (i' & Ei & Hi' & _). apply Ni. replace i with i' by lia. assumption. }
    rewrite E. eexists. split; [reflexivity|]. cbv beta iota. destruct (put_row 3 src l d' i) as [P1 P2]. cbv zeta in P1, P2.
    set (r := for_ 3 _ l) in *. clearbody r. split.
    + intros j mu Hj Hm. apply in_app_iff in Hj. destruct (Nat.eq_dec j i) as [->|X]; [rewrite P1, L1 by assumption; reflexivity|].
      destruct Hj as [Hj|[Hj|[]]]; [|congruence]. rewrite P2 by lia. now apply I1.
    + intros j mu X. rewrite P2.
      * apply I2. intros (i' & E1 & E2 & E4). apply X. exists i'. split; [assumption|]. split; [apply in_app_iff; now left|assumption].
      * destruct (Nat.eq_dec j (src + i)) as [Y|Y]; [|now left]. right. destruct (le_lt_dec 3 mu); [assumption|]. exfalso. apply X. exists i.
        split; [assumption|]. split; [apply in_app_iff; right; now left|assumption].
  - exists l, c2. auto.
Qed.
Lemma hyp3D_sweep_ok : forall sm ord1 ord2 lat lev1 lat2 U U', repf n 4 V lat U -> hyp3_step n V nb bk K sm U U' ->
  (forall t, t < T -> Permutation (ord1 t) (seq 0 LCU) /\ Permutation (ord2 t) (seq 0 LCU)) ->
  exists lat' b1 c2, hyp3D_sweep project n junk geo sm LCU T ord1 ord2 (lat, lev1, lat2) = Some (lat', b1, c2) /\ repf n 4 V lat' U'.
Proof.
  intros sm ord1 ord2 lat lev1 lat2 U U' HF (V1 & K1 & K2 & K3) Ho. unfold hyp3D_sweep.
  destruct (lcu_pos ds Hok) as (HL & HT & HV). fold LCU T V in HL, HT, HV.
  match goal with |- context[mfor ?ll ?ff ?ss] => destruct (mfor_ind (fun (pre : list nat) (st : field arr * field arr * field arr) => let '(l, c1, c2) := st in
     (forall j mu, j < V -> mu < 3 -> slice_of LCU j < length pre -> meq n (mx n (l j mu)) (U' j mu) /\ SUn n (U' j mu)) /\
     (forall j mu, 3 <= mu \/ length pre <= slice_of LCU j -> l j mu = lat j mu)) ll ff ss) as ([[l c1] c2] & E & X1 & X2) end.
  - split; [intros j mu _ _ X; cbn in X; lia|reflexivity].
  - intros pre k post [[l c1] c2] Es (I1 & I2).
    assert (Ek : k = length pre /\ k < T).
    { assert (Hk : k < T /\ nth_error (seq 0 T) (length pre) = Some k).
      { split; [assert (X : In k (seq 0 T)) by (rewrite Es; apply in_app_iff; right; now left); apply in_seq in X; lia|].
        rewrite Es, nth_error_app2, Nat.sub_diag by lia. reflexivity. }
      destruct Hk as [Hk Hn]. assert (Hp : length pre < T) by (rewrite <- (seq_length T 0); apply nth_error_Some; congruence).
      apply nth_error_nth with (d := 0) in Hn. rewrite seq_nth in Hn by assumption. lia. }
    destruct Ek as [Ek Hk]. rewrite <- Ek in *. rewrite app_length, <- Ek. cbn [length]. cbv zeta.
    destruct (Ho k Hk) as [Pa Pb].
    set (Um := fun j mu => if Nat.ltb (slice_of LCU j) k then U' j mu else U j mu).
    assert (HUm : repf n 3 V l Um).
    { intros j mu Hj Hm. unfold Um. destruct (Nat.ltb_spec (slice_of LCU j) k); [now apply I1|]. rewrite I2 by lia. apply HF; [assumption|lia]. }
    assert (UmU : forall i mu, i < LCU -> Um (LCU * k + i) mu = U (LCU * k + i) mu).
    { intros i mu Hi. unfold Um. rewrite (slice_at LCU T HL) by assumption. now rewrite Nat.ltb_irrefl. }
    assert (InV : forall i, i < LCU -> LCU * k + i < V) by (intros i Hi; rewrite HV; nia).
    assert (Ar : forall (A A' B B' : nat -> mat) i mu nu, i < LCU -> mu < 3 -> nu < 3 -> (forall s, s < LCU -> A (LCU * k + s) = A' (LCU * k + s) /\ B (LCU * k + s) = B' (LCU * k + s)) ->
       around n nb bk A B (LCU * k + i) mu nu = around n nb bk A' B' (LCU * k + i) mu nu).
    { intros A A' B B' i mu nu Hi Hm Hn HE. unfold around. destruct (nb_in_slice i mu Hi Hm) as [N1 N2]. destruct (nb_in_slice i nu Hi Hn) as [N3 N4].
      rewrite !(proj1 (nb_shift k i mu Hk Hi Hm)), !(proj1 (nb_shift k i nu Hk Hi Hn)), !(proj2 (nb_shift k i nu Hk Hi Hn)).
      rewrite !(proj1 (nb_shift k (bk i nu) mu Hk N4 Hm)). destruct (nb_in_slice (bk i nu) mu N4 Hm) as [N5 _].
      rewrite (proj1 (HE _ Hi)), (proj2 (HE _ N3)), (proj1 (HE _ N1)), (proj1 (HE _ N4)), (proj2 (HE _ N4)), (proj1 (HE _ N5)). reflexivity. }
    destruct (lv1_ok 3 (LCU * k) (sm 1%nat / 4) (1 - sm 1%nat) (ord1 k) l c1 Um (fun mu sg i => V1 mu sg (LCU * k + i))) as (l1 & E1 & A1).
    { now left. } { eapply perm_nodup; exact Pa. } { intros i Hi. apply InV. now apply (perm_in _ _ _ Pa) in Hi. } { exact HUm. }
    { intros i mu sg Hi Hm Hs Hne. apply (perm_in _ _ _ Pa) in Hi.
      rewrite UmU by assumption. rewrite (Ar _ (fun s => U s sg) _ (fun s => U s mu)); try assumption.
      - apply K1; try assumption. now apply InV.
      - intros s H. split; now apply UmU. }
    rewrite E1.
    assert (A1' : forall mu sg, mu < 3 -> sg < 3 -> mu <> sg -> isf n LCU (fun s => l1 s (step 3 mu sg)) (fun i => V1 mu sg (LCU * k + i))).
    { intros mu sg Hm Hs Hne s H. apply A1; try assumption. now apply (perm_in _ _ _ Pa). }
    assert (HR : forall i mu, i < LCU -> mu < 3 -> exists r, project (junk 3) (staples3D n junk geo l1 i mu) (l (LCU * k + i) mu) (sm 0%nat / 6)%R (1 - sm 0%nat)%R = Some r /\
       meq n (mx n r) (U' (LCU * k + i) mu) /\ SUn n (U' (LCU * k + i) mu)).
    { intros i mu Hi Hm. destruct (staples3D_ok l1 (fun mu sg i => V1 mu sg (LCU * k + i)) i mu A1' Hi Hm) as [ES Sh].
      destruct (HUm (LCU * k + i) mu (InV i Hi) Hm) as [EU SU]. rewrite UmU in EU, SU by assumption.
      eapply (proj_ok (junk 3) _ _ _ _ _ _ _ ES Sh EU SU).
      assert (Em : msum (except 3 [mu]) (fun nu => let sg := 3 - mu - nu in around n nb bk (fun i => V1 nu sg (LCU * k + i)) (fun i => V1 mu sg (LCU * k + i)) i mu nu)
        = msum (except 3 [mu]) (fun nu => let sg := 3 - mu - nu in around n nb bk (V1 nu sg) (V1 mu sg) (LCU * k + i) mu nu)).
      { apply msum_eq. intros d HE. apply in_except in HE. destruct HE as [Hd _]. cbv zeta.
        unfold around. destruct (nb_in_slice i d Hi Hd) as [N3 N4].
        rewrite !(proj1 (nb_shift k i mu Hk Hi Hm)), !(proj1 (nb_shift k i d Hk Hi Hd)), !(proj2 (nb_shift k i d Hk Hi Hd)).
        rewrite !(proj1 (nb_shift k (bk i d) mu Hk N4 Hm)). reflexivity. }
      rewrite Em. apply K2; [now apply InV|assumption]. }
    destruct (slice3_ok (ord2 k) (LCU * k) (fun i mu => staples3D n junk geo l1 i mu) (sm 0%nat / 6)%R (1 - sm 0%nat)%R l c2
       (fun i mu => match project (junk 3) (staples3D n junk geo l1 i mu) (l (LCU * k + i) mu) (sm 0%nat / 6)%R (1 - sm 0%nat)%R with Some r => r | None => junk 0 end))
      as (l' & c2' & E2 & S1 & S2).
    { eapply perm_nodup; exact Pb. }
    { intros i mu Hi Hm. apply (perm_in _ _ _ Pb) in Hi. destruct (HR i mu Hi Hm) as (r & Er & _). now rewrite Er. }
    rewrite E2. eexists. split; [reflexivity|]. cbv beta iota. split.
    + intros j mu Hj Hm X. destruct (slice_dec LCU T HL j) as (i & Hi & Ej). destruct (Nat.eq_dec (slice_of LCU j) k) as [Y|Y].
      * rewrite Y in Ej. subst j. rewrite S1 by (try apply (perm_in _ _ _ Pb); assumption). destruct (HR i mu Hi Hm) as (r & Er & X1). now rewrite Er.
      * rewrite S2; [apply I1; try assumption; lia|]. intros (i' & Ej' & Hi' & _). apply (perm_in _ _ _ Pb) in Hi'. rewrite Ej in Ej'. apply (off_eq LCU T HL) in Ej'; tauto.
    + intros j mu X. rewrite S2; [apply I2; lia|]. intros (i' & Ej' & Hi' & Hm). apply (perm_in _ _ _ Pb) in Hi'. subst j. rewrite (slice_at LCU T HL) in X by assumption. lia.
  - do 3 eexists. split; [exact E|]. rewrite seq_length in *. intros j mu Hj Hm. destruct (Nat.eq_dec mu 3) as [->|N].
    + rewrite X2 by (left; lia). destruct (HF j 3 Hj Hm) as [E1 E2]. pose proof (K3 j Hj) as E3. split; [now rewrite E3|]. eapply SUn_ext; [symmetry; exact E3|exact E2].
    + apply X1; [assumption|lia|]. apply (slice_lt LCU T HL). now rewrite <- HV.
Qed.
Lemma hyp3D_sweeps_ok : forall sm ord1 ord2 k lat lev1 lat2 (Us : nat -> nat -> nat -> mat), repf n 4 V lat (Us 0) ->
  (forall s, s < k -> hyp3_step n V nb bk K sm (Us s) (Us (S s))) ->
  (forall s t, t < T -> Permutation (ord1 s t) (seq 0 LCU) /\ Permutation (ord2 s t) (seq 0 LCU)) ->
  exists lat' b1 c2, hyp3D_sweeps project n junk geo sm LCU T ord1 ord2 k (lat, lev1, lat2) = Some (lat', b1, c2) /\ repf n 4 V lat' (Us k).
Proof.
  intros sm ord1 ord2 k lat lev1 lat2 Us H0 Hs Ho. induction k as [|k IH].
  - do 3 eexists. split; [reflexivity|exact H0].
  - destruct IH as (l & b1 & c2 & E & R1); [intros s X; apply Hs; lia|]. cbn [hyp3D_sweeps]. rewrite E.
    apply (hyp3D_sweep_ok sm (ord1 k) (ord2 k) l b1 c2 (Us k) (Us (S k))); [exact R1|apply Hs; lia|apply Ho].
Qed.
End Main.
