(** The recursion computes the hypercubic links. *)
From Coq Require Import PeanoNat List Reals Lia Lra Permutation Bool.
From Verif Require GeomModel GeomSpec.
From Verif Require Import CMat MatSpec MmulModel MmulProofs MatModel MatProofs MatProofs2 Det ProjProofs FieldModel FieldProofs FieldProofs2 ExpProofs2
  SmearModel SmearProofs SmearProofs2 Properties_Smear HypModel HypSpec HypProofs HypProofs2 HypProofs3 HypProofs4.
Import ListNotations.
Local Open Scope nat_scope.

Section Main.
Variables (n : nat) (ds : list Z) (geo : lattice).
Hypothesis Hok : GeomSpec.lattice_ok ds.
Hypothesis Nav : navig ds geo.
Hypothesis H4 : length ds = 4.
Variables (project : projection) (junk : nat -> arr).
Variable K : R -> R -> mat -> mat -> mat -> Prop.
Hypothesis Kext : forall sa al S S' U U' M, meq n S S' -> meq n U U' -> K sa al S U M -> K sa al S' U' M.
Hypothesis Kcomp : forall sl S U sa al M, SUn n (mx n U) -> shaped n (mx n S) -> K sa al (mx n S) (mx n U) M ->
  exists r, project sl S U sa al = Some r /\ meq n (mx n r) M /\ SUn n M.
Let LCU := lcu ds.
Let T := ntime ds.
Let V := volume ds.
Let nb (i mu : nat) := nbr (geo i) mu.
Let bk (i mu : nat) := bck (geo i) mu.
Variables (sm : nat -> R) (lat : field arr) (U : nat -> nat -> mat) (D : nat).
Hypothesis HD : D <= 4.
Hypothesis HF : repf n 4 V lat U.
Let sub := sub project n junk geo sm lat D.
(** the recursion at this level and with these directions gives the field W *)
Definition gives (lev : nat) (dirs : list nat) (W : nat -> mat) : Prop :=
  forall s, s < V -> exists r, sub lev s dirs = Some r /\ meq n (mx n r) (W s) /\ SUn n (W s).
Lemma gives0 : forall dirs, last dirs 0 < 4 -> gives 0 dirs (fun s => U s (last dirs 0)).
Proof. intros dirs H s Hs. eexists. split; [reflexivity|]. now apply HF. Qed.
Lemma gives_isf : forall lev dirs W, gives lev dirs W -> exists A, (forall s, s < V -> sub lev s dirs = Some (A s)) /\ isf n V A W.
Proof.
  intros lev dirs W H. exists (fun s => match sub lev s dirs with Some r => r | None => junk 0 end). split.
  - intros s Hs. destruct (H s Hs) as (r & E & _). now rewrite E.
  - intros s Hs. destruct (H s Hs) as (r & E & X). now rewrite E.
Qed.
Lemma gives_step : forall lev dirs (A B : nat -> nat -> mat) (W : nat -> mat), last dirs 0 < D ->
  (forall jj, jj < D -> ~ In jj dirs -> gives lev (dirs ++ [jj]) (A jj) /\ gives lev (removelast dirs ++ [jj; last dirs 0]) (B jj)) ->
  (forall i, i < V -> K (smear_alphas 4 sm (length dirs)) (one_minus_smalpha sm (length dirs))
     (msum (except D dirs) (fun jj => around n nb bk (A jj) (B jj) i (last dirs 0) jj)) (U i (last dirs 0)) (W i)) ->
  gives (S lev) dirs W.
Proof.
  intros lev dirs A B W Hr HAB HK i Hi. unfold sub, HypProofs4.sub. rewrite recurse_uniform. set (rho := last dirs 0) in *.
  pose proof (G4 ds geo Hok Nav H4) as G.
  assert (St : forall jj s, jj < D -> ~ In jj dirs -> exists s', ustep project n junk geo sm lat D lev i dirs jj s = Some s' /\
     meq n (mx n s') (madd (mx n s) (around n nb bk (A jj) (B jj) i rho jj)) /\ shaped n (around n nb bk (A jj) (B jj) i rho jj)).
  { intros jj s Hj Hn. destruct (HAB jj Hj Hn) as [GA GB]. destruct (gives_isf _ _ _ GA) as (a & Ea & Ia). destruct (gives_isf _ _ _ GB) as (b & Eb & Ib).
    unfold ustep. rewrite (proj2 (orth_iff jj dirs) Hn). fold rho. cbv zeta. fold (sub lev).
    assert (B1 : nbr (geo i) jj < V) by (apply (g_nbr _ _ _ G); [exact Hi|lia]).
    assert (B2 : nbr (geo i) rho < V) by (apply (g_nbr _ _ _ G); [exact Hi|lia]).
    assert (B3 : bck (geo i) jj < V) by (apply (g_bck _ _ _ G); [exact Hi|lia]).
    assert (B4 : nbr (geo (bck (geo i) jj)) rho < V) by (apply (g_nbr _ _ _ G); [exact B3|lia]).
    rewrite (Ea i Hi), (Eb _ B1), (Ea _ B2), (Ea _ B3), (Eb _ B3), (Ea _ B4). eexists. split; [reflexivity|].
    apply (add2_ok n V geo junk 4 G a b (A jj) (B jj) i rho jj s Ia Ib Hi); lia. }
  destruct (mfor_ind (fun (pre : list nat) st => meq n (mx n st) (msum (filter (fun jj => is_orthogonal jj dirs) pre) (fun jj => around n nb bk (A jj) (B jj) i rho jj)))
    (seq 0 D) (fun jj s => ustep project n junk geo sm lat D lev i dirs jj s) (MatModel.zero_mat n (junk 2))) as (st & E & X).
  - destruct (zero_mat_ok n (junk 2)) as [Z _]. exact Z.
  - intros pre jj post s El I. assert (Hj : jj < D). { assert (Y : In jj (seq 0 D)) by (rewrite El; apply in_app_iff; right; now left). apply in_seq in Y. lia. }
    rewrite filter_app. cbn [filter]. destruct (is_orthogonal jj dirs) eqn:Eo.
    + apply orth_iff in Eo. destruct (St jj s Hj Eo) as (s' & E & M & _). exists s'. split; [exact E|]. rewrite M, I. unfold msum. rewrite fold_right_app. cbn [fold_right].
      clear. induction (filter (fun jj => is_orthogonal jj dirs) pre) as [|d l IH]; cbn [fold_right].
      * intros p q _ _. unfold madd, mzero. ring.
      * rewrite <- IH. intros p q _ _. unfold madd. ring.
    + exists s. split; [unfold ustep; now rewrite Eo|]. rewrite app_nil_r. exact I.
  - rewrite E. rewrite except_orth in X. destruct (HF i rho Hi ltac:(lia)) as [EU SU].
    assert (Sh : shaped n (msum (except D dirs) (fun jj => around n nb bk (A jj) (B jj) i rho jj))).
    { apply shaped_sum. intros jj Hj. apply in_except in Hj. destruct Hj as [Hj1 Hj2]. now destruct (St jj (junk 0) Hj1 Hj2) as (s' & _ & _ & Y). }
    exact (proj_ok n project K Kext Kcomp (junk 3) _ _ _ _ _ _ _ X Sh EU SU (HK i Hi)).
Qed.
End Main.

Lemma except_last : forall a b rho, a < 4 -> b < 4 -> rho < 4 -> a <> b -> a <> rho -> b <> rho -> except 4 [a; b; rho] = [6 - a - b - rho].
Proof.
  intros a b rho Ha Hb Hr N1 N2 N3.
  destruct a as [|[|[|[|?]]]]; try lia; destruct b as [|[|[|[|?]]]]; try lia; destruct rho as [|[|[|[|?]]]]; try lia; reflexivity.
Qed.
Lemma except_last3 : forall a rho, a < 3 -> rho < 3 -> a <> rho -> except 3 [a; rho] = [3 - a - rho].
Proof. intros a rho Ha Hr N1. destruct a as [|[|[|?]]]; try lia; destruct rho as [|[|[|?]]]; try lia; reflexivity. Qed.
Lemma except_swap : forall D a b, except D [a; b] = except D [b; a].
Proof. intros. unfold except. apply filter_ext. intro d. cbn [existsb]. destruct (Nat.eqb d a), (Nat.eqb d b); reflexivity. Qed.
Lemma msum_1 : forall {A} n (a : A) f, meq n (msum [a] f) (f a).
Proof. intros A n a f i j _ _. unfold msum, madd, mzero. cbn [fold_right]. ring. Qed.

Section Sweeps.
Variables (n : nat) (ds : list Z) (geo : lattice).
Hypothesis Hok : GeomSpec.lattice_ok ds.
Hypothesis Nav : navig ds geo.
Hypothesis H4 : length ds = 4.
Variables (project : projection) (junk : nat -> arr).
Variable K : R -> R -> mat -> mat -> mat -> Prop.
Hypothesis Kext : forall sa al S S' U U' M, meq n S S' -> meq n U U' -> K sa al S U M -> K sa al S' U' M.
Hypothesis Kcomp : forall sl S U sa al M, SUn n (mx n U) -> shaped n (mx n S) -> K sa al (mx n S) (mx n U) M ->
  exists r, project sl S U sa al = Some r /\ meq n (mx n r) M /\ SUn n M.
Let LCU := lcu ds.
Let T := ntime ds.
Let V := volume ds.
Let nb (i mu : nat) := nbr (geo i) mu.
Let bk (i mu : nat) := bck (geo i) mu.

Lemma hynd4 : forall sm lat U U' i mu, repf n 4 V lat U -> hyp_step n V nb bk K sm U U' -> i < V -> mu < 4 ->
  exists r, hynd_rule project n junk geo 4 sm 4 lat i mu tt = Some (tt, r) /\ meq n (mx n r) (U' i mu) /\ SUn n (U' i mu).
Proof.
  intros sm lat U U' i mu HF (V1 & V2 & K1 & K2 & K3) Hi Hm.
  pose proof (gives_step n ds geo Hok Nav H4 project junk K Kext Kcomp sm lat U 4 (le_n 4) HF) as St.
  pose proof (gives0 n ds geo project junk sm lat U 4 HF) as G0.
  set (gv := gives n ds geo project junk sm lat 4) in *.
  assert (W3 : smear_alphas 4 sm 3 = (sm 2%nat / 2)%R) by (unfold smear_alphas; cbn; lra).
  assert (W2 : smear_alphas 4 sm 2 = (sm 1%nat / 4)%R) by (unfold smear_alphas; cbn; lra).
  assert (W1 : smear_alphas 4 sm 1 = (sm 0%nat / 6)%R) by (unfold smear_alphas; cbn; lra).
  assert (L1 : forall a b rho, a < 4 -> b < 4 -> rho < 4 -> a <> b -> a <> rho -> b <> rho -> gv 1 [a; b; rho] (V1 rho (6 - a - b - rho))).
  { intros a b rho Ha Hb Hr N1 N2 N3. apply (St 0 [a; b; rho] (fun jj s => U s jj) (fun jj s => U s rho)); [exact Hr| |].
    - intros jj Hj Hn. split.
      + exact (G0 [a; b; rho; jj] Hj).
      + exact (G0 [a; b; jj; rho] Hr).
    - intros k Hk. cbn [length last]. rewrite W3, (except_last a b rho) by assumption. eapply Kext; [symmetry; apply msum_1|reflexivity|].
      apply K1; try assumption; lia. }
  assert (L2 : forall a rho, a < 4 -> rho < 4 -> a <> rho -> gv 2 [a; rho] (V2 rho a)).
  { intros a rho Ha Hr N1. apply (St 1 [a; rho] (fun jj => V1 jj (6 - a - rho - jj)) (fun jj => V1 rho (6 - a - jj - rho))); [exact Hr| |].
    - intros jj Hj Hn. cbn [In] in Hn. split.
      + apply (L1 a rho jj); try assumption; intro; subst; tauto.
      + apply (L1 a jj rho); try assumption; intro; subst; tauto.
    - intros k Hk. cbn [length last]. rewrite W2, except_swap.
      rewrite (msum_eq _ _ (fun d => let sg := 6 - rho - a - d in around n nb bk (V1 d sg) (V1 rho sg) k rho d)); [apply (K2 k rho a Hk Hr Ha); lia|].
      intros d Hd. cbv zeta. assert (E1 : 6 - rho - a - d = 6 - a - rho - d) by lia. assert (E2 : 6 - a - d - rho = 6 - a - rho - d) by lia.
      rewrite E1, E2. reflexivity. }
  assert (L3 : gv 3 [mu] (fun i => U' i mu)).
  { apply (St 2 [mu] (fun jj => V2 jj mu) (fun jj => V2 mu jj)); [exact Hm| |].
    - intros jj Hj Hn. cbn [In] in Hn. split.
      + apply (L2 mu jj); try assumption; intro; subst; tauto.
      + apply (L2 jj mu); try assumption; intro; subst; tauto.
    - intros k Hk. cbn [length last]. rewrite W1. apply (K3 k mu Hk Hm). }
  destruct (L3 i Hi) as (r & E & X). unfold sub in E. unfold hynd_rule. cbn [Nat.sub]. rewrite E. exists r. split; [reflexivity|exact X].
Qed.
Lemma hynd3 : forall sm lat U U' i mu, repf n 4 V lat U -> hyp3_step n V nb bk K sm U U' -> i < V -> mu < 3 ->
  exists r, hynd_rule project n junk geo 4 sm 3 lat i mu tt = Some (tt, r) /\ meq n (mx n r) (U' i mu) /\ SUn n (U' i mu).
Proof.
  intros sm lat U U' i mu HF (V1 & K1 & K2 & K3) Hi Hm.
  pose proof (gives_step n ds geo Hok Nav H4 project junk K Kext Kcomp sm lat U 3 ltac:(lia) HF) as St.
  pose proof (gives0 n ds geo project junk sm lat U 3 HF) as G0.
  set (gv := gives n ds geo project junk sm lat 3) in *.
  assert (W2 : smear_alphas 4 sm 2 = (sm 1%nat / 4)%R) by (unfold smear_alphas; cbn; lra).
  assert (W1 : smear_alphas 4 sm 1 = (sm 0%nat / 6)%R) by (unfold smear_alphas; cbn; lra).
  assert (L1 : forall a rho, a < 3 -> rho < 3 -> a <> rho -> gv 1 [a; rho] (V1 rho (3 - a - rho))).
  { intros a rho Ha Hr N1. apply (St 0 [a; rho] (fun jj s => U s jj) (fun jj s => U s rho)); [exact Hr| |].
    - intros jj Hj Hn. split; [exact (G0 [a; rho; jj] ltac:(cbn; lia))|exact (G0 [a; jj; rho] ltac:(cbn; lia))].
    - intros k Hk. cbn [length last]. rewrite W2, (except_last3 a rho) by assumption. eapply Kext; [symmetry; apply msum_1|reflexivity|].
      apply K1; try assumption; lia. }
  assert (L2 : gv 2 [mu] (fun i => U' i mu)).
  { apply (St 1 [mu] (fun jj => V1 jj (3 - mu - jj)) (fun jj => V1 mu (3 - jj - mu))); [exact Hm| |].
    - intros jj Hj Hn. cbn [In] in Hn. split.
      + apply (L1 mu jj); try assumption; intro; subst; tauto.
      + apply (L1 jj mu); try assumption; intro; subst; tauto.
    - intros k Hk. cbn [length last]. rewrite W1.
      rewrite (msum_eq _ _ (fun d => let sg := 3 - mu - d in around n nb bk (V1 d sg) (V1 mu sg) k mu d)); [apply (K2 k mu Hk Hm)|].
      intros d Hd. cbv zeta. assert (E1 : 3 - d - mu = 3 - mu - d) by lia. rewrite E1. reflexivity. }
  destruct (L2 i Hi) as (r & E & X). unfold sub in E. unfold hynd_rule. cbn [Nat.sub]. rewrite E. exists r. split; [reflexivity|exact X].
Qed.

(** ** HYsmearND *)
Lemma hynd_sweeps_ok : forall sm D (R' : (nat -> nat -> mat) -> (nat -> nat -> mat) -> Prop) scs k lat lat2 lat3 lat4 (Us : nat -> nat -> nat -> mat),
  (D = 3 \/ D = 4) ->
  (forall lat U U' i mu, repf n 4 V lat U -> R' U U' -> i < V -> mu < D ->
     exists r, hynd_rule project n junk geo 4 sm D lat i mu tt = Some (tt, r) /\ meq n (mx n r) (U' i mu) /\ SUn n (U' i mu)) ->
  (forall U U', R' U U' -> D = 3 -> forall i, i < V -> meq n (U' i 3) (U i 3)) ->
  repf n 4 V lat (Us 0) -> (forall s, s < k -> R' (Us s) (Us (S s))) -> (forall s, orders LCU T LCU (scs s)) ->
  exists lat', HYsmearND project n junk geo 4 sm D LCU T scs k lat lat2 lat3 lat4 = Some lat' /\ repf n 4 V lat' (Us k).
Proof.
  intros sm D R' scs k lat lat2 lat3 lat4 Us HD Rl R3 H0 Hs Ho. unfold HYsmearND. cbn [Nat.sub].
  destruct (lcu_pos ds Hok) as (HL & HT & HV). fold LCU T V in HL, HT, HV.
  set (rule := hynd_rule project n junk geo 4 sm D) in *.
  enough (H : exists l a2 a3 a4 z, sweeps rule D LCU T (fun j => bck (geo j) 3) scs k (lat, lat2, lat3, lat4, fun _ _ => tt) = Some (l, a2, a3, a4, z) /\ repf n 4 V l (Us k)).
  { destruct H as (l & a2 & a3 & a4 & z & E & H). rewrite E. eauto. }
  induction k as [|k IH].
  - do 5 eexists. split; [reflexivity|exact H0].
  - destruct IH as (l & a2 & a3 & a4 & z & E & H); [intros s X; apply Hs; lia|]. cbn [sweeps]. rewrite E. pose proof (Hs k ltac:(lia)) as Rk.
    set (nw := fun j mu => match rule l j mu tt with Some (_, r) => r | None => junk 0 end).
    assert (Ub : forall u : unit, u = tt) by now intros [].
    destruct (C34_window arr unit rule D LCU T (fun j => bck (geo j) 3) (scs k) l a2 a3 a4 z nw (fun _ _ => tt)) as (l' & b2 & b3 & b4 & z' & E' & A & B).
    + exact HL.
    + exact HT.
    + intros t Ht. pose proof (nav_bk ds geo Hok Nav t Ht) as X. rewrite H4 in X. exact X.
    + apply Ho.
    + apply (hynd_reads ds geo Hok Nav H4); exact HD.
    + intros j mu Hj Hm. rewrite <- HV in Hj. destruct (Rl l (Us k) (Us (S k)) j mu H Rk Hj Hm) as (r & Er & _). unfold nw. rewrite (Ub (z j mu)), Er. reflexivity.
    + exists l', b2, b3, b4, z'. split; [exact E'|]. intros j mu Hj Hm. destruct (Nat.lt_ge_cases mu D) as [X|X].
      * rewrite (proj1 (A j mu ltac:(rewrite <- HV; exact Hj) X)). destruct (Rl l (Us k) (Us (S k)) j mu H Rk Hj X) as (r & Er & Y). unfold nw. rewrite Er. exact Y.
      * assert (D = 3 /\ mu = 3) as [ED ->] by lia. rewrite (proj1 (B j 3 ltac:(lia))). destruct (H j 3 Hj Hm) as [Y1 Y2]. pose proof (R3 _ _ Rk ED j Hj) as Y3.
        split; [now rewrite Y3|]. eapply SUn_ext; [symmetry; exact Y3|exact Y2].
Qed.
End Sweeps.
