(** Proofs about residual_fix. *)
From Coq Require Import PeanoNat Lia List ZArith Reals Lra Permutation Setoid.
From Verif Require Import CMat Det Arr MatSpec MmulModel MmulProofs MatModel MatProofs MatProofs2 Su2Model Su2Proofs GramModel GramProofs FieldModel FieldProofs FieldProofs2
  AxialModel AxialProofs AxialProofs2 GivensProofs GivensProofs2.
From Verif Require GeomModel GeomSpec GeomProofs GeomProofs2 CInt.
Import ListNotations.
Local Open Scope C_scope.

(** * The average of the temporal links *)
(** the sum over the sites of one slice *)
Definition slice_sum (n ND LCU : nat) (lat : lattice) (t : nat) : mat :=
  fun i j => csum LCU (fun x => lnk n lat (x + LCU * t)%nat (ND - 1)%nat i j).
Lemma time_average_ok : forall n ND LCU tmp lat t,
  meq n (mx n (time_average n ND LCU tmp lat t)) (mscale (RtoC (1 / INR LCU)) (slice_sum n ND LCU lat t)).
Proof.
  intros n ND LCU tmp lat t. unfold time_average.
  match goal with |- context [for_ LCU ?f ?z] => set (S0 := for_ LCU f z); assert (E : meq n (mx n S0) (slice_sum n ND LCU lat t)) end.
  { unfold S0, slice_sum. match goal with |- context [for_ LCU ?f ?z] => set (F := f); set (Z := z) end.
    intros i j Hi Hj.
    apply (for_ind (fun k s => mx n s i j = csum k (fun x => lnk n lat (x + LCU*t)%nat (ND-1)%nat i j))).
    - destruct (zero_mat_ok n tmp) as [E _]. rewrite E by assumption. reflexivity.
    - intros k s _ H. unfold F. destruct (a_plus_b_ok n s (O (lat (k + LCU*t)%nat) (ND-1)%nat)) as [E _]. rewrite E by assumption.
      unfold madd. rewrite H. reflexivity. }
  clearbody S0. 
  assert (K : forall m s, (forall x, (x < m)%nat -> for_ m (fun i sum => upd sum i (sum i * RtoC (1 / INR LCU))) s x = s x * RtoC (1 / INR LCU)) /\
     (forall x, (m <= x)%nat -> for_ m (fun i sum => upd sum i (sum i * RtoC (1 / INR LCU))) s x = s x)).
  { induction m as [|m IH]; intro s; [split; [intros; lia|reflexivity]|]. destruct (IH s) as [I1 I2]. cbn [for_].
    split; intros x Hx; unfold upd; destruct (Nat.eqb_spec x m) as [->|N]; try lia.
    - now rewrite I2 by lia.
    - apply I1. lia.
    - apply I2. lia. }
  intros i j Hi Hj. unfold mx at 1. rewrite (proj1 (K (n*n)%nat S0)) by nia. change (S0 (j + n*i)%nat) with (mx n S0 i j). rewrite E by assumption.
  unfold mscale. ring.
Qed.

(** * The transformation of one site *)
Section Site.
Variables (n ND LCU T : nat) (tmp : arr) (gauge : nat -> arr).
Definition tup (t : nat) : nat := if Nat.eqb t (T - 1) then 0%nat else (t + 1)%nat.
Definition res_site (lat : lattice) (i : nat) : lattice :=
  let t := (i / LCU)%nat in
  let temp := multab_dag_suNC n tmp (O (lat i) (ND-1)%nat) (gauge (tup t)) in
  let lat := put lat i (ND-1) (multab_suNC n (O (lat i) (ND-1)%nat) (gauge t) temp) in
  fst (for_ (ND - 1) (fun mu '(lat, temp) =>
          let temp := multab_dag_suNC n temp (O (lat i) mu) (gauge t) in
          (put lat i mu (multab_suNC n (O (lat i) mu) (gauge t) temp), temp)) (lat, temp)).
Lemma two_sided : forall t1 a b c d, SUn n (mx n a) -> SUn n (mx n b) -> SUn n (mx n c) ->
  meq n (mx n (multab_suNC n d a (multab_dag_suNC n t1 b c))) (mmul n (mmul n (mx n a) (mx n b)) (dag (mx n c))).
Proof.
  intros t1 a b c d Ha Hb Hc.
  destruct (multab_dag_suNC_ok n t1 b c Hb Hc) as [E _].
  assert (S : SUn n (mx n (multab_dag_suNC n t1 b c))).
  { apply (SUn_ext n (mmul n (mx n b) (dag (mx n c)))); [now symmetry|]. apply SUn_mmul; [assumption|now apply SUn_dag]. }
  destruct (multab_suNC_ok n d a _ Ha S) as [F _]. rewrite F, E. now rewrite mmul_assoc.
Qed.
Lemma res_site_ok : forall lat i, (0 < ND)%nat -> (forall m, (m < ND)%nat -> SUn n (lnk n lat i m)) ->
  SUn n (mx n (gauge (i / LCU)%nat)) -> SUn n (mx n (gauge (tup (i / LCU)))) ->
  same_geom lat (res_site lat i) /\ (forall j m, j <> i -> O (res_site lat i j) m = O (lat j) m) /\
  forall m, (m < ND)%nat -> meq n (lnk n (res_site lat i) i m)
     (mmul n (mmul n (mx n (gauge (i / LCU)%nat)) (lnk n lat i m)) (dag (mx n (gauge (if Nat.eqb m (ND - 1) then tup (i / LCU) else i / LCU)%nat)))).
Proof.
  intros lat i HD HU Hg Hu. unfold res_site. cbv zeta. set (t := (i / LCU)%nat) in *.
  set (temp := multab_dag_suNC n tmp _ (gauge (tup t))). set (lat1 := put lat i (ND-1) _).
  match goal with |- context [for_ (ND-1) ?f ?s0] => pose proof (for_ind (fun k s => same_geom lat (fst s) /\ 
     (forall j m, j <> i -> O (fst s j) m = O (lat j) m) /\
     meq n (lnk n (fst s) i (ND-1)) (mmul n (mmul n (mx n (gauge t)) (lnk n lat i (ND-1))) (dag (mx n (gauge (tup t))))) /\
     (forall m, (m < k)%nat -> meq n (lnk n (fst s) i m) (mmul n (mmul n (mx n (gauge t)) (lnk n lat i m)) (dag (mx n (gauge t))))) /\
     (forall m, (k <= m)%nat -> (m < ND - 1)%nat -> O (fst s i) m = O (lat i) m)) (ND-1) f s0) as I end.
  destruct I as (G & H1 & H2 & H3 & _).
  - cbn [fst]. split; [apply put_geom|]. split; [|split; [|split]].
    + intros j m Nj. unfold lat1. rewrite O_put, (proj2 (Nat.eqb_neq j i)) by assumption. reflexivity.
    + unfold lnk, lat1. rewrite O_put, !Nat.eqb_refl. cbn [andb]. apply two_sided; try assumption. apply HU. lia.
    + intros; lia.
    + intros m _ Hm. unfold lat1. rewrite O_put, Nat.eqb_refl, (proj2 (Nat.eqb_neq m _)) by lia. reflexivity.
  - intros k [l tp] Hk (G & H1 & H2 & H3 & H4). cbn [fst] in *. split; [eapply same_geom_trans; [exact G|apply put_geom]|]. split; [|split; [|split]].
    + intros j m Nj. rewrite O_put, (proj2 (Nat.eqb_neq j i)) by assumption. cbn [andb]. now apply H1.
    + unfold lnk in *. rewrite O_put, (proj2 (Nat.eqb_neq (ND-1) k)) by lia. rewrite Bool.andb_false_r. exact H2.
    + intros m Hm. unfold lnk. rewrite O_put, Nat.eqb_refl. cbn [andb]. destruct (Nat.eqb_spec m k) as [->|N].
      * rewrite H4 by lia. apply two_sided; try assumption. apply HU. lia.
      * apply H3. lia.
    + intros m Hm Hm'. rewrite O_put, Nat.eqb_refl, (proj2 (Nat.eqb_neq m k)) by lia. cbn [andb]. apply H4; lia.
  - split; [exact G|]. split; [exact H1|]. intros m Hm. destruct (Nat.eqb_spec m (ND-1)) as [->|N]; [exact H2|]. apply H3. lia.
Qed.
Lemma res_sites_ok : forall order lat, (0 < ND)%nat -> NoDup order -> (forall i m, In i order -> (m < ND)%nat -> SUn n (lnk n lat i m)) ->
  (forall i, In i order -> SUn n (mx n (gauge (i / LCU)%nat)) /\ SUn n (mx n (gauge (tup (i / LCU))))) ->
  let lat' := fold_left res_site order lat in
  same_geom lat lat' /\ (forall j m, ~ In j order -> O (lat' j) m = O (lat j) m) /\
  forall i m, In i order -> (m < ND)%nat -> meq n (lnk n lat' i m)
     (mmul n (mmul n (mx n (gauge (i / LCU)%nat)) (lnk n lat i m)) (dag (mx n (gauge (if Nat.eqb m (ND - 1) then tup (i / LCU) else i / LCU)%nat)))).
Proof.
  induction order as [|i r IH]; intros lat HD Nd HU Hg; cbn zeta; cbn [fold_left].
  - split; [apply same_geom_refl|]. split; [reflexivity|intros ? ? []].
  - inversion Nd as [|? ? Ni Nr]. subst. destruct (res_site_ok lat i HD) as (G1 & U1 & L1).
    { intros m Hm. apply HU; [now left|assumption]. }
    { apply Hg. now left. } { apply Hg. now left. }
    assert (Nb : forall k, In k r -> k <> i) by (intros k Hk ->; contradiction).
    destruct (IH (res_site lat i) HD Nr) as (G & U & L).
    { intros k m Hk Hm. unfold lnk. rewrite U1 by (now apply Nb). apply HU; [now right|assumption]. }
    { intros k Hk. apply Hg. now right. }
    split; [eapply same_geom_trans; eassumption|]. split.
    + intros j m Hj. rewrite U, U1; [reflexivity| |]; intro Q; apply Hj; [left; congruence|now right].
    + intros k m [<-|Hk] Hm.
      * unfold lnk at 1. rewrite U by assumption. apply (L1 m Hm).
      * rewrite (L k m Hk Hm). unfold lnk. rewrite U1 by (now apply Nb). reflexivity.
Qed.
End Site.
Lemma residual_fix_is : forall n ND LCU T tol tmp mem order lat, residual_fix n ND LCU T tol tmp mem order lat =
  match residual_gauge n ND LCU T tol tmp mem lat with None => None | Some gauge => Some (fold_left (res_site n ND LCU T tmp gauge) order lat) end.
Proof. reflexivity. Qed.

(** * The matrices of the slices *)
Lemma residual_gauge_ok : forall n ND LCU T tol tmp mem lat gauge, (2 <= n)%nat ->
  (forall t, (S t < T)%nat -> leading n (mx n (time_average n ND LCU tmp lat t))) ->
  residual_gauge n ND LCU T tol tmp mem lat = Some gauge ->
  meq n (mx n (gauge 0%nat)) mid /\ (forall t, (t < T)%nat -> SUn n (mx n (gauge t))) /\
  forall t, (S t < T)%nat -> exists P, givens_reunit n tol tmp (time_average n ND LCU tmp lat t) = Some P /\
    meq n (mx n (gauge (S t))) (mmul n (mx n (gauge t)) (mx n P)).
Proof.
  intros n ND LCU T tol tmp mem lat gauge Hn Ld E. unfold residual_gauge in E.
  assert (I : meq n (mx n (gauge 0%nat)) mid /\ (forall t, (t <= T - 1)%nat -> SUn n (mx n (gauge t))) /\
     forall t, (t < T - 1)%nat -> exists P, givens_reunit n tol tmp (time_average n ND LCU tmp lat t) = Some P /\
    meq n (mx n (gauge (S t))) (mmul n (mx n (gauge t)) (mx n P))).
  { revert gauge E. 
    match goal with |- context [for_ (T-1) ?f ?s] => apply (for_ind (fun k g => forall gauge, g = Some gauge ->
      meq n (mx n (gauge 0%nat)) mid /\ (forall t, (t <= k)%nat -> SUn n (mx n (gauge t))) /\
      forall t, (t < k)%nat -> exists P, givens_reunit n tol tmp (time_average n ND LCU tmp lat t) = Some P /\
      meq n (mx n (gauge (S t))) (mmul n (mx n (gauge t)) (mx n P))) (T-1) f s) end.
    - intros gauge E. injection E as <-. assert (Z : meq n (mx n (gset mem 0 (identity n (mem 0%nat)) 0%nat)) mid) by apply (identity_ok n (mem 0%nat)).
      split; [exact Z|]. split; [|intros; lia]. intros t Ht. replace t with 0%nat by lia. apply (SUn_ext n mid); [now symmetry|apply SUn_mid].
    - intros k [g|] Hk H gauge E; [|discriminate]. specialize (H g eq_refl). destruct H as (H1 & H2 & H3).
      destruct (givens_reunit n tol tmp (time_average n ND LCU tmp lat k)) as [P|] eqn:EP; [|discriminate]. injection E as <-.
      assert (HP : SUn n (mx n P)) by (apply (givens_reunit_group n tol tmp _ P Hn (Ld k ltac:(lia)) EP)).
      assert (Nw : meq n (mx n (gset g (k+1) (multab_suNC n (g (k+1)%nat) (g k) P) (S k))) (mmul n (mx n (g k)) (mx n P))).
      { unfold gset. rewrite (proj2 (Nat.eqb_eq (S k) (k+1))) by lia. apply multab_suNC_ok; [apply H2; lia|assumption]. }
      assert (Od : forall t, (t <= k)%nat -> gset g (k+1) (multab_suNC n (g (k+1)%nat) (g k) P) t = g t).
      { intros t Ht. unfold gset. now rewrite (proj2 (Nat.eqb_neq t (k+1))) by lia. }
      split; [rewrite Od by lia; exact H1|]. split.
      + intros t Ht. destruct (Nat.eq_dec t (S k)) as [->|N].
        * eapply SUn_ext; [symmetry; exact Nw|]. apply SUn_mmul; [apply H2; lia|assumption].
        * rewrite Od by lia. apply H2. lia.
      + intros t Ht. destruct (Nat.eq_dec t k) as [->|N].
        * exists P. split; [exact EP|]. rewrite Nw. now rewrite Od by lia.
        * rewrite !Od by lia. apply H3. lia. }
  destruct I as (I1 & I2 & I3). split; [exact I1|]. split; [intros; apply I2; lia|]. intros t Ht. apply I3. lia.
Qed.

(** * The result *)
Section Residual.
Variables (ds : list Z) (Tz : Z) (lat : lattice) (n : nat).
Hypothesis (Hok : GeomSpec.lattice_ok (ds ++ [Tz])) (Nav : navig (ds ++ [Tz]) lat) (Hn : (2 <= n)%nat).
Let LCU : nat := Z.to_nat (GeomSpec.prodZ ds).
Let ND : nat := length (ds ++ [Tz]).
Let V : nat := volume (ds ++ [Tz]).
Let T : nat := Z.to_nat Tz.
Hypothesis (F : group_field n ND V lat).
Lemma res_dims : (0 < LCU)%nat /\ (0 < T)%nat /\ V = (LCU * T)%nat /\ (0 < ND)%nat /\ (ND - 1)%nat = length ds.
Proof.
  destruct (slice_dims ds Tz Hok) as (_ & H1 & H2 & H3). unfold LCU, T, V, ND. rewrite app_length. cbn [length].
  split; [lia|]. split; [lia|]. split; [exact H3|]. split; lia.
Qed.
Lemma slice_of : forall i, (i < V)%nat -> (i / LCU < T)%nat /\ (i mod LCU < LCU)%nat /\ i = (LCU * (i / LCU) + i mod LCU)%nat.
Proof.
  intros i Hi. destruct res_dims as (P1 & P2 & EV & _). split; [apply Nat.div_lt_upper_bound; lia|].
  split; [apply Nat.mod_upper_bound; lia|apply Nat.div_mod; lia].
Qed.
Lemma residual_fix_ok : forall tol tmp mem order lat', Permutation order (seq 0 V) ->
  (forall t, (S t < T)%nat -> leading n (mx n (time_average n ND LCU tmp lat t))) ->
  residual_fix n ND LCU T tol tmp mem order lat = Some lat' ->
  exists h : nat -> mat, meq n (h 0%nat) mid /\ (forall t, (t < T)%nat -> SUn n (h t)) /\
    gauged n ND V (fun i => h (i / LCU)%nat) lat lat' /\
    forall t, (S t < T)%nat -> exists P, givens_reunit n tol tmp (time_average n ND LCU tmp lat t) = Some P /\ meq n (h (S t)) (mmul n (h t) (mx n P)).
Proof.
  intros tol tmp mem order lat' Po Ld E. rewrite residual_fix_is in E.
  destruct (residual_gauge n ND LCU T tol tmp mem lat) as [gauge|] eqn:EG; [|discriminate]. injection E as <-.
  destruct (residual_gauge_ok n ND LCU T tol tmp mem lat gauge Hn Ld EG) as (G0 & G1 & G2).
  destruct res_dims as (P1 & P2 & EV & PN & EN).
  assert (Tu : forall t, (t < T)%nat -> (tup T t < T)%nat) by (intros t Ht; unfold tup; destruct (Nat.eqb_spec t (T-1)); lia).
  assert (Io : forall i, In i order <-> (i < V)%nat).
  { intro i. split; intro H; [apply (Permutation_in i Po), in_seq in H; lia|apply (Permutation_in i (Permutation_sym Po)), in_seq; lia]. }
  destruct (res_sites_ok n ND LCU T tmp gauge order lat PN) as (SG & _ & L).
  { apply (Permutation_NoDup (Permutation_sym Po)), seq_NoDup. }
  { intros i m Hi Hm. apply F; [now apply Io|assumption]. }
  { intros i Hi. apply Io, slice_of in Hi. split; apply G1; [apply Hi|]. apply Tu, Hi. }
  exists (fun t => mx n (gauge t)). split; [exact G0|]. split; [exact G1|]. split; [|exact G2].
  split; [exact SG|]. intros i mu Hi Hm. rewrite L by (try apply Io; assumption).
  destruct (slice_of i Hi) as (Q1 & Q2 & Q3).
  replace (nbr (lat i) mu / LCU)%nat with (if Nat.eqb mu (ND-1) then tup T (i / LCU) else i / LCU)%nat; [reflexivity|].
  rewrite Q3 at 3. destruct (Nat.eqb_spec mu (ND-1)) as [->|Nm].
  - rewrite EN. unfold LCU at 2. rewrite (slice_time ds Tz lat Hok Nav) by assumption. fold LCU T. unfold tup.
    replace (Nat.eqb (S (i / LCU)) T) with (Nat.eqb (i / LCU) (T - 1)) by (destruct (Nat.eqb_spec (i/LCU) (T-1)), (Nat.eqb_spec (S (i/LCU)) T); lia || reflexivity).
    set (u := if Nat.eqb (i / LCU) (T - 1) then 0%nat else S (i / LCU)).
    rewrite (Nat.mul_comm LCU u), Nat.div_add_l, (Nat.div_small _ _ Q2) by lia. unfold u. destruct (Nat.eqb (i / LCU) (T - 1)); lia.
  - destruct (slice_space ds Tz lat Hok Nav (i mod LCU) (i / LCU) mu Q2 Q1 ltac:(lia)) as [B E]. fold LCU in B, E. rewrite E.
    rewrite (Nat.mul_comm LCU (i / LCU)), Nat.div_add_l, (Nat.div_small _ _ B) by lia. lia.
Qed.
(** the traces of the spatial links are as before *)
Lemma gauged_space : forall (h : nat -> mat) lat', (forall t, (t < T)%nat -> SUn n (h t)) -> gauged n ND V (fun i => h (i / LCU)%nat) lat lat' ->
  forall i mu, (i < V)%nat -> (mu < length ds)%nat -> mtr n (lnk n lat' i mu) = mtr n (lnk n lat i mu).
Proof.
  intros h lat' Hh [_ G] i mu Hi Hm. destruct res_dims as (P1 & P2 & EV & PN & EN). destruct (slice_of i Hi) as (Q1 & Q2 & Q3).
  destruct (slice_space ds Tz lat Hok Nav (i mod LCU) (i / LCU) mu Q2 Q1 Hm) as [B E]. fold LCU in B, E. rewrite <- Q3 in E.
  rewrite G by lia. rewrite E. rewrite (Nat.mul_comm LCU), Nat.div_add_l, (Nat.div_small _ _ B), Nat.add_0_r by lia.
  rewrite mtr_cyc, <- mmul_assoc. destruct (Hh _ Q1) as [[_ I] _]. now rewrite I, mmul_1_l.
Qed.
(** the sum of the temporal traces of a slice *)
Lemma slice_trace : forall l t, re (mtr n (slice_sum n ND LCU l t)) = rsum LCU (fun x => re (mtr n (lnk n l (x + LCU*t)%nat (ND-1)%nat))).
Proof.
  intros l t. unfold slice_sum. generalize LCU at 1 3. intro m. unfold mtr.
  induction m as [|m IH]; cbn [csum rsum].
  - rewrite csum_0. reflexivity.
  - rewrite <- IH. rewrite (csum_add n). reflexivity.
Qed.
Lemma slice_sum_gauged : forall (h : nat -> mat) lat', (forall t, (t < T)%nat -> SUn n (h t)) -> gauged n ND V (fun i => h (i / LCU)%nat) lat lat' ->
  forall t, (S t < T)%nat -> meq n (slice_sum n ND LCU lat' t) (mmul n (mmul n (h t) (slice_sum n ND LCU lat t)) (dag (h (S t)))).
Proof.
  intros h lat' Hh [_ G] t Ht. destruct res_dims as (P1 & P2 & EV & PN & EN).
  assert (K : forall x, (x < LCU)%nat -> meq n (lnk n lat' (x + LCU*t)%nat (ND-1)%nat) (mmul n (mmul n (h t) (lnk n lat (x + LCU*t)%nat (ND-1)%nat)) (dag (h (S t))))).
  { intros x Hx. rewrite G by nia. rewrite EN. rewrite (Nat.add_comm x). unfold LCU at 5. rewrite (slice_time ds Tz lat Hok Nav) by (try assumption; fold T; lia).
    fold LCU T. rewrite (proj2 (Nat.eqb_neq (S t) T)) by lia.
    rewrite !(Nat.mul_comm LCU), !Nat.div_add_l, !Nat.div_small, !Nat.add_0_r by lia. reflexivity. }
  intros i j Hi Hj. unfold slice_sum at 1.
  rewrite (csum_ext LCU _ (fun x => mmul n (mmul n (h t) (lnk n lat (x + LCU*t)%nat (ND-1)%nat)) (dag (h (S t))) i j)) by (intros x Hx; now apply K).
  unfold mmul. rewrite csum_swap. apply csum_ext. intros a Ha. rewrite csum_mul_r. f_equal. rewrite csum_swap. apply csum_ext. intros b Hb.
  rewrite csum_mul_l. reflexivity.
Qed.
Lemma overlap_scale : forall c S X, overlap n (mscale (RtoC c) S) X = (c * overlap n S X)%R.
Proof.
  intros c S X. unfold overlap. assert (E : meq n (mmul n (mscale (RtoC c) S) (dag X)) (mscale (RtoC c) (mmul n S (dag X)))).
  { intros i j _ _. unfold mmul, mscale. rewrite <- csum_mul_l. apply csum_ext. intros. ring. }
  rewrite E. unfold mtr, mscale. rewrite csum_mul_l. destruct (csum _ _). cunfold. ring.
Qed.
Lemma overlap_meq : forall S S' X, meq n S S' -> overlap n S X = overlap n S' X.
Proof. intros S S' X E. unfold overlap. now rewrite E. Qed.
Lemma residual_overlap : forall (h : nat -> mat) lat' P, (forall t, (t < T)%nat -> SUn n (h t)) -> gauged n ND V (fun i => h (i / LCU)%nat) lat lat' ->
  forall t, (S t < T)%nat -> meq n (h (S t)) (mmul n (h t) P) ->
  re (mtr n (slice_sum n ND LCU lat' t)) = overlap n (slice_sum n ND LCU lat t) P.
Proof.
  intros h lat' P Hh G t Ht E. rewrite (slice_sum_gauged h lat' Hh G t Ht), E, dag_mmul. unfold overlap.
  rewrite !mmul_assoc, mtr_cyc, !mmul_assoc. destruct (Hh t ltac:(lia)) as [[_ I] _]. now rewrite I, mmul_1_r.
Qed.
Lemma average_overlap : forall tmp t X, overlap n (mx n (time_average n ND LCU tmp lat t)) X = (1 / INR LCU * overlap n (slice_sum n ND LCU lat t) X)%R.
Proof. intros tmp t X. rewrite <- overlap_scale. apply overlap_meq, time_average_ok. Qed.
Lemma average_le : forall tmp t X Y, (overlap n (mx n (time_average n ND LCU tmp lat t)) X <= overlap n (mx n (time_average n ND LCU tmp lat t)) Y)%R ->
  (overlap n (slice_sum n ND LCU lat t) X <= overlap n (slice_sum n ND LCU lat t) Y)%R.
Proof.
  intros tmp t X Y H. rewrite !average_overlap in H. destruct res_dims as (P1 & _). apply (lt_INR 0) in P1. cbn [INR] in P1.
  apply (Rmult_le_reg_l (1 / INR LCU)); [apply Rdiv_lt_0_compat; lra|exact H].
Qed.
End Residual.
