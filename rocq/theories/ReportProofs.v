(** Landau gauge and the sums over time slices; the difference of two slices. *)
From Coq Require Import Permutation Lia Lra.
From Verif Require Import CInt GeomSpec GeomProofs GeomProofs2 Cplx CMat Det Arr MatModel MatSpec MatProofs ProjModel ProjProofs HypProofs FieldModel FieldProofs FieldProofs2 FieldProofs3 QtopModel NumModel GluonSpec GluonProofs GluonProofs2 GluonProofs3 GluonProofs4 QtopProofs2 LandauSpec LandauProofs2 ReportModel ReportSpec.
Import ListNotations.
Local Open Scope R_scope.

(** * Landau gauge *)
Section Slices.
Variables (n : nat) (ds : list Z) (T : Z) (lat : lattice).
Hypothesis (Hok : lattice_ok (ds ++ [T])) (Nav : navig (ds ++ [T]) lat).
Local Notation LCU := (Z.to_nat (prodZ ds)).
Local Notation ND := (length (ds ++ [T])).
Lemma site_lt i t : (i < LCU)%nat -> (t < Z.to_nat T)%nat -> (LCU * t + i < volume (ds ++ [T]))%nat.
Proof. intros Hi Ht. destruct (slice_dims ds T Hok) as (_ & _ & _ & E). cbv zeta in E. rewrite E. nia. Qed.
Lemma bck_space f t mu : (t < Z.to_nat T)%nat -> (mu < length ds)%nat ->
  csum LCU (fun i => f (bck (lat (LCU * t + i)%nat) mu)) = csum LCU (fun i => f (LCU * t + i)%nat).
Proof.
  intros Ht Hm. pose proof (navig_geom _ _ Hok Nav) as Geo. assert (LL : ND = S (length ds)) by (rewrite app_length; cbn; lia).
  rewrite <- (csum_bij LCU (fun i => f (bck (lat (LCU * t + i)%nat) mu)) (fun i => nbr (lat i) mu)).
  - apply csum_ext. intros i Hi. destruct (slice_space ds T lat Hok Nav i t mu Hi Ht Hm) as [_ E]. rewrite <- E, (g_bn _ _ _ Geo); [reflexivity|now apply site_lt|lia].
  - intros i Hi. now apply (slice_space ds T lat Hok Nav i t mu).
  - intros i j Hi Hj E. assert (T0 : (0 < Z.to_nat T)%nat) by lia. pose proof (site_lt i 0 Hi T0) as Li. pose proof (site_lt j 0 Hj T0) as Lj. rewrite Nat.mul_0_r in Li, Lj. cbn [Nat.add] in Li, Lj.
    rewrite <- (g_bn _ _ _ Geo i mu), <- (g_bn _ _ _ Geo j mu) by (assumption || lia). now rewrite E.
Qed.
Lemma bck_time i t : (i < LCU)%nat -> (S t < Z.to_nat T)%nat -> bck (lat (LCU * S t + i)%nat) (length ds) = (LCU * t + i)%nat.
Proof.
  intros Hi Ht. pose proof (navig_geom _ _ Hok Nav) as Geo. assert (LL : ND = S (length ds)) by (rewrite app_length; cbn; lia).
  pose proof (slice_time ds T lat Hok Nav i t Hi ltac:(lia)) as E. destruct (Nat.eqb_spec (S t) (Z.to_nat T)); [lia|].
  rewrite <- E. apply (g_bn _ _ _ Geo); [apply site_lt; [assumption|lia]|lia].
Qed.
Lemma slice_divergence t i j : (S t < Z.to_nat T)%nat -> csum LCU (fun x => divergence n ND lat (LCU * S t + x) i j) = (slice_charge n ND LCU lat t i j - slice_charge n ND LCU lat (S t) i j)%C.
Proof.
  intro Ht. assert (LL : ND = S (length ds)) by (rewrite app_length; cbn; lia). unfold divergence, msum, msub, slice_charge. rewrite StaticProofs.csum_swap. rewrite LL. cbn [csum].
  rewrite (csum_ext (length ds) _ (fun _ => C0)).
  - rewrite csum_0, csum_sub. cbn [Nat.sub]. rewrite !Nat.sub_0_r.
    rewrite (csum_ext LCU _ (fun x => trf n (herm (lnk n lat (LCU * t + x) (length ds))) i j)).
    + unfold msum. cbv beta. ring.
    + intros x Hx. now rewrite bck_time.
  - intros mu Hm. rewrite csum_sub, (bck_space (fun x => trf n (herm (lnk n lat x mu)) i j)) by lia. ring.
Qed.
Lemma landau_slices : landau_gauge n ND (volume (ds ++ [T])) lat -> forall t, (t < Z.to_nat T)%nat -> meq n (slice_charge n ND LCU lat t) (slice_charge n ND LCU lat 0).
Proof.
  intros L t. induction t as [|t IH]; intro Ht; [reflexivity|]. rewrite <- IH by lia. intros i j Hi Hj. pose proof (slice_divergence t i j Ht) as E.
  rewrite (csum_ext LCU _ (fun _ => C0)) in E by (intros x Hx; apply L; [now apply site_lt|assumption|assumption]). rewrite csum_0 in E.
  transitivity (slice_charge n ND LCU lat t i j - (slice_charge n ND LCU lat t i j - slice_charge n ND LCU lat (S t) i j))%C; [ring|]. rewrite <- E. ring.
Qed.
End Slices.

(** * The sum over a slice *)
Lemma for_S_ {A} m (f : nat -> A -> A) a : for_ (S m) f a = f m (for_ m f a).
Proof. reflexivity. Qed.
Lemma slice_field_ok n ND LCU T tmp lat t : (2 <= n)%nat -> (0 < ND)%nat -> (t < T)%nat -> group_field n ND (LCU * T) lat ->
  meq n (mx n (slice_field n ND LCU tmp lat t)) (slice_charge n ND LCU lat t).
Proof.
  intros Hn HN Ht F. unfold slice_field, slice_charge.
  assert (K : forall m, (m <= LCU)%nat -> meq n (mx n (for_ m (fun i sum => a_plus_b n sum (Hermitian_proj n tmp (O (lat (i + LCU * t)%nat) (ND - 1)%nat))) (zero_mat n tmp))) (msum m (fun i => trf n (herm (lnk n lat (LCU * t + i) (ND - 1)))))).
  { induction m as [|m IH]; intro Hm; [apply zero_mat_ok|]. rewrite for_S_. rewrite (proj1 (a_plus_b_ok n _ _)).
    intros i j Hi Hj. unfold madd, msum. cbn [csum]. rewrite (IH ltac:(lia) i j Hi Hj). unfold msum. f_equal.
    rewrite (Nat.add_comm m). apply Hermitian_proj_ok; [lia| |assumption|assumption]. apply shaped_SUn. apply F; nia. }
  now apply K.
Qed.

(** * Differences *)
Lemma cabs_nonneg z : 0 <= cabs z. Proof. apply sqrt_pos. Qed.
Lemma cabs_zero z : cabs z = 0 <-> z = C0.
Proof.
  unfold cabs. split.
  - intro H. apply sqrt_eq_0 in H; [|nra]. destruct z as [a b]. cbn in H. unfold C0. f_equal; nra.
  - intros ->. cbn. replace (0 * 0 + 0 * 0) with 0 by ring. apply sqrt_0.
Qed.
Lemma cabs_sub z w : cabs (z - w)%C = 0 <-> z = w.
Proof. rewrite cabs_zero. split; [|intros ->; ring]. intro H. transitivity (z - w + w)%C; [ring|]. rewrite H. ring. Qed.
Lemma sum_zero m f z : 0 <= z -> (forall i, (i < m)%nat -> 0 <= f i) -> for_ m (fun i av => av + f i) z = z + dsum m f.
Proof. intros _ _. induction m as [|m IH]; [unfold dsum; cbn; ring|]. rewrite for_S_, IH, dsum_S. ring. Qed.
Lemma dsum_zero m f : (forall i, (i < m)%nat -> 0 <= f i) -> dsum m f = 0 <-> (forall i, (i < m)%nat -> f i = 0).
Proof.
  intro P. induction m as [|m IH]; [split; [intros _ i Hi; lia|reflexivity]|]. rewrite dsum_S.
  assert (P' : 0 <= dsum m f) by (apply dsum_nonneg; intros; apply P; lia). specialize (P m ltac:(lia)) as Pm. destruct IH as [I1 I2]; [intros; apply P; lia|]. split.
  - intros E i Hi. destruct (Nat.eq_dec i m) as [->|N]; [lra|]. apply I1; [lra|lia].
  - intro E. rewrite I2, E by (try intros; try apply E; lia). ring.
Qed.
Lemma slice_difference_nonneg n tmp a b : 0 <= slice_difference n tmp a b.
Proof.
  unfold slice_difference. assert (K : forall m, 0 <= (let dif := b_min_c m tmp a b in for_ (m * m) (fun i av => av + cabs (dif i)) 0)).
  { intro m. cbv zeta. rewrite sum_zero by (intros; apply cabs_nonneg || lra). pose proof (dsum_nonneg (m * m) (fun i => cabs (b_min_c m tmp a b i)) (fun i _ => cabs_nonneg _)). cbv beta in H. lra. }
  destruct n as [|[|[|[|n]]]]; try apply K.
  - pose proof (Rabs_pos (re (a 0%nat) - re (a 0%nat))). pose proof (cabs_nonneg (a 1%nat - b 1%nat)%C). lra.
  - pose proof (Rabs_pos (re (a 0%nat) - re (b 0%nat))). pose proof (cabs_nonneg (a 1%nat - b 1%nat)%C). pose proof (Rabs_pos (re (a 4%nat) - re (b 4%nat))). pose proof (cabs_nonneg (a 2%nat - b 2%nat)%C). pose proof (cabs_nonneg (a 5%nat - b 5%nat)%C). lra.
Qed.
Definition herm_traceless (n : nat) (A : mat) : Prop := meq n A (dag A) /\ mtr n A = C0.
Lemma Rabs_zero_sub x y : Rabs (x - y) = 0 -> x = y.
Proof. intro H. destruct (Req_dec (x - y) 0); [lra|]. apply Rabs_no_R0 in H0. contradiction. Qed.
(** from SU(3) on nothing is missed *)
Lemma slice_difference_zero n tmp a b : (3 <= n)%nat -> herm_traceless n (mx n a) -> herm_traceless n (mx n b) -> slice_difference n tmp a b = 0 <-> meq n (mx n a) (mx n b).
Proof.
  intros Hn [Ha Ta] [Hb Tb]. destruct (Nat.eq_dec n 3) as [->|N].
  - cbn [slice_difference]. split.
    + intro E. pose proof (Rabs_pos (re (a 0%nat) - re (b 0%nat))). pose proof (cabs_nonneg (a 1%nat - b 1%nat)%C). pose proof (Rabs_pos (re (a 4%nat) - re (b 4%nat))). pose proof (cabs_nonneg (a 2%nat - b 2%nat)%C). pose proof (cabs_nonneg (a 5%nat - b 5%nat)%C).
      assert (E0 : re (a 0%nat) = re (b 0%nat)) by (apply Rabs_zero_sub; lra). assert (E4 : re (a 4%nat) = re (b 4%nat)) by (apply Rabs_zero_sub; lra).
      assert (E1 : a 1%nat = b 1%nat) by (apply cabs_sub; lra). assert (E2 : a 2%nat = b 2%nat) by (apply cabs_sub; lra). assert (E5 : a 5%nat = b 5%nat) by (apply cabs_sub; lra).
      assert (D : forall c : arr, meq 3 (mx 3 c) (dag (mx 3 c)) -> im (c 0%nat) = 0 /\ im (c 4%nat) = 0 /\ im (c 8%nat) = 0 /\ c 3%nat = conj (c 1%nat) /\ c 6%nat = conj (c 2%nat) /\ c 7%nat = conj (c 5%nat)).
      { intros c H4. repeat split.
        - specialize (H4 0 0 ltac:(lia) ltac:(lia))%nat. unfold dag, mx in H4. cbn [Nat.add Nat.mul] in H4. apply (f_equal im) in H4. destruct (c 0%nat). cbn in *. lra.
        - specialize (H4 1 1 ltac:(lia) ltac:(lia))%nat. unfold dag, mx in H4. cbn [Nat.add Nat.mul] in H4. apply (f_equal im) in H4. destruct (c 4%nat). cbn in *. lra.
        - specialize (H4 2 2 ltac:(lia) ltac:(lia))%nat. unfold dag, mx in H4. cbn [Nat.add Nat.mul] in H4. apply (f_equal im) in H4. destruct (c 8%nat). cbn in *. lra.
        - exact (H4 1 0 ltac:(lia) ltac:(lia))%nat.
        - exact (H4 2 0 ltac:(lia) ltac:(lia))%nat.
        - exact (H4 2 1 ltac:(lia) ltac:(lia))%nat. }
      destruct (D a Ha) as (A0 & A4 & A8 & A3 & A6 & A7). destruct (D b Hb) as (B0 & B4 & B8 & B3 & B6 & B7).
      assert (E0' : a 0%nat = b 0%nat) by (apply C_eq; [exact E0|congruence]). assert (E4' : a 4%nat = b 4%nat) by (apply C_eq; [exact E4|congruence]).
      unfold mtr, mx in Ta, Tb. cbn [csum Nat.add Nat.mul] in Ta, Tb.
      assert (E8 : a 8%nat = b 8%nat) by (transitivity (C0 - a 0%nat - a 4%nat)%C; [rewrite <- Ta; ring|rewrite <- Tb, E0', E4'; ring]).
      intros i j Hi Hj. unfold mx. destruct i as [|[|[|i]]]; try lia; destruct j as [|[|[|j]]]; try lia; cbn [Nat.add Nat.mul]; congruence.
    + intro E. pose proof (E 0 0 ltac:(lia) ltac:(lia))%nat as E0. pose proof (E 0 1 ltac:(lia) ltac:(lia))%nat as E1. pose proof (E 0 2 ltac:(lia) ltac:(lia))%nat as E2. pose proof (E 1 1 ltac:(lia) ltac:(lia))%nat as E4. pose proof (E 1 2 ltac:(lia) ltac:(lia))%nat as E5.
      unfold mx in *. cbn [Nat.add Nat.mul] in *. rewrite E0, E4. rewrite (proj2 (cabs_sub _ _) E1), (proj2 (cabs_sub _ _) E2), (proj2 (cabs_sub _ _) E5). rewrite !Rminus_diag_eq, Rabs_R0 by reflexivity. ring.
  - destruct n as [|[|[|[|n]]]]; try lia. set (m := S (S (S (S n)))) in *. change (slice_difference m tmp a b) with (let dif := b_min_c m tmp a b in for_ (m * m) (fun i av => av + cabs (dif i)) 0). cbv zeta.
    rewrite sum_zero by (intros; apply cabs_nonneg || lra). rewrite Rplus_0_l, dsum_zero by (intros; apply cabs_nonneg). pose proof (proj1 (b_min_c_ok m tmp a b)) as B. split.
    + intros E i j Hi Hj. specialize (E (j + m * i)%nat). assert (L : (j + m * i < m * m)%nat) by nia. apply E in L. apply cabs_zero in L. specialize (B i j Hi Hj). unfold mx at 1 in B. rewrite L in B.
      unfold msub in B. transitivity (mx m a i j - C0)%C; [ring|]. rewrite B. ring.
    + intros E k Hk. apply cabs_zero. set (i := (k / m)%nat). set (j := (k mod m)%nat). assert (Hj : (j < m)%nat) by (apply Nat.mod_upper_bound; unfold m; lia). assert (Hi : (i < m)%nat) by (apply Nat.div_lt_upper_bound; unfold m in *; lia).
      assert (Ek : k = (j + m * i)%nat) by (unfold i, j; pose proof (Nat.div_mod k m ltac:(unfold m; lia)); lia). specialize (B i j Hi Hj). unfold mx at 1 in B. rewrite <- Ek in B. rewrite B. unfold msub. rewrite (E i j Hi Hj). ring.
Qed.
Lemma slice_difference_same n tmp a b : (2 <= n)%nat -> herm_traceless n (mx n a) -> herm_traceless n (mx n b) -> meq n (mx n a) (mx n b) -> slice_difference n tmp a b = 0.
Proof.
  intros Hn Ha Hb E. destruct (Nat.eq_dec n 2) as [->|N]; [|apply slice_difference_zero; try assumption; lia].
  cbn [slice_difference]. pose proof (E 0 1 ltac:(lia) ltac:(lia))%nat as E1. unfold mx in E1. cbn [Nat.add Nat.mul] in E1. rewrite (proj2 (cabs_sub _ _) E1), Rminus_diag_eq, Rabs_R0 by reflexivity. ring.
Qed.

(** the value *)
Lemma cabs_spec z : cabs z = sqrt (re z ^ 2 + im z ^ 2).
Proof. unfold cabs. f_equal. ring. Qed.
Lemma cabs_real z : im z = 0 -> cabs z = Rabs (re z).
Proof. intro H. unfold cabs. rewrite H. replace (re z * re z + 0 * 0) with (Rsqr (re z)) by (unfold Rsqr; ring). apply sqrt_Rsqr_abs. Qed.
Lemma dsum_flat m k f : dsum (m * k) f = dsum m (fun i => dsum k (fun j => f (j + k * i)%nat)).
Proof.
  induction m as [|m IH]; [reflexivity|]. rewrite dsum_S, <- IH. clear IH. replace (S m * k)%nat with (k + m * k)%nat by lia.
  assert (K : forall q, dsum (q + m * k) f = dsum (m * k) f + dsum q (fun j => f (j + k * m)%nat)).
  { induction q as [|q IH]; [unfold dsum at 3; cbn [Nat.add seq fold_right]; ring|]. cbn [Nat.add]. rewrite !dsum_S, IH. replace (q + m * k)%nat with (q + k * m)%nat by lia. ring. }
  apply K.
Qed.
Lemma slice_difference_value n tmp a b : (3 <= n)%nat -> herm_traceless n (mx n a) -> herm_traceless n (mx n b) -> slice_difference n tmp a b = entries_apart n (mx n a) (mx n b).
Proof.
  intros Hn [Ha _] [Hb _]. unfold entries_apart. rewrite (dsum_ext n _ (fun i => dsum n (fun j => if counted n i j then cabs (mx n a i j - mx n b i j)%C else 0))) by (intros; apply dsum_ext; intros; now rewrite cabs_spec).
  destruct (Nat.eq_dec n 3) as [->|N].
  - assert (D : forall (c : arr) i, (i < 3)%nat -> meq 3 (mx 3 c) (dag (mx 3 c)) -> im (mx 3 c i i) = 0).
    { intros c i Hi H. specialize (H i i Hi Hi). unfold dag in H. apply (f_equal im) in H. destruct (mx 3 c i i). cbn in *. lra. }
    assert (R1 : forall i, (i < 3)%nat -> cabs (mx 3 a i i - mx 3 b i i)%C = Rabs (re (mx 3 a i i) - re (mx 3 b i i))).
    { intros i Hi. pose proof (D a i Hi Ha). pose proof (D b i Hi Hb). rewrite cabs_real; destruct (mx 3 a i i), (mx 3 b i i); cbn in *; [reflexivity|lra]. }
    rewrite !dsum_S. unfold dsum. cbn [seq fold_right counted Nat.leb Nat.ltb andb]. rewrite !R1 by lia. unfold mx. cbn [slice_difference Nat.add Nat.mul]. ring.
  - rewrite (dsum_ext n _ (fun i => dsum n (fun j => cabs (mx n a i j - mx n b i j)%C))).
    + pose proof (proj1 (b_min_c_ok n tmp a b)) as B. transitivity (dsum (n * n) (fun k => cabs (b_min_c n tmp a b k))).
      * destruct n as [|[|[|[|m]]]]; try lia. cbn [slice_difference]. rewrite sum_zero by (intros; apply cabs_nonneg || lra). ring.
      * rewrite dsum_flat. apply dsum_ext. intros i Hi. apply dsum_ext. intros j Hj. specialize (B i j Hi Hj). unfold mx at 1 in B. now rewrite B.
    + intros i _. apply dsum_ext. intros j _. destruct n as [|[|[|[|m]]]]; try lia; reflexivity.
Qed.
