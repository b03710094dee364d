(** residual_fix can make the temporal traces smaller (three colours). *)
From Coq Require Import PeanoNat Lia List ZArith Reals Lra Permutation Setoid.
From Verif Require Import CMat Det Arr MatSpec MmulModel MmulProofs MatModel MatProofs MatProofs2 Su2Model Su2Proofs GramModel GramProofs FieldModel FieldProofs FieldProofs2
  AxialModel AxialProofs AxialProofs2 GivensProofs GivensProofs2 ResidualProofs.
From Verif Require GeomModel GeomSpec GeomProofs GeomProofs2 CInt.
Import ListNotations.
Local Open Scope C_scope.

(** Gram-Schmidt for three colours looks at the directions of the first two columns only *)

Lemma rnorm_scale : forall s v, rnorm 3 (fun k => RtoC s * v k) = (s * s * rnorm 3 v)%R.
Proof. intros s v. unfold rnorm, norm2. cbn [rsum]. destruct (v 0%nat), (v 1%nat), (v 2%nat). cunfold. ring. Qed.
Lemma nrm_scale : forall s v c, (0 < s)%R -> (0 < rnorm 3 v)%R -> nrm 3 (fun k => RtoC s * v k) c = nrm 3 v c.
Proof.
  intros s v c Hs N. unfold nrm. rewrite rnorm_scale. rewrite sqrt_mult, sqrt_square by nra.
  pose proof (sqrt_lt_R0 _ N) as P. destruct (v c). apply C_eq; cunfold; field; split; lra.
Qed.
Lemma nrm_ext : forall u v, (forall k, (k < 3)%nat -> u k = v k) -> forall c, (c < 3)%nat -> nrm 3 u c = nrm 3 v c.
Proof. intros u v E c Hc. unfold nrm, rnorm. cbn [rsum]. rewrite !E by lia. reflexivity. Qed.
Lemma dot_ext3 : forall u u' v v', (forall k, (k < 3)%nat -> u k = u' k) -> (forall k, (k < 3)%nat -> v k = v' k) -> dot 3 u v = dot 3 u' v'.
Proof. intros u u' v v' E F. unfold dot. apply csum_ext. intros k Hk. now rewrite E, F. Qed.
Lemma gram_scale : forall s U V, (0 < s)%R -> (0 < rnorm 3 (col 3 V 0))%R -> (0 < rnorm 3 (second V))%R ->
  (forall i, (i < 3)%nat -> mx 3 U i 0%nat = RtoC s * mx 3 V i 0%nat) -> (forall i, (i < 3)%nat -> mx 3 U i 1%nat = RtoC s * mx 3 V i 1%nat) ->
  meq 3 (mx 3 (gram_reunit 3 U)) (mx 3 (gram_reunit 3 V)).
Proof.
  intros s U V Hs N0 N1 H0 H1. cbn [gram_reunit].
  destruct (gram_3_form U) as (_ & A0 & A1 & A2). destruct (gram_3_form V) as (_ & B0 & B1 & B2).
  set (r := gram_reunit_3 U) in *. set (t := gram_reunit_3 V) in *.
  assert (F0 : forall i, (i < 3)%nat -> nrm 3 (col 3 U 0) i = nrm 3 (col 3 V 0) i).
  { intros i Hi. rewrite <- (nrm_scale s (col 3 V 0)) by assumption. apply nrm_ext; [|assumption]. intros k Hk. unfold col. now apply H0. }
  assert (F1 : forall i, (i < 3)%nat -> second U i = RtoC s * second V i).
  { intros i Hi. unfold second. rewrite F0 by assumption.
    rewrite (dot_ext3 (col 3 U 1) (fun k => RtoC s * col 3 V 1 k) (nrm 3 (col 3 U 0)) (nrm 3 (col 3 V 0))) by (intros; unfold col; auto).
    unfold col at 1. rewrite H1 by assumption. change (mx 3 V i 1%nat) with (col 3 V 1 i).
    unfold dot. cbn [csum]. ring. }
  assert (E0 : forall i, (i < 3)%nat -> mx 3 r i 0%nat = mx 3 t i 0%nat) by (intros i Hi; rewrite A0, B0 by assumption; now apply F0).
  assert (E1 : forall i, (i < 3)%nat -> mx 3 r i 1%nat = mx 3 t i 1%nat).
  { intros i Hi. rewrite A1, B1 by assumption. rewrite <- (nrm_scale s (second V)) by assumption. apply nrm_ext; assumption. }
  intros i j Hi Hj. destruct j as [|[|[|j]]]; [now apply E0|now apply E1| |lia].
  rewrite A2, B2 by assumption. f_equal. unfold cofactor. f_equal. apply mdet_ext. intros x y Hx Hy. cbn [Nat.sub] in Hx, Hy. unfold minor.
  assert (K : (skip i x < 3)%nat) by (unfold skip; destruct (Nat.ltb_spec x i); lia).
  destruct y as [|[|y]]; [apply (E0 _ K)|apply (E1 _ K)|lia].
Qed.

(** the loop does not move at s diag(1,1,c) *)
Lemma still_rot : forall a b r U w D W, (a < 3)%nat -> (b < 3)%nat -> a <> b -> rotates 3 a b r -> meq 3 (mx 3 U) D -> meq 3 (mx 3 w) W ->
  (exists x, (0 < x)%R /\ D a a + conj (D b b) = RtoC x) -> D a b - conj (D b a) = C0 ->
  exists U' w', r U w = Some (U', w') /\ meq 3 (mx 3 U') D /\ meq 3 (mx 3 w') W.
Proof.
  intros a b r U w D W Ha Hb N R EU EW (x & Hx & X) Z. specialize (R U w). rewrite !EU, X in R by assumption.
  rewrite Z, givens_su2_pos in R by assumption. destruct R as (U' & w' & R1 & R2 & R3). exists U', w'. split; [exact R1|].
  rewrite R2, R3, embed_one, EU, EW, dag_mid. split; [apply mmul_1_r|apply mmul_1_l].
Qed.
Lemma givens_still : forall tol tmp U W s c, (-1 < c)%R -> (0 < s)%R -> leading 3 (mx 3 U) ->
  meq 3 (mx 3 (gram_reunit 3 U)) W -> meq 3 (mmul 3 (mx 3 U) (dag W)) (mx 3 (dg s s (s*c))) ->
  exists r, givens_reunit 3 tol tmp U = Some r /\ meq 3 (mx 3 r) W.
Proof.
  intros tol tmp U W s c Hc Hs L EG ED. destruct (givens_start 3 tmp U ltac:(lia) L) as [_ S]. unfold givens_reunit.
  assert (EW : meq 3 (mx 3 (gram_reunit 3 (equiv 3 tmp U))) W) by (rewrite gram_equiv by lia; exact EG).
  set (w := gram_reunit 3 (equiv 3 tmp U)) in *. set (U1 := multab_dag 3 U _ w) in *. rewrite EW, ED in S.
  set (D := mx 3 (dg s s (s*c))) in *.
  assert (G : forall fuel old U w, meq 3 (mx 3 U) D -> meq 3 (mx 3 w) W ->
    exists w', givens_loop 3 tol fuel old U w = Some w' /\ meq 3 (mx 3 w') W).
  { clear - Hc Hs. induction fuel as [|fuel IH]; intros old U w S Ww; cbn [givens_loop]; [exists w; split; [reflexivity|assumption]|].
    unfold sweep. cbn [rotations].
    destruct (still_rot 0 1 rotation1 U w D W ltac:(lia) ltac:(lia) ltac:(lia) rotation1_ok S Ww) as (U2 & w2 & -> & S2 & W2).
    { exists (s+s)%R. split; [lra|]. cbn. apply C_eq; cunfold; ring. }
    { cbn. apply C_eq; cunfold; ring. }
    destruct (still_rot 1 2 rotation2 U2 w2 D W ltac:(lia) ltac:(lia) ltac:(lia) rotation2_ok S2 W2) as (U3 & w3 & -> & S3 & W3).
    { exists (s * (1 + c))%R. split; [nra|]. cbn. apply C_eq; cunfold; ring. }
    { cbn. apply C_eq; cunfold; ring. }
    destruct (still_rot 2 0 rotation3 U3 w3 D W ltac:(lia) ltac:(lia) ltac:(lia) rotation3_ok S3 W3) as (U4 & w4 & -> & S4 & W4).
    { exists (s * (1 + c))%R. split; [nra|]. cbn. apply C_eq; cunfold; ring. }
    { cbn. apply C_eq; cunfold; ring. }
    destruct (Req_EM_T _ _); [now apply IH|]. destruct (Rlt_dec _ _); [now exists w4|now apply IH]. }
  destruct (G 75%nat (speed_trace_Re 3 U1) U1 w S EW) as (w' & -> & E). eexists. split; [reflexivity|].
  destruct (equiv_ok 3 U w') as [-> _]. exact E.
Qed.
(** s diag(1,1,-3/4) (dag dz): the projection returns dag dz, and the unit matrix is closer *)
Definition zarr (a b c : R) : arr := fun x => match x with 0%nat => RtoC a * conj zz | 4%nat => RtoC b * conj zz | 8%nat => RtoC c * (- conj zz) | _ => C0 end.
Lemma zarr_one : meq 3 (mx 3 (zarr 1 1 1)) (dag dz).
Proof. split3; unfold mx, zarr, dag, dz; cbn [Nat.eqb Nat.add Nat.mul]; autorewrite with conj; try ring; cring. Qed.
Lemma conj_zz_unit : (re (conj zz) * re (conj zz) + im (conj zz) * im (conj zz) = 1)%R.
Proof. unfold zz. cunfold. pose proof (sqrt_sqrt 3 ltac:(lra)). nra. Qed.
Lemma zarr_columns : (0 < rnorm 3 (col 3 (zarr 1 1 1) 0))%R /\ (0 < rnorm 3 (second (zarr 1 1 1)))%R.
Proof.
  pose proof conj_zz_unit as Z. split.
  - unfold rnorm, norm2, col, mx, zarr. cbn [rsum Nat.add Nat.mul]. set (z := conj zz) in *. clearbody z. destruct z. cunfold. cbn in Z. nra.
  - assert (E : forall k, second (zarr 1 1 1) k = col 3 (zarr 1 1 1) 1 k).
    { intro k. unfold second. assert (D : dot 3 (col 3 (zarr 1 1 1) 1) (nrm 3 (col 3 (zarr 1 1 1) 0)) = C0); [|rewrite D; ring].
      unfold dot, nrm, col, mx, zarr. cbn [csum Nat.add Nat.mul]. generalize (RtoC (1 / sqrt (rnorm 3 (fun i : nat => match (0 + 3 * i)%nat with 0%nat => RtoC 1 * conj zz | 4%nat => RtoC 1 * conj zz | 8%nat => RtoC 1 * - conj zz | _ => C0 end)))).
      intro k0. autorewrite with conj. replace (conj C0) with C0 by cring. ring. }
    unfold rnorm. cbn [rsum]. rewrite !E. unfold norm2, col, mx, zarr. cbn [rsum Nat.add Nat.mul]. set (z := conj zz) in *. clearbody z. destruct z. cunfold. cbn in Z. nra.
Qed.
Lemma zarr_projection : forall tol tmp U s, (0 < s)%R -> meq 3 (mx 3 U) (mx 3 (zarr s s (s * (-3/4)))) -> leading 3 (mx 3 U) ->
  exists r, givens_reunit 3 tol tmp U = Some r /\ meq 3 (mx 3 r) (dag dz).
Proof.
  intros tol tmp U s Hs E L. apply (givens_still tol tmp U (dag dz) s (-3/4)); try assumption; [lra| |].
  - assert (SZ : SUn 3 (mx 3 (zarr 1 1 1))) by (apply (SUn_ext 3 (dag dz)); [symmetry; apply zarr_one|apply SUn_dag, dz_SUn]).
    destruct (gram_reunit_ok 3 (zarr 1 1 1) ltac:(lia)) as (_ & _ & I). specialize (I SZ). rewrite zarr_one in I. rewrite <- I.
    destruct zarr_columns as [N0 N1]. apply (gram_scale s); try assumption; intros i Hi; rewrite E by lia;
      unfold mx, zarr; destruct i as [|[|[|i]]]; try lia; cbn [Nat.add Nat.mul]; try ring;
      destruct zz; apply C_eq; cunfold; ring.
  - rewrite E. pose proof zz_unit as Z. assert (Z' : conj zz * zz = C1) by (rewrite <- Z; ring).
    split3; unfold mmul, dag, dz, mx, zarr, dg; cbn [csum Nat.eqb Nat.add Nat.mul]; autorewrite with conj; try ring;
      try (transitivity (RtoC s * (conj zz * zz)); [ring|rewrite Z'; ring]);
      try (transitivity (RtoC (s * (-3/4)) * (conj zz * zz)); [ring|rewrite Z'; ring]); cring.
Qed.
Lemma zarr_leading : forall s c, (0 < s)%R -> leading 3 (mx 3 (zarr s s c)).
Proof.
  intros s c Hs a H i Hi. pose proof (H 0%nat ltac:(lia)) as H0. pose proof (H 1%nat ltac:(lia)) as H1.
  unfold tr_, mx, zarr in H0, H1. cbn [csum Nat.add Nat.mul] in H0, H1.
  assert (K : forall x, x * (RtoC s * conj zz) = C0 -> x = C0).
  { intros x Hx. transitivity (x * (RtoC s * conj zz) * (zz * RtoC (/ s))).
    - transitivity (x * (zz * conj zz) * (RtoC s * RtoC (/ s))); [|ring]. rewrite zz_unit.
      replace (RtoC s * RtoC (/ s)) with C1 by (apply C_eq; cunfold; field; lra). ring.
    - rewrite Hx. ring. }
  destruct i as [|[|i]]; [| |lia]; apply K.
  - rewrite <- H0. ring.
  - rewrite <- H1. ring.
Qed.

Lemma residual_sum : forall ds Tz lat n ND LCU T V, ND = length (ds ++ [Tz]) -> LCU = Z.to_nat (GeomSpec.prodZ ds) -> T = Z.to_nat Tz -> V = volume (ds ++ [Tz]) ->
  GeomSpec.lattice_ok (ds ++ [Tz]) -> navig (ds ++ [Tz]) lat -> (2 <= n)%nat -> group_field n ND V lat ->
  forall tol tmp mem order lat', Permutation order (seq 0 V) -> (forall t, (S t < T)%nat -> leading n (mx n (time_average n ND LCU tmp lat t))) ->
  residual_fix n ND LCU T tol tmp mem order lat = Some lat' ->
  forall t P, (S t < T)%nat -> givens_reunit n tol tmp (time_average n ND LCU tmp lat t) = Some P ->
  re (mtr n (slice_sum n ND LCU lat' t)) = overlap n (slice_sum n ND LCU lat t) (mx n P).
Proof.
  intros ds Tz lat n ND LCU T V -> -> -> -> Hok Nav Hn F tol tmp mem order lat' Po Ld E t P Ht EP.
  destruct (residual_fix_ok ds Tz lat n Hok Nav Hn F tol tmp mem order lat' Po Ld E) as (h & _ & H1 & H2 & H3).
  destruct (H3 t Ht) as (P' & EP' & EH). rewrite EP in EP'. injection EP' as <-.
  now apply (residual_overlap ds Tz lat n Hok Nav Hn h lat' (mx n P) H1 H2 t Ht).
Qed.

(** * A 22 x 2 lattice *)
Definition down_link (i : nat) : arr :=
  if Nat.ltb i 7 then zarr 1 (-1) (-1) else if Nat.ltb i 14 then zarr (-1) 1 (-1) else zarr 1 1 1.
Definition down_lat : lattice := init_navig [22; 2]%Z (fun i mu => down_link i).
Lemma down_link_ok : forall i, SUn 3 (mx 3 (down_link i)).
Proof.
  pose proof zz_unit as Z. assert (Z' : conj zz * zz = C1) by (rewrite <- Z; ring). pose proof zz_cube as Q.
  assert (K : forall a b c, (a*a = 1)%R -> (b*b = 1)%R -> (c*c = 1)%R -> (a*b*c = 1)%R -> SUn 3 (mx 3 (zarr a b c))).
  { intros a b c Ha Hb Hc Hd.
    assert (P : forall x, (x*x = 1)%R -> RtoC x * RtoC x = C1) by (intros x Hx; apply C_eq; cunfold; lra).
    pose proof (P _ Ha) as A. pose proof (P _ Hb) as B. pose proof (P _ Hc) as G.
    assert (Dt : RtoC a * RtoC b * RtoC c = C1) by (apply C_eq; cunfold; lra).
    assert (CR : forall x, conj (RtoC x) = RtoC x) by (intro; cring).
    split; [split|].
    - split3; unfold mmul, dag, mid, mx, zarr; cbn [csum Nat.eqb Nat.add Nat.mul]; autorewrite with conj; rewrite ?CR; try ring;
        try (transitivity ((RtoC a * RtoC a) * (conj zz * zz)); [ring|rewrite A, Z'; ring]);
        try (transitivity ((RtoC b * RtoC b) * (conj zz * zz)); [ring|rewrite B, Z'; ring]);
        try (transitivity ((RtoC c * RtoC c) * (conj zz * zz)); [ring|rewrite G, Z'; ring]); cring.
    - split3; unfold mmul, dag, mid, mx, zarr; cbn [csum Nat.eqb Nat.add Nat.mul]; autorewrite with conj; rewrite ?CR; try ring;
        try (transitivity ((RtoC a * RtoC a) * (conj zz * zz)); [ring|rewrite A, Z'; ring]);
        try (transitivity ((RtoC b * RtoC b) * (conj zz * zz)); [ring|rewrite B, Z'; ring]);
        try (transitivity ((RtoC c * RtoC c) * (conj zz * zz)); [ring|rewrite G, Z'; ring]); cring.
    - transitivity ((RtoC a * RtoC b * RtoC c) * conj (zz * zz * - zz)); [|rewrite Dt, Q; cring].
      unfold mdet, cofactor, minor, skip, mx, zarr, sgn. cbn -[Cadd Cmul Copp C1 C0 zz conj RtoC]. autorewrite with conj. ring. }
  intro i. unfold down_link. destruct (Nat.ltb i 7); [|destruct (Nat.ltb i 14)]; apply K; ring.
Qed.
Lemma csum_cat : forall n m f, csum (n + m) f = csum n f + csum m (fun x => f (n + x)%nat).
Proof. intros n m f. induction m as [|m IH]; [rewrite Nat.add_0_r; cbn [csum]; ring|]. rewrite Nat.add_succ_r. cbn [csum]. rewrite IH. ring. Qed.
Lemma csum_same : forall n f u, (forall x, (x < n)%nat -> f x = u) -> csum n f = RtoC (INR n) * u.
Proof.
  intros n f u H. induction n as [|n IH]; [cbn [csum INR]; destruct u; apply C_eq; cunfold; ring|].
  cbn [csum]. rewrite IH, H by auto with arith. rewrite S_INR. destruct u. apply C_eq; cunfold; ring.
Qed.
Lemma down_sum : meq 3 (slice_sum 3 2 22 down_lat 0) (mx 3 (zarr 8 8 (-6))).
Proof.
  assert (E : forall i j, slice_sum 3 2 22 down_lat 0 i j = csum 22 (fun x => mx 3 (down_link x) i j)).
  { intros i j. unfold slice_sum. apply csum_ext. intros x Hx. unfold lnk, down_lat, init_navig. cbn [O]. now replace (x + 22 * 0)%nat with x by lia. }
  intros i j Hi Hj. rewrite E. change 22%nat with (7 + (7 + 8))%nat. rewrite !csum_cat.
  rewrite (csum_same 7 _ (mx 3 (zarr 1 (-1) (-1)) i j)), (csum_same 7 _ (mx 3 (zarr (-1) 1 (-1)) i j)), (csum_same 8 _ (mx 3 (zarr 1 1 1) i j)).
  - cbn [INR]. destruct i as [|[|[|i]]]; try lia; destruct j as [|[|[|j]]]; try lia; unfold mx, zarr; cbn [Nat.add Nat.mul];
      generalize (conj zz); intros [x y]; apply C_eq; cunfold; ring.
  - intros x Hx. unfold down_link. rewrite (proj2 (Nat.ltb_ge _ _)), (proj2 (Nat.ltb_ge _ _)) by lia. reflexivity.
  - intros x Hx. unfold down_link. rewrite (proj2 (Nat.ltb_ge _ _)), (proj2 (Nat.ltb_lt _ _)) by lia. reflexivity.
  - intros x Hx. unfold down_link. rewrite (proj2 (Nat.ltb_lt _ _)) by lia. reflexivity.
Qed.
Lemma down_average : forall tmp, meq 3 (mx 3 (time_average 3 2 22 tmp down_lat 0)) (mx 3 (zarr (8/22) (8/22) (8/22 * (-3/4)))).
Proof.
  intro tmp. rewrite time_average_ok, down_sum. assert (E : (1 / INR 22 = 1/22)%R) by (cbn [INR]; field). rewrite E.
  intros i j Hi Hj. unfold mscale. destruct i as [|[|[|i]]]; try lia; destruct j as [|[|[|j]]]; try lia; unfold mx, zarr; cbn [Nat.add Nat.mul];
    generalize (conj zz); intros [x y]; apply C_eq; cunfold; field.
Qed.
Lemma down_group : group_field 3 2 44 down_lat.
Proof. intros i mu _ _. unfold lnk. cbn. apply down_link_ok. Qed.
Lemma down_dims : GeomSpec.lattice_ok [22; 2]%Z.
Proof.
  split; [discriminate|]. split; [|reflexivity].
  constructor; [unfold CInt.two31; lia|]. constructor; [unfold CInt.two31; lia|]. constructor.
Qed.
Lemma down_volume : volume [22; 2]%Z = 44%nat. Proof. reflexivity. Qed.
Lemma residual_two : forall n ND LCU tol tmp mem order lat P, givens_reunit n tol tmp (time_average n ND LCU tmp lat 0) = Some P ->
  residual_fix n ND LCU 2 tol tmp mem order lat <> None.
Proof. intros n ND LCU tol tmp mem order lat P EP. unfold residual_fix, residual_gauge. cbn [for_ Nat.sub]. rewrite EP. discriminate. Qed.
Lemma down_number : (re (mtr 3 (mmul 3 (mx 3 (zarr 8 8 (-6))) (dag (dag dz)))) < re (mtr 3 (mx 3 (zarr 8 8 (-6)))))%R.
Proof.
  unfold mtr, mmul, dag, dz, mx, zarr. cbn [csum Nat.eqb Nat.add Nat.mul]. autorewrite with conj.
  unfold zz. pose proof (sqrt_sqrt 3 ltac:(lra)). set (q := sqrt 3) in *. clearbody q. cunfold. nra.
Qed.
Lemma down_decreases : forall tol tmp mem order, Permutation order (seq 0 44) ->
  exists lat', residual_fix 3 2 22 2 tol tmp mem order down_lat = Some lat' /\
  (re (mtr 3 (slice_sum 3 2 22 lat' 0)) < re (mtr 3 (slice_sum 3 2 22 down_lat 0)))%R.
Proof.
  intros tol tmp mem order Po.
  assert (L : leading 3 (mx 3 (time_average 3 2 22 tmp down_lat 0))).
  { apply (leading_ext 3 (mx 3 (zarr (8/22) (8/22) (8/22 * (-3/4))))); [symmetry; apply down_average|apply zarr_leading; lra]. }
  destruct (zarr_projection tol tmp (time_average 3 2 22 tmp down_lat 0) (8/22) ltac:(lra) (down_average tmp) L) as (P & EP & EM).
  destruct (residual_fix 3 2 22 2 tol tmp mem order down_lat) as [lat'|] eqn:E.
  2:{ exfalso. now apply (residual_two 3 2 22 tol tmp mem order down_lat P EP). }
  exists lat'. split; [reflexivity|].
  pose proof (init_navig_ok [22; 2]%Z (fun i mu => down_link i) down_dims) as Nav.
  assert (Ld : forall t, (S t < 2)%nat -> leading 3 (mx 3 (time_average 3 2 22 tmp down_lat t))).
  { intros t Ht. replace t with 0%nat by lia. exact L. }
  rewrite (residual_sum [22]%Z 2 down_lat 3 2 22 2 44 eq_refl eq_refl eq_refl eq_refl down_dims Nav ltac:(lia) down_group tol tmp mem order lat' Po Ld E 0%nat P ltac:(lia) EP).
  rewrite (overlap_ext 3 _ _ _ EM). unfold overlap. rewrite down_sum. exact down_number.
Qed.
