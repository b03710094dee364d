(** Proofs about the gauge field: gauge covariance. *)
From Coq Require Import PeanoNat Lia List ZArith Reals Lra Permutation Setoid Morphisms.
From Verif Require Import CMat Det Arr MatSpec MmulModel MmulProofs MatModel MatProofs MatProofs2 Su2Model Su2Proofs FieldModel.
From Verif Require GeomModel GeomSpec GeomProofs GeomProofs2 CInt.
Import ListNotations.
Local Open Scope C_scope.

(** * Specification *)
(** the link matrix at a site *)
Definition lnk (n : nat) (lat : lattice) (i mu : nat) : mat := mx n (O (lat i) mu).
(** the neighbour tables describe a torus *)
Record geom_ok (ND V : nat) (lat : lattice) : Prop := {
  g_nbr : forall i mu, (i < V)%nat -> (mu < ND)%nat -> (nbr (lat i) mu < V)%nat;
  g_bck : forall i mu, (i < V)%nat -> (mu < ND)%nat -> (bck (lat i) mu < V)%nat;
  g_nb : forall i mu, (i < V)%nat -> (mu < ND)%nat -> nbr (lat (bck (lat i) mu)) mu = i;
  g_bn : forall i mu, (i < V)%nat -> (mu < ND)%nat -> bck (lat (nbr (lat i) mu)) mu = i;
  g_nn : forall i mu nu, (i < V)%nat -> (mu < ND)%nat -> (nu < ND)%nat ->
     nbr (lat (nbr (lat i) mu)) nu = nbr (lat (nbr (lat i) nu)) mu;
  g_bnc : forall i mu nu, (i < V)%nat -> (mu < ND)%nat -> (nu < ND)%nat ->
     nbr (lat (bck (lat i) nu)) mu = bck (lat (nbr (lat i) mu)) nu }.
Definition same_geom (lat lat' : lattice) : Prop := forall i, nbr (lat' i) = nbr (lat i) /\ bck (lat' i) = bck (lat i).
(** lat' is the gauge transform of lat by g: U'(x,mu) = g(x) U(x,mu) g(x+mu)^dag *)
Definition gauged (n ND V : nat) (g : nat -> mat) (lat lat' : lattice) : Prop :=
  same_geom lat lat' /\
  forall i mu, (i < V)%nat -> (mu < ND)%nat ->
    meq n (lnk n lat' i mu) (mmul n (mmul n (g i) (lnk n lat i mu)) (dag (g (nbr (lat i) mu)))).
Definition group_field (n ND V : nat) (lat : lattice) : Prop :=
  forall i mu, (i < V)%nat -> (mu < ND)%nat -> SUn n (lnk n lat i mu).
Definition group_gauge (n V : nat) (g : nat -> mat) : Prop := forall i, (i < V)%nat -> SUn n (g i).

(** the lattice is laid out as init_navig does it *)
Definition volume (ds : list Z) : nat := Z.to_nat (GeomModel.lvolume ds).
Definition navig (ds : list Z) (lat : lattice) : Prop := forall i mu, (i < volume ds)%nat -> (mu < length ds)%nat ->
  GeomModel.neighbor ds (Z.of_nat i) mu = Some (Z.of_nat (nbr (lat i) mu)) /\
  GeomModel.back ds (Z.of_nat i) mu = Some (Z.of_nat (bck (lat i) mu)).

(** * The group products for every NC *)
Lemma multab_suNC_ok : forall n a b c, SUn n (mx n b) -> SUn n (mx n c) ->
  holds n (multab_suNC n a b c) a (mmul n (mx n b) (mx n c)).
Proof.
  intros n a b c Hb Hc. destruct n as [|[|[|[|n]]]]; try apply multab_ok.
  - apply multab_suNC_2_ok; now apply SUn_2.
  - apply multab_suNC_3_ok; now apply SUn_3.
Qed.
Lemma multabdag_suNC_ok : forall n a b c, SUn n (mx n b) -> SUn n (mx n c) ->
  holds n (multabdag_suNC n a b c) a (mmul n (dag (mx n b)) (mx n c)).
Proof.
  intros n a b c Hb Hc. destruct n as [|[|[|[|n]]]]; try apply multabdag_ok.
  - apply multabdag_suNC_2_ok; now apply SUn_2.
  - apply multabdag_suNC_3_ok; now apply SUn_3.
Qed.
Lemma multab_dag_suNC_ok : forall n a b c, SUn n (mx n b) -> SUn n (mx n c) ->
  holds n (multab_dag_suNC n a b c) a (mmul n (mx n b) (dag (mx n c))).
Proof.
  intros n a b c Hb Hc. destruct n as [|[|[|[|n]]]]; try apply multab_dag_ok.
  - apply multab_dag_suNC_2_ok; now apply SUn_2.
  - apply multab_dag_suNC_3_ok; now apply SUn_3.
Qed.
Lemma SUn_ext : forall n A B, meq n A B -> SUn n A -> SUn n B.
Proof. intros n A B E [U D]. split; [now rewrite <- E|now rewrite <- (mdet_ext n A B E)]. Qed.
Lemma gtransform_local_ok : forall n tmp a b c, SUn n (mx n a) -> SUn n (mx n b) -> SUn n (mx n c) ->
  meq n (mx n (gtransform_local n tmp a b c)) (mmul n (mmul n (mx n a) (mx n b)) (dag (mx n c))).
Proof.
  intros n tmp a b c Ha Hb Hc. unfold gtransform_local.
  destruct (multab_dag_suNC_ok n tmp b c Hb Hc) as [E _].
  assert (S : SUn n (mx n (multab_dag_suNC n tmp b c))).
  { apply (SUn_ext n (mmul n (mx n b) (dag (mx n c)))); [now symmetry|]. apply SUn_mmul; [assumption|now apply SUn_dag]. }
  destruct (multab_suNC_ok n b a _ Ha S) as [F _]. rewrite F, E. now rewrite mmul_assoc.
Qed.

(** * Stores *)
Lemma put_geom : forall lat i mu a, same_geom lat (put lat i mu a).
Proof. intros lat i mu a j. unfold put. destruct (Nat.eqb_spec j i) as [->|]; split; reflexivity. Qed.
Lemma O_put : forall lat i mu a j m, O (put lat i mu a j) m = if (Nat.eqb j i && Nat.eqb m mu)%bool then a else O (lat j) m.
Proof. intros. unfold put. destruct (Nat.eqb_spec j i) as [->|]; cbn; [now destruct (Nat.eqb m mu)|reflexivity]. Qed.
Lemma same_geom_refl : forall lat, same_geom lat lat.
Proof. intros lat i. now split. Qed.
Lemma same_geom_trans : forall a b c, same_geom a b -> same_geom b c -> same_geom a c.
Proof. intros a b c H K i. destruct (H i), (K i). split; congruence. Qed.
Lemma same_geom_sym : forall a b, same_geom a b -> same_geom b a.
Proof. intros a b H i. destruct (H i). now split. Qed.
Lemma geom_ok_same : forall ND V a b, same_geom a b -> geom_ok ND V a -> geom_ok ND V b.
Proof.
  intros ND V a b S G.
  assert (N : forall i, nbr (b i) = nbr (a i)) by (intro i; apply S). assert (B : forall i, bck (b i) = bck (a i)) by (intro i; apply S).
  destruct G. constructor; intros; repeat (rewrite ?N, ?B); auto.
Qed.

(** * gtransform *)
Section GT.
Variables (n ND : nat) (tmp : arr) (gauge : nat -> arr).
Definition gt_site (lat : lattice) (i : nat) : lattice := for_ ND (fun mu lat =>
    put lat i mu (gtransform_local n tmp (gauge i) (O (lat i) mu) (gauge (nbr (lat i) mu)))) lat.
Lemma gt_site_spec : forall lat i, same_geom lat (gt_site lat i) /\
  forall j m, O (gt_site lat i j) m = if (Nat.eqb j i && Nat.ltb m ND)%bool
     then gtransform_local n tmp (gauge i) (O (lat i) m) (gauge (nbr (lat i) m)) else O (lat j) m.
Proof.
  intros lat i. unfold gt_site.
  apply (for_ind (fun k l => same_geom lat l /\ forall j m, O (l j) m = if (Nat.eqb j i && Nat.ltb m k)%bool
     then gtransform_local n tmp (gauge i) (O (lat i) m) (gauge (nbr (lat i) m)) else O (lat j) m)).
  - split; [apply same_geom_refl|]. intros j m. now rewrite Bool.andb_false_r.
  - intros k l Hk [G H]. split; [eapply same_geom_trans; [exact G|apply put_geom]|].
    intros j m. rewrite O_put. destruct (Nat.eqb_spec j i) as [->|Nj]; cbn [andb]; [|rewrite H, (proj2 (Nat.eqb_neq j i) Nj); reflexivity].
    destruct (Nat.eqb_spec m k) as [->|Nm].
    + rewrite (proj2 (Nat.ltb_lt k (S k))) by lia. rewrite H, Nat.eqb_refl, (proj1 (G i)).
      rewrite (proj2 (Nat.ltb_ge k k)) by lia. reflexivity.
    + rewrite H, Nat.eqb_refl. cbn [andb].
      destruct (Nat.ltb_spec m k) as [L|L].
      * now rewrite (proj2 (Nat.ltb_lt m (S k))) by lia.
      * now rewrite (proj2 (Nat.ltb_ge m (S k))) by lia.
Qed.
Lemma gtransform_spec : forall order lat, NoDup order -> same_geom lat (gtransform n ND tmp gauge order lat) /\
  forall j m, O (gtransform n ND tmp gauge order lat j) m =
    if (existsb (Nat.eqb j) order && Nat.ltb m ND)%bool
    then gtransform_local n tmp (gauge j) (O (lat j) m) (gauge (nbr (lat j) m)) else O (lat j) m.
Proof.
  unfold gtransform. induction order as [|i r IH]; intros lat Nd.
  - split; [apply same_geom_refl|reflexivity].
  - inversion Nd as [|? ? Ni Nr]. subst. cbn [fold_left]. fold (gt_site lat i).
    destruct (IH (gt_site lat i) Nr) as [G H]. destruct (gt_site_spec lat i) as [G1 H1].
    split; [eapply same_geom_trans; eassumption|].
    intros j m. rewrite H. cbn [existsb]. rewrite !H1, (proj1 (G1 j)).
    destruct (Nat.eqb_spec j i) as [->|Nj]; cbn [orb andb].
    + destruct (existsb (Nat.eqb i) r) eqn:E.
      * exfalso. apply existsb_exists in E. destruct E as (x & X1 & X2). apply Nat.eqb_eq in X2. now subst.
      * reflexivity.
    + reflexivity.
Qed.
End GT.
Lemma gtransform_gauged : forall n ND V tmp gauge order lat, Permutation order (seq 0 V) ->
  (forall i mu, (i < V)%nat -> (mu < ND)%nat -> (nbr (lat i) mu < V)%nat) ->
  group_field n ND V lat -> group_gauge n V (fun i => mx n (gauge i)) ->
  gauged n ND V (fun i => mx n (gauge i)) lat (gtransform n ND tmp gauge order lat).
Proof.
  intros n ND V tmp gauge order lat P GN F G.
  destruct (gtransform_spec n ND tmp gauge order lat) as [S H].
  { apply (Permutation_NoDup (Permutation_sym P)), seq_NoDup. }
  split; [exact S|]. intros i mu Hi Hm. unfold lnk. rewrite H.
  replace (existsb (Nat.eqb i) order) with true.
  - rewrite (proj2 (Nat.ltb_lt mu ND) Hm). cbn [andb]. apply gtransform_local_ok; [now apply G|now apply F|apply G; now apply GN].
  - symmetry. apply existsb_exists. exists i. split; [|apply Nat.eqb_refl].
    apply (Permutation_in i (Permutation_sym P)), in_seq. lia.
Qed.

(** * Plaquettes *)
Definition plaquette (n : nat) (A B D E : mat) : mat := mmul n (mmul n (mmul n A B) (dag D)) (dag E).
Lemma re_add : forall z w, re (z + w) = (re z + re w)%R.
Proof. reflexivity. Qed.
Lemma complete_plaquette_ok : forall n tmp a b c d,
  complete_plaquette n tmp a b c d = re (mtr n (plaquette n (mx n a) (mx n b) (mx n c) (mx n d))).
Proof.
  intros n tmp a b c d.
  assert (G : n <> 2%nat -> n <> 3%nat -> Re_trace_abc_dag_suNC n a (multab_dag n tmp b c) d =
    re (mtr n (plaquette n (mx n a) (mx n b) (mx n c) (mx n d)))).
  { intros N2 N3. rewrite Re_trace_abc_dag_suNC_ok by (intros; lia). f_equal. apply csum_ext. intros i Hi.
    unfold plaquette. cut (meq n (mmul n (mmul n (mx n a) (mx n (multab_dag n tmp b c))) (dag (mx n d)))
       (mmul n (mmul n (mmul n (mx n a) (mx n b)) (dag (mx n c))) (dag (mx n d)))); [intro X; now apply X|].
    destruct (multab_dag_ok n tmp b c) as [E _]. rewrite E. now rewrite !mmul_assoc. }
  destruct n as [|[|[|[|n]]]]; try (apply G; lia).
  - unfold complete_plaquette, complete_plaquette_2. f_equal.
    unfold mtr, plaquette, mmul, dag, mx. cbn [csum Nat.add Nat.mul]. ring.
  - unfold complete_plaquette, complete_plaquette_3. rewrite <- !re_add. f_equal.
    unfold mtr, plaquette, mmul, dag, mx. cbn [csum Nat.add Nat.mul]. ring.
Qed.

(** * Invariance of the plaquette *)
Lemma uc : forall n U A B, unitary n U -> meq n (mmul n (mmul n A (dag U)) (mmul n U B)) (mmul n A B).
Proof. intros. rewrite mmul_assoc. now rewrite unitary_cancel_l. Qed.
Lemma plaquette_gauged : forall n (g g1 g2 g12 A B D E : mat), unitary n g -> unitary n g1 -> unitary n g2 -> unitary n g12 ->
  mtr n (plaquette n (mmul n (mmul n g A) (dag g1)) (mmul n (mmul n g1 B) (dag g12))
                     (mmul n (mmul n g2 D) (dag g12)) (mmul n (mmul n g E) (dag g2))) = mtr n (plaquette n A B D E).
Proof.
  intros n g g1 g2 g12 A B D E Hg H1 H2 H12. unfold plaquette.
  rewrite !dag_mmul, !dag_dag, !mmul_assoc.
  rewrite (unitary_cancel_l n g1) by assumption. rewrite (unitary_cancel_l n g12) by assumption.
  rewrite (unitary_cancel_l n g2) by assumption.
  rewrite mtr_cyc, !mmul_assoc. destruct Hg as [_ Hg]. now rewrite Hg, mmul_1_r.
Qed.
Section Inv.
Variables (n ND V : nat) (g : nat -> mat) (lat lat' : lattice).
Hypothesis (Geo : geom_ok ND V lat) (Uni : forall i, (i < V)%nat -> unitary n (g i)) (Gau : gauged n ND V g lat lat').
Lemma face_gauged : forall tmp tmp' i mu nu, (i < V)%nat -> (mu < ND)%nat -> (nu < ND)%nat ->
  face n tmp' lat' i mu nu = face n tmp lat i mu nu.
Proof.
  intros tmp tmp' i mu nu Hi Hm Hn. destruct Gau as [S H]. unfold face. rewrite !complete_plaquette_ok. f_equal.
  assert (N : forall j, nbr (lat' j) = nbr (lat j)) by (intro; apply S). rewrite !N.
  pose proof (g_nbr _ _ _ Geo) as GN.
  set (t := nbr (lat i) mu). set (s := nbr (lat i) nu).
  assert (Ht : (t < V)%nat) by now apply GN. assert (Hs : (s < V)%nat) by now apply GN.
  assert (X : nbr (lat s) mu = nbr (lat t) nu) by (symmetry; now apply (g_nn _ _ _ Geo)).
  pose proof (H i mu Hi Hm) as H1. pose proof (H t nu Ht Hn) as H2. pose proof (H s mu Hs Hm) as H3. pose proof (H i nu Hi Hn) as H4.
  rewrite X in H3. unfold lnk in *. fold t in H1. fold s in H4.
  transitivity (mtr n (plaquette n (mmul n (mmul n (g i) (mx n (O (lat i) mu))) (dag (g t)))
    (mmul n (mmul n (g t) (mx n (O (lat t) nu))) (dag (g (nbr (lat t) nu))))
    (mmul n (mmul n (g s) (mx n (O (lat s) mu))) (dag (g (nbr (lat t) nu))))
    (mmul n (mmul n (g i) (mx n (O (lat i) nu))) (dag (g s))))).
  - unfold plaquette. rewrite H1, H2, H3, H4. reflexivity.
  - apply plaquette_gauged; apply Uni; try assumption; now apply GN.
Qed.
Lemma sum_face_gauged : forall tmp tmp' i m p, (i < V)%nat -> (m <= ND)%nat ->
  for_ m (fun mu p => for_ mu (fun nu p => (p + face n tmp' lat' i mu nu)%R) p) p =
  for_ m (fun mu p => for_ mu (fun nu p => (p + face n tmp lat i mu nu)%R) p) p.
Proof.
  intros tmp tmp' i m p Hi Hm. apply for_ext. intros mu q Hmu. apply for_ext. intros nu r Hnu.
  now rewrite (face_gauged tmp tmp') by lia.
Qed.
Lemma sum_face_gauged1 : forall tmp tmp' i m p, (i < V)%nat -> (m < ND)%nat ->
  for_ m (fun nu p => (p + face n tmp' lat' i m nu)%R) p = for_ m (fun nu p => (p + face n tmp lat i m nu)%R) p.
Proof. intros. apply for_ext. intros nu r Hnu. now rewrite (face_gauged tmp tmp') by lia. Qed.
Lemma plaquettes_gauged : forall tmp tmp', (0 < ND)%nat ->
  all_plaquettes n ND V tmp' lat' = all_plaquettes n ND V tmp lat /\
  av_plaquette n ND V tmp' lat' = av_plaquette n ND V tmp lat /\
  s_plaq n ND V tmp' lat' = s_plaq n ND V tmp lat /\ t_plaq n ND V tmp' lat' = t_plaq n ND V tmp lat.
Proof.
  intros tmp tmp' HD. unfold all_plaquettes, av_plaquette, s_plaq, t_plaq. split; [|split; [|split]].
  - match goal with |- (let '(a, b) := for_ V ?f ?x in _) = (let '(c, d) := for_ V ?h ?x in _) =>
      replace (for_ V f x) with (for_ V h x); [reflexivity|] end.
    apply for_ext. intros i [a b] Hi. symmetry. rewrite (sum_face_gauged tmp tmp'), (sum_face_gauged1 tmp tmp') by lia. reflexivity.
  - match goal with |- context [for_ V ?f 0%R] => match goal with |- _ = ?r => match r with context [for_ V ?h 0%R] => replace (for_ V f 0%R) with (for_ V h 0%R); [reflexivity|] end end end.
    apply for_ext. intros i p Hi. symmetry. now rewrite (sum_face_gauged tmp tmp') by lia.
  - match goal with |- context [for_ V ?f 0%R] => match goal with |- _ = ?r => match r with context [for_ V ?h 0%R] => replace (for_ V f 0%R) with (for_ V h 0%R); [reflexivity|] end end end.
    apply for_ext. intros i p Hi. symmetry. now rewrite (sum_face_gauged tmp tmp') by lia.
  - match goal with |- context [for_ V ?f 0%R] => match goal with |- _ = ?r => match r with context [for_ V ?h 0%R] => replace (for_ V f 0%R) with (for_ V h 0%R); [reflexivity|] end end end.
    apply for_ext. intros i p Hi. symmetry. now rewrite (sum_face_gauged1 tmp tmp') by lia.
Qed.

(** * Polyakov lines *)
Fixpoint steps (l : lattice) (dir k i : nat) : nat := match k with 0 => i | S k => nbr (l (steps l dir k i)) dir end.
Fixpoint line (l : lattice) (dir k i : nat) : mat :=
  match k with 0 => lnk n l i dir | S k => mmul n (line l dir k i) (lnk n l (steps l dir (S k) i) dir) end.
Lemma small_poly_ok : forall l p s dir len, meq n (mx n (small_poly n p l s dir len)) (line l dir (len - 1) s).
Proof.
  intros l p s dir len. unfold small_poly.
  match goal with |- context [for_ ?m ?f ?x] => pose proof (for_ind (fun k st => meq n (mx n (fst st)) (line l dir k s) /\ snd st = steps l dir k s) m f x) as I end.
  cbn [fst snd] in I. apply I; clear I.
  - split; [|reflexivity]. cbn [line]. apply (equiv_ok n p).
  - intros k [q nx] Hk [E E2]. cbn [fst snd] in *. subst nx. split; [|reflexivity]. cbn [line steps].
    destruct (multab_atomic_right_ok n q (O (l (nbr (l (steps l dir k s)) dir)) dir)) as [F _]. rewrite F, E. reflexivity.
Qed.
Lemma steps_lt : forall dir k i, (i < V)%nat -> (dir < ND)%nat -> (steps lat dir k i < V)%nat.
Proof. intros dir k i Hi Hd. induction k; cbn [steps]; [assumption|now apply (g_nbr _ _ _ Geo)]. Qed.
Lemma line_gauged : forall dir k i, (i < V)%nat -> (dir < ND)%nat ->
  meq n (line lat' dir k i) (mmul n (mmul n (g i) (line lat dir k i)) (dag (g (steps lat dir (S k) i)))).
Proof.
  intros dir k i Hi Hd. destruct Gau as [S H].
  assert (St : forall k i, steps lat' dir k i = steps lat dir k i).
  { induction k0; intro i0; cbn [steps]; [reflexivity|]. now rewrite IHk0, (proj1 (S _)). }
  induction k.
  - cbn [line]. rewrite H by assumption. reflexivity.
  - cbn [line]. rewrite IHk, St, H by (try assumption; now apply steps_lt).
    rewrite !mmul_assoc, (unitary_cancel_l n (g (steps lat dir (Datatypes.S k) i))) by (apply Uni; now apply steps_lt).
    reflexivity.
Qed.
Lemma loop_gauged : forall p p' dir k i, (i < V)%nat -> (dir < ND)%nat -> steps lat dir (S k) i = i ->
  trace n (small_poly n p' lat' i dir (S k)) = trace n (small_poly n p lat i dir (S k)).
Proof.
  intros p p' dir k i Hi Hd C. rewrite !trace_ok. rewrite !small_poly_ok.
  replace (S k - 1)%nat with k by lia. rewrite line_gauged, C by assumption.
  rewrite mtr_cyc, <- mmul_assoc. destruct (Uni i Hi) as [_ E]. now rewrite E, mmul_1_l.
Qed.
End Inv.

(** * The neighbour tables of init_navig *)
Lemma navig_geom : forall ds lat, GeomSpec.lattice_ok ds -> navig ds lat -> geom_ok (length ds) (volume ds) lat.
Proof.
  intros ds lat Hok Nav.
  assert (VP : (0 < GeomModel.lvolume ds)%Z) by (rewrite GeomProofs.lvolume_prod by assumption; apply GeomProofs.ok_volume in Hok; lia).
  assert (R : forall i, (i < volume ds)%nat -> (0 <= Z.of_nat i < GeomModel.lvolume ds)%Z) by (unfold volume; lia).
  assert (LT : forall i mu, (i < volume ds)%nat -> (mu < length ds)%nat -> (nbr (lat i) mu < volume ds)%nat /\ (bck (lat i) mu < volume ds)%nat).
  { intros i mu Hi Hm. destruct (Nav i mu Hi Hm) as [N B]. destruct (GeomProofs2.index_coords ds (Z.of_nat i) Hok (R i Hi)) as (x & Hx & E).
    destruct (GeomProofs.neighbor_step ds _ mu x Hok Hm Hx E) as (j & y & Ej & Hj & _).
    destruct (GeomProofs.back_step ds _ mu x Hok Hm Hx E) as (k & z & Ek & Hk & _).
    rewrite N in Ej. rewrite B in Ek. injection Ej as <-. injection Ek as <-. unfold volume. lia. }
  constructor; intros i mu; intros.
  - now apply LT.
  - now apply LT.
  - destruct (GeomProofs.back_neighbor ds (Z.of_nat i) mu Hok ltac:(assumption) (R i ltac:(assumption))) as [_ E].
    rewrite (proj2 (Nav i mu ltac:(assumption) ltac:(assumption))) in E. cbn [CInt.bindo] in E.
    rewrite (proj1 (Nav (bck (lat i) mu) mu (proj2 (LT i mu ltac:(assumption) ltac:(assumption))) ltac:(assumption))) in E. injection E. lia.
  - destruct (GeomProofs.back_neighbor ds (Z.of_nat i) mu Hok ltac:(assumption) (R i ltac:(assumption))) as [E _].
    rewrite (proj1 (Nav i mu ltac:(assumption) ltac:(assumption))) in E. cbn [CInt.bindo] in E.
    rewrite (proj2 (Nav (nbr (lat i) mu) mu (proj1 (LT i mu ltac:(assumption) ltac:(assumption))) ltac:(assumption))) in E. injection E. lia.
  - destruct (GeomProofs.neighbors_commute ds (Z.of_nat i) mu nu Hok ltac:(assumption) ltac:(assumption) (R i ltac:(assumption))) as [E _].
    rewrite (proj1 (Nav i mu ltac:(assumption) ltac:(assumption))), (proj1 (Nav i nu ltac:(assumption) ltac:(assumption))) in E. cbn [CInt.bindo] in E.
    rewrite (proj1 (Nav (nbr (lat i) mu) nu (proj1 (LT i mu ltac:(assumption) ltac:(assumption))) ltac:(assumption))) in E.
    rewrite (proj1 (Nav (nbr (lat i) nu) mu (proj1 (LT i nu ltac:(assumption) ltac:(assumption))) ltac:(assumption))) in E. injection E. lia.
  - destruct (GeomProofs.neighbors_commute ds (Z.of_nat i) mu nu Hok ltac:(assumption) ltac:(assumption) (R i ltac:(assumption))) as [_ E].
    rewrite (proj1 (Nav i mu ltac:(assumption) ltac:(assumption))), (proj2 (Nav i nu ltac:(assumption) ltac:(assumption))) in E. cbn [CInt.bindo] in E.
    rewrite (proj2 (Nav (nbr (lat i) mu) nu (proj1 (LT i mu ltac:(assumption) ltac:(assumption))) ltac:(assumption))) in E.
    rewrite (proj1 (Nav (bck (lat i) nu) mu (proj2 (LT i nu ltac:(assumption) ltac:(assumption))) ltac:(assumption))) in E. injection E. lia.
Qed.

(** * The starting sites of the Polyakov loops *)
Section Poly.
Local Open Scope Z_scope.
Import CInt GeomModel GeomSpec GeomProofs.
(** the extents with that of direction dir replaced by 1 *)
Fixpoint mask (ds : list Z) (mu dir : nat) : list Z :=
  match ds with [] => [] | L :: ds => (if Nat.eqb mu dir then 1 else L) :: mask ds (S mu) dir end.
Lemma subvol_mask : forall ds mu dir, subvol ds mu dir = prodZ (mask ds mu dir).
Proof. induction ds; intros mu dir; cbn [subvol mask]; [reflexivity|]. now rewrite IHds, prodZ_cons. Qed.
Lemma mask_pos : forall ds mu dir, Forall (fun L => 0 < L < two31) ds -> Forall (fun L => 0 < L < two31) (mask ds mu dir).
Proof.
  induction ds; intros mu dir H; cbn [mask]; [constructor|]. inversion H; subst. constructor; [|now apply IHds].
  destruct (Nat.eqb mu dir); unfold two31 in *; lia.
Qed.
Lemma removelast_pos : forall l, Forall (fun L => 0 < L < two31) l -> 0 < prodZ (removelast l).
Proof.
  intros l H. apply prodZ_pos. apply GeomProofs2.Forall_removelast. eapply Forall_impl; [|exact H]. cbv beta. intros; lia.
Qed.
Lemma mask_removelast : forall ds mu dir, Forall (fun L => 0 < L < two31) ds -> prodZ (removelast (mask ds mu dir)) <= prodZ (removelast ds).
Proof.
  induction ds as [|d [|d' ds] IH]; intros mu dir H; [cbn; lia|cbn; lia|].
  inversion H; subst.
  change (mask (d :: d' :: ds) mu dir) with ((if Nat.eqb mu dir then 1 else d) :: (if Nat.eqb (S mu) dir then 1 else d') :: mask ds (S (S mu)) dir).
  rewrite !removelast_cons2, !prodZ_cons.
  specialize (IH (S mu) dir H3). change (mask (d' :: ds) (S mu) dir) with ((if Nat.eqb (S mu) dir then 1 else d') :: mask ds (S (S mu)) dir) in IH.
  pose proof (mask_pos _ (S mu) dir H3) as M. change (mask (d' :: ds) (S mu) dir) with ((if Nat.eqb (S mu) dir then 1 else d') :: mask ds (S (S mu)) dir) in M.
  apply removelast_pos in M. destruct (Nat.eqb mu dir); nia.
Qed.
Lemma mom_loop_mask ds : forall mu i s dir,
  Forall (fun L => 0 < L < two31) ds -> 0 < s -> s * prodZ (removelast (mask ds mu dir)) < two31 -> 0 <= i ->
  mom_2piBZ_loop ds mu i s dir = Some (digits (mask ds mu dir) (i / s)).
Proof.
  induction ds as [|d ds IH]; intros mu i s DIMS Hd Hs Hp Hi; [reflexivity|].
  inversion Hd as [|? ? Hd0 Hds]; subst.
  pose proof (removelast_pos _ (mask_pos _ mu DIMS Hd)) as P1.
  assert (Hs31 : s < two31) by nia.
  assert (Hu : u64 s = s) by (apply u64_id; unfold two31, two64 in *; lia).
  cbn [mom_2piBZ_loop]. cbn [mask]. destruct (Nat.eqb mu DIMS) eqn:Q.
  - cbn [digits]. rewrite Z.mod_1_r, Z.div_1_r. rewrite IH; try assumption; [reflexivity|].
    destruct ds as [|d' ds]; [cbn; lia|]. cbn [mask] in Hp |- *. rewrite Q in Hp. rewrite removelast_cons2, prodZ_cons in Hp. lia.
  - cbv zeta. rewrite Hu.
    replace ((s =? 0) || (d =? 0))%bool with false by lia.
    rewrite sub_mod_div by lia.
    assert (Hm : 0 <= (i / s) mod d < d) by (apply Z.mod_pos_bound; lia).
    rewrite (i32_id ((i / s) mod d)) by (unfold two31 in *; lia).
    destruct ds as [|d' ds]; [reflexivity|].
    pose proof (removelast_pos _ (mask_pos _ (S mu) DIMS Hds)) as P2.
    cbn [mask] in Hp, P2. rewrite Q in Hp. rewrite removelast_cons2, prodZ_cons in Hp.
    assert (Hsd : 0 < s * d < two31) by nia.
    rewrite (u64_id (s*d)) by (unfold two31, two64 in *; lia).
    rewrite i32_id by (unfold two31 in *; lia).
    rewrite IH; [|assumption|lia|cbn [mask]; lia|lia].
    cbn [bindo digits]. rewrite Z.div_div by lia. reflexivity.
Qed.
Lemma mask_box : forall ds mu dir x, Forall (fun L => 0 < L) ds ->
  (in_box (mask ds mu dir) x <-> in_box ds x /\ forall k c, (mu + k)%nat = dir -> nth_error x k = Some c -> c = 0).
Proof.
  induction ds as [|d ds IH]; intros mu dir x P; cbn [mask].
  - split; [intro H; split; [assumption|]|tauto]. inversion H; subst. intros [|k]; discriminate.
  - inversion P; subst. split.
    + intro H. inversion H; subst. apply IH in H6; [|assumption]. destruct H6 as [B Z0]. split.
      * constructor; [destruct (Nat.eqb mu dir); lia|assumption].
      * intros [|k] c E1 E2; cbn [nth_error] in E2.
        -- injection E2 as <-. rewrite Nat.add_0_r in E1. apply Nat.eqb_eq in E1. rewrite E1 in H4. lia.
        -- apply (Z0 k c); [lia|assumption].
    + intros [H Z0]. inversion H; subst. constructor.
      * destruct (Nat.eqb mu dir) eqn:Q; [|assumption]. rewrite (Z0 0%nat y); [lia|apply Nat.eqb_eq in Q; lia|reflexivity].
      * apply IH; [assumption|]. split; [assumption|]. intros k c E1 E2. apply (Z0 (S k) c); [lia|exact E2].
Qed.
(** the i-th starting site: the site with coordinates the digits of i, 0 in dir *)
Lemma poly_site_ok : forall ds i dir, lattice_ok ds ->
  poly_site ds i dir = Some (Z.to_nat (horner ds (digits (mask ds 0 dir) (Z.of_nat i)))) /\
  in_box (mask ds 0 dir) (digits (mask ds 0 dir) (Z.of_nat i)) /\ in_box ds (digits (mask ds 0 dir) (Z.of_nat i)).
Proof.
  intros ds i dir Hok. pose proof Hok as (Hne & Hd & Hp).
  assert (B : in_box (mask ds 0 dir) (digits (mask ds 0 dir) (Z.of_nat i))) by (apply digits_in_box, ok_pos, mask_pos; assumption).
  pose proof (proj1 (proj1 (mask_box ds 0 dir _ (ok_pos _ Hd)) B)) as B2.
  split; [|split; assumption]. unfold poly_site, get_mom_2piBZ.
  pose proof (mask_removelast ds 0 dir Hd).
  rewrite mom_loop_mask by (try assumption; lia). rewrite Z.div_1_r.
  destruct (GeomProofs.site_of_coords ds _ Hok B2) as (k & E & -> & _). rewrite index_of_horner in E by (now apply in_box_length). now rewrite E.
Qed.
End Poly.
