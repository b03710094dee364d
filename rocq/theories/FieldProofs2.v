(** Proofs about the gauge field, continued: Polyakov loops, composition of gauge
    transformations, over-relaxed gauge fixing, staples. *)
From Coq Require Import PeanoNat Lia List ZArith Reals Lra Permutation Setoid Morphisms.
From Verif Require Import CMat Det Arr MatSpec MmulModel MmulProofs MatModel MatProofs MatProofs2 Su2Model Su2Proofs FieldModel FieldProofs.
From Verif Require GeomModel GeomSpec GeomProofs GeomProofs2 CInt.
Import ListNotations.
Local Open Scope C_scope.

(** * Polyakov loops *)
Lemma NoDup_map_in : forall {A B} (f : A -> B) l, NoDup l -> (forall x y, In x l -> In y l -> f x = f y -> x = y) -> NoDup (map f l).
Proof.
  intros A B f l N. induction N as [|x l Nx N IH]; intro H; cbn [map]; constructor.
  - intro I. apply in_map_iff in I. destruct I as (y & E & Iy). apply Nx. rewrite (H x y); [assumption|now left|now right|now symmetry].
  - apply IH. intros y z Hy Hz. apply H; now right.
Qed.
Lemma steps_front : forall l dir k i, steps l dir (S k) i = steps l dir k (nbr (l i) dir).
Proof. intros l dir k. induction k; intro i; [reflexivity|]. cbn [steps] in *. now rewrite IHk. Qed.
Lemma steps_iter : forall ds lat dir k i, GeomSpec.lattice_ok ds -> navig ds lat -> (dir < length ds)%nat -> (i < volume ds)%nat ->
  GeomSpec.iter_opt k (fun j => GeomModel.neighbor ds j dir) (Z.of_nat i) = Some (Z.of_nat (steps lat dir k i)).
Proof.
  intros ds lat dir k. induction k; intros i Hok Nav Hd Hi; [reflexivity|].
  pose proof (navig_geom ds lat Hok Nav) as G.
  cbn [GeomSpec.iter_opt]. rewrite (proj1 (Nav i dir Hi Hd)). cbn [CInt.bindo].
  rewrite steps_front. apply IHk; try assumption. now apply (g_nbr _ _ _ G).
Qed.
Lemma steps_period : forall ds lat dir L i, GeomSpec.lattice_ok ds -> navig ds lat -> nth_error ds dir = Some L -> (i < volume ds)%nat ->
  steps lat dir (Z.to_nat L) i = i.
Proof.
  intros ds lat dir L i Hok Nav HL Hi.
  assert (Hd : (dir < length ds)%nat) by (apply nth_error_Some; congruence).
  destruct (GeomProofs.neighbor_period ds (Z.of_nat i) dir L Hok HL) as [E _]; [unfold volume in Hi; lia|].
  rewrite (steps_iter ds lat) in E by assumption. injection E. lia.
Qed.
Lemma poly_site_lt : forall ds i dir, GeomSpec.lattice_ok ds -> exists k, poly_site ds i dir = Some k /\ (k < volume ds)%nat.
Proof.
  intros ds i dir Hok. destruct (poly_site_ok ds i dir Hok) as (E & _ & B). eexists. split; [exact E|].
  pose proof (GeomProofs.horner_bound _ _ B). unfold volume. rewrite GeomProofs.lvolume_prod by assumption. lia.
Qed.
Lemma poly_gauged : forall n ds g lat lat' tmp tmp' dir, GeomSpec.lattice_ok ds -> navig ds lat ->
  (forall i, (i < volume ds)%nat -> unitary n (g i)) -> gauged n (length ds) (volume ds) g lat lat' ->
  poly n ds tmp' lat' dir = poly n ds tmp lat dir.
Proof.
  intros n ds g lat lat' tmp tmp' dir Hok Nav Uni Gau. unfold poly.
  destruct (nth_error ds dir) as [L|] eqn:HL; [|reflexivity].
  match goal with |- match for_ ?m ?f ?x with _ => _ end = match for_ ?m ?h ?x with _ => _ end =>
    replace (for_ m f x) with (for_ m h x); [reflexivity|] end.
  apply for_ext. intros i [s|] Hi; [|reflexivity].
  destruct (poly_site_lt ds i dir Hok) as (k & -> & Hk).
  assert (P : (0 < L)%Z).
  { destruct Hok as (_ & Hd & _). rewrite Forall_forall in Hd. apply Hd. eapply nth_error_In; eassumption. }
  assert (Hd : (dir < length ds)%nat) by (apply nth_error_Some; congruence).
  pose proof (steps_period ds lat dir L k Hok Nav HL Hk) as Per.
  destruct (Z.to_nat L) as [|m] eqn:EL; [lia|].
  rewrite (loop_gauged n (length ds) (volume ds) g lat lat' (navig_geom ds lat Hok Nav) Uni Gau tmp tmp' dir m k Hk Hd Per). reflexivity.
Qed.
(** the loops start from each site with coordinate 0 in direction dir, once *)
Definition start_sites (ds : list Z) (dir : nat) : list (option nat) :=
  map (fun i => poly_site ds i dir) (seq 0 (Z.to_nat (subvol ds 0 dir))).
Lemma start_sites_ok : forall ds dir, GeomSpec.lattice_ok ds -> NoDup (start_sites ds dir) /\
  forall k, In (Some k) (start_sites ds dir) <-> exists x, GeomSpec.in_box ds x /\ GeomSpec.index_of ds x = Z.of_nat k /\ (forall c, nth_error x dir = Some c -> c = 0%Z).
Proof.
  intros ds dir Hok. pose proof Hok as (Hne & Hd & Hp).
  pose proof (GeomProofs.ok_pos _ Hd) as Pd. pose proof (GeomProofs.ok_pos _ (mask_pos ds 0 dir Hd)) as Pm.
  pose proof (GeomProofs.prodZ_pos _ Pm) as PP. unfold start_sites. rewrite subvol_mask. split.
  - apply NoDup_map_in; [apply seq_NoDup|]. intros i j Hi Hj E. apply in_seq in Hi. apply in_seq in Hj.
    destruct (poly_site_ok ds i dir Hok) as (Ei & Bi & Di). destruct (poly_site_ok ds j dir Hok) as (Ej & Bj & Dj).
    rewrite Ei, Ej in E. injection E as E.
    pose proof (GeomProofs.horner_bound _ _ Di). pose proof (GeomProofs.horner_bound _ _ Dj).
    apply Z2Nat.inj in E; try lia. apply GeomProofs.horner_inj in E; try assumption.
    apply (f_equal (GeomProofs.horner (mask ds 0 dir))) in E. rewrite !GeomProofs.horner_digits in E by (try assumption; lia). lia.
  - intro k. rewrite in_map_iff. split.
    + intros (i & Ei & _). destruct (poly_site_ok ds i dir Hok) as (E & B & D). rewrite E in Ei. injection Ei as <-.
      eexists. split; [exact D|]. split.
      * rewrite GeomProofs.index_of_horner by (now apply GeomProofs.in_box_length). pose proof (GeomProofs.horner_bound _ _ D). lia.
      * intros c Hc. apply (proj2 (proj1 (mask_box ds 0 dir _ Pd) B) dir c); [reflexivity|exact Hc].
    + intros (x & Hx & E & Z0).
      assert (Bx : GeomSpec.in_box (mask ds 0 dir) x).
      { apply mask_box; [assumption|]. split; [assumption|]. intros j c Ej Hc. cbn in Ej. subst j. now apply Z0. }
      pose proof (GeomProofs.horner_bound _ _ Bx) as HB.
      exists (Z.to_nat (GeomProofs.horner (mask ds 0 dir) x)). split; [|apply in_seq; lia].
      destruct (poly_site_ok ds (Z.to_nat (GeomProofs.horner (mask ds 0 dir) x)) dir Hok) as (Ei & _ & _). rewrite Ei.
      rewrite Z2Nat.id by lia. rewrite GeomProofs.digits_horner by assumption.
      rewrite <- GeomProofs.index_of_horner by (now apply GeomProofs.in_box_length). rewrite E. f_equal. lia.
Qed.

(** * Composition and inverse *)
Lemma gauged_compose : forall n ND V g h l0 l1 l2, gauged n ND V g l0 l1 -> gauged n ND V h l1 l2 ->
  gauged n ND V (fun i => mmul n (h i) (g i)) l0 l2.
Proof.
  intros n ND V g h l0 l1 l2 [S1 H1] [S2 H2]. split; [eapply same_geom_trans; eassumption|].
  intros i mu Hi Hm. rewrite H2, H1, (proj1 (S1 i)) by assumption. now rewrite dag_mmul, !mmul_assoc.
Qed.
Lemma gauged_refl : forall n ND V lat, gauged n ND V (fun _ => mid) lat lat.
Proof. intros n ND V lat. split; [apply same_geom_refl|]. intros. now rewrite dag_mid, mmul_1_l, mmul_1_r. Qed.
Lemma gauged_inverse : forall n ND V g l0 l1, (forall i mu, (i < V)%nat -> (mu < ND)%nat -> (nbr (l0 i) mu < V)%nat) ->
  (forall i, (i < V)%nat -> unitary n (g i)) ->
  gauged n ND V g l0 l1 -> gauged n ND V (fun i => dag (g i)) l1 l0.
Proof.
  intros n ND V g l0 l1 GN Uni [S H]. split; [now apply same_geom_sym|].
  intros i mu Hi Hm. rewrite H, (proj1 (S i)) by assumption. rewrite dag_dag, !mmul_assoc.
  rewrite unitary_cancel_l by now apply Uni.
  destruct (Uni (nbr (l0 i) mu)) as [_ U]; [now apply GN|]. now rewrite U, mmul_1_r.
Qed.
Lemma gauged_group : forall n ND V g l0 l1, (forall i mu, (i < V)%nat -> (mu < ND)%nat -> (nbr (l0 i) mu < V)%nat) ->
  group_gauge n V g -> group_field n ND V l0 -> gauged n ND V g l0 l1 -> group_field n ND V l1.
Proof.
  intros n ND V g l0 l1 GN G F [S H] i mu Hi Hm. eapply SUn_ext; [symmetry; now apply H|].
  apply SUn_mmul; [apply SUn_mmul; [now apply G|now apply F]|apply SUn_dag, G; now apply GN].
Qed.
Lemma gauged_unique : forall n ND V g l0 l1 l2, gauged n ND V g l0 l1 -> gauged n ND V g l0 l2 ->
  forall i mu, (i < V)%nat -> (mu < ND)%nat -> meq n (lnk n l1 i mu) (lnk n l2 i mu).
Proof. intros n ND V g l0 l1 l2 [_ H1] [_ H2] i mu Hi Hm. now rewrite H1, H2. Qed.

(** * Over-relaxed gauge fixing *)
Lemma or_rotation_unit : forall s0 s1 rng p t0 t1, or_rotation s0 s1 rng p = Some (t0, t1) -> unit2 t0 t1.
Proof.
  intros [a b] [c d] rng p t0 t1. unfold or_rotation, OrRotation, unit2. cbn [re im fst snd].
  destruct (Rlt_dec rng p) as [Hlt|Hge].
  - destruct (Req_EM_T _ 0) as [|N1]; [discriminate|].
    set (asq := (b*b + c*c + d*d)%R) in *. set (x := ((2 * (a*a) + asq) / (a*a + asq))%R).
    destruct (Req_EM_T _ 0) as [|N2]; [discriminate|]. intro H. injection H as <- <-.
    assert (P : (0 <= a*a + x*x*asq)%R).
    { assert (0 <= asq)%R by (unfold asq; nra). assert (0 <= x*x)%R by nra. assert (0 <= a*a)%R by nra. nra. }
    pose proof (sqrt_sqrt _ P) as Q. unfold norm2. cunfold. cbn [fst snd].
    set (r := sqrt (a*a + x*x*asq)) in *.
    match goal with |- ?e = 1%R => replace e
      with ((a*a + x*x*(b*b+c*c+d*d)) / (r*r))%R by (clearbody x r; field; exact N2) end.
    fold asq. rewrite <- Q. field. exact N2.
  - destruct (Req_EM_T _ 0) as [|N1]; [discriminate|]. intro H. injection H as <- <-.
    assert (P : (0 < a*a + b*b + c*c + d*d)%R) by (pose proof (sq4_nonneg a b c d); lra).
    pose proof (sqrt_sqrt _ (Rlt_le _ _ P)) as Q. pose proof (sqrt_lt_R0 _ P) as S.
    set (r := sqrt (a*a + b*b + c*c + d*d)) in *. unfold norm2. cunfold. cbn [fst snd].
    match goal with |- ?e = 1%R => replace e with ((a*a + b*b + c*c + d*d) / (r*r))%R by (field; lra) end.
    rewrite <- Q. field. lra.
Qed.
(** the gauge transformation of one step: a rotation at site i, the identity elsewhere *)
Definition at_site (i : nat) (M : mat) : nat -> mat := fun j => if Nat.eqb j i then M else mid.
Lemma OR_single_gauged : forall n ND V lat k p i DIMS rng lat', geom_ok ND V lat -> (i < V)%nat -> (k < NSU2SUBGROUPS n)%nat ->
  OR_single n ND lat k p i DIMS rng = Some lat' ->
  exists a b s0 s1, (a < b < n)%nat /\ unit2 s0 s1 /\ gauged n ND V (at_site i (embed a b s0 s1)) lat lat'.
Proof.
  intros n ND V lat k p i DIMS rng lat' G Hi Hk. unfold OR_single.
  destruct (or_sums n k i DIMS lat) as [u0 u1]. destruct (or_rotation u0 u1 rng p) as [[s0 s1]|] eqn:ER; [|discriminate].
  intro H. injection H as <-. apply or_rotation_unit in ER.
  pose proof (su2_pair_lt n k Hk) as L.
  assert (ML : forall w, meq n (mx n (shortened_su2_multiply n w s0 s1 k)) (mmul n (embed (fst (su2_pair n k)) (snd (su2_pair n k)) s0 s1) (mx n w))).
  { intro w. pose proof (su2_multiply_ok n w s0 s1 k Hk) as M. destruct (su2_pair n k). apply M. }
  assert (MR : forall w, meq n (mx n (shortened_su2_multiply_dag n w s0 s1 k)) (mmul n (mx n w) (dag (embed (fst (su2_pair n k)) (snd (su2_pair n k)) s0 s1)))).
  { intro w. pose proof (su2_multiply_dag_ok n w s0 s1 k Hk) as M. destruct (su2_pair n k). apply M. }
  destruct (su2_pair n k) as [a b]. cbn [fst snd] in *. exists a, b, s0, s1. split; [exact L|]. split; [exact ER|].
  set (E := embed a b s0 s1) in *.
  match goal with |- gauged _ _ _ _ _ (for_ ND ?f lat) =>
    assert (I : same_geom lat (for_ ND f lat) /\ forall j mu, (j < V)%nat -> (mu < ND)%nat ->
      meq n (lnk n (for_ ND f lat) j mu) (if Nat.ltb mu ND then mmul n (mmul n (at_site i E j) (lnk n lat j mu)) (dag (at_site i E (nbr (lat j) mu))) else lnk n lat j mu)) end.
  { apply (for_ind (fun m l => same_geom lat l /\ forall j mu, (j < V)%nat -> (mu < ND)%nat ->
      meq n (lnk n l j mu) (if Nat.ltb mu m then mmul n (mmul n (at_site i E j) (lnk n lat j mu)) (dag (at_site i E (nbr (lat j) mu))) else lnk n lat j mu))).
    - split; [apply same_geom_refl|reflexivity].
    - intros m l Hm [S H]. cbv zeta. split.
      { eapply same_geom_trans; [exact S|]. eapply same_geom_trans; apply put_geom. }
      intros j mu Hj Hmu. rewrite (proj2 (S i)).
      set (bk := bck (lat i) m). unfold lnk at 1. rewrite O_put.
      destruct (Nat.eqb_spec mu m) as [->|Nm].
      + rewrite (proj2 (Nat.ltb_lt m (Datatypes.S m))) by lia. rewrite Bool.andb_true_r.
        pose proof (H j m Hj Hmu) as Hl. rewrite (proj2 (Nat.ltb_ge m m)) in Hl by lia.
        assert (NB : nbr (lat j) m = i <-> j = bk).
        { split; intro Q; [subst i; symmetry; now apply (g_bn _ _ _ G)|subst j; now apply (g_nb _ _ _ G)]. }
        unfold at_site. destruct (Nat.eqb_spec j bk) as [Ej|Nj].
        * rewrite (proj2 (Nat.eqb_eq (nbr (lat j) m) i)) by tauto. rewrite <- Ej. rewrite MR. rewrite O_put, Nat.eqb_refl, Bool.andb_true_r.
          destruct (Nat.eqb_spec j i) as [->|Ni].
          -- rewrite ML. unfold lnk in Hl. rewrite Hl. reflexivity.
          -- unfold lnk in Hl |- *. rewrite Hl, mmul_1_l. reflexivity.
        * rewrite (proj2 (Nat.eqb_neq (nbr (lat j) m) i)) by tauto. rewrite O_put, Nat.eqb_refl, Bool.andb_true_r.
          destruct (Nat.eqb_spec j i) as [->|Ni].
          -- rewrite ML. unfold lnk in Hl |- *. rewrite Hl, dag_mid, mmul_1_r. reflexivity.
          -- unfold lnk in Hl |- *. rewrite Hl, dag_mid, mmul_1_r, mmul_1_l. reflexivity.
      + rewrite Bool.andb_false_r, O_put, (proj2 (Nat.eqb_neq mu m)), Bool.andb_false_r by assumption.
        replace (Nat.ltb mu (Datatypes.S m)) with (Nat.ltb mu m); [now apply H|].
        destruct (Nat.ltb_spec mu m); destruct (Nat.ltb_spec mu (Datatypes.S m)); lia || reflexivity. }
  destruct I as [S H]. split; [exact S|]. intros j mu Hj Hmu. rewrite H by assumption. now rewrite (proj2 (Nat.ltb_lt mu ND) Hmu).
Qed.
Lemma at_site_group : forall n V i a b s0 s1, (a < b < n)%nat -> unit2 s0 s1 -> group_gauge n V (at_site i (embed a b s0 s1)).
Proof. intros n V i a b s0 s1 L U j Hj. unfold at_site. destruct (Nat.eqb j i); [apply embed_SUn; lia || assumption|apply SUn_mid]. Qed.
Lemma OR_steps_gauged : forall n ND V p DIMS st lat lat', geom_ok ND V lat ->
  (forall k i r, In (k, i, r) st -> (k < NSU2SUBGROUPS n)%nat /\ (i < V)%nat) ->
  OR_steps n ND p DIMS st lat = Some lat' -> exists g, group_gauge n V g /\ gauged n ND V g lat lat'.
Proof.
  intros n ND V p DIMS st. induction st as [|[[k i] r] st IH]; intros lat lat' G Hs H; cbn [OR_steps] in H.
  - injection H as <-. exists (fun _ => mid). split; [intros j Hj; apply SUn_mid|apply gauged_refl].
  - destruct (OR_single n ND lat k p i DIMS r) as [l1|] eqn:E; [|discriminate].
    destruct (Hs k i r (or_introl eq_refl)) as [Hk Hi].
    destruct (OR_single_gauged n ND V _ _ _ _ _ _ _ G Hi Hk E) as (a & b & s0 & s1 & L & U & Ga).
    destruct (IH l1 lat') as (h & Hh & Gh); [eapply geom_ok_same; [apply Ga|exact G]|intros; eapply Hs; right; eassumption|exact H|].
    exists (fun j => mmul n (h j) (at_site i (embed a b s0 s1) j)). split; [|eapply gauged_compose; eassumption].
    intros j Hj. apply SUn_mmul; [now apply Hh|now apply (at_site_group n V i a b s0 s1)].
Qed.

(** * Staples *)
Definition staple (n : nat) (lat : lattice) (i mu nu : nat) : mat :=
  madd (mmul n (mmul n (lnk n lat i nu) (lnk n lat (nbr (lat i) nu) mu)) (dag (lnk n lat (nbr (lat i) mu) nu)))
       (mmul n (mmul n (dag (lnk n lat (bck (lat i) nu) nu)) (lnk n lat (bck (lat i) nu) mu)) (lnk n lat (nbr (lat (bck (lat i) nu)) mu) nu)).
(** sum over the directions other than mu *)
Definition others (mu dir : nat) : list nat := filter (fun nu => negb (Nat.eqb nu mu)) (seq 0 dir).
Definition msum (l : list mat) : mat := fold_right madd mzero l.
Definition staple_sum (n : nat) (lat : lattice) (i mu dir : nat) : mat := msum (map (staple n lat i mu) (others mu dir)).
Lemma filter_all : forall {A} (f : A -> bool) l, (forall x, In x l -> f x = true) -> filter f l = l.
Proof. intros A f l. induction l as [|a l IH]; intro H; cbn [filter]; [reflexivity|]. rewrite H by now left. rewrite IH; [reflexivity|]. intros; apply H; now right. Qed.
Lemma others_is : forall mu dir, (mu < dir)%nat -> others mu dir = map (fun j => if Nat.ltb j mu then j else S j) (seq 0 (dir - 1)).
Proof.
  intros mu dir H. unfold others. remember (dir - 1 - mu)%nat as q eqn:Q. replace dir with (mu + S q)%nat by lia. clear Q.
  replace (mu + S q - 1)%nat with (mu + q)%nat by lia.
  rewrite !seq_app, filter_app, map_app. f_equal.
  - transitivity (seq 0 mu).
    + apply filter_all. intros x Hx. apply in_seq in Hx. now rewrite (proj2 (Nat.eqb_neq x mu)) by lia.
    + rewrite <- (map_id (seq 0 mu)) at 1. apply map_ext_in. intros x Hx. apply in_seq in Hx. now rewrite (proj2 (Nat.ltb_lt x mu)) by lia.
  - cbn [seq filter]. cbn [Nat.add]. rewrite Nat.eqb_refl. cbn [negb].
    transitivity (seq (S mu) q).
    + apply filter_all. intros x Hx. apply in_seq in Hx. now rewrite (proj2 (Nat.eqb_neq x mu)) by lia.
    + rewrite <- seq_shift. apply map_ext_in. intros x Hx. apply in_seq in Hx. now rewrite (proj2 (Nat.ltb_ge x mu)) by lia.
Qed.
Lemma others_in : forall mu dir nu, In nu (others mu dir) <-> (nu < dir /\ nu <> mu)%nat.
Proof.
  intros. unfold others. rewrite filter_In, in_seq, Bool.negb_true_iff, Nat.eqb_neq. lia.
Qed.
Lemma madd_assoc : forall n A B D, meq n (madd (madd A B) D) (madd A (madd B D)).
Proof. intros n A B D i j _ _. unfold madd. ring. Qed.
Lemma madd_0_l : forall n A, meq n (madd mzero A) A.
Proof. intros n A i j _ _. unfold madd, mzero. ring. Qed.
Lemma madd_0_r : forall n A, meq n (madd A mzero) A.
Proof. intros n A i j _ _. unfold madd, mzero. ring. Qed.
Lemma msum_snoc : forall n l A, meq n (msum (l ++ [A])) (madd (msum l) A).
Proof.
  intros n l A. induction l as [|B l IH]; cbn [msum fold_right app].
  - now rewrite madd_0_l, madd_0_r.
  - fold (msum (l ++ [A])). fold (msum l). rewrite IH. now rewrite madd_assoc.
Qed.
Lemma all_staples_ok : forall n ND V tmp1 tmp2 stap lat i mu dir, geom_ok ND V lat -> group_field n ND V lat ->
  (i < V)%nat -> (mu < dir)%nat -> (dir <= ND)%nat ->
  holds n (all_staples n tmp1 tmp2 stap lat i mu dir) stap (madd (mx n stap) (staple_sum n lat i mu dir)).
Proof.
  intros n ND V tmp1 tmp2 stap lat i mu dir G F Hi Hm Hd. unfold all_staples, staple_sum. rewrite others_is, map_map by assumption.
  match goal with |- holds n (fst (fst (for_ ?m ?f ?x))) _ _ => pose proof (for_ind (fun k st =>
    holds n (fst (fst st)) stap (madd (mx n stap) (msum (map (fun j => staple n lat i mu (if Nat.ltb j mu then j else S j)) (seq 0 k))))) m f x) as I end.
  apply I; clear I.
  - cbn [fst seq map]. split; [|intros k Hk; reflexivity]. now rewrite madd_0_r.
  - intros k [[s a] b] Hk [E Fr]. cbn [fst] in *. cbv zeta.
    set (nu := if Nat.ltb k mu then k else S k). assert (Hn : (nu < ND)%nat) by (unfold nu; destruct (Nat.ltb_spec k mu); lia).
    assert (Hm' : (mu < ND)%nat) by lia.
    set (t1 := nbr (lat i) nu). set (t2 := nbr (lat i) mu). set (b1 := bck (lat i) nu). set (b2 := nbr (lat b1) mu).
    assert (T1 : (t1 < V)%nat) by now apply (g_nbr _ _ _ G). assert (T2 : (t2 < V)%nat) by now apply (g_nbr _ _ _ G).
    assert (B1 : (b1 < V)%nat) by now apply (g_bck _ _ _ G). assert (B2 : (b2 < V)%nat) by now apply (g_nbr _ _ _ G).
    pose proof (F i nu Hi Hn) as S1. pose proof (F t1 mu T1 Hm') as S2. pose proof (F t2 nu T2 Hn) as S3.
    pose proof (F b1 nu B1 Hn) as S4. pose proof (F b1 mu B1 Hm') as S5. pose proof (F b2 nu B2 Hn) as S6. unfold lnk in *.
    destruct (multab_suNC_ok n a _ _ S1 S2) as [Ea _]. set (a1 := multab_suNC n a _ _) in *.
    assert (Sa : SUn n (mx n a1)) by (eapply SUn_ext; [symmetry; exact Ea|now apply SUn_mmul]).
    destruct (multab_dag_suNC_ok n b _ _ Sa S3) as [Eb _]. set (bb := multab_dag_suNC n b _ _) in *.
    destruct (multabdag_suNC_ok n a1 _ _ S4 S5) as [Ec _]. set (a2 := multabdag_suNC n a1 _ _) in *.
    assert (Sc : SUn n (mx n a2)) by (eapply SUn_ext; [symmetry; exact Ec|apply SUn_mmul; [now apply SUn_dag|assumption]]).
    destruct (multab_suNC_ok n bb _ _ Sc S6) as [Ee _]. set (bb2 := multab_suNC n bb _ _) in *.
    destruct (a_plus_b_ok n s bb) as [P1 Q1]. destruct (a_plus_b_ok n (a_plus_b n s bb) bb2) as [P2 Q2].
    split.
    + rewrite P2, P1, Ee, Ec, Eb, Ea, E. rewrite seq_S, map_app. cbn [map Nat.add]. fold nu. rewrite msum_snoc.
      unfold staple, lnk. fold t1 t2 b1 b2. rewrite !madd_assoc. reflexivity.
    + intros q Hq. rewrite Q2, Q1 by assumption. now apply Fr.
Qed.
Lemma staple_gauged : forall n ND V g lat lat' i mu nu, geom_ok ND V lat -> (forall j, (j < V)%nat -> unitary n (g j)) ->
  gauged n ND V g lat lat' -> (i < V)%nat -> (mu < ND)%nat -> (nu < ND)%nat ->
  meq n (staple n lat' i mu nu) (mmul n (mmul n (g i) (staple n lat i mu nu)) (dag (g (nbr (lat i) mu)))).
Proof.
  intros n ND V g lat lat' i mu nu G Uni [S H] Hi Hm Hn. unfold staple.
  assert (N : forall j, nbr (lat' j) = nbr (lat j)) by (intro; apply S). assert (B : forall j, bck (lat' j) = bck (lat j)) by (intro; apply S).
  rewrite !N, !B.
  set (t1 := nbr (lat i) nu). set (t2 := nbr (lat i) mu). set (b1 := bck (lat i) nu). set (b2 := nbr (lat b1) mu).
  assert (T1 : (t1 < V)%nat) by now apply (g_nbr _ _ _ G). assert (T2 : (t2 < V)%nat) by now apply (g_nbr _ _ _ G).
  assert (B1 : (b1 < V)%nat) by now apply (g_bck _ _ _ G). assert (B2 : (b2 < V)%nat) by now apply (g_nbr _ _ _ G).
  rewrite !H by assumption. fold t1 t2 b2.
  assert (X1 : nbr (lat t1) mu = nbr (lat t2) nu) by (symmetry; now apply (g_nn _ _ _ G)).
  assert (X2 : nbr (lat b1) nu = i) by now apply (g_nb _ _ _ G).
  assert (X3 : nbr (lat b2) nu = t2).
  { unfold b2, t2. rewrite (g_nn _ _ _ G) by assumption. now rewrite X2. }
  rewrite X1, X2, X3. rewrite mmul_add_r, mmul_add_l. rewrite !dag_mmul, !dag_dag, !mmul_assoc.
  rewrite (unitary_cancel_l n (g t1)) by now apply Uni. rewrite (unitary_cancel_l n (g (nbr (lat t2) nu))) by (apply Uni; now apply (g_nbr _ _ _ G)).
  rewrite (unitary_cancel_l n (g b1)) by now apply Uni. rewrite (unitary_cancel_l n (g b2)) by now apply Uni. reflexivity.
Qed.
Lemma staple_sum_gauged : forall n ND V g lat lat' i mu dir, geom_ok ND V lat -> (forall j, (j < V)%nat -> unitary n (g j)) ->
  gauged n ND V g lat lat' -> (i < V)%nat -> (mu < ND)%nat -> (dir <= ND)%nat ->
  meq n (staple_sum n lat' i mu dir) (mmul n (mmul n (g i) (staple_sum n lat i mu dir)) (dag (g (nbr (lat i) mu)))).
Proof.
  intros n ND V g lat lat' i mu dir G Uni Ga Hi Hm Hd. unfold staple_sum.
  assert (A : forall nu, In nu (others mu dir) -> (nu < ND)%nat) by (intros nu H; apply others_in in H; lia).
  induction (others mu dir) as [|nu l IH]; cbn [map msum fold_right].
  - intros a b Ha Hb. unfold mzero at 1. unfold mmul. rewrite (csum_ext n _ (fun _ => C0)); [now rewrite csum_0|].
    intros c Hc. rewrite (csum_ext n _ (fun _ => C0)); [rewrite csum_0; ring|]. intros; unfold mzero; ring.
  - fold (msum (map (staple n lat' i mu) l)). fold (msum (map (staple n lat i mu) l)).
    rewrite IH by (intros; apply A; now right). rewrite mmul_add_r, mmul_add_l.
    rewrite (staple_gauged n ND V g lat lat' i mu nu) by (try assumption; apply A; now left). reflexivity.
Qed.

(** * Time slices *)
Section Slices.
Local Open Scope Z_scope.
Import CInt GeomModel GeomSpec GeomProofs.
Lemma horner_snoc : forall ds x L c, length x = length ds -> horner (ds ++ [L]) (x ++ [c]) = horner ds x + prodZ ds * c.
Proof.
  induction ds as [|d ds IH]; intros [|a x] L c H; try discriminate; cbn [app horner].
  - unfold prodZ. cbn [fold_right]. ring.
  - rewrite IH by (cbn in H; lia). rewrite prodZ_cons. ring.
Qed.
Lemma box_snoc : forall ds x L c, in_box (ds ++ [L]) (x ++ [c]) <-> in_box ds x /\ 0 <= c < L.
Proof.
  intros ds x L c. split.
  - intro H. assert (E : length x = length ds) by (apply in_box_length in H; rewrite !app_length in H; cbn in H; lia).
    unfold in_box in *. revert x E H. induction ds as [|d ds IH]; intros [|a x] E H; try discriminate.
    + cbn in H. inversion H; subst. split; [constructor|assumption].
    + cbn in H. inversion H; subst. apply IH in H5; [|cbn in E; lia]. split; [constructor; tauto|tauto].
  - intros [H1 H2]. apply Forall2_app; [assumption|]. constructor; [assumption|constructor].
Qed.
Lemma list_snoc : forall (l : list Z) m c, length l = S m -> nth_error l m = Some c -> l = firstn m l ++ [c].
Proof.
  intros l m c H E. rewrite <- (firstn_skipn m l) at 1. f_equal.
  assert (length (skipn m l) = 1%nat) by (rewrite skipn_length; lia). destruct (skipn m l) as [|a [|b r]] eqn:Q; try discriminate.
  rewrite <- (firstn_skipn m l), Q, nth_error_app2 in E by (rewrite firstn_length; lia).
  replace (m - length (firstn m l))%nat with 0%nat in E by (rewrite firstn_length; lia). cbn in E. congruence.
Qed.
Lemma firstn_ext : forall (l l' : list Z) m, (m <= length l)%nat -> (m <= length l')%nat -> (forall k, (k < m)%nat -> nth_error l k = nth_error l' k) -> firstn m l = firstn m l'.
Proof.
  intros l l' m. revert l l'. induction m as [|m IH]; intros l l' H H' E; [reflexivity|].
  destruct l as [|a l]; [cbn in H; lia|]. destruct l' as [|a' l']; [cbn in H'; lia|]. cbn [firstn]. f_equal.
  - specialize (E 0%nat). cbn in E. injection E; [auto|lia].
  - apply IH; [cbn in H; lia|cbn in H'; lia|]. intros k Hk. apply (E (S k)). lia.
Qed.
Variables (ds : list Z) (T : Z) (lat : lattice).
Hypothesis (Hok : lattice_ok (ds ++ [T])) (Nav : navig (ds ++ [T]) lat).
Let LCU : nat := Z.to_nat (prodZ ds).
Lemma slice_dims : Forall (fun L => 0 < L) ds /\ 0 < T /\ 0 < prodZ ds /\ volume (ds ++ [T]) = (LCU * Z.to_nat T)%nat.
Proof.
  pose proof Hok as (_ & Hd & _). pose proof (ok_pos _ Hd) as P. apply Forall_app in P. destruct P as [P1 P2]. inversion P2; subst.
  pose proof (prodZ_pos _ P1). split; [assumption|]. split; [assumption|]. split; [assumption|]. unfold volume, LCU.
  rewrite lvolume_prod by assumption. rewrite prodZ_app. cbn [prodZ fold_right]. rewrite Z.mul_1_r, Z2Nat.inj_mul by lia. reflexivity.
Qed.
Lemma nbr_step : forall x mu, in_box (ds ++ [T]) x -> (mu < length (ds ++ [T]))%nat -> exists y, in_box (ds ++ [T]) y /\
  stepped (ds ++ [T]) x y mu 1 /\ nbr (lat (Z.to_nat (horner (ds ++ [T]) x))) mu = Z.to_nat (horner (ds ++ [T]) y).
Proof.
  intros x mu Hx Hm. pose proof (horner_bound _ _ Hx) as HB.
  destruct (neighbor_step (ds ++ [T]) (horner (ds ++ [T]) x) mu x Hok Hm Hx) as (j & y & E & Hj & Hy & Ey & St).
  { apply index_of_horner. now apply in_box_length. }
  exists y. split; [assumption|]. split; [assumption|].
  assert (L : (Z.to_nat (horner (ds ++ [T]) x) < volume (ds ++ [T]))%nat) by (unfold volume; rewrite lvolume_prod by assumption; lia).
  destruct (Nav _ mu L Hm) as [N _]. rewrite Z2Nat.id in N by lia. rewrite E in N. injection N as N.
  rewrite index_of_horner in Ey by (now apply in_box_length). lia.
Qed.
Lemma slice_coords : forall i t, (i < LCU)%nat -> (t < Z.to_nat T)%nat -> exists x, in_box ds x /\ in_box (ds ++ [T]) (x ++ [Z.of_nat t]) /\
  horner ds x = Z.of_nat i /\ Z.to_nat (horner (ds ++ [T]) (x ++ [Z.of_nat t])) = (LCU * t + i)%nat.
Proof.
  intros i t Hi Ht. destruct slice_dims as (P & PT & PP & _). exists (digits ds (Z.of_nat i)).
  pose proof (digits_in_box ds (Z.of_nat i) P) as B. assert (E : horner ds (digits ds (Z.of_nat i)) = Z.of_nat i) by (apply horner_digits; [assumption|unfold LCU in Hi; lia]).
  split; [assumption|]. split; [apply box_snoc; split; [assumption|lia]|]. split; [assumption|].
  rewrite horner_snoc by (now apply in_box_length). rewrite E. unfold LCU. nia.
Qed.
Lemma slice_space : forall i t mu, (i < LCU)%nat -> (t < Z.to_nat T)%nat -> (mu < length ds)%nat ->
  (nbr (lat i) mu < LCU)%nat /\ nbr (lat (LCU * t + i)%nat) mu = (LCU * t + nbr (lat i) mu)%nat.
Proof.
  intros i t mu Hi Ht Hm. destruct slice_dims as (P & PT & PP & _).
  assert (LL : length (ds ++ [T]) = S (length ds)) by (rewrite app_length; cbn; lia).
  destruct (slice_coords i t Hi Ht) as (x & Bx & Bt & Hx & Ht').
  destruct (slice_coords i 0%nat Hi) as (x' & Bx' & B0 & Hx' & H0'); [lia|].
  assert (x' = x) by (apply (horner_inj ds); congruence). subst x'. clear Bx' Hx'.
  destruct (nbr_step _ mu Bt ltac:(lia)) as (y & By & (Ly & Sy) & Ny). destruct (nbr_step _ mu B0 ltac:(lia)) as (z & Bz & (Lz & Sz) & Nz).
  rewrite Ht' in Ny. rewrite H0' in Nz. replace (LCU * 0 + i)%nat with i in Nz by lia.
  pose proof (in_box_length _ _ Bx) as Lx. rewrite app_length in Ly, Lz. cbn [length] in Ly, Lz.
  assert (Ey : y = firstn (length ds) y ++ [Z.of_nat t]).
  { apply list_snoc; [lia|]. rewrite Sy, (proj2 (Nat.eqb_neq (length ds) mu)) by lia. rewrite <- Lx, nth_error_app2, Nat.sub_diag by lia. reflexivity. }
  assert (Ez : z = firstn (length ds) z ++ [0]).
  { apply list_snoc; [lia|]. rewrite Sz, (proj2 (Nat.eqb_neq (length ds) mu)) by lia. rewrite <- Lx, nth_error_app2, Nat.sub_diag by lia. reflexivity. }
  assert (EE : firstn (length ds) y = firstn (length ds) z).
  { apply firstn_ext; [lia|lia|]. intros k Hk. rewrite Sy, Sz. rewrite !(nth_error_app1 x) by lia. reflexivity. }
  rewrite EE in Ey. set (w := firstn (length ds) z) in *. clearbody w. subst y z.
  apply box_snoc in Bz. destruct Bz as [Bw _]. pose proof (horner_bound _ _ Bw) as HB.
  rewrite !horner_snoc in * by (now apply in_box_length). rewrite Ny, Nz. unfold LCU. split; nia.
Qed.
Lemma slice_time : forall i t, (i < LCU)%nat -> (t < Z.to_nat T)%nat ->
  nbr (lat (LCU * t + i)%nat) (length ds) = (LCU * (if Nat.eqb (S t) (Z.to_nat T) then 0 else S t) + i)%nat.
Proof.
  intros i t Hi Ht. destruct slice_dims as (P & PT & PP & _).
  assert (LL : length (ds ++ [T]) = S (length ds)) by (rewrite app_length; cbn; lia).
  destruct (slice_coords i t Hi Ht) as (x & Bx & Bt & Hx & Ht').
  destruct (nbr_step _ (length ds) Bt ltac:(lia)) as (y & By & (Ly & Sy) & Ny). rewrite Ht' in Ny.
  pose proof (in_box_length _ _ Bx) as Lx. rewrite app_length in Ly. cbn [length] in Ly.
  set (t' := if Nat.eqb (S t) (Z.to_nat T) then 0%nat else S t).
  assert (Ey : y = x ++ [Z.of_nat t']).
  { rewrite (list_snoc y (length ds) (Z.of_nat t')); [f_equal|lia|].
    - transitivity (firstn (length ds) (x ++ [Z.of_nat t])); [|rewrite <- Lx, firstn_app, Nat.sub_diag, firstn_all; apply app_nil_r].
      apply firstn_ext; [lia|rewrite app_length; cbn; lia|]. intros k Hk. rewrite Sy, (proj2 (Nat.eqb_neq k (length ds))) by lia. reflexivity.
    - rewrite Sy, Nat.eqb_refl. rewrite <- Lx at 1. rewrite nth_error_app2, Nat.sub_diag by lia. cbn [nth_error].
      rewrite nth_error_app2, Nat.sub_diag by lia. cbn [nth_error]. f_equal. unfold t'.
      destruct (Nat.eqb_spec (S t) (Z.to_nat T)) as [Q|Q].
      + replace (Z.of_nat t + 1) with T by lia. apply Z.mod_same. lia.
      + rewrite Z.mod_small by lia. lia. }
  subst y. rewrite Ny, horner_snoc, Hx by assumption. unfold LCU. nia.
Qed.
End Slices.
Section GTS.
Variables (n ND LCU : nat) (tmp : arr) (gauge gauge_up : nat -> arr) (t : nat).
Definition slice_new (lat : lattice) (i m : nat) : arr :=
  gtransform_local n tmp (gauge i) (O (lat (LCU * t + i)%nat) m) (if Nat.ltb m (ND - 1) then gauge (nbr (lat i) m) else gauge_up i).
Definition gts_site (lat : lattice) (i : nat) : lattice :=
  let j := (LCU * t + i)%nat in
  let lat := for_ (ND - 1) (fun mu lat =>
      put lat j mu (gtransform_local n tmp (gauge i) (O (lat j) mu) (gauge (nbr (lat i) mu)))) lat in
    put lat j (ND-1) (gtransform_local n tmp (gauge i) (O (lat j) (ND-1)%nat) (gauge_up i)).
Lemma gts_site_spec : forall lat i, (0 < ND)%nat -> same_geom lat (gts_site lat i) /\
  forall j m, O (gts_site lat i j) m = if (Nat.eqb j (LCU * t + i) && Nat.ltb m ND)%bool then slice_new lat i m else O (lat j) m.
Proof.
  intros lat i HD. unfold gts_site. cbv zeta. set (J := (LCU * t + i)%nat).
  match goal with |- context [for_ ?m ?f lat] => assert (I : same_geom lat (for_ m f lat) /\
    forall j q, O (for_ m f lat j) q = if (Nat.eqb j J && Nat.ltb q m)%bool then slice_new lat i q else O (lat j) q) end.
  { apply (for_ind (fun k l => same_geom lat l /\ forall j m, O (l j) m = if (Nat.eqb j J && Nat.ltb m k)%bool then slice_new lat i m else O (lat j) m)).
    - split; [apply same_geom_refl|]. intros j m. now rewrite Bool.andb_false_r.
    - intros k l Hk [G H]. split; [eapply same_geom_trans; [exact G|apply put_geom]|].
      intros j m. rewrite O_put. destruct (Nat.eqb_spec j J) as [->|Nj]; cbn [andb]; [|rewrite H, (proj2 (Nat.eqb_neq j J) Nj); reflexivity].
      destruct (Nat.eqb_spec m k) as [->|Nm].
      + rewrite (proj2 (Nat.ltb_lt k (S k))) by lia. rewrite H, Nat.eqb_refl, (proj1 (G i)).
        rewrite (proj2 (Nat.ltb_ge k k)) by lia. cbn [andb]. unfold slice_new. rewrite (proj2 (Nat.ltb_lt k (ND-1))) by lia. reflexivity.
      + rewrite H, Nat.eqb_refl. cbn [andb]. destruct (Nat.ltb_spec m k) as [L|L].
        * now rewrite (proj2 (Nat.ltb_lt m (S k))) by lia.
        * now rewrite (proj2 (Nat.ltb_ge m (S k))) by lia. }
  destruct I as [G H]. split; [eapply same_geom_trans; [exact G|apply put_geom]|].
  intros j m. rewrite O_put. rewrite !H. destruct (Nat.eqb_spec j J) as [->|Nj]; cbn [andb]; [|reflexivity]. rewrite Nat.eqb_refl. cbn [andb].
  destruct (Nat.eqb_spec m (ND-1)) as [->|Nm].
  - rewrite (proj2 (Nat.ltb_lt (ND-1) ND)), (proj2 (Nat.ltb_ge (ND-1) (ND-1))) by lia. unfold slice_new.
    rewrite (proj2 (Nat.ltb_ge (ND-1) (ND-1))) by lia. reflexivity.
  - replace (Nat.ltb m ND) with (Nat.ltb m (ND-1)); [reflexivity|]. destruct (Nat.ltb_spec m (ND-1)), (Nat.ltb_spec m ND); lia || reflexivity.
Qed.
Lemma gtslice_spec : forall order lat, (0 < ND)%nat -> NoDup order -> same_geom lat (gtransform_slice n ND LCU tmp gauge gauge_up t order lat) /\
  forall j m, O (gtransform_slice n ND LCU tmp gauge gauge_up t order lat j) m =
    if (existsb (fun i => Nat.eqb j (LCU * t + i)) order && Nat.ltb m ND)%bool then slice_new lat (j - LCU * t) m else O (lat j) m.
Proof.
  unfold gtransform_slice. induction order as [|i r IH]; intros lat HD Nd.
  - split; [apply same_geom_refl|reflexivity].
  - inversion Nd as [|? ? Ni Nr]. subst. cbn [fold_left].
    match goal with |- context [fold_left ?f r ?x] => change x with (gts_site lat i) end.
    destruct (IH (gts_site lat i) HD Nr) as [G H]. destruct (gts_site_spec lat i HD) as [G1 H1].
    split; [eapply same_geom_trans; eassumption|].
    intros j m. rewrite H. cbn [existsb]. destruct (Nat.eqb_spec j (LCU*t+i)) as [->|Nj]; cbn [orb andb].
    + destruct (existsb (fun k => Nat.eqb (LCU*t+i) (LCU*t+k)) r) eqn:E.
      * exfalso. apply existsb_exists in E. destruct E as (x & X1 & X2). apply Nat.eqb_eq in X2. assert (x = i) by lia. now subst.
      * cbn [andb]. rewrite H1, Nat.eqb_refl. cbn [andb]. now replace (LCU*t+i-LCU*t)%nat with i by lia.
    + destruct (existsb (fun k => Nat.eqb j (LCU*t+k)) r && Nat.ltb m ND)%bool eqn:E.
      * apply andb_prop in E. destruct E as [E _]. apply existsb_exists in E. destruct E as (x & X1 & X2). apply Nat.eqb_eq in X2.
        unfold slice_new. rewrite H1. replace (LCU * t + (j - LCU*t))%nat with j by lia. rewrite (proj2 (Nat.eqb_neq _ _) Nj). cbn [andb].
        now rewrite (proj1 (G1 _)).
      * rewrite H1, (proj2 (Nat.eqb_neq _ _) Nj). reflexivity.
Qed.
End GTS.
(** the slices transformed one after the other, in any order of the slices and of
    the sites; the field of slice t is gauge t *)
Definition slice_transform (n ND LCU T : nat) (tmp : arr) (gauge : nat -> nat -> arr) (slices : list (nat * list nat)) (lat : lattice) : lattice :=
  fold_left (fun lat '(t, order) =>
    gtransform_slice n ND LCU tmp (gauge t) (gauge (if Nat.eqb (S t) T then 0 else S t)) t order lat) slices lat.
Lemma slice_transform_spec : forall n ND LCU T tmp gauge slices lat, (0 < ND)%nat -> NoDup (map fst slices) ->
  (forall t order, In (t, order) slices -> Permutation order (seq 0 LCU)) ->
  same_geom lat (slice_transform n ND LCU T tmp gauge slices lat) /\
  forall t i m, (i < LCU)%nat -> (m < ND)%nat -> O (slice_transform n ND LCU T tmp gauge slices lat (LCU * t + i)%nat) m =
    if existsb (Nat.eqb t) (map fst slices) then slice_new n ND LCU tmp (gauge t) (gauge (if Nat.eqb (S t) T then 0%nat else S t)) t lat i m else O (lat (LCU * t + i)%nat) m.
Proof.
  intros n ND LCU T tmp gauge slices. unfold slice_transform. induction slices as [|[s order] r IH]; intros lat HD Nd Hp.
  - split; [apply same_geom_refl|reflexivity].
  - cbn [map fst] in Nd. inversion Nd as [|? ? Ni Nr]. subst. cbn [fold_left].
    set (gu := gauge (if Nat.eqb (S s) T then 0%nat else S s)).
    assert (P : Permutation order (seq 0 LCU)) by (apply (Hp s); now left).
    destruct (gtslice_spec n ND LCU tmp (gauge s) gu s order lat HD) as [G1 H1].
    { apply (Permutation_NoDup (Permutation_sym P)), seq_NoDup. }
    destruct (IH (gtransform_slice n ND LCU tmp (gauge s) gu s order lat) HD Nr) as [G H]; [intros; eapply Hp; right; eassumption|].
    split; [eapply same_geom_trans; eassumption|]. intros t i m Hi Hm. rewrite H by assumption. cbn [map fst existsb].
    destruct (Nat.eqb_spec t s) as [->|Nt]; cbn [orb].
    + destruct (existsb (Nat.eqb s) (map fst r)) eqn:E.
      * exfalso. apply existsb_exists in E. destruct E as (x & X1 & X2). apply Nat.eqb_eq in X2. now subst.
      * rewrite H1. replace (existsb (fun k => Nat.eqb (LCU*s+i) (LCU*s+k)) order) with true.
        -- rewrite (proj2 (Nat.ltb_lt m ND) Hm). cbn [andb]. now replace (LCU*s+i-LCU*s)%nat with i by lia.
        -- symmetry. apply existsb_exists. exists i. split; [apply (Permutation_in i (Permutation_sym P)), in_seq; lia|apply Nat.eqb_refl].
    + assert (X : existsb (fun k => Nat.eqb (LCU*t+i) (LCU*s+k)) order = false).
      { destruct (existsb _ order) eqn:E; [|reflexivity]. exfalso. apply existsb_exists in E. destruct E as (k & X1 & X2). apply Nat.eqb_eq in X2.
        apply (Permutation_in k P), in_seq in X1. assert (t < s \/ s < t)%nat as [Q|Q] by lia.
        - assert (LCU * S t <= LCU * s)%nat by (apply Nat.mul_le_mono_l; lia). nia.
        - assert (LCU * S s <= LCU * t)%nat by (apply Nat.mul_le_mono_l; lia). nia. }
      destruct (existsb (Nat.eqb t) (map fst r)).
      * unfold slice_new. rewrite H1, X. cbn [andb]. now rewrite (proj1 (G1 i)).
      * rewrite H1, X. reflexivity.
Qed.
Lemma slice_transform_gauged : forall n ds T tmp gauge slices lat, GeomSpec.lattice_ok (ds ++ [T]) -> navig (ds ++ [T]) lat ->
  let LCU := Z.to_nat (GeomSpec.prodZ ds) in let ND := length (ds ++ [T]) in let V := volume (ds ++ [T]) in
  Permutation (map fst slices) (seq 0 (Z.to_nat T)) -> (forall t order, In (t, order) slices -> Permutation order (seq 0 LCU)) ->
  group_field n ND V lat -> (forall t i, (t < Z.to_nat T)%nat -> (i < LCU)%nat -> SUn n (mx n (gauge t i))) ->
  gauged n ND V (fun j => mx n (gauge (j / LCU)%nat (j mod LCU)%nat)) lat (slice_transform n ND LCU (Z.to_nat T) tmp gauge slices lat).
Proof.
  intros n ds T tmp gauge slices lat Hok Nav LCU ND V Ps Po F Gg.
  destruct (slice_dims ds T Hok) as (P & PT & PP & EV). fold LCU in EV. fold V in EV.
  assert (HD : ND = S (length ds)) by (unfold ND; rewrite app_length; cbn; lia).
  destruct (slice_transform_spec n ND LCU (Z.to_nat T) tmp gauge slices lat) as [G H]; [lia|apply (Permutation_NoDup (Permutation_sym Ps)), seq_NoDup|assumption|].
  split; [exact G|]. intros j mu Hj Hm.
  assert (HL : (0 < LCU)%nat) by (unfold LCU; lia).
  set (t := (j / LCU)%nat). set (i := (j mod LCU)%nat).
  assert (Hi : (i < LCU)%nat) by (apply Nat.mod_upper_bound; lia).
  assert (Ej : j = (LCU * t + i)%nat) by (apply Nat.div_mod; lia).
  assert (Ht : (t < Z.to_nat T)%nat) by (apply Nat.div_lt_upper_bound; lia).
  assert (DM : forall t' i', (i' < LCU)%nat -> ((LCU * t' + i') / LCU = t' /\ (LCU * t' + i') mod LCU = i')%nat).
  { intros t' i' Hi'. split; [rewrite Nat.mul_comm, Nat.div_add_l, Nat.div_small by lia; lia|].
    rewrite Nat.add_comm, Nat.mul_comm, Nat.mod_add by lia. now apply Nat.mod_small. }
  unfold lnk. rewrite Ej at 1. rewrite H by assumption.
  replace (existsb (Nat.eqb t) (map fst slices)) with true.
  2:{ symmetry. apply existsb_exists. exists t. split; [apply (Permutation_in t (Permutation_sym Ps)), in_seq; lia|apply Nat.eqb_refl]. }
  unfold slice_new. rewrite <- Ej.
  assert (Fj : SUn n (mx n (O (lat j) mu))) by (apply F; assumption).
  destruct (Nat.ltb_spec mu (ND-1)) as [Lm|Lm].
  - destruct (slice_space ds T lat Hok Nav i t mu Hi Ht ltac:(lia)) as [Ls Es]. fold LCU in Ls, Es. rewrite <- Ej in Es. rewrite Es.
    destruct (DM t (nbr (lat i) mu) Ls) as [-> ->]. apply gtransform_local_ok; [now apply Gg|assumption|now apply Gg].
  - assert (mu = length ds) by lia. subst mu.
    pose proof (slice_time ds T lat Hok Nav i t Hi Ht) as Es. fold LCU in Es. rewrite <- Ej in Es. rewrite Es.
    match goal with |- context [(LCU * ?s + i)%nat] => destruct (DM s i Hi) as [-> ->] end.
    apply gtransform_local_ok; [now apply Gg|assumption|apply Gg; [|assumption]].
    destruct (Nat.eqb_spec (S t) (Z.to_nat T)); lia.
Qed.

(** * init_navig *)
Lemma init_navig_ok : forall ds links, GeomSpec.lattice_ok ds -> navig ds (init_navig ds links).
Proof.
  intros ds links Hok i mu Hi Hm.
  destruct (GeomProofs2.index_coords ds (Z.of_nat i) Hok) as (x & Hx & E); [unfold volume in Hi; lia|].
  destruct (GeomProofs.neighbor_step ds _ mu x Hok Hm Hx E) as (j & y & Ej & Hj & _).
  destruct (GeomProofs.back_step ds _ mu x Hok Hm Hx E) as (k & z & Ek & Hk & _).
  cbn. rewrite Ej, Ek. rewrite !Z2Nat.id by lia. now split.
Qed.
Lemma or_rotation_none : forall s0 s1 rng p, or_rotation s0 s1 rng p = None <-> s0 = C0 /\ s1 = C0.
Proof.
  intros [a b] [c d] rng p. unfold or_rotation, OrRotation. cbn [re im fst snd].
  assert (Z : (a*a + b*b + c*c + d*d = 0)%R <-> (a, b) = C0 /\ (c, d) = C0).
  { split.
    - intro H. assert (a = 0 /\ b = 0 /\ c = 0 /\ d = 0)%R as (-> & -> & -> & ->) by (repeat split; nra). now split.
    - intros [H1 H2]. injection H1 as -> ->. injection H2 as -> ->. ring. }
  rewrite <- Z. destruct (Rlt_dec rng p).
  - destruct (Req_EM_T _ 0) as [E|N]; [split; [intros _; lra|reflexivity]|].
    split; [|intro H; exfalso; apply N; lra].
    set (x := (_ / _)%R). destruct (Req_EM_T _ 0) as [E|N2]; [|discriminate]. intros _. exfalso.
    set (asq := (b*b + c*c + d*d)%R) in *. assert (Q : (0 <= asq)%R) by (unfold asq; nra).
    assert (X : (1 <= x)%R).
    { unfold x. apply (Rmult_le_reg_r (a*a + asq)); [nra|]. unfold Rdiv. rewrite Rmult_assoc, Rinv_l by assumption. nra. }
    assert (P : (0 <= a*a + x*x*asq)%R) by (assert (0 <= x*x)%R by nra; nra).
    apply sqrt_eq_0 in E; [|assumption]. assert (1 <= x*x)%R by nra. apply N. nra.
  - destruct (Req_EM_T _ 0) as [E|N]; [split; [intros _; lra|reflexivity]|]. split; [discriminate|]. intro; contradiction.
Qed.
