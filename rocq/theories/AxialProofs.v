(** Proofs about the axial gauges: the maximal tree. *)
From Coq Require Import PeanoNat Lia List ZArith Reals Lra Permutation Setoid Morphisms.
From Verif Require Import CMat Det Arr MatSpec MmulModel MmulProofs MatModel MatProofs MatProofs2 Su2Model Su2Proofs GramModel GramProofs FieldModel FieldProofs FieldProofs2 AxialModel.
From Verif Require GeomModel GeomSpec GeomProofs GeomProofs2 CInt.
Import ListNotations.

(** * Specification *)
(** the ordered product of the first k links met from site i in direction mu *)
Fixpoint path (n : nat) (lat : lattice) (mu k i : nat) : mat :=
  match k with 0 => mid | S k => mmul n (path n lat mu k i) (lnk n lat (steps lat mu k i) mu) end.

(** * Positions along a line *)
Section Geo.
Local Open Scope Z_scope.
Import CInt GeomModel GeomSpec GeomProofs.
Lemma horner_app : forall d1 x1 d2 x2, length x1 = length d1 -> horner (d1 ++ d2) (x1 ++ x2) = horner d1 x1 + prodZ d1 * horner d2 x2.
Proof.
  induction d1 as [|d d1 IH]; intros [|a x1] d2 x2 H; try discriminate; cbn [app horner].
  - unfold prodZ. cbn [fold_right]. ring.
  - rewrite IH by (cbn in H; lia). rewrite prodZ_cons. ring.
Qed.
Lemma box_app : forall d1 x1 d2 x2, in_box d1 x1 -> in_box d2 x2 -> in_box (d1 ++ d2) (x1 ++ x2).
Proof. intros. now apply Forall2_app. Qed.
Lemma box_split : forall d1 L d2 x, in_box (d1 ++ L :: d2) x -> exists x1 c x2, x = x1 ++ c :: x2 /\ in_box d1 x1 /\ 0 <= c < L /\ in_box d2 x2.
Proof.
  intros d1 L d2 x H. apply Forall2_app_inv_l in H. destruct H as (x1 & x' & H1 & H2 & ->).
  inversion H2; subst. exists x1, y, l'. repeat split; try assumption; lia.
Qed.
Lemma stepped_middle : forall d1 L d2 x1 c x2 y, length x1 = length d1 -> length x2 = length d2 ->
  stepped (d1 ++ L :: d2) (x1 ++ c :: x2) y (length d1) 1 -> y = x1 ++ ((c + 1) mod L) :: x2.
Proof.
  intros d1 L d2 x1 c x2 y L1 L2 [Ly H]. apply nth_error_ext_Z. intro k. rewrite H.
  destruct (Nat.eqb_spec k (length d1)) as [->|N].
  - rewrite !nth_error_app2 by lia. rewrite L1, Nat.sub_diag. reflexivity.
  - destruct (Nat.lt_ge_cases k (length d1)) as [K|K].
    + rewrite !nth_error_app1 by lia. reflexivity.
    + rewrite !nth_error_app2 by lia. destruct (k - length x1)%nat eqn:Q; [lia|reflexivity].
Qed.
Lemma nbr_index : forall d1 L d2 lat, let ds := d1 ++ L :: d2 in let sv := Z.to_nat (prodZ d1) in
  lattice_ok ds -> navig ds lat -> forall a c b, (a < sv)%nat -> (c < Z.to_nat L)%nat -> (a + sv * (c + Z.to_nat L * b) < volume ds)%nat ->
  nbr (lat (a + sv * (c + Z.to_nat L * b))%nat) (length d1) =
  (a + sv * ((if Nat.eqb (S c) (Z.to_nat L) then 0 else S c) + Z.to_nat L * b))%nat.
Proof.
  intros d1 L d2 lat ds sv Hok Nav a c b Ha Hc Hj. pose proof Hok as (_ & Hd & _). pose proof (ok_pos _ Hd) as P.
  apply Forall_app in P. destruct P as [P1 P2]. inversion P2 as [|? ? PL P3]; subst. pose proof (prodZ_pos _ P1). pose proof (prodZ_pos _ P3).
  assert (EV : Z.of_nat (volume ds) = prodZ d1 * (L * prodZ d2)).
  { unfold volume. rewrite lvolume_prod by assumption. unfold ds. rewrite prodZ_app, prodZ_cons. nia. }
  assert (Hb : Z.of_nat b < prodZ d2).
  { apply inj_lt in Hj. rewrite EV, Nat2Z.inj_add, Nat2Z.inj_mul, Nat2Z.inj_add, Nat2Z.inj_mul in Hj. unfold sv in Hj. rewrite !Z2Nat.id in Hj by lia.
    clear - Hj PL H H0. apply Z.nle_gt. intro K. nia. }
  assert (Bx : in_box ds (digits d1 (Z.of_nat a) ++ Z.of_nat c :: digits d2 (Z.of_nat b))).
  { apply box_app; [now apply digits_in_box|]. constructor; [lia|]. now apply digits_in_box. }
  assert (Ex : forall c', horner ds (digits d1 (Z.of_nat a) ++ Z.of_nat c' :: digits d2 (Z.of_nat b)) = Z.of_nat (a + sv * (c' + Z.to_nat L * b))).
  { intro c'. unfold ds. rewrite horner_app by apply digits_length. cbn [horner]. rewrite !horner_digits by (try assumption; unfold sv in Ha; lia).
    rewrite Nat2Z.inj_add, Nat2Z.inj_mul, Nat2Z.inj_add, Nat2Z.inj_mul. unfold sv. rewrite !Z2Nat.id by lia. ring. }
  assert (Hm : (length d1 < length ds)%nat) by (unfold ds; rewrite app_length; cbn; lia).
  destruct (neighbor_step ds (Z.of_nat (a + sv * (c + Z.to_nat L * b))) (length d1) _ Hok Hm Bx) as (j & y & E & Hj' & Hy & Ey & St).
  { rewrite index_of_horner by (now apply in_box_length). apply Ex. }
  destruct (Nav _ (length d1) Hj Hm) as [N _]. rewrite E in N. injection N as N.
  apply stepped_middle in St; try apply digits_length. subst y.
  rewrite index_of_horner in Ey by (now apply in_box_length).
  replace ((Z.of_nat c + 1) mod L) with (Z.of_nat (if Nat.eqb (S c) (Z.to_nat L) then 0 else S c)) in Ey.
  - rewrite Ex in Ey. lia.
  - destruct (Nat.eqb_spec (S c) (Z.to_nat L)) as [Q|Q].
    + replace (Z.of_nat c + 1) with L by lia. now rewrite Z.mod_same by lia.
    + rewrite Z.mod_small by lia. lia.
Qed.
Lemma index_split : forall d1 L d2 x1 c x2, length x1 = length d1 -> length x2 = length d2 ->
  index_of (d1 ++ L :: d2) (x1 ++ c :: x2) = horner d1 x1 + prodZ d1 * (c + L * horner d2 x2).
Proof. intros. rewrite index_of_horner by (rewrite !app_length; cbn; lia). rewrite horner_app by assumption. reflexivity. Qed.
End Geo.

(** * gauge_set *)
Lemma path_group : forall n ND V lat mu k i, geom_ok ND V lat -> group_field n ND V lat -> (i < V)%nat -> (mu < ND)%nat -> SUn n (path n lat mu k i).
Proof.
  intros n ND V lat mu k i Geo F Hi Hm. induction k; cbn [path]; [apply SUn_mid|].
  apply SUn_mmul; [assumption|]. apply F; [|assumption]. now apply (steps_lt ND V lat Geo).
Qed.
Section Pos.
Variables (sv L : nat).
Definition pos (a c b : nat) : nat := (a + sv * (c + L * b))%nat.
Lemma pos_inj : forall a c b a' c' b', (0 < sv)%nat -> (0 < L)%nat -> (a < sv)%nat -> (a' < sv)%nat -> (c < L)%nat -> (c' < L)%nat ->
  pos a c b = pos a' c' b' -> a = a' /\ c = c' /\ b = b'.
Proof.
  intros a c b a' c' b' Hsv HL Ha Ha' Hc Hc' E. unfold pos in E.
  assert (E1 : (c + L * b = c' + L * b')%nat).
  { rewrite (Nat.div_unique (a + sv * (c + L*b)) sv (c + L*b) a) by lia. rewrite E. symmetry. apply (Nat.div_unique _ _ _ a'); lia. }
  assert (a = a') by (rewrite E1 in E; lia).
  assert (b = b').
  { rewrite (Nat.div_unique (c + L*b) L b c) by lia. rewrite E1. symmetry. apply (Nat.div_unique _ _ _ c'); lia. }
  subst. lia.
Qed.
Lemma pos_all : (0 < sv)%nat -> (0 < L)%nat -> forall j, exists a c b, (a < sv)%nat /\ (c < L)%nat /\ j = pos a c b.
Proof.
  intros Hsv HL j. exists (j mod sv)%nat, ((j / sv) mod L)%nat, (j / sv / L)%nat.
  split; [apply Nat.mod_upper_bound; lia|]. split; [apply Nat.mod_upper_bound; lia|]. unfold pos.
  pose proof (Nat.div_mod j sv ltac:(lia)). pose proof (Nat.div_mod (j / sv) L ltac:(lia)). lia.
Qed.
End Pos.
Section Lines.
Variables (n ND V sv L mu : nat) (lat : lattice).
Hypotheses (Geo : geom_ok ND V lat) (F : group_field n ND V lat) (Hmu : (mu < ND)%nat) (Hsv : (0 < sv)%nat) (HL : (0 < L)%nat).
Local Notation pos := (pos sv L).
Hypothesis Nx : forall a c b, (a < sv)%nat -> (c < L)%nat -> (pos a c b < V)%nat -> nbr (lat (pos a c b)) mu = pos a (if Nat.eqb (S c) L then 0 else S c) b.
Lemma pos_steps : forall a b k, (a < sv)%nat -> (pos a 0 b < V)%nat -> (k < L)%nat -> steps lat mu k (pos a 0 b) = pos a k b /\ (pos a k b < V)%nat.
Proof.
  intros a b k Ha Hj. induction k; intro Hk; [now split|]. destruct IHk as [E B]; [lia|]. cbn [steps].
  rewrite E, Nx by (try assumption; lia). destruct (Nat.eqb_spec (S k) L) as [Q|Q]; [lia|]. split; [reflexivity|].
  pose proof (g_nbr _ _ _ Geo _ mu B Hmu) as G. rewrite Nx in G by (try assumption; lia). destruct (Nat.eqb_spec (S k) L) as [Q'|_]; [lia|exact G].
Qed.
Lemma pos_lt : forall a c b, (a < sv)%nat -> (pos a c b < V)%nat -> (pos a 0 b < V)%nat.
Proof. intros. unfold pos in *. nia. Qed.
Definition line_set (a b : nat) (g' g : nat -> arr) : Prop :=
  (forall c, (c < L)%nat -> meq n (mx n (g' (pos a c b))) (path n lat mu c (pos a 0 b))) /\
  (forall j, (forall c, (c < L)%nat -> j <> pos a c b) -> g' j = g j).
Lemma gauge_set_ok : forall a b g, (a < sv)%nat -> (pos a 0 b < V)%nat -> line_set a b (gauge_set n L lat mu (pos a 0 b) g) g.
Proof.
  intros a b g Ha Hi. unfold gauge_set.
  match goal with |- context [for_ ?m ?f ?x] => pose proof (for_ind (fun k st => snd (fst st) = pos a k b /\ snd st = nbr (lat (pos a k b)) mu /\
     (forall c, (c <= k)%nat -> meq n (mx n (fst (fst st) (pos a c b))) (path n lat mu c (pos a 0 b))) /\
     (forall j, (forall c, (c < L)%nat -> j <> pos a c b) -> fst (fst st) j = g j)) m f x) as I end.
  destruct I as (_ & _ & I1 & I2); [| |split; [intros c Hc; apply I1; lia|exact I2]].
  - cbn [fst snd]. split; [reflexivity|]. split; [reflexivity|]. split.
    + intros c Hc. replace c with 0%nat by lia. unfold gset. rewrite Nat.eqb_refl. cbn [path]. apply (identity_ok n).
    + intros j Hj. unfold gset. rewrite (proj2 (Nat.eqb_neq j _)); [reflexivity|]. apply Hj. lia.
  - intros k [[g1 lf] nx] Hk (E1 & E2 & I1 & I2). cbn [fst snd] in *. subst lf nx.
    destruct (pos_steps a b k Ha Hi ltac:(lia)) as [Sk Bk].
    rewrite Nx by (try assumption; lia). destruct (Nat.eqb_spec (S k) L) as [Q|_]; [lia|].
    split; [reflexivity|]. split; [reflexivity|]. split.
    + intros c Hc. unfold gset. destruct (Nat.eqb_spec (pos a c b) (pos a (S k) b)) as [Q|Q].
      * apply pos_inj in Q; try lia. destruct Q as (_ & -> & _). cbn [path]. rewrite Sk.
        assert (G : SUn n (mx n (g1 (pos a k b)))) by (eapply SUn_ext; [symmetry; apply I1; lia|]; now apply (path_group n ND V)).
        destruct (multab_suNC_ok n (g1 (pos a (S k) b)) (g1 (pos a k b)) (O (lat (pos a k b)) mu) G) as [M _]; [now apply F|].
        rewrite M, (I1 k) by lia. reflexivity.
      * apply I1. destruct (Nat.eq_dec c (S k)); [subst; congruence|lia].
    + intros j Hj. unfold gset. rewrite (proj2 (Nat.eqb_neq j _)); [now apply I2|]. apply Hj. lia.
Qed.
(** any number of lines, in any order *)
Lemma gauge_sets_ok : forall l g, (forall i, In i l -> exists a b, (a < sv)%nat /\ (pos a 0 b < V)%nat /\ i = pos a 0 b) ->
  let g' := fold_left (fun g i => gauge_set n L lat mu i g) l g in
  (forall a b c, (a < sv)%nat -> In (pos a 0 b) l -> (c < L)%nat -> meq n (mx n (g' (pos a c b))) (path n lat mu c (pos a 0 b))) /\
  (forall j, (forall a b c, (a < sv)%nat -> In (pos a 0 b) l -> (c < L)%nat -> j <> pos a c b) -> g' j = g j).
Proof.
  induction l as [|i l IH] using rev_ind; intros g Hl; cbn zeta.
  - cbn [fold_left]. split; [intros a b c _ []|reflexivity].
  - rewrite fold_left_app. cbn [fold_left].
    destruct (IH g) as [I1 I2]; [intros j Hj; apply Hl, in_or_app; now left|].
    destruct (Hl i) as (a0 & b0 & Ha0 & Hi0 & ->); [apply in_or_app; right; now left|].
    destruct (gauge_set_ok a0 b0 (fold_left (fun g i => gauge_set n L lat mu i g) l g) Ha0 Hi0) as [S1 S2]. split.
    + intros a b c Ha Hin Hc. destruct (Nat.eq_dec a a0) as [->|Na]; [destruct (Nat.eq_dec b b0) as [->|Nb]|].
      * now apply S1.
      * rewrite S2; [apply I1; try assumption|].
        -- apply in_app_or in Hin. destruct Hin as [?|[Q|[]]]; [assumption|]. apply pos_inj in Q; try lia.
        -- intros c' Hc' Q. apply pos_inj in Q; try lia.
      * rewrite S2; [apply I1; try assumption|].
        -- apply in_app_or in Hin. destruct Hin as [?|[Q|[]]]; [assumption|]. apply pos_inj in Q; try lia.
        -- intros c' Hc' Q. apply pos_inj in Q; try lia.
    + intros j Hj. rewrite S2; [apply I2|].
      * intros a b c Ha Hin Hc. apply Hj; try assumption. apply in_or_app. now left.
      * intros c Hc. apply Hj; try assumption. apply in_or_app. right. now left.
Qed.
(** the links of a transformed line *)
Lemma line_trivial : forall g lat' a b c, gauged n ND V g lat lat' -> (a < sv)%nat -> (pos a 0 b < V)%nat ->
  (forall c, (c < L)%nat -> meq n (g (pos a c b)) (path n lat mu c (pos a 0 b))) -> (c < L)%nat ->
  meq n (lnk n lat' (pos a c b) mu) (if Nat.eqb (S c) L then path n lat mu L (pos a 0 b) else mid).
Proof.
  intros g lat' a b c [_ Ga] Ha Hi G Hc. destruct (pos_steps a b c Ha Hi Hc) as [Sc Bc].
  rewrite Ga, Nx by assumption. destruct (Nat.eqb_spec (S c) L) as [Q|Q].
  - rewrite !G by lia. replace (path n lat mu L (pos a 0 b)) with (path n lat mu (S c) (pos a 0 b)) by now rewrite Q. cbn [path]. rewrite Sc, dag_mid, mmul_1_r. reflexivity.
  - rewrite !G by lia. cbn [path]. rewrite Sc.
    assert (U : SUn n (mmul n (path n lat mu c (pos a 0 b)) (lnk n lat (pos a c b) mu))).
    { apply SUn_mmul; [now apply (path_group n ND V)|now apply F]. }
    destruct U as [[U _] _]. exact U.
Qed.
End Lines.
