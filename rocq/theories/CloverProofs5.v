(** The field strength is gauge covariant, antisymmetric and Hermitian. *)
From Coq Require Import PeanoNat Lia List ZArith Reals Lra Setoid Morphisms Permutation.
From Verif Require Import CMat Det Arr MatSpec MmulModel MmulProofs MatModel MatProofs MatProofs2 Su2Model Su2Proofs FieldModel FieldProofs FieldProofs2 FieldProofs3 ProjModel ProjProofs CloverModel CloverProofs CloverProofs2 CloverProofs3 CloverProofs4.
Import ListNotations.
Local Open Scope C_scope.

(** * The rectangles are closed *)
Section closed.
Variables (ND V : nat) (lat : lattice) (i mu nu : nat).
Hypothesis Geo : geom_ok ND V lat.
Hypothesis Hi : (i < V)%nat.
Hypothesis Hmu : (mu < ND)%nat.
Hypothesis Hnu : (nu < ND)%nat.
Let A := at_ lat i mu nu.
Lemma go_mu : forall f k a b, arrive lat (A a b) (repeat (f, mu) k) = A (if f then a + Z.of_nat k else a - Z.of_nat k)%Z b.
Proof.
  intros f k. induction k as [|k IH]; intros a b; [cbn; f_equal; destruct f; lia|]. cbn [repeat arrive]. unfold move. cbn [fst snd].
  destruct f.
  - unfold A. rewrite (nbr_mu ND V) by assumption. fold A. rewrite IH. f_equal. lia.
  - unfold A. rewrite (bck_mu ND V) by assumption. fold A. rewrite IH. f_equal. lia.
Qed.
Lemma go_nu : forall f k a b, arrive lat (A a b) (repeat (f, nu) k) = A a (if f then b + Z.of_nat k else b - Z.of_nat k)%Z.
Proof.
  intros f k. induction k as [|k IH]; intros a b; [cbn; f_equal; destruct f; lia|]. cbn [repeat arrive]. unfold move. cbn [fst snd].
  destruct f.
  - unfold A. rewrite (nbr_nu ND V) by assumption. fold A. rewrite IH. f_equal. lia.
  - unfold A. rewrite (bck_nu ND V) by assumption. fold A. rewrite IH. f_equal. lia.
Qed.
Lemma rect_closed : forall f g a b, arrive lat i (rectangle (f, mu) (g, nu) a b) = i /\ arrive lat i (rectangle (g, nu) (f, mu) a b) = i.
Proof.
  intros f g a b. change i with (A 0 0) at 1 3. change i with (A 0 0). unfold rectangle, back. cbn [fst snd].
  rewrite !arrive_app. split; repeat (rewrite go_mu || rewrite go_nu); f_equal; destruct f, g; cbn [negb]; lia.
Qed.
Lemma quadrant_closed : forall k a b, arrive lat i (quadrant k mu nu a b) = i.
Proof. intros k a b. destruct k as [|[|[|[|k]]]]; apply rect_closed. Qed.
End closed.

(** * Gauge covariance *)
Section gauge.
Variables (n ND V : nat) (lat lat' : lattice) (g : nat -> mat).
Hypothesis Geo : geom_ok ND V lat.
Hypothesis Gau : gauged n ND V g lat lat'.
Hypothesis Uni : forall i, (i < V)%nat -> unitary n (g i).
Lemma hop_gauged : forall i s, (i < V)%nat -> (snd s < ND)%nat ->
  meq n (hop n lat' i s) (mmul n (mmul n (g i) (hop n lat i s)) (dag (g (move lat i s)))).
Proof.
  destruct Gau as [Same G]. intros i [[] d] Hi Hd; unfold hop, move; cbn [fst snd] in *; [now apply G|].
  destruct (Same i) as [_ ->]. pose proof (g_bck _ _ _ Geo i d Hi Hd) as L.
  rewrite (G _ d L Hd), (g_nb _ _ _ Geo) by assumption. rewrite !dag_mmul, dag_dag. now rewrite !mmul_assoc.
Qed.
Lemma walk_gauged : forall p i, (i < V)%nat -> good ND p ->
  meq n (walk n lat' i p) (mmul n (mmul n (g i) (walk n lat i p)) (dag (g (arrive lat i p)))).
Proof.
  induction p as [|s p IH]; intros i Hi Gd.
  - cbn [walk arrive]. rewrite mmul_1_r. destruct (Uni i Hi) as [U1 U2]. now symmetry.
  - apply good_cons in Gd as [Hs Gd]. cbn [walk arrive].
    assert (M : move lat' i s = move lat i s). { destruct Gau as [Same _]. unfold move. destruct (Same i) as [-> ->]. reflexivity. }
    rewrite M, hop_gauged by assumption. pose proof (move_lt ND V lat Geo i s Hi Hs) as L.
    rewrite (IH (move lat i s) L Gd). rewrite !mmul_assoc.
    now rewrite (unitary_cancel_l n (g (move lat i s)) _ (Uni _ L)).
Qed.
End gauge.
Section gauge2.
Variables (n V : nat) (lat lat' : lattice) (g : nat -> mat).
Hypothesis Geo : geom_ok 4 V lat.
Hypothesis Gau : gauged n 4 V g lat lat'.
Hypothesis Uni : forall i, (i < V)%nat -> unitary n (g i).
Definition conjugated (U A : mat) : mat := mmul n (mmul n U A) (dag U).
Lemma conj_add_m : forall U A B, meq n (conjugated U (madd A B)) (madd (conjugated U A) (conjugated U B)).
Proof. intros. unfold conjugated. now rewrite mmul_add_r, mmul_add_l. Qed.
Lemma conj_sub_m : forall U A B, meq n (conjugated U (msub A B)) (msub (conjugated U A) (conjugated U B)).
Proof. intros. unfold conjugated. now rewrite mmul_sub_r, mmul_sub_l. Qed.
Lemma conj_scale_m : forall U c A, meq n (conjugated U (mscale c A)) (mscale c (conjugated U A)).
Proof. intros. unfold conjugated. now rewrite mmul_scale_r, mmul_scale_l. Qed.
Lemma conj_dag_m : forall U A, meq n (conjugated U (dag A)) (dag (conjugated U A)).
Proof. intros. unfold conjugated. rewrite !dag_mmul, dag_dag. now rewrite !mmul_assoc. Qed.
Lemma conj_mid_m : forall U, unitary n U -> meq n (conjugated U mid) mid.
Proof. intros U [H1 H2]. unfold conjugated. now rewrite mmul_1_r. Qed.
Lemma conj_ext_m : forall U A B, meq n A B -> meq n (conjugated U A) (conjugated U B).
Proof. intros U A B E. unfold conjugated. now rewrite E. Qed.
Lemma conj_tr : forall U A, unitary n U -> mtr n (conjugated U A) = mtr n A.
Proof. intros U A H. unfold conjugated. rewrite mtr_cyc. rewrite unitary_cancel_l by assumption. reflexivity. Qed.
Lemma conj_mmul_m : forall U A B, unitary n U -> meq n (mmul n (conjugated U A) (conjugated U B)) (conjugated U (mmul n A B)).
Proof. intros U A B H. unfold conjugated. rewrite !mmul_assoc. now rewrite (unitary_cancel_l n U) by assumption. Qed.
Lemma loops_gauged : forall i mu nu l, (i < V)%nat -> (mu < 4)%nat -> (nu < 4)%nat ->
  meq n (loops_sum n lat' i mu nu l) (conjugated (g i) (loops_sum n lat i mu nu l)).
Proof.
  intros i mu nu l Hi Hm Hn'. induction l as [|[[[x k] a] c] l IH]; cbn [loops_sum].
  - unfold conjugated. intros p q Hp Hq. unfold mmul, mzero. rewrite (csum_ext n _ (fun _ => C0)), csum_0; [reflexivity|].
    intros j Hj. rewrite (csum_ext n _ (fun _ => C0)), csum_0; [ring|]. intros; ring.
  - rewrite conj_add_m, conj_scale_m, IH. unfold conjugated at 3.
    rewrite (walk_gauged n 4%nat V lat lat' g Geo Gau Uni _ i Hi (good_quadrant k mu nu a c Hm Hn')).
    now rewrite (quadrant_closed 4%nat V lat i mu nu Geo Hi Hm Hn').
Qed.
Lemma strength_gauged : forall b i mu nu, (i < V)%nat -> (mu < 4)%nat -> (nu < 4)%nat ->
  meq n (strength n lat' b i mu nu) (conjugated (g i) (strength n lat b i mu nu)).
Proof.
  intros b i mu nu Hi Hm Hn'. unfold strength. pose proof (loops_gauged i mu nu (loops b) Hi Hm Hn') as E.
  set (L := loops_sum n lat i mu nu (loops b)) in *. set (L' := loops_sum n lat' i mu nu (loops b)) in *.
  assert (H : meq n (herm L') (conjugated (g i) (herm L))).
  { unfold herm, aherm. rewrite E. rewrite !conj_scale_m, conj_sub_m, conj_dag_m. reflexivity. }
  assert (T : mtr n (herm L') = mtr n (herm L)). { rewrite H. apply conj_tr. now apply Uni. }
  unfold trf. rewrite conj_sub_m, conj_scale_m, conj_mid_m by now apply Uni. now rewrite T, H.
Qed.
Lemma pair_trace_gauged : forall b i m1 n1 m2 n2, (i < V)%nat -> (m1 < 4)%nat -> (n1 < 4)%nat -> (m2 < 4)%nat -> (n2 < 4)%nat ->
  pair_trace n lat' b i m1 n1 m2 n2 = pair_trace n lat b i m1 n1 m2 n2.
Proof.
  intros. unfold pair_trace. rewrite !strength_gauged by assumption. rewrite conj_mmul_m by now apply Uni. apply conj_tr. now apply Uni.
Qed.
Lemma plaq_trace_gauged : forall i mu nu, (i < V)%nat -> (mu < 4)%nat -> (nu < 4)%nat ->
  mtr n (walk n lat' i (quadrant 1 mu nu 1 1)) = mtr n (walk n lat i (quadrant 1 mu nu 1 1)).
Proof.
  intros i mu nu Hi Hm Hn'. rewrite (walk_gauged n 4%nat V lat lat' g Geo Gau Uni _ i Hi (good_quadrant 1 mu nu 1 1 Hm Hn')).
  rewrite (quadrant_closed 4%nat V lat i mu nu Geo Hi Hm Hn'). apply conj_tr. now apply Uni.
Qed.
End gauge2.

(** * Antisymmetry *)
Lemma turn_repeat : forall s k, turn (repeat s k) = repeat (back s) k.
Proof.
  intros s k. unfold turn. induction k as [|k IH]; [reflexivity|]. cbn [repeat map rev]. rewrite IH.
  clear IH. induction k; [reflexivity|]. cbn [repeat app]. now rewrite IHk.
Qed.
Lemma turn_app : forall p q, turn (p ++ q) = turn q ++ turn p.
Proof. intros. unfold turn. now rewrite map_app, rev_app_distr. Qed.
Lemma back_back : forall s, back (back s) = s.
Proof. intros [[] d]; reflexivity. Qed.
Lemma turn_rect : forall x y a b, turn (rectangle x y a b) = rectangle y x b a.
Proof. intros. unfold rectangle. rewrite !turn_app, !turn_repeat, !back_back. now rewrite !app_assoc. Qed.
(** the quadrant seen with mu and nu exchanged *)
Definition mirror (k : nat) : nat := match k with 1 => 1 | 2 => 4 | 3 => 3 | _ => 2 end%nat.
Lemma turn_quadrant : forall k mu nu a b, (1 <= k <= 4)%nat -> turn (quadrant k mu nu a b) = quadrant (mirror k) nu mu b a.
Proof.
  intros k mu nu a b Hk. assert (k = 1 \/ k = 2 \/ k = 3 \/ k = 4)%nat as [-> |[-> |[-> | ->]]] by lia; apply turn_rect.
Qed.
Section anti.
Variables (n V : nat) (lat : lattice).
Hypothesis Geo : geom_ok 4 V lat.
Hypothesis Grp : group_field n 4 V lat.
Definition mirrored (x : loop) : loop := let '(w, k, a, b) := x in (w, mirror k, b, a).
Lemma mirror_sum : forall i mu nu l, (i < V)%nat -> (mu < 4)%nat -> (nu < 4)%nat -> (forall w k a b, In (w, k, a, b) l -> (1 <= k <= 4)%nat) ->
  meq n (loops_sum n lat i nu mu (map mirrored l)) (dag (loops_sum n lat i mu nu l)).
Proof.
  intros i mu nu l Hi Hm Hn'. induction l as [|[[[x k] a] c] l IH]; intro K; cbn [map mirrored loops_sum].
  - intros p q _ _. unfold dag, mzero. cring.
  - rewrite IH by (intros w0 k0 a0 b0 H; apply (K w0 k0 a0 b0); now right).
    rewrite <- turn_quadrant by (apply (K x k a c); now left).
    rewrite dag_add, dag_scale.
    replace (conj (RtoC x)) with (RtoC x) by (apply C_eq; cunfold; ring).
    pose proof (turn_ok n 4%nat V lat Geo (quadrant k mu nu a c) i Hi (good_quadrant k mu nu a c Hm Hn')) as [_ T].
    rewrite (quadrant_closed 4%nat V lat i mu nu Geo Hi Hm Hn') in T. now rewrite T.
Qed.
Lemma perm_sum : forall i mu nu l l', Permutation l l' -> meq n (loops_sum n lat i mu nu l) (loops_sum n lat i mu nu l').
Proof.
  intros i mu nu l l' P. induction P as [|[[[x k] a] c] l l' P IH|[[[x k] a] c] [[[x' k'] a'] c'] l|]; cbn [loops_sum].
  - reflexivity.
  - now rewrite IH.
  - intros p q _ _. unfold madd. ring.
  - now rewrite IHP1.
Qed.
Lemma cells_mirror : forall k w, Permutation (map mirrored (cells k w)) (cells (mirror k) w).
Proof.
  intros k w. unfold cells. cbn [map mirrored].
  apply perm_skip, perm_skip. etransitivity; [apply perm_swap|]. apply perm_skip, perm_skip.
  etransitivity; [apply perm_swap|]. reflexivity.
Qed.
Lemma loops_mirror : forall b, Permutation (map mirrored (loops b)) (loops b).
Proof.
  assert (K : forall w, Permutation (map mirrored (cells 1 w ++ cells 2 w ++ cells 3 w ++ cells 4 w)) (cells 1 w ++ cells 2 w ++ cells 3 w ++ cells 4 w)).
  { intro w. rewrite !map_app. rewrite !cells_mirror. cbn [mirror]. apply Permutation_app_head.
    rewrite (Permutation_app_comm (cells 4 w)). rewrite <- app_assoc. rewrite (Permutation_app_comm (cells 3 w)).
    rewrite <- app_assoc. apply Permutation_app_head. apply Permutation_app_comm. }
  destruct b; cbn [loops]; try apply K.
  - cbn [map mirrored mirror]. apply perm_skip. etransitivity; [apply perm_swap|].
    etransitivity; [apply perm_skip, perm_swap|]. etransitivity; [|apply perm_swap]. apply perm_skip. reflexivity.
  - reflexivity.
Qed.
Lemma loops_quadrants : forall b w k a c, In (w, k, a, c) (loops b) -> (1 <= k <= 4)%nat.
Proof.
  assert (K : forall j u w k a c, In (w, k, a, c) (cells j u) -> k = j).
  { intros j u w k a c H. repeat (destruct H as [H|H]; [now injection H|]). destruct H. }
  assert (K4 : forall u w k a c, In (w, k, a, c) (cells 1 u ++ cells 2 u ++ cells 3 u ++ cells 4 u) -> (1 <= k <= 4)%nat).
  { intros u w k a c H. repeat (apply in_app_iff in H as [H|H]); apply K in H; lia. }
  intros b w k a c H. destruct b; cbn [loops] in H; try (eapply K4; exact H).
  - repeat (destruct H as [H|H]; [injection H; intros; subst; lia|]). destruct H.
  - repeat (destruct H as [H|H]; [injection H; intros; subst; lia|]). destruct H.
Qed.
Lemma strength_anti : forall b i mu nu, (i < V)%nat -> (mu < 4)%nat -> (nu < 4)%nat ->
  meq n (strength n lat b i nu mu) (mscale (- C1) (strength n lat b i mu nu)).
Proof.
  intros b i mu nu Hi Hm Hn'. unfold strength.
  assert (E : meq n (loops_sum n lat i nu mu (loops b)) (dag (loops_sum n lat i mu nu (loops b)))).
  { rewrite <- (mirror_sum i mu nu (loops b) Hi Hm Hn' (loops_quadrants b)). symmetry. apply perm_sum, loops_mirror. }
  set (L := loops_sum n lat i mu nu (loops b)) in *. set (L' := loops_sum n lat i nu mu (loops b)) in *.
  assert (H : meq n (herm L') (mscale (- C1) (herm L))).
  { unfold herm, aherm. rewrite E, dag_dag. intros p q _ _. unfold mscale, msub. ring. }
  assert (T : mtr n (herm L') = - mtr n (herm L)). { rewrite H, mtr_scale. ring. }
  unfold trf. rewrite T, H. intros p q _ _. unfold mscale, msub, Cdiv. ring.
Qed.
End anti.

(** * Positivity *)
Lemma hermitian_square : forall n H, hermitian n H -> mtr n (mmul n H H) = RtoC (rsum n (fun i => rsum n (fun j => norm2 (H i j)))).
Proof.
  intros n H HH. unfold mtr, mmul.
  transitivity (csum n (fun i => RtoC (rsum n (fun j => norm2 (H i j))))).
  - apply csum_ext. intros i Hi. transitivity (csum n (fun j => RtoC (norm2 (H i j)))).
    + apply csum_ext. intros j Hj. rewrite <- (HH j i Hj Hi). unfold dag, norm2. destruct (H i j). apply C_eq; cunfold; ring.
    + clear. induction n; cbn [csum rsum]; [reflexivity|]. rewrite IHn. apply C_eq; cunfold; ring.
  - clear. assert (G : forall m f, csum m (fun i => RtoC (f i)) = RtoC (rsum m f)).
    { intros m f. induction m; cbn [csum rsum]; [reflexivity|]. rewrite IHm. apply C_eq; cunfold; ring. }
    apply G.
Qed.
Lemma rsum_nonneg : forall n f, (forall i, (i < n)%nat -> 0 <= f i)%R -> (0 <= rsum n f)%R.
Proof. induction n; intros f H; cbn [rsum]; [lra|]. specialize (IHn f (fun i Hi => H i (Nat.lt_lt_succ_r _ _ Hi))). specialize (H n (Nat.lt_succ_diag_r n)). lra. Qed.
Lemma rsum_zero : forall n f, (forall i, (i < n)%nat -> 0 <= f i)%R -> rsum n f = 0%R -> forall i, (i < n)%nat -> f i = 0%R.
Proof.
  induction n; intros f H E i Hi; [lia|]. cbn [rsum] in E.
  assert (A : (0 <= rsum n f)%R) by (apply rsum_nonneg; auto). pose proof (H n (Nat.lt_succ_diag_r n)).
  destruct (Nat.eq_dec i n) as [-> |N]; [lra|]. apply IHn; [auto|lra|lia].
Qed.
Lemma norm2_nonneg : forall z, (0 <= norm2 z)%R.
Proof. intros [x y]. unfold norm2. cbn. nra. Qed.
Lemma norm2_zero : forall z, norm2 z = 0%R -> z = C0.
Proof. intros [x y] E. unfold norm2 in E. cbn in E. apply C_eq; cbn; nra. Qed.
Lemma square_nonneg : forall n H, hermitian n H -> (0 <= re (mtr n (mmul n H H)))%R.
Proof. intros n H HH. rewrite hermitian_square by assumption. cbn. apply rsum_nonneg. intros. apply rsum_nonneg. intros. apply norm2_nonneg. Qed.
Lemma square_zero : forall n H, hermitian n H -> re (mtr n (mmul n H H)) = 0%R -> meq n H mzero.
Proof.
  intros n H HH E i j Hi Hj. rewrite hermitian_square in E by assumption. cbn in E. unfold mzero. apply norm2_zero.
  assert (Q : rsum n (fun j => norm2 (H i j)) = 0%R).
  { refine (rsum_zero n (fun i => rsum n (fun j => norm2 (H i j))) _ E i Hi). intros. apply rsum_nonneg. intros. apply norm2_nonneg. }
  refine (rsum_zero n (fun j => norm2 (H i j)) _ Q j Hj). intros. apply norm2_nonneg.
Qed.
Lemma mixed_real : forall n A B, hermitian n A -> hermitian n B -> im (mtr n (mmul n A B)) = 0%R.
Proof.
  intros n A B HA HB. unfold hermitian in HA, HB. assert (E : conj (mtr n (mmul n A B)) = mtr n (mmul n A B)).
  { rewrite <- mtr_dag, dag_mmul, HA, HB. apply mtr_cyc. }
  apply (f_equal im) in E. cbn in E. lra.
Qed.
Lemma mixed_bound : forall n A B, hermitian n A -> hermitian n B ->
  (2 * Rabs (re (mtr n (mmul n A B))) <= re (mtr n (mmul n A A)) + re (mtr n (mmul n B B)))%R.
Proof.
  intros n A B HA HB.
  assert (P : hermitian n (madd A B)). { unfold hermitian in *. rewrite dag_add, HA, HB. reflexivity. }
  assert (M : hermitian n (msub A B)). { unfold hermitian in *. rewrite dag_sub, HA, HB. reflexivity. }
  apply square_nonneg in P. apply square_nonneg in M.
  assert (E1 : mtr n (mmul n (madd A B) (madd A B)) = mtr n (mmul n A A) + mtr n (mmul n B B) + (mtr n (mmul n A B) + mtr n (mmul n A B))).
  { rewrite mmul_add_l, mtr_add, !mmul_add_r, !mtr_add. rewrite (mtr_cyc n B A). ring. }
  assert (E2 : mtr n (mmul n (msub A B) (msub A B)) = mtr n (mmul n A A) + mtr n (mmul n B B) - (mtr n (mmul n A B) + mtr n (mmul n A B))).
  { assert (S : forall X Y, mtr n (msub X Y) = mtr n X - mtr n Y) by (intros; unfold mtr, msub; now rewrite csum_sub).
    rewrite mmul_sub_l, S, !mmul_sub_r, !S. rewrite (mtr_cyc n B A). ring. }
  rewrite E1 in P. rewrite E2 in M. cbn in P, M.
  destruct (Rcase_abs (re (mtr n (mmul n A B)))) as [H|H]; [rewrite Rabs_left by assumption|rewrite Rabs_right by assumption]; cbn; lra.
Qed.
