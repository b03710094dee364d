(** Positivity and the bound on the charge; the plaquette build and the average plaquette; the weights. *)
From Coq Require Import PeanoNat Lia List ZArith Reals Lra Setoid Morphisms Permutation.
From Verif Require Import CMat Det Arr MatSpec MmulModel MmulProofs MatModel MatProofs MatProofs2 Su2Model Su2Proofs FieldModel FieldProofs FieldProofs2 FieldProofs3 ProjModel ProjProofs CloverModel CloverProofs CloverProofs2 CloverProofs3 CloverProofs4 CloverProofs5 CloverProofs6 CloverProofs7 CloverProofs8.
From Verif Require NumProofs.
Import ListNotations.
Local Open Scope R_scope.

Lemma rsum_le : forall n f g, (forall i, (i < n)%nat -> f i <= g i) -> rsum n f <= rsum n g.
Proof. induction n as [|n IH]; intros f g H; cbn [rsum]; [lra|]. pose proof (IH f g (fun i Hi => H i (Nat.lt_lt_succ_r _ _ Hi))). pose proof (H n (Nat.lt_succ_diag_r n)). lra. Qed.
Lemma rsum_plus : forall n f g, rsum n (fun i => f i + g i) = rsum n f + rsum n g.
Proof. induction n as [|n IH]; intros f g; cbn [rsum]; [lra|]. rewrite IH. lra. Qed.
Lemma rsum_times : forall n c f, rsum n (fun i => c * f i) = c * rsum n f.
Proof. induction n as [|n IH]; intros c f; cbn [rsum]; [lra|]. rewrite IH. lra. Qed.
Lemma rsum_swap : forall n m f, rsum n (fun i => rsum m (fun j => f i j)) = rsum m (fun j => rsum n (fun i => f i j)).
Proof.
  induction n as [|n IH]; intros m f; cbn [rsum]; [induction m; cbn [rsum]; lra|]. rewrite IH, <- rsum_plus. reflexivity.
Qed.
(** the squared size of a matrix *)
Definition frob (n : nat) (A : mat) : R := rsum n (fun i => rsum n (fun j => norm2 (A i j))).
Lemma frob_ext : forall n A B, meq n A B -> frob n A = frob n B.
Proof. intros n A B E. unfold frob. apply rsum_ext. intros i Hi. apply rsum_ext. intros j Hj. now rewrite E. Qed.
Lemma frob_tr : forall n A, frob n A = re (mtr n (mmul n A (dag A))).
Proof.
  intros n A. unfold frob, mtr, mmul, dag.
  assert (K : forall m f, re (csum m f) = rsum m (fun i => re (f i))). { induction m; intro f; [reflexivity|]. cbn [csum rsum]. rewrite <- IHm. reflexivity. }
  rewrite K. apply rsum_ext. intros i Hi. rewrite K. apply rsum_ext. intros j Hj. destruct (A i j) as [x y]. unfold norm2. cbn. ring.
Qed.
Lemma frob_dag : forall n A, frob n (dag A) = frob n A.
Proof.
  intros n A. unfold frob. rewrite rsum_swap. apply rsum_ext. intros i Hi. apply rsum_ext. intros j Hj. unfold dag.
  destruct (A i j) as [x y]. unfold norm2. cbn. ring.
Qed.
Lemma frob_sub : forall n A B, frob n (msub A B) <= 2 * frob n A + 2 * frob n B.
Proof.
  intros n A B. unfold frob. rewrite <- !rsum_times, <- rsum_plus. apply rsum_le. intros i Hi.
  rewrite <- !rsum_times, <- rsum_plus. apply rsum_le. intros j Hj. unfold msub. destruct (A i j) as [x y], (B i j) as [x' y'].
  unfold norm2. cbn. pose proof (Rle_0_sqr (x + x')). pose proof (Rle_0_sqr (y + y')). unfold Rsqr in *. nra.
Qed.
Lemma frob_scale : forall n c A, frob n (mscale c A) = norm2 c * frob n A.
Proof.
  intros n [a b] A. unfold frob. rewrite <- rsum_times. apply rsum_ext. intros i Hi. rewrite <- rsum_times. apply rsum_ext. intros j Hj.
  unfold mscale. destruct (A i j) as [x y]. unfold norm2. cbn. ring.
Qed.
Lemma tr_mid_re : forall n, mtr n mid = RtoC (INR n).
Proof.
  intro n. unfold mtr, mid. rewrite (csum_ext n _ (fun _ => C1)) by (intros; now rewrite Nat.eqb_refl).
  induction n as [|k IH]; [reflexivity|]. rewrite S_INR, RtoC_add. cbn [csum]. now rewrite IH.
Qed.
Lemma mtr_sub : forall n A B, mtr n (msub A B) = (mtr n A - mtr n B)%C.
Proof. intros n A B. unfold mtr, msub. induction n as [|k IH]; cbn [csum]; [ring|]. rewrite IH. ring. Qed.
Lemma frob_unitary : forall n P, unitary n P -> frob n (msub P mid) = 2 * (INR n - re (mtr n P)).
Proof.
  intros n P [U1 U2]. rewrite frob_tr.
  assert (E : meq n (mmul n (msub P mid) (dag (msub P mid))) (msub (mscale (RtoC 2) mid) (madd P (dag P)))).
  { rewrite dag_sub, dag_mid, mmul_sub_l, !mmul_sub_r, U1, !mmul_1_l, !mmul_1_r. intros i j Hi Hj. unfold msub, madd, mscale.
    destruct (P i j), (dag P i j), (mid i j). apply C_eq; cunfold; cbn; ring. }
  rewrite E, mtr_sub, mtr_scale, mtr_add, mtr_dag, tr_mid_re. cunfold. cbn. ring.
Qed.
Lemma trf_frob : forall n H, (0 < n)%nat -> hermitian n H -> re (mtr n (mmul n (trf n H) (trf n H))) <= frob n H.
Proof.
  intros n H Hn HH. assert (I : im (mtr n H) = 0).
  { assert (E : conj (mtr n H) = mtr n H) by (rewrite <- mtr_dag; unfold hermitian in HH; now rewrite HH). apply (f_equal im) in E. cbn in E. lra. }
  assert (F : frob n H = re (mtr n (mmul n H H))).
  { rewrite frob_tr. unfold hermitian in HH. now rewrite HH. }
  rewrite F. unfold trf. set (c := Cdiv (mtr n H) (RtoC (INR n))).
  assert (E : meq n (mmul n (msub H (mscale c mid)) (msub H (mscale c mid))) (madd (mmul n H H) (mscale c (msub (mscale c mid) (mscale (RtoC 2) H))))).
  { rewrite mmul_sub_l, !mmul_sub_r. repeat (rewrite mmul_scale_l || rewrite mmul_scale_r). rewrite !mmul_1_l, !mmul_1_r.
    intros i j Hi Hj. unfold msub, madd, mscale. apply C_eq; cunfold; cbn; ring. }
  rewrite E, mtr_add, mtr_scale, mtr_sub, !mtr_scale, tr_mid_re.
  assert (Hc : c = RtoC (re (mtr n H) / INR n)).
  { unfold c. destruct (mtr n H) as [x y]. cbn in I. subst y. assert (INR n <> 0) by (apply not_0_INR; lia).
    unfold Cdiv, Cinv, RtoC, norm2. apply C_eq; cunfold; cbn; field; nra. }
  rewrite Hc. destruct (mtr n H) as [x y]. cbn in I. subst y. set (T := mtr n (mmul n H H)). destruct T as [tx ty]. cbn.
  assert (0 < INR n) by (apply lt_0_INR; lia).
  assert (Q : 0 <= x * x / INR n). { unfold Rdiv. apply Rmult_le_pos; [nra|]. left. now apply Rinv_0_lt_compat. }
  match goal with |- ?l <= _ => replace l with (tx - x * x / INR n) by (field; lra) end.
  lra.
Qed.
Lemma strength_plaquette : forall n P, (0 < n)%nat -> unitary n P ->
  re (mtr n (mmul n (trf n (herm P)) (trf n (herm P)))) <= 2 * (INR n - re (mtr n P)).
Proof.
  intros n P Hn U.
  assert (HH : hermitian n (herm P)).
  { unfold hermitian. intros i j Hi Hj. unfold dag, herm, aherm, mscale, msub, dag. destruct (P i j), (P j i). apply C_eq; cunfold; cbn; ring. }
  eapply Rle_trans; [apply trf_frob; assumption|]. rewrite <- (frob_unitary n P U).
  assert (E : frob n (herm P) = /4 * frob n (msub (msub P mid) (dag (msub P mid)))).
  { unfold herm, aherm. rewrite !frob_scale. replace (norm2 (- Ci)%C) with 1 by (unfold norm2; cbn; ring).
    replace (norm2 (RtoC (1/2))) with (/4) by (unfold norm2; cbn; lra).
    rewrite (frob_ext n (msub P (dag P)) (msub (msub P mid) (dag (msub P mid)))); [ring|].
    rewrite dag_sub, dag_mid. intros i j Hi Hj. unfold msub. ring. }
  rewrite E. pose proof (frob_sub n (msub P mid) (dag (msub P mid))) as B. rewrite frob_dag in B. lra.
Qed.

Section bounds.
Variables (n V : nat) (lat : lattice) (b : build).
Hypothesis Geo : geom_ok 4 V lat.
Hypothesis Grp : group_field n 4 V lat.
Hypothesis Fit : fits b n.
Let Hn : (0 < n)%nat.
Proof. destruct Fit. lia. Qed.
Let T i p q r s := re (pair_trace n lat b i p q r s).
Lemma strength_herm : forall i mu nu, hermitian n (strength n lat b i mu nu).
Proof. apply strength_hermitian with (1 := Fit). Qed.
Lemma walk_SUn : forall p i, (i < V)%nat -> good 4 p -> SUn n (walk n lat i p).
Proof.
  induction p as [|s p IH]; intros i Hi Gd; cbn [walk]; [apply SUn_mid|]. apply good_cons in Gd as [Hs Gd].
  destruct s as [f d]. cbn [snd] in Hs. apply SUn_mmul; [|apply IH; [|assumption]]; unfold hop, move; cbn [fst snd]; destruct f.
  - now apply Grp.
  - apply SUn_dag. apply Grp; [now apply (g_bck _ _ _ Geo)|assumption].
  - now apply (g_nbr _ _ _ Geo).
  - now apply (g_bck _ _ _ Geo).
Qed.
Lemma part_ge : forall i mu nu, (i < V)%nat -> (mu < 4)%nat -> (nu < 4)%nat -> T i mu nu mu nu <= part n lat b i mu nu.
Proof.
  intros i mu nu Hi Hm Hn'. unfold part, T. destruct b; try apply Rle_refl.
  unfold pair_trace, strength. cbn [loops loops_sum].
  assert (E : meq n (madd (mscale (RtoC 1) (walk n lat i (quadrant 1 mu nu 1 1))) mzero) (walk n lat i (quadrant 1 mu nu 1 1))).
  { intros p q _ _. unfold madd, mscale, mzero. cring. }
  eapply Rle_trans; [|apply strength_plaquette; [assumption|apply (walk_SUn _ i Hi (good_quadrant 1 mu nu 1 1 Hm Hn'))]].
  set (L := madd _ _) in *. set (P := walk n lat i _) in *.
  assert (F : meq n (herm L) (herm P)). { intros p q Hp Hq. unfold herm, aherm, mscale, msub, dag. now rewrite !E. }
  assert (G : meq n (trf n (herm L)) (trf n (herm P))).
  { intros p q Hp Hq. unfold trf, msub, mscale. 
    replace (mtr n (herm L)) with (mtr n (herm P)); [now rewrite (F p q Hp Hq)|]. unfold mtr. apply csum_ext. intros k Hk. symmetry. now apply F. }
  rewrite G. apply Rle_refl.
Qed.
Lemma T_nonneg : forall i mu nu, 0 <= T i mu nu mu nu.
Proof. intros. apply square_nonneg, strength_herm. Qed.
Lemma energy_nonneg : forall i, (i < V)%nat -> 0 <= energy n lat b i.
Proof.
  intros i Hi. rewrite (energy_is n V lat b Geo Fit i Hi).
  assert (P : forall mu nu, (mu < 4)%nat -> (nu < 4)%nat -> 0 <= part n lat b i mu nu).
  { intros. eapply Rle_trans; [apply T_nonneg|now apply part_ge]. }
  pose proof (P 3 0 ltac:(lia) ltac:(lia))%nat. pose proof (P 1 2 ltac:(lia) ltac:(lia))%nat. pose proof (P 3 1 ltac:(lia) ltac:(lia))%nat.
  pose proof (P 2 0 ltac:(lia) ltac:(lia))%nat. pose proof (P 3 2 ltac:(lia) ltac:(lia))%nat. pose proof (P 0 1 ltac:(lia) ltac:(lia))%nat. lra.
Qed.
Lemma charge_bound : forall i, (i < V)%nat -> Rabs (-/8 * charge n lat b i) <= /2 * energy n lat b i.
Proof.
  intros i Hi. rewrite (energy_is n V lat b Geo Fit i Hi), (charge_is n V lat b Geo i Hi).
  assert (P : forall mu nu r s, (mu < 4)%nat -> (nu < 4)%nat -> (r < 4)%nat -> (s < 4)%nat ->
    2 * Rabs (T i mu nu r s) <= part n lat b i mu nu + part n lat b i r s).
  { intros mu nu r s H1 H2 H3 H4. pose proof (part_ge i mu nu Hi H1 H2). pose proof (part_ge i r s Hi H3 H4).
    pose proof (mixed_bound n (strength n lat b i mu nu) (strength n lat b i r s) (strength_herm i mu nu) (strength_herm i r s)) as M.
    unfold T, pair_trace in *. lra. }
  fold (T i 3 0 1 2)%nat (T i 3 1 2 0)%nat (T i 3 2 0 1)%nat.
  pose proof (P 3 0 1 2 ltac:(lia) ltac:(lia) ltac:(lia) ltac:(lia))%nat. pose proof (P 3 1 2 0 ltac:(lia) ltac:(lia) ltac:(lia) ltac:(lia))%nat.
  pose proof (P 3 2 0 1 ltac:(lia) ltac:(lia) ltac:(lia) ltac:(lia))%nat.
  set (x := T i 3%nat 0%nat 1%nat 2%nat) in *. set (y := T i 3%nat 1%nat 2%nat 0%nat) in *. set (z := T i 3%nat 2%nat 0%nat 1%nat) in *.
  replace (- / 8 * (-8 * (x + y + z))) with (x + y + z) by field.
  pose proof (Rabs_triang (x + y) z). pose proof (Rabs_triang x y). lra.
Qed.
Lemma GG_nonneg : forall w o, Permutation o (seq 0 V) -> 0 <= fst (compute_Gmunu b n lat w o).
Proof.
  intros w o P. rewrite (Gmunu_ok n V lat b w Geo Grp Fit o P). cbn [fst].
  assert (0 <= lsum (map (energy n lat b) (seq 0 V))) by (apply lsum_nonneg; intros i Hi; apply energy_nonneg; now apply seq_lt).
  unfold factor. destruct b; lra.
Qed.
Lemma Q_bound : forall w o, Permutation o (seq 0 V) -> 2 * Rabs (snd (compute_Gmunu b n lat w o)) <= fst (compute_Gmunu b n lat w o).
Proof.
  intros w o P. rewrite (Gmunu_ok n V lat b w Geo Grp Fit o P). cbn [fst snd].
  assert (K : Rabs (-/8 * lsum (map (charge n lat b) (seq 0 V))) <= /2 * lsum (map (energy n lat b) (seq 0 V))).
  { assert (S : forall c f l, c * lsum (map f l) = lsum (map (fun x : nat => c * f x) l)) by (intros c f; induction l; cbn; lra).
    rewrite !S. apply lsum_abs. intros i Hi. apply charge_bound. now apply seq_lt. }
  rewrite Rabs_mult. unfold factor. destruct b; rewrite Rabs_right by lra; lra.
Qed.
Lemma GG_zero : forall w o, Permutation o (seq 0 V) -> fst (compute_Gmunu b n lat w o) = 0 ->
  forall i mu nu, (i < V)%nat -> (mu < 4)%nat -> (nu < 4)%nat -> meq n (strength n lat b i mu nu) mzero.
Proof.
  intros w o P E i mu nu Hi Hm Hn'. rewrite (Gmunu_ok n V lat b w Geo Grp Fit o P) in E. cbn [fst] in E.
  assert (E0 : lsum (map (energy n lat b) (seq 0 V)) = 0) by (unfold factor in E; destruct b; lra).
  assert (Ei : energy n lat b i = 0).
  { apply (lsum_null _ (energy n lat b) (seq 0 V)); [intros j Hj; apply energy_nonneg; now apply seq_lt|assumption|apply in_seq; lia]. }
  rewrite (energy_is n V lat b Geo Fit i Hi) in Ei.
  assert (G : forall p q, (p < 4)%nat -> (q < 4)%nat -> 0 <= part n lat b i p q).
  { intros. eapply Rle_trans; [apply T_nonneg|now apply part_ge]. }
  pose proof (G 3 0 ltac:(lia) ltac:(lia))%nat. pose proof (G 1 2 ltac:(lia) ltac:(lia))%nat. pose proof (G 3 1 ltac:(lia) ltac:(lia))%nat.
  pose proof (G 2 0 ltac:(lia) ltac:(lia))%nat. pose proof (G 3 2 ltac:(lia) ltac:(lia))%nat. pose proof (G 0 1 ltac:(lia) ltac:(lia))%nat.
  assert (Z : forall p q, (p < 4)%nat -> (q < 4)%nat -> part n lat b i p q = 0 -> meq n (strength n lat b i p q) mzero).
  { intros p q Hp Hq Zp. apply square_zero; [apply strength_herm|]. pose proof (part_ge i p q Hi Hp Hq). pose proof (T_nonneg i p q).
    unfold T, pair_trace in *. lra. }
  assert (Y : forall p q, (p < 4)%nat -> (q < 4)%nat -> meq n (strength n lat b i p q) mzero -> meq n (strength n lat b i q p) mzero).
  { intros p q Hp Hq H'. rewrite (strength_anti n V lat Geo b i p q Hi Hp Hq), H'. intros k l _ _. unfold mscale, mzero. ring. }
  assert (D : forall p, (p < 4)%nat -> meq n (strength n lat b i p p) mzero).
  { intros p Hp k l Hk Hl. pose proof (strength_anti n V lat Geo b i p p Hi Hp Hp k l Hk Hl) as A. unfold mscale in A. unfold mzero.
    destruct (strength n lat b i p p k l) as [x y]. apply (f_equal re) in A as A1. apply (f_equal im) in A as A2. cbn in A1, A2. apply C_eq; cbn; lra. }
  assert (Z30 : meq n (strength n lat b i 3 0) mzero) by (apply Z; [lia|lia|lra]). assert (Z12 : meq n (strength n lat b i 1 2) mzero) by (apply Z; [lia|lia|lra]).
  assert (Z31 : meq n (strength n lat b i 3 1) mzero) by (apply Z; [lia|lia|lra]). assert (Z20 : meq n (strength n lat b i 2 0) mzero) by (apply Z; [lia|lia|lra]).
  assert (Z32 : meq n (strength n lat b i 3 2) mzero) by (apply Z; [lia|lia|lra]). assert (Z01 : meq n (strength n lat b i 0 1) mzero) by (apply Z; [lia|lia|lra]).
  destruct mu as [|[|[|[|mu]]]]; try lia; destruct nu as [|[|[|[|nu]]]]; try lia; try (apply D; lia); first [assumption|apply Y; [lia|lia|assumption]].
Qed.
End bounds.

(** * The plaquette build and the average plaquette *)
Lemma plaquette_walk : forall n V lat i mu nu, geom_ok 4 V lat -> (i < V)%nat -> (mu < 4)%nat -> (nu < 4)%nat ->
  meq n (walk n lat i (quadrant 1 mu nu 1 1)) (plaquette n (lnk n lat i mu) (lnk n lat (nbr (lat i) mu) nu) (lnk n lat (nbr (lat i) nu) mu) (lnk n lat i nu)).
Proof.
  intros n V lat i mu nu Geo Hi Hm Hn. unfold quadrant, rectangle, back, plaquette. cbn [repeat app walk fst snd negb].
  unfold hop, move. cbn [fst snd negb]. rewrite mmul_1_r.
  pose proof (g_nbr _ _ _ Geo i mu Hi Hm) as L1. pose proof (g_nbr _ _ _ Geo i nu Hi Hn) as L2.
  rewrite (g_nn _ _ _ Geo i mu nu) by assumption. rewrite (g_bn _ _ _ Geo (nbr (lat i) nu) mu) by assumption.
  rewrite (g_bn _ _ _ Geo i nu) by assumption. now rewrite !mmul_assoc.
Qed.
Lemma GG_plaquette : forall n V lat w o tmp, geom_ok 4 V lat -> group_field n 4 V lat -> (2 <= n)%nat -> (0 < V)%nat -> Permutation o (seq 0 V) ->
  fst (compute_Gmunu Plaquette n lat w o) = 192 * INR n * INR V * (1 - av_plaquette n 4 V tmp lat).
Proof.
  intros n V lat w o tmp Geo Grp Hn HV P. rewrite (Gmunu_ok n V lat Plaquette w Geo Grp (Logic.conj Hn (or_introl eq_refl)) o P). cbn [fst factor].
  rewrite av_plaquette_mean by lia. unfold mean. rewrite plaq_values_len. unfold plaq_values.
  assert (HN : INR n <> 0) by (apply not_0_INR; lia). assert (HVr : INR V <> 0) by (apply not_0_INR; lia).
  set (F := fun i q => re (mtr n (plaquette n (mx n (O (lat i) (fst q))) (mx n (O (lat (nbr (lat i) (fst q))) (snd q)))
     (mx n (O (lat (nbr (lat i) (snd q))) (fst q))) (mx n (O (lat i) (snd q)))))).
  assert (K : forall l, (forall i, In i l -> (i < V)%nat) ->
    lsum (map (energy n lat Plaquette) l) = 2 * INR n * (INR (length l) * 6 - lsum (flat_map (fun i => map (fun q => F i q / INR n) (planes 4)) l))).
  { induction l as [|i l IH]; intro H; [cbn; lra|]. cbn [map lsum flat_map length]. rewrite lsum_app, S_INR, IH by (intros j Hj; apply H; now right).
    assert (E : energy n lat Plaquette i = lsum (map (fun q => 2 * (INR n - F i q)) (planes 4))).
    { unfold energy. apply lsum_ext. intros [mu nu] Hq. apply planes_lt in Hq as [Hm Hn']. unfold F. cbn [fst snd].
      rewrite (plaquette_walk n V lat i mu nu Geo (H i (or_introl eq_refl)) Hm Hn'). reflexivity. }
    rewrite E. cbn [planes flat_map seq map app lsum]. field. exact HN. }
  rewrite K by (intros j Hj; now apply seq_lt). rewrite seq_length, mult_INR. change (length (planes 4)) with 6%nat.
  replace (INR 6) with 6 by (cbn; lra). unfold F. set (L := lsum _). field. exact HVr.
Qed.
