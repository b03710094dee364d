(** The totals: energy, topological charge, threads, arrays. *)
From Coq Require Import PeanoNat Lia List ZArith Reals Lra Setoid Morphisms Permutation.
From Verif Require Import CMat Det Arr MatSpec MmulModel MmulProofs MatModel MatProofs MatProofs2 Su2Model Su2Proofs FieldModel FieldProofs FieldProofs2 FieldProofs3 ProjModel ProjProofs CloverModel CloverProofs CloverProofs2 CloverProofs3 CloverProofs4 CloverProofs5.
From Verif Require NumProofs.
Import ListNotations.
Local Open Scope R_scope.

(** * Specification *)
(** the sign of the permutation (a,b,c,d) of 0..3, 0 if two agree *)
Definition epsilon (a b c d : nat) : R :=
  let s x y := Z.sgn (Z.of_nat y - Z.of_nat x) in
  IZR (s a b * s a c * s a d * s b c * s b d * s c d).
Definition quadruples : list (nat * nat * nat * nat) :=
  flat_map (fun a => flat_map (fun b => flat_map (fun c => map (fun d => (a, b, c, d)) (seq 0 4)) (seq 0 4)) (seq 0 4)) (seq 0 4).
(** epsilon_abcd tr F_ab F_cd at a site *)
Definition charge (n : nat) (lat : lattice) (b : build) (i : nat) : R :=
  lsum (map (fun '(p, q, r, s) => epsilon p q r s * re (mtr n (mmul n (strength n lat b i p q) (strength n lat b i r s)))) quadruples).
(** the sum over the planes of tr F^2, or of 2 (NC - Re tr P) *)
Definition energy (n : nat) (lat : lattice) (b : build) (i : nat) : R :=
  lsum (map (fun '(mu, nu) => match b with
     | Plaquette => 2 * (INR n - re (mtr n (walk n lat i (quadrant 1 mu nu 1 1))))
     | _ => re (mtr n (mmul n (strength n lat b i mu nu) (strength n lat b i mu nu))) end) (planes 4)).
(** the plaquette builds scale everything by 16 *)
Definition factor (b : build) : R := match b with Plaquette => 16 | _ => 1 end.

(** the 24 terms of the epsilon sum come in three groups of eight *)
Lemma epsilon_sum : forall T : nat -> nat -> nat -> nat -> R,
  (forall p q r s, (p < 4)%nat -> (q < 4)%nat -> T q p r s = - T p q r s) ->
  (forall p q r s, T r s p q = T p q r s) ->
  lsum (map (fun '(p, q, r, s) => epsilon p q r s * T p q r s) quadruples) =
  -8 * (T 3%nat 0%nat 1%nat 2%nat + T 3%nat 1%nat 2%nat 0%nat + T 3%nat 2%nat 0%nat 1%nat).
Proof.
  intros T A S. unfold quadruples. cbn [flat_map map seq app lsum]. unfold epsilon.
  cbn [Z.of_nat Z.sub Z.opp Z.add Z.sgn Z.mul Pos.of_succ_nat Pos.succ Z.pos_sub Z.succ_double Z.pred_double Pos.mul Z.double Pos.pred_double].
  pose proof (A 0 1 2 3 ltac:(lia) ltac:(lia))%nat.
  pose proof (S 0 1 2 3)%nat.
  pose proof (A 0 1 3 2 ltac:(lia) ltac:(lia))%nat.
  pose proof (S 0 1 3 2)%nat.
  pose proof (A 0 2 1 3 ltac:(lia) ltac:(lia))%nat.
  pose proof (S 0 2 1 3)%nat.
  pose proof (A 0 2 3 1 ltac:(lia) ltac:(lia))%nat.
  pose proof (S 0 2 3 1)%nat.
  pose proof (A 0 3 1 2 ltac:(lia) ltac:(lia))%nat.
  pose proof (S 0 3 1 2)%nat.
  pose proof (A 0 3 2 1 ltac:(lia) ltac:(lia))%nat.
  pose proof (S 0 3 2 1)%nat.
  pose proof (S 1 0 2 3)%nat.
  pose proof (S 1 0 3 2)%nat.
  pose proof (A 1 2 0 3 ltac:(lia) ltac:(lia))%nat.
  pose proof (A 1 2 3 0 ltac:(lia) ltac:(lia))%nat.
  pose proof (S 1 2 3 0)%nat.
  pose proof (A 1 3 0 2 ltac:(lia) ltac:(lia))%nat.
  pose proof (A 1 3 2 0 ltac:(lia) ltac:(lia))%nat.
  pose proof (S 1 3 2 0)%nat.
  pose proof (S 2 0 3 1)%nat.
  pose proof (S 2 1 3 0)%nat.
  pose proof (A 2 3 0 1 ltac:(lia) ltac:(lia))%nat.
  pose proof (A 2 3 1 0 ltac:(lia) ltac:(lia))%nat.
  lra.
Qed.

Section totals.
Variables (n V : nat) (lat : lattice) (b : build) (w : nat -> arr).
Hypothesis Geo : geom_ok 4 V lat.
Hypothesis Grp : group_field n 4 V lat.
Hypothesis Fit : fits b n.
Let T i p q r s := re (pair_trace n lat b i p q r s).
Lemma T_anti1 : forall i p q r s, (i < V)%nat -> (p < 4)%nat -> (q < 4)%nat -> T i q p r s = - T i p q r s.
Proof.
  intros i p q r s Hi Hp Hq. unfold T, pair_trace. rewrite (strength_anti n V lat Geo b i p q Hi Hp Hq).
  rewrite mmul_scale_l, mtr_scale. cunfold. cbn. ring.
Qed.
Lemma T_sym : forall i p q r s, T i r s p q = T i p q r s.
Proof. intros. unfold T, pair_trace. now rewrite mtr_cyc. Qed.
Lemma T_anti2 : forall i p q r s, (i < V)%nat -> (r < 4)%nat -> (s < 4)%nat -> T i p q s r = - T i p q r s.
Proof. intros. rewrite T_sym, T_anti1 by assumption. now rewrite T_sym. Qed.
Lemma charge_is : forall i, (i < V)%nat -> charge n lat b i =
  -8 * (T i 3%nat 0%nat 1%nat 2%nat + T i 3%nat 1%nat 2%nat 0%nat + T i 3%nat 2%nat 0%nat 1%nat).
Proof.
  intros i Hi. unfold charge. apply (epsilon_sum (T i)); [|intros; apply T_sym].
  intros. now apply T_anti1.
Qed.
Lemma plaq_sym : forall i mu nu, (i < V)%nat -> (mu < 4)%nat -> (nu < 4)%nat ->
  re (mtr n (walk n lat i (quadrant 1 nu mu 1 1))) = re (mtr n (walk n lat i (quadrant 1 mu nu 1 1))).
Proof.
  intros i mu nu Hi Hm Hn'. pose proof (turn_ok n 4%nat V lat Geo (quadrant 1 mu nu 1 1) i Hi (good_quadrant 1 mu nu 1 1 Hm Hn')) as [_ E].
  rewrite (quadrant_closed 4%nat V lat i mu nu Geo Hi Hm Hn'), turn_quadrant in E by lia. cbn [mirror] in E.
  rewrite E, mtr_dag. reflexivity.
Qed.
Definition part (i mu nu : nat) : R := match b with
  | Plaquette => 2 * (INR n - re (mtr n (walk n lat i (quadrant 1 mu nu 1 1)))) | _ => T i mu nu mu nu end.
Lemma part_sym : forall i mu nu, (i < V)%nat -> (mu < 4)%nat -> (nu < 4)%nat -> part i nu mu = part i mu nu.
Proof.
  intros i mu nu Hi Hm Hn'. assert (E : T i nu mu nu mu = T i mu nu mu nu). { rewrite T_anti1, T_anti2 by assumption. lra. }
  unfold part. destruct b; try exact E. now rewrite (plaq_sym i mu nu).
Qed.
Lemma energy_is : forall i, (i < V)%nat -> energy n lat b i =
  (part i 3 0 + part i 1 2) + (part i 3 1 + part i 2 0) + (part i 3 2 + part i 0 1).
Proof.
  intros i Hi. rewrite (part_sym i 2 1), (part_sym i 1 0) by (try assumption; lia).
  unfold energy. cbn [planes flat_map map seq app lsum]. unfold part, T, pair_trace. destruct b; lra.
Qed.
Lemma kernel_is : forall i mu nu rho delta, (i < V)%nat -> (mu < 4)%nat -> (nu < 4)%nat -> (rho < 4)%nat -> (delta < 4)%nat ->
  compute_Gmunu_kernel b n lat i mu nu rho delta w = (part i rho delta, part i mu nu, T i mu nu rho delta).
Proof. intros. rewrite (kernel_ok n V lat b w Geo Grp Fit) by assumption. reflexivity. Qed.
Lemma Gmunu_fold : forall order a c e, (forall i, In i order -> (i < V)%nat) ->
  exists sp t, fold_left (fun '(plaq_sp, plaq_t, Q) i =>
    let '(plt, plsp, q) := compute_Gmunu_kernel b n lat i 3 0 1 2 w in
    let '(plaq_sp, plaq_t, Q) := (plaq_sp + plsp, plaq_t + plt, Q + q) in
    let '(plt, plsp, q) := compute_Gmunu_kernel b n lat i 3 1 2 0 w in
    let '(plaq_sp, plaq_t, Q) := (plaq_sp + plsp, plaq_t + plt, Q + q) in
    let '(plt, plsp, q) := compute_Gmunu_kernel b n lat i 3 2 0 1 w in
    (plaq_sp + plsp, plaq_t + plt, Q + q)) order (a, c, e) = (sp, t, e + -/8 * lsum (map (charge n lat b) order)) /\
   sp + t = a + c + lsum (map (energy n lat b) order).
Proof.
  induction order as [|i order IH]; intros a c e H; [exists a, c; cbn; split; [f_equal; lra|lra]|].
  pose proof (H i (or_introl eq_refl)) as Hi. cbn [fold_left map lsum].
  rewrite !kernel_is by (try assumption; lia). cbv zeta beta iota.
  destruct (IH (a + part i 3 0 + part i 3 1 + part i 3 2) (c + part i 1 2 + part i 2 0 + part i 0 1)
     (e + T i 3%nat 0%nat 1%nat 2%nat + T i 3%nat 1%nat 2%nat 0%nat + T i 3%nat 2%nat 0%nat 1%nat)) as (sp & t & E & F).
  { intros j Hj. apply H. now right. }
  exists sp, t. rewrite E, charge_is, energy_is by assumption. split; [f_equal; lra|]. rewrite F. lra.
Qed.
Lemma Gmunu_ok : forall order, Permutation order (seq 0 V) ->
  compute_Gmunu b n lat w order =
  (factor b * lsum (map (energy n lat b) (seq 0 V)), factor b * (-/8 * lsum (map (charge n lat b) (seq 0 V)))).
Proof.
  intros order P. unfold compute_Gmunu.
  destruct (Gmunu_fold order 0 0 0) as (sp & t & E & F).
  { intros i Hi. apply (Permutation_in _ P) in Hi. apply in_seq in Hi. lia. }
  rewrite E. rewrite (NumProofs.lsum_perm _ _ (Permutation_map (charge n lat b) P)) in *.
  rewrite (NumProofs.lsum_perm _ _ (Permutation_map (energy n lat b) P)) in F.
  destruct b; cbn [factor]; f_equal; lra.
Qed.
End totals.
