(** The sums over the sites and the gauge transformation of a step. *)
From Coq Require Import Permutation Lia Lra.
From Verif Require Import CInt GeomModel Cplx CMat Det Arr MatModel MatSpec MatProofs MatProofs2 ProjModel ProjProofs GramModel GramProofs FieldModel FieldProofs FftModel QtopModel QtopSpec QtopProofs QtopProofs2 SmearModel GluonSpec GluonModel GluonProofs2 GluonProofs3 CfgSpec CfgProofs HypProofs LandauModel LandauSpec LandauProofs.
Local Open Scope C_scope.

Lemma in_order sched k n i : any_order sched -> (i < n)%nat -> existsb (Nat.eqb i) (sched k n) = true.
Proof.
  intros Any Hi. apply existsb_exists. exists i. split; [|apply Nat.eqb_refl]. apply (Permutation_in i (Permutation_sym (Any k n))), in_seq. lia.
Qed.
Lemma order_in sched k n i : any_order sched -> In i (sched k n) -> (i < n)%nat.
Proof. intros Any Hi. apply (Permutation_in i (Any k n)), in_seq in Hi. lia. Qed.
Lemma fold_add_red (f : nat -> R) j : forall order red k, fold_left (fun red i => add_red red j (f i)) order red k = if Nat.eqb k j then (red k + sum_over f order)%R else red k.
Proof.
  induction order as [|i order IH]; intros red k; cbn [fold_left]; [rewrite sum_nil; destruct (Nat.eqb k j); ring|]. rewrite IH. unfold add_red. rewrite sum_cons.
  destruct (Nat.eqb k j); ring.
Qed.
Lemma order_sum sched key n f : any_order sched -> sum_over f (sched key n) = dsum n f.
Proof. intro Any. rewrite (sum_over_perm f _ _ (Any key n)). reflexivity. Qed.
Lemma fold_plus f : forall order z, fold_left (fun s i => (s + f i)%R) order z = (z + sum_over f order)%R.
Proof. induction order as [|i order IH]; intro z; cbn [fold_left]; [rewrite sum_nil; ring|]. rewrite IH, sum_cons. ring. Qed.

(** ** the derivative at every site *)
Definition fa_step (NC ND : nat) (tmp : arr) (lat : lattice)   : reds * fields -> nat -> reds * fields := fun '(red, inp) i =>
  let '(sum, v) := fast_deriv NC ND tmp lat i (fun _ => C0) in
  (add_red red 5 v, fun c k => if (Nat.eqb k i && Nat.ltb c (TRUE_HERM NC))%bool then in_of NC c sum else inp c k).
Lemma FA_deriv_fold NC ND tmp lat : forall order red inp,
  (forall k, fst (fold_left (fa_step NC ND tmp lat) order (red, inp)) k
   = if Nat.eqb k 5 then (red k + sum_over (fun i => snd (fast_deriv NC ND tmp lat i (fun _ => C0))) order)%R else red k) /\
  (forall c k, snd (fold_left (fa_step NC ND tmp lat) order (red, inp)) c k
   = if (existsb (Nat.eqb k) order && Nat.ltb c (TRUE_HERM NC))%bool then in_of NC c (fst (fast_deriv NC ND tmp lat k (fun _ => C0))) else inp c k).
Proof.
  induction order as [|i order IH]; intros red inp; cbn [fold_left].
  - split; [intro k; rewrite sum_nil; cbn [fst]; destruct (Nat.eqb k 5); ring|reflexivity].
  - unfold fa_step at 2 4. destruct (fast_deriv NC ND tmp lat i (fun _ => C0)) as [s v] eqn:E. destruct (IH (add_red red 5 v) (fun c k => if (Nat.eqb k i && Nat.ltb c (TRUE_HERM NC))%bool then in_of NC c s else inp c k)) as [A B].
    split; [intro k; rewrite A|intros c k; rewrite B].
    + unfold add_red. rewrite sum_cons, E. cbn [snd]. destruct (Nat.eqb k 5); ring.
    + cbn [existsb]. destruct (Nat.eqb_spec k i) as [->|N]; cbn [orb andb]; [|reflexivity]. rewrite E. cbn [fst].
      destruct (existsb (Nat.eqb i) order), (Nat.ltb c (TRUE_HERM NC)); reflexivity.
Qed.
Lemma i_times_ok z : i_times z = Ci * z. Proof. unfold i_times, creal, cimag. cring. Qed.
Lemma in_of_ok n s D f x : (2 <= n)%nat -> packed n s D -> hermitian n D -> (forall c, (c < TRUE_HERM n)%nat -> f c x = in_of n c s) -> carries n f x (mscale Ci D).
Proof.
  intros Hn P H E.
  assert (R0 : forall i, (i < n)%nat -> im (D i i) = 0%R) by (intros i Hi; pose proof (H i i Hi Hi) as Q; unfold dag in Q; apply (f_equal im) in Q; unfold conj in Q; cbn [im fst snd] in Q; lra).
  destruct n as [|[|[|[|m]]]]; try lia.
  - destruct (packed2 _ _ P) as (P0 & P1). intros i j Hi Hj. destruct i; [|lia]. destruct j as [|[|j]]; try lia; cbn [off Nat.sub Nat.add]; rewrite E by (cbn; lia); unfold in_of, mscale.
    + rewrite P0. specialize (R0 0%nat ltac:(lia)). unfold creal. destruct (D 0%nat 0%nat) as [a b]. cbn [im snd] in R0. subst b. cring.
    + now rewrite P1, i_times_ok.
  - destruct (packed3 _ _ P) as (P0 & P1 & P2 & P3 & P4).
    pose proof (R0 0%nat ltac:(lia)) as Z0. pose proof (R0 1%nat ltac:(lia)) as Z1.
    unfold carries, mscale. rewrite !E by (cbn; lia). unfold in_of. rewrite P0, P1, P2, P3, P4, !i_times_ok.
    destruct (D 0%nat 0%nat) as [a b], (D 1%nat 1%nat) as [a' b']. cbn [im snd] in Z0, Z1. subst b b'. repeat split. unfold creal. cring.
  - cbn [carries]. intros i j Hi Hj. rewrite E by (apply off_bound; lia). unfold in_of. rewrite i_times_ok. now rewrite (P i j Hi Hj).
Qed.
Theorem FA_deriv_ok sched n ND V tmp lat red inp red' inp' : any_order sched -> (2 <= n)%nat -> group_field n ND V lat -> geom_ok ND V lat ->
  FA_deriv sched n ND V tmp lat red inp = (red', inp') ->
  red' 5%nat = (red 5%nat + norm_of n * violation n ND V lat)%R /\ (forall k, k <> 5%nat -> red' k = red k) /\
  (forall x, (x < V)%nat -> carries n inp' x (mscale Ci (divergence n ND lat x))).
Proof.
  intros Any Hn F Geo E. change (fold_left (fa_step n ND tmp lat) (sched [1%Z] V) (red, inp) = (red', inp')) in E. destruct (FA_deriv_fold n ND tmp lat (sched [1%Z] V) red inp) as [A B]. rewrite E in A, B. cbn [fst snd] in A, B.
  split; [|split].
  - rewrite A. cbn [Nat.eqb]. rewrite (order_sum sched _ V _ Any). f_equal. unfold violation. rewrite <- dsum_mul. apply dsum_ext. intros x Hx.
    destruct (fast_deriv n ND tmp lat x (fun _ => C0)) as [s v] eqn:Q. now apply (fast_ok n ND V lat tmp x _ s v Hn F Geo Hx) in Q.
  - intros k Hk. rewrite A. now rewrite (proj2 (Nat.eqb_neq k 5)).
  - intros x Hx. destruct (fast_deriv n ND tmp lat x (fun _ => C0)) as [s v] eqn:Q. pose proof Q as Q2. apply (fast_ok n ND V lat tmp x _ s v Hn F Geo Hx) in Q as [P _].
    apply (in_of_ok n s); [exact Hn|exact P|rewrite <- part_div; apply part_herm; lia|].
    intros c Hc. rewrite B, (in_order sched _ V x Any Hx), (proj2 (Nat.ltb_lt _ _) Hc). cbn [andb].
    now rewrite Q2.
Qed.
Theorem theta_test_ok sched n ND V tmp lat : any_order sched -> (2 <= n)%nat -> group_field n ND V lat -> geom_ok ND V lat ->
  theta_test_lin sched n V ND tmp lat = (4 * violation n ND V lat / INR (n * V))%R.
Proof.
  intros Any Hn F Geo. unfold theta_test_lin. rewrite (fold_plus (fun i => snd (latt_deriv n ND tmp lat i (fun _ => C0)))), (order_sum sched _ V _ Any).
  replace (4 * violation n ND V lat)%R with (2 * (0 + 2 * violation n ND V lat))%R by ring. do 3 f_equal. unfold violation. rewrite <- dsum_mul. apply dsum_ext. intros x Hx.
  destruct (latt_deriv n ND tmp lat x (fun _ => C0)) as [s v] eqn:Q. now apply (latt_deriv_ok n ND V lat Hn F Geo tmp x _ s v Hx (fun _ _ => eq_refl)) in Q.
Qed.

(** ** the step *)
Lemma conj_csum n f : conj (csum n f) = csum n (fun i => conj (f i)).
Proof. induction n; cbn [csum]; [cring|]. now rewrite conj_add, IHn. Qed.
Lemma csum_opp n f : csum n (fun i => - f i) = - csum n f.
Proof. induction n; cbn [csum]; [cring|]. rewrite IHn. ring. Qed.
Lemma quad_imag n X (a : nat -> C) : antihermitian n X -> re (csum n (fun i => csum n (fun c => a i * X i c * conj (a c)))) = 0%R.
Proof.
  intro H. set (s := csum n _). assert (E : conj s = - s).
  { unfold s. rewrite conj_csum. transitivity (csum n (fun i => csum n (fun c => - (a c * X c i * conj (a i))))).
    - apply csum_ext. intros i Hi. rewrite conj_csum. apply csum_ext. intros c Hc. rewrite !conj_mul, conj_conj.
      pose proof (H c i Hc Hi) as Q. unfold dag, mscale in Q. rewrite Q. ring.
    - rewrite csum_swap. rewrite <- csum_opp. apply csum_ext. intros i Hi. rewrite <- csum_opp. reflexivity. }
  apply (f_equal re) in E. destruct s as [u w]. cbn in *. lra.
Qed.

Lemma indep_anti m n X (alpha : R) : (m <= n)%nat -> antihermitian n X -> indep m n (fun i c => mid i c + RtoC alpha * X i c).
Proof.
  intros Hm H a E.
  set (b := fun i => if Nat.ltb i m then a i else C0).
  assert (B : forall c, (c < n)%nat -> csum n (fun i => b i * (mid i c + RtoC alpha * X i c)) = C0).
  { intros c Hc. rewrite <- (E c Hc). replace n with (m + (n - m))%nat by lia. rewrite FftProofs.csum_split.
    rewrite (csum_ext (n - m) _ (fun _ => C0)), csum_0.
    - rewrite (csum_ext m _ (fun i => a i * (mid i c + RtoC alpha * X i c))); [ring|]. intros i Hi. unfold b. now rewrite (proj2 (Nat.ltb_lt i m)).
    - intros i Hi. unfold b. rewrite (proj2 (Nat.ltb_ge _ m)) by lia. ring. }
  assert (Q : csum n (fun c => csum n (fun i => b i * (mid i c + RtoC alpha * X i c)) * conj (b c)) = C0).
  { rewrite (csum_ext n _ (fun _ => C0)); [apply csum_0|]. intros c Hc. rewrite B by assumption. ring. }
  assert (Q2 : csum n (fun c => b c * conj (b c)) + RtoC alpha * csum n (fun i => csum n (fun c => b i * X i c * conj (b c))) = C0).
  { rewrite <- Q. rewrite csum_swap, <- csum_mul_l, <- csum_add. apply csum_ext. intros c Hc. rewrite <- csum_mul_r, <- csum_mul_l.
    rewrite <- (csum_delta_l n c (fun i => b i * conj (b c)) Hc) at 1. rewrite <- csum_add. apply csum_ext. intros i Hi.
    replace (mid i c) with (mid c i) by (unfold mid; now rewrite Nat.eqb_sym). ring. }
  apply (f_equal re) in Q2.
  assert (Q3 : dsum n (fun c => re (b c) * re (b c) + im (b c) * im (b c))%R = 0%R).
  { pose proof (quad_imag n X b H) as Z. set (z := csum n (fun i => csum n (fun c => b i * X i c * conj (b c)))) in *.
    assert (S : re (csum n (fun c => b c * conj (b c))) = dsum n (fun c => re (b c) * re (b c) + im (b c) * im (b c))%R).
    { rewrite CfgProofs.re_csum. apply dsum_ext. intros c Hc. cunfold. ring. }
    rewrite <- S. destruct z as [u w]. destruct (csum n (fun c => b c * conj (b c))) as [u2 w2]. cunfold. cbn [fst snd] in *. subst u. lra. }
  intros i Hi. assert (Hb : b i = a i) by (unfold b; now rewrite (proj2 (Nat.ltb_lt i m))). rewrite <- Hb.
  pose proof (dsum_term n (fun c => re (b c) * re (b c) + im (b c) * im (b c))%R i (fun j _ => ltac:(nra)) ltac:(lia)) as T. cbv beta in T. rewrite Q3 in T.
  destruct (b i) as [u w]. cbn in *. assert (u = 0%R) by nra. assert (w = 0%R) by nra. now subst.
Qed.
Lemma indep_ext m n U W : (forall i c, (i < m)%nat -> (c < n)%nat -> U i c = W i c) -> indep m n U -> indep m n W.
Proof. intros E H a Z. apply H. intros c Hc. rewrite <- (Z c Hc). apply csum_ext. intros i Hi. now rewrite E. Qed.
Lemma anti_tr n X : antihermitian n X -> antihermitian n (tr_ X).
Proof. intros H i j Hi Hj. pose proof (H j i Hj Hi) as E. unfold dag, mscale, tr_ in *. exact E. Qed.
Lemma anti_diag n X i : antihermitian n X -> (i < n)%nat -> re (X i i) = 0%R.
Proof. intros H Hi. pose proof (H i i Hi Hi) as E. unfold dag, mscale in E. apply (f_equal re) in E. destruct (X i i) as [u w]. cunfold. cbn in *. lra. Qed.
Lemma anti_off n X i j : antihermitian n X -> (i < n)%nat -> (j < n)%nat -> X j i = - conj (X i j).
Proof. intros H Hi Hj. pose proof (H j i Hj Hi) as E. unfold dag, mscale in E. rewrite E. ring. Qed.
Theorem set_gauge_ok n tmp inp alpha x X : (2 <= n)%nat -> carries n inp x X -> tangent n X -> SUn n (mx n (set_gauge_matrix n tmp inp alpha x)).
Proof.
  intros Hn Ca [H T]. apply (gram_reunit_ok n _ Hn). destruct n as [|[|[|[|m]]]]; try lia.
  - destruct (packed2 _ _ Ca) as (P0 & P1). pose proof (anti_diag _ _ 0%nat H ltac:(lia)) as Z.
    apply (indep_ext 1 2 (fun i c => mid i c + RtoC alpha * tr_ X i c)); [|apply indep_anti; [lia|now apply anti_tr]].
    intros i c Hi Hc. destruct i; [|lia]. destruct c as [|[|c]]; try lia; unfold tr_, mx, upd, mid; cbn [Nat.add Nat.mul Nat.eqb].
    + rewrite P0. destruct (X 0%nat 0%nat) as [u w]. cbn in Z. subst u. unfold cimag. cring.
    + rewrite P1. rewrite (anti_off _ X 0 1 H) by lia. cring.
  - destruct Ca as (P0 & P1 & P2 & P3). pose proof (anti_diag _ _ 0%nat H ltac:(lia)) as Z0. pose proof (anti_diag _ _ 1%nat H ltac:(lia)) as Z1.
    apply (indep_ext 2 3 (fun i c => mid i c + RtoC alpha * tr_ X i c)); [|apply indep_anti; [lia|now apply anti_tr]].
    intros i c Hi Hc. destruct i as [|[|i]]; try lia; destruct c as [|[|[|c]]]; try lia; unfold tr_, mx, upd, mid; cbn [Nat.add Nat.mul Nat.eqb]; rewrite ?P0, ?P1, ?P2, ?P3.
    + destruct (X 0%nat 0%nat) as [u w]. cbn in Z0. subst u. unfold cimag. cring.
    + rewrite (anti_off _ X 0 1 H) by lia. cring.
    + rewrite (anti_off _ X 0 2 H) by lia. cring.
    + cring.
    + destruct (X 1%nat 1%nat) as [u w]. cbn in Z1. subst u. unfold creal. cring.
    + rewrite (anti_off _ X 1 2 H) by lia. cring.
  - set (k := S (S (S (S m)))) in *. change (indep (k - 1) k (mx k (add_constant k (rebuild_antihermitian k tmp (fun mu => RtoC alpha * inp mu x)) C1))).
    assert (Q : holds k (rebuild_antihermitian k tmp (fun mu => RtoC alpha * inp mu x)) tmp (mscale (RtoC alpha) X)).
    { apply rebuild_antihermitian_ok; [lia| | |].
      - intros i j Hi Hj. unfold mscale. f_equal. now apply Ca.
      - intros i j Hi Hj. pose proof (H i j Hi Hj) as E. unfold dag, mscale in *. rewrite conj_mul, E. cring.
      - unfold traceless, mtr, mscale in *. rewrite csum_mul_l, T. ring. }
    apply (indep_ext _ _ (fun i c => mid i c + RtoC alpha * X i c)); [|apply indep_anti; [lia|exact H]].
    intros i c Hi Hc. rewrite (proj1 (add_constant_ok k _ C1) i c ltac:(lia) Hc). unfold madd. rewrite (proj1 Q i c ltac:(lia) Hc). unfold mscale. ring.
Qed.
Definition tangents (n V : nat) (f : fields) (X : nat -> mat) : Prop := forall x, (x < V)%nat -> carries n f x (X x) /\ tangent n (X x).
Theorem egauge_ok sched n ND V tmp inp alpha lat X : any_order sched -> (2 <= n)%nat -> group_field n ND V lat -> geom_ok ND V lat -> tangents n V inp X ->
  exists g, group_gauge n V g /\ gauged n ND V g lat (egauge_Landau sched n ND V tmp inp alpha lat).
Proof.
  intros Any Hn F Geo Ta. exists (fun i => mx n (set_gauge_matrix n tmp inp alpha i)).
  assert (G : group_gauge n V (fun i => mx n (set_gauge_matrix n tmp inp alpha i))) by (intros i Hi; destruct (Ta i Hi); now apply (set_gauge_ok n tmp inp alpha i (X i))).
  split; [exact G|]. apply gtransform_gauged; [apply Any|apply Geo|exact F|exact G].
Qed.
