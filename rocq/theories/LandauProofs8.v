(** Proofs for C68: a step is 1 + alpha X reunitarised; the line search and the conjugate gradient. *)
From Coq Require Import Permutation Lia Lra Psatz.
From Verif Require Import CInt GeomModel GeomSpec GeomProofs GeomProofs2 Cplx CMat Det Arr MatModel MatSpec MatProofs MatProofs2 ProjModel ProjProofs GramModel GramProofs LandauProofs7 FieldModel FieldProofs FieldProofs2 FftModel FftProofs QtopModel QtopSpec QtopProofs QtopProofs2 QtopProofs4 SmearModel StaticModel StaticProofs GluonSpec GluonModel GluonProofs GluonProofs2 GluonProofs3 GluonProofs4 InstProofs InstProofs2 NumModel NumProofs2 U1Spec LandauModel LandauSpec LandauSpec2 LandauProofs LandauProofs2 LandauProofs3 LandauProofs4 LandauProofs5 LandauProofs6.
Local Open Scope C_scope.

Definition moved (X : mat) (alpha : R) : mat := madd mid (mscale (RtoC alpha) X).
Theorem set_gauge_schmidt n tmp inp alpha x X : (2 <= n)%nat -> carries n inp x X -> tangent n X -> reunitarised n (moved X alpha) (mx n (set_gauge_matrix n tmp inp alpha x)).
Proof.
  intros Hn Ca [H T]. unfold set_gauge_matrix. destruct n as [|[|[|[|m]]]]; try lia.
  - destruct (packed2 _ _ Ca) as (P0 & P1). pose proof (anti_diag _ _ 0%nat H ltac:(lia)) as Z. cbv zeta.
    match goal with |- context [gram_reunit 2 ?u] => set (gx := u) end.
    assert (E : forall i c, (i < 2)%nat -> (c < 1)%nat -> mx 2 gx i c = moved X alpha i c).
    { intros i c Hi Hc. destruct c; [|lia]. unfold moved, madd, mscale, mid. destruct i as [|[|i]]; try lia; unfold gx, mx, upd; cbn [Nat.add Nat.mul Nat.eqb].
      + rewrite P0. destruct (X 0%nat 0%nat) as [u w]. cbn in Z. subst u. unfold cimag. cring.
      + rewrite P1. rewrite (anti_off _ X 0 1 H) by lia. cring. }
    apply gram_schmidt; [lia| |exact E].
    apply (indep_ext 1 2 (fun i c => mid i c + RtoC alpha * tr_ X i c)); [|apply indep_anti; [lia|now apply anti_tr]].
    intros i c Hi Hc. unfold tr_. rewrite (E c i Hc Hi). unfold moved, madd, mscale, mid. now rewrite Nat.eqb_sym.
  - destruct Ca as (P0 & P1 & P2 & P3). pose proof (anti_diag _ _ 0%nat H ltac:(lia)) as Z0. pose proof (anti_diag _ _ 1%nat H ltac:(lia)) as Z1. cbv zeta.
    match goal with |- context [gram_reunit 3 ?u] => set (gx := u) end.
    assert (E : forall i c, (i < 3)%nat -> (c < 2)%nat -> mx 3 gx i c = moved X alpha i c).
    { intros i c Hi Hc. unfold moved, madd, mscale, mid. destruct c as [|[|c]]; try lia; destruct i as [|[|[|i]]]; try lia; unfold gx, mx, upd; cbn [Nat.add Nat.mul Nat.eqb]; rewrite ?P0, ?P1, ?P2, ?P3.
      + destruct (X 0%nat 0%nat) as [u w]. cbn in Z0. subst u. unfold cimag. cring.
      + rewrite (anti_off _ X 0 1 H) by lia. cring.
      + rewrite (anti_off _ X 0 2 H) by lia. cring.
      + cring.
      + destruct (X 1%nat 1%nat) as [u w]. cbn in Z1. subst u. unfold creal. cring.
      + rewrite (anti_off _ X 1 2 H) by lia. cring. }
    apply gram_schmidt; [lia| |exact E].
    apply (indep_ext 2 3 (fun i c => mid i c + RtoC alpha * tr_ X i c)); [|apply indep_anti; [lia|now apply anti_tr]].
    intros i c Hi Hc. unfold tr_. rewrite (E c i Hc Hi). unfold moved, madd, mscale, mid. now rewrite Nat.eqb_sym.
  - set (k := S (S (S (S m)))) in *.
    assert (Q : holds k (rebuild_antihermitian k tmp (fun mu => RtoC alpha * inp mu x)) tmp (mscale (RtoC alpha) X)).
    { apply rebuild_antihermitian_ok; [lia| | |].
      - intros i j Hi Hj. unfold mscale. f_equal. now apply Ca.
      - intros i j Hi Hj. pose proof (H i j Hi Hj) as E. unfold dag, mscale in *. rewrite conj_mul, E. cring.
      - unfold traceless, mtr, mscale in *. rewrite csum_mul_l, T. ring. }
    assert (E : forall i c, (i < k - 1)%nat -> (c < k)%nat -> mx k (add_constant k (rebuild_antihermitian k tmp (fun mu => RtoC alpha * inp mu x)) C1) i c = moved X alpha i c).
    { intros i c Hi Hc. rewrite (proj1 (add_constant_ok k _ C1) i c ltac:(lia) Hc). unfold moved, madd. rewrite (proj1 Q i c ltac:(lia) Hc). unfold mscale. ring. }
    apply gram_schmidt; [lia| |exact E].
    apply (indep_ext _ _ (fun i c => mid i c + RtoC alpha * X i c)); [|apply indep_anti; [lia|exact H]].
    intros i c Hi Hc. symmetry. exact (E i c Hi Hc).
Qed.
Theorem egauge_schmidt sched n ND V tmp inp alpha lat X : any_order sched -> (2 <= n)%nat -> group_field n ND V lat -> geom_ok ND V lat -> tangents n V inp X ->
  exists g, (forall x, (x < V)%nat -> reunitarised n (moved (X x) alpha) (g x)) /\ gauged n ND V g lat (egauge_Landau sched n ND V tmp inp alpha lat).
Proof.
  intros Any Hn F Geo Ta. exists (fun i => mx n (set_gauge_matrix n tmp inp alpha i)).
  assert (G : forall i, (i < V)%nat -> reunitarised n (moved (X i) alpha) (mx n (set_gauge_matrix n tmp inp alpha i))) by (intros i Hi; destruct (Ta i Hi); now apply set_gauge_schmidt).
  split; [exact G|]. apply gtransform_gauged; [apply Any|apply Geo|exact F|]. intros i Hi. apply (G i Hi).
Qed.

(** ** the line search *)
Lemma for_triple n (f g h : nat -> R) : for_ n (fun mu '(a, b, c) => (a + f mu, b + g mu, c + h mu)%R) (0, 0, 0)%R = (dsum n f, dsum n g, dsum n h).
Proof. induction n as [|n IH]; [reflexivity|]. cbn [for_]. rewrite IH, !dsum_S. reflexivity. Qed.
Lemma fold_three (f : nat -> R * R * R) : forall order red k,
  fold_left (fun red i => let '(v0, v1, v2) := f i in add_red (add_red (add_red red 0 v0) 1 v1) 2 v2) order red k =
  match k with 0%nat => (red k + sum_over (fun i => fst (fst (f i))) order)%R | 1%nat => (red k + sum_over (fun i => snd (fst (f i))) order)%R | 2%nat => (red k + sum_over (fun i => snd (f i)) order)%R | _ => red k end.
Proof.
  induction order as [|i order IH]; intros red k; cbn [fold_left]; [destruct k as [|[|[|k]]]; rewrite ?sum_nil; ring|]. rewrite IH. destruct (f i) as [[v0 v1] v2] eqn:E. unfold add_red.
  destruct k as [|[|[|k]]]; cbn [Nat.eqb]; rewrite ?sum_cons, ?E; cbn [fst snd]; ring.
Qed.
(** the functional after a step of length a *)
Definition probe sched n ND V tmp inp lat (a : R) : R := functional n ND V (egauge_Landau sched n ND V tmp inp a lat).
Theorem line_search_ok sched n ND V tmp inp red lat red' lat' X : any_order sched -> (2 <= n)%nat -> group_field n ND V lat -> geom_ok ND V lat -> tangents n V inp X ->
  line_search_Landau sched n ND V tmp inp red lat = (red', lat') ->
  let F := probe sched n ND V tmp inp lat in
  red' 0%nat = (red 0%nat + functional n ND V lat)%R /\ red' 1%nat = (red 1%nat + F (15/100))%R /\ red' 2%nat = (red 2%nat + F (30/100))%R /\
  (forall k, (3 <= k)%nat -> red' k = red k) /\
  lat' = egauge_Landau sched n ND V tmp inp (approx_minimum 0 (15/100) (30/100) (- red' 0%nat) (- red' 1%nat) (- red' 2%nat)) lat.
Proof.
  intros Any Hn Gf Geo Ta E F. unfold line_search_Landau in E. injection E as Er El.
  assert (Tr : forall a, F a = dsum V (fun i => dsum ND (fun mu => Re_trace_abc_dag_suNC n (set_gauge_matrix n tmp inp a i) (O (lat i) mu) (set_gauge_matrix n tmp inp a (nbr (lat i) mu))))).
  { intro a. unfold F, probe, functional. assert (G : group_gauge n V (fun i => mx n (set_gauge_matrix n tmp inp a i))) by (intros i Hi; destruct (Ta i Hi); now apply (set_gauge_ok n tmp inp a i (X i))).
    destruct (gtransform_gauged n ND V tmp (set_gauge_matrix n tmp inp a) (sched [3%Z] V) lat (Any _ _) (g_nbr _ _ _ Geo) Gf G) as [_ K].
    apply dsum_ext. intros i Hi. apply dsum_ext. intros mu Hmu. pose proof (K i mu Hi Hmu) as Q. change (gtransform n ND tmp (set_gauge_matrix n tmp inp a) (sched [3%Z] V) lat) with (egauge_Landau sched n ND V tmp inp a lat) in Q. rewrite Q.
    rewrite Re_trace_abc_dag_suNC_ok; [reflexivity| |]; intros ->; pose proof (G i Hi) as G1; pose proof (Gf i mu Hi Hmu) as G2; [rewrite <- !SUn_2|rewrite <- !SUn_3]; split; assumption. }
  assert (Ln : forall i, line_sums n ND tmp inp lat i = (dsum ND (fun mu => re (trace n (O (lat i) mu))),
     dsum ND (fun mu => Re_trace_abc_dag_suNC n (set_gauge_matrix n tmp inp PL1 i) (O (lat i) mu) (set_gauge_matrix n tmp inp PL1 (nbr (lat i) mu))),
     dsum ND (fun mu => Re_trace_abc_dag_suNC n (set_gauge_matrix n tmp inp PL2 i) (O (lat i) mu) (set_gauge_matrix n tmp inp PL2 (nbr (lat i) mu))))).
  { intro i. unfold line_sums. apply for_triple. }
  assert (R0 : forall k, red' k = _) by (intro k; rewrite <- Er; apply fold_three).
  split; [|split; [|split; [|split]]].
  - rewrite R0, (order_sum sched _ V _ Any). f_equal. apply dsum_ext. intros i Hi. rewrite Ln. cbn [fst snd]. apply dsum_ext. intros mu Hmu. now rewrite trace_ok.
  - rewrite R0, (order_sum sched _ V _ Any). f_equal. rewrite Tr. apply dsum_ext. intros i Hi. rewrite Ln. reflexivity.
  - rewrite R0, (order_sum sched _ V _ Any). f_equal. rewrite Tr. apply dsum_ext. intros i Hi. rewrite Ln. reflexivity.
  - intros k Hk. rewrite R0. destruct k as [|[|[|k]]]; try lia. reflexivity.
  - rewrite <- El. rewrite Er. reflexivity.
Qed.
