(** C20: sums.  C21: splines.  C48: Vandermonde solver.  C49: line search.  C53: scale setting.
    double is the reals, complex double pairs of reals. *)
From Coq Require Import ZArith Reals List PeanoNat Lia Lra Permutation.
From Verif Require Import CInt Lib Cplx Arr ProjModel FieldProofs3 NumModel NumProofs NumProofs2 NumProofs3 ScaleModel ScaleProofs ScaleProofs2 ScaleProofs3.
Import ListNotations.
Local Open Scope R_scope.

(** * C20 *)
(** specification: the sum of a list, its mean, its unbiased variance *)
Definition total (a : list R) : R := fold_right Rplus 0 a.
Definition average (a : list R) : R := total a / INR (length a).
Definition variance (a : list R) : R := total (map (fun x => (x - average a) * (x - average a)) a) / (INR (length a) - 1).
Lemma total_lsum : forall a, lsum a = total a.
Proof. induction a as [|x a IH]; cbn; [reflexivity|now rewrite IH]. Qed.

(** the recursion of dandc_sum ends and reads only a[lo..hi-1]; [fuel] bounds the recursion depth *)
Theorem C20_dandc : forall fuel a, a <> [] -> (Z.of_nat (length a) < 2 ^ 62)%Z -> (length a <= fuel)%nat ->
  dandc_sum fuel a 0 (Z.of_nat (length a)) = Some (total a).
Proof.
  intros fuel a H L F. rewrite <- total_lsum. rewrite <- (slice_all a) at 3. apply (dandc_ok fuel a 0 (length a)); [|assumption|lia].
  destruct a; [easy|cbn; lia].
Qed.
Print Assumptions C20_dandc.
Theorem C20_kahan : forall a, kahan_summation a = total a.
Proof. intro a. rewrite <- total_lsum. apply kahan_ok. Qed.
Print Assumptions C20_kahan.
Theorem C20_average : forall a, a <> [] -> knuth_average a = average a.
Proof. intros a H. rewrite (knuth_ok a H). unfold mean, average. now rewrite total_lsum. Qed.
Print Assumptions C20_average.
Theorem C20_variance : forall a, (2 <= length a)%nat -> (Z.of_nat (length a) < 2 ^ 63)%Z ->
  knuth_average_err a = Some (average a, variance a).
Proof. intros a H L. rewrite (knuth_err a H L). unfold mean, dev, average, variance, mean. now rewrite !total_lsum. Qed.
Print Assumptions C20_variance.
(** the parallel sum, over any schedule of the Nth iterations, when the last part is not empty ... *)
Theorem C20_parallel_partial : forall a Nth fuel order,
  (Z.of_nat (length a) < 2 ^ 31)%Z -> (0 < Nth)%nat -> (Z.of_nat Nth < 2 ^ 31)%Z -> (length a <= fuel)%nat ->
  Permutation order (seq 0 Nth) -> ((Nth - 1) * ((length a + Nth - 1) / Nth) < length a)%nat ->
  par_danc_sum fuel a Nth order = Some (total a).
Proof. intros a Nth fuel order H1 H2 H3 F P S. rewrite <- total_lsum. now apply par_ok. Qed.
Print Assumptions C20_parallel_partial.
(** ... and in no other case: it reads outside the array or never returns *)
Theorem C20_parallel_fails : forall a Nth fuel order,
  (Z.of_nat (length a) < 2 ^ 31)%Z -> (0 < Nth)%nat -> (Z.of_nat Nth < 2 ^ 31)%Z ->
  Permutation order (seq 0 Nth) -> (length a <= (Nth - 1) * ((length a + Nth - 1) / Nth))%nat ->
  par_danc_sum fuel a Nth order = None.
Proof. intros a Nth fuel order H1 H2 H3 P S. now apply par_bad. Qed.
Print Assumptions C20_parallel_fails.
(** five elements and four threads *)
Theorem C20_parallel_refuted : exists a Nth, length a = 5%nat /\ Nth = 4%nat /\ forall fuel, par_danc_sum fuel a Nth (seq 0 Nth) = None.
Proof.
  exists [1; 2; 3; 4; 5], 4%nat. split; [reflexivity|]. split; [reflexivity|]. intro fuel.
  apply C20_parallel_fails; [reflexivity|lia|reflexivity|apply Permutation_refl|vm_compute; lia].
Qed.
Print Assumptions C20_parallel_refuted.
(** one measurement: division by zero *)
Theorem C20_variance_one_refuted : exists a, length a = 1%nat /\ knuth_average_err a = None.
Proof. exists [1]. split; [reflexivity|apply knuth_err_one]. Qed.
Print Assumptions C20_variance_one_refuted.
Example C20_ex : dandc_sum 5 [1; 2; 3; 4; 5] 0 5 = Some (total [1; 2; 3; 4; 5]) /\ total [1; 2; 3; 4; 5] = 15 /\
  par_danc_sum 6 [1; 2; 3; 4; 5; 6] 4 [2; 0; 3; 1]%nat = None /\ par_danc_sum 6 [1; 2; 3; 4; 5; 6] 3 [2; 0; 1]%nat = Some (total [1; 2; 3; 4; 5; 6]) /\
  variance [1; 2; 3] = 1.
Proof.
  split; [apply (C20_dandc 5 [1;2;3;4;5]); [discriminate|reflexivity|cbn; lia]|].
  split; [cbn; lra|]. split; [|split].
  - apply C20_parallel_fails; [reflexivity|lia|reflexivity| |vm_compute; lia].
    change (seq 0 4) with [0; 1; 2; 3]%nat. transitivity [0; 2; 3; 1]%nat; [apply perm_swap|]. apply perm_skip.
    transitivity [2; 1; 3]%nat; [apply perm_skip, perm_swap|apply perm_swap].
  - apply C20_parallel_partial; [reflexivity|lia|reflexivity|cbn; lia| |vm_compute; lia].
    change (seq 0 3) with [0; 1; 2]%nat. transitivity [0; 2; 1]%nat; [apply perm_swap|apply perm_skip, perm_swap].
  - unfold variance, average, total. cbn. field.
Qed.

(** * C21 *)
(** The polynomial with coefficients l at x, its derivative [pder] (checked against the standard derivative) *)
Theorem C21_pder : forall l x, derivable_pt_lim (peval l) x (pder l x).
Proof.
  induction l as [|c l IH]; intro x; cbn [peval pder].
  - apply derivable_pt_lim_const.
  - replace (peval l x + x * pder l x) with (0 + (1 * peval l x + x * pder l x)) by ring.
    apply (derivable_pt_lim_plus (fun _ => c) (fun x => x * peval l x)); [apply derivable_pt_lim_const|].
    apply (derivable_pt_lim_mult (fun x => x) (peval l)); [apply derivable_pt_lim_id|apply IH].
Qed.
Print Assumptions C21_pder.
(** every number of nodes from 3 on; degree at most min(number of nodes - 1, 4) *)
Theorem C21_derivative : forall x c0 c1 c2 c3 c4 i xi,
  increasing x -> (3 <= length x)%nat -> (length x = 3%nat -> c3 = 0) -> ((length x < 5)%nat -> c4 = 0) ->
  nth_error x i = Some xi ->
  spline_der x (map (peval [c0; c1; c2; c3; c4]) x) (length x) i = Some (pder [c0; c1; c2; c3; c4] xi).
Proof. exact der_exact. Qed.
Print Assumptions C21_derivative.
(** inside the nodes only elements of the arrays are read, and the interval used contains mu *)
Theorem C21_in_range : forall fuel x y der mu x0 xl, increasing x -> (2 <= length x)%nat -> (length x <= fuel)%nat ->
  (Z.of_nat (length x) < 2 ^ 63)%Z -> length y = length x -> length der = length x ->
  nth_error x 0 = Some x0 -> nth_error x (length x - 1) = Some xl -> x0 <= mu -> mu <= xl ->
  exists v, cubic_eval fuel x y der mu (Z.of_nat (length x)) = Some v.
Proof.
  intros. destruct (cubic_eval_ok fuel x y der mu x0 xl) as (i & a & b & ya & yb & da & db & _ & _ & _ & _ & _ & _ & _ & E); try assumption.
  eexists. exact E.
Qed.
Print Assumptions C21_in_range.
(** at a node the value of the node *)
Theorem C21_nodes : forall fuel x y der i xi yi, increasing x -> (2 <= length x)%nat -> (length x <= fuel)%nat ->
  (Z.of_nat (length x) < 2 ^ 63)%Z -> length y = length x -> length der = length x ->
  nth_error x i = Some xi -> nth_error y i = Some yi -> cubic_eval fuel x y der xi (Z.of_nat (length x)) = Some yi.
Proof.
  intros fuel x y der i xi yi I L F N Ly Ld Hx Hy.
  assert (Li : (i < length x)%nat) by (apply nth_error_Some; congruence).
  destruct (nth_error x 0) as [x0|] eqn:E0; [|apply nth_error_None in E0; lia].
  destruct (nth_error x (length x - 1)) as [xl|] eqn:El; [|apply nth_error_None in El; lia].
  assert (B : x0 <= xi <= xl).
  { split; [destruct (Nat.eq_dec i 0) as [->|Ni]; [rewrite E0 in Hx; injection Hx as ->; lra|left; apply (I 0 i)%nat; [lia|assumption|assumption]]|].
    destruct (Nat.eq_dec i (length x - 1)) as [->|Ni]; [rewrite El in Hx; injection Hx as ->; lra|left; apply (I i (length x - 1))%nat; [lia|assumption|assumption]]. }
  destruct (cubic_eval_ok fuel x y der xi x0 xl) as (j & a & b & ya & yb & da & db & Ja & Jb & Ka & Kb & _ & _ & M & E); try assumption; try tauto.
  assert (ab : a < b) by (apply (I j (S j)); [lia|assumption|assumption]).
  rewrite E. f_equal. destruct (Nat.lt_trichotomy i j) as [C|[->|C]].
  - assert (xi < a) by (apply (I i j); assumption). lra.
  - rewrite Ja in Hx. injection Hx as ->. rewrite Ka in Hy. injection Hy as ->. now apply hermite_l.
  - destruct (Nat.eq_dec i (S j)) as [->|Ni].
    + rewrite Jb in Hx. injection Hx as ->. rewrite Kb in Hy. injection Hy as ->. now apply hermite_r.
    + assert (b < xi) by (apply (I (S j) i); [lia|assumption|assumption]). lra.
Qed.
Print Assumptions C21_nodes.
(** cubics with exact derivatives are reproduced *)
Theorem C21_cubic : forall fuel x c0 c1 c2 c3 mu x0 xl, let p := peval [c0; c1; c2; c3] in increasing x -> (2 <= length x)%nat -> (length x <= fuel)%nat ->
  (Z.of_nat (length x) < 2 ^ 63)%Z -> nth_error x 0 = Some x0 -> nth_error x (length x - 1) = Some xl -> x0 <= mu -> mu <= xl ->
  cubic_eval fuel x (map p x) (map (pder [c0; c1; c2; c3]) x) mu (Z.of_nat (length x)) = Some (p mu).
Proof.
  intros fuel x c0 c1 c2 c3 mu x0 xl p I L F N H0 Hl T0 Tl.
  destruct (cubic_eval_ok fuel x (map p x) (map (pder [c0; c1; c2; c3]) x) mu x0 xl) as (j & a & b & ya & yb & da & db & Ja & Jb & Ka & Kb & Da & Db & M & E);
    try assumption; try apply map_length.
  rewrite nth_error_map, Ja in Ka. rewrite nth_error_map, Jb in Kb. rewrite nth_error_map, Ja in Da. rewrite nth_error_map, Jb in Db.
  injection Ka as <-. injection Kb as <-. injection Da as <-. injection Db as <-. rewrite E. f_equal. apply hermite_cubic.
  apply (I j (S j)); [lia|assumption|assumption].
Qed.
Print Assumptions C21_cubic.
(** beyond the last node the element x[N] is read *)
Theorem C21_beyond : forall fuel x y der mu, (1 <= length x)%nat -> (length x <= fuel)%nat -> (Z.of_nat (length x) < 2 ^ 63)%Z ->
  (forall v, In v x -> v < mu) -> cubic_eval fuel x y der mu (Z.of_nat (length x)) = None.
Proof. exact cubic_beyond. Qed.
Print Assumptions C21_beyond.
Theorem C21_beyond_refuted : exists x y der mu, length y = length x /\ length der = length x /\ increasing x /\
  forall fuel, (length x <= fuel)%nat -> cubic_eval fuel x y der mu (Z.of_nat (length x)) = None.
Proof.
  exists [0; 1], [0; 1], [1; 1], 2. split; [reflexivity|]. split; [reflexivity|]. split.
  - intros i j a b L Ha Hb. destruct i as [|[|i]]; [|destruct j as [|[|j]]; [lia|lia|destruct j; discriminate]|destruct i; discriminate].
    destruct j as [|[|j]]; [lia| |destruct j; discriminate]. injection Ha as <-. injection Hb as <-. lra.
  - intros fuel F. apply C21_beyond; [cbn; lia|assumption|reflexivity|]. intros v [<-|[<-|[]]]; lra.
Qed.
Print Assumptions C21_beyond_refuted.
Lemma inc_ex : increasing [0; 1; 3; 4; 7; 10].
Proof.
  intros i j a b L Ha Hb.
  destruct i as [|[|[|[|[|[|i]]]]]]; cbn in Ha; try (injection Ha as <-); try (destruct i; discriminate);
  destruct j as [|[|[|[|[|[|j]]]]]]; cbn in Hb; try (injection Hb as <-); try (destruct j; discriminate); first [lia | lra].
Qed.
Example C21_ex : spline_der [0; 1; 3; 4; 7; 10] (map (peval [2; -1; 0; 1; 3]) [0; 1; 3; 4; 7; 10]) 6 4 = Some (pder [2; -1; 0; 1; 3] 7) /\
  pder [2; -1; 0; 1; 3] 7 = 4262 /\
  cubic_eval 6 [0; 1; 3; 4; 7; 10] (map (peval [2; -1; 0; 1]) [0; 1; 3; 4; 7; 10]) (map (pder [2; -1; 0; 1]) [0; 1; 3; 4; 7; 10]) 5 6 = Some 122.
Proof.
  split; [|split].
  - apply (C21_derivative [0; 1; 3; 4; 7; 10]); [apply inc_ex|cbn; lia|discriminate|cbn; lia|reflexivity].
  - cbn. lra.
  - replace 122 with (peval [2; -1; 0; 1] 5) by (cbn; lra).
    apply (C21_cubic 6 [0; 1; 3; 4; 7; 10] 2 (-1) 0 1 5 0 10); [apply inc_ex|cbn; lia|cbn; lia|reflexivity|reflexivity|reflexivity|lra|lra].
Qed.

(** * C48 *)
(** the value at t of the polynomial with coefficients a_k, ..., a_(k+n-1) *)
Fixpoint horner (a : nat -> C) (k n : nat) (t : C) : C := match n with O => C0 | S n => (a k + t * horner a (S k) n t)%C end.
Definition solves (n : nat) (x : nat -> R) (a f : nat -> C) : Prop := forall i, (i < n)%nat -> horner a 0 n (RtoC (x i)) = f i.
(** every size and all distinct nodes: what comes out are not the coefficients of the interpolating
    polynomial p but those of p = r0 + (t - x0) (r1 + r2 t + ...): the step with x0 is missing *)
Theorem C48_result : forall n x f, (forall i j, (i < j < n)%nat -> x i <> x j) ->
  let r := solvandermonde n x f in
  forall i, (i < n)%nat -> (r 0%nat + (RtoC (x i) - RtoC (x 0%nat)) * horner r 1 (n - 1) (RtoC (x i)))%C = f i.
Proof. intros n x f D r i Hi. exact (vdm_ok n x D f i Hi). Qed.
Print Assumptions C48_result.
(** so the system is solved when the first node is zero *)
Theorem C48_first_zero_partial : forall n x f, (forall i j, (i < j < n)%nat -> x i <> x j) -> x 0%nat = 0 ->
  solves n x (solvandermonde n x f) f.
Proof.
  intros n x f D Z i Hi. pose proof (vdm_ok n x D f i Hi) as E. rewrite Z in E. destruct n as [|n]; [lia|].
  cbn [horner]. replace (S n - 1)%nat with n in E by lia. etransitivity; [|exact E].
  change (poly (solvandermonde (S n) x f) 1 n (RtoC (x i))) with (horner (solvandermonde (S n) x f) 1 n (RtoC (x i))). f_equal. f_equal.
  unfold RtoC, Csub, Cadd, Copp. cbn. f_equal; ring.
Qed.
Print Assumptions C48_first_zero_partial.
(** ... and not in general *)
Theorem C48_refuted : exists n x f, (forall i j, (i < j < n)%nat -> x i <> x j) /\ ~ solves n x (solvandermonde n x f) f.
Proof.
  exists 2%nat, (fun i => INR i + 1), (fun i => RtoC (INR i)). assert (D : forall i j, (i < j < 2)%nat -> INR i + 1 <> INR j + 1).
  { intros i j H E. assert (INR i = INR j) as E' by lra. apply INR_eq in E'. lia. }
  split; [exact D|]. intro S.
  pose proof (vdm_ok 2 _ D (fun i => RtoC (INR i))) as V. cbv beta in V.
  pose proof (S 0%nat ltac:(lia)) as S0. pose proof (V 0%nat ltac:(lia)) as V0. pose proof (V 1%nat ltac:(lia)) as V1.
  set (r := solvandermonde 2 _ _) in *. clearbody r. cbn [horner poly Nat.sub INR] in *.
  destruct (r 0%nat) as [a b]. destruct (r 1%nat) as [c d].
  unfold RtoC, Csub, Cadd, Copp, Cmul, C0 in *. cbn in *. injection S0 as S0 _. injection V0 as V0 _. injection V1 as V1 _. lra.
Qed.
Print Assumptions C48_refuted.
Example C48_ex : solves 3 (fun i => INR i * INR i) (solvandermonde 3 (fun i => INR i * INR i) (fun i => (INR i, 1))) (fun i => (INR i, 1)).
Proof.
  apply C48_first_zero_partial; [|cbn; ring]. intros i j H E.
  assert (INR i < INR j) by (apply lt_INR; lia). pose proof (pos_INR i). nra.
Qed.

(** * C49 *)
(** three probes a0 < a1 < a2: [parabola] passes through them ... *)
Theorem C49_parabola : forall a0 a1 a2 f0 f1 f2, a0 < a1 -> a1 < a2 ->
  parabola a0 a1 a2 f0 f1 f2 a0 = f0 /\ parabola a0 a1 a2 f0 f1 f2 a1 = f1 /\ parabola a0 a1 a2 f0 f1 f2 a2 = f2.
Proof. exact parabola_through. Qed.
Print Assumptions C49_parabola.
(** ... and when it is convex (f1 below the chord) it has a minimiser, which is returned if it lies in
    the probed interval; otherwise the end a2, or 0.08 *)
Theorem C49_minimum : forall a0 a1 a2 f0 f1 f2, a0 < a1 -> a1 < a2 -> f1 * (a2 - a0) < f0 * (a2 - a1) + f2 * (a1 - a0) ->
  exists m, (forall x, parabola a0 a1 a2 f0 f1 f2 m <= parabola a0 a1 a2 f0 f1 f2 x) /\
    (a0 <= m <= a2 -> approx_minimum a0 a1 a2 f0 f1 f2 = m) /\
    (a2 < m -> approx_minimum a0 a1 a2 f0 f1 f2 = a2) /\
    (m < a0 -> approx_minimum a0 a1 a2 f0 f1 f2 = 8/100).
Proof.
  intros a0 a1 a2 f0 f1 f2 H0 H1 Hc. apply curv_sign in Hc; [|assumption|assumption].
  destruct (min_exists a0 a1 a2 f0 f1 f2 H0 H1 Hc) as [m Hm]. exists m. split; [assumption|].
  rewrite (min_ok a0 a1 a2 f0 f1 f2 m H0 H1 Hc Hm).
  destruct (Rlt_dec a2 m); [|destruct (Rlt_dec m a0)]; repeat split; intros; lra.
Qed.
Print Assumptions C49_minimum.
(** for all probe values the result is in the probed interval, provided 0.08 is *)
Theorem C49_range : forall a0 a1 a2 f0 f1 f2, a0 < a1 -> a1 < a2 -> a0 <= 8/100 <= a2 -> a0 <= approx_minimum a0 a1 a2 f0 f1 f2 <= a2.
Proof. exact min_range. Qed.
Print Assumptions C49_range.
(** a concave parabola: the maximiser is returned *)
Theorem C49_concave_refuted : exists f0 f1 f2, let m := approx_minimum 0 (15/100) (30/100) f0 f1 f2 in
  0 <= m <= 30/100 /\ f0 < parabola 0 (15/100) (30/100) f0 f1 f2 m /\ f2 < parabola 0 (15/100) (30/100) f0 f1 f2 m.
Proof.
  exists 0, 1, 0. assert (E : approx_minimum 0 (15/100) (30/100) 0 1 0 = 15/100).
  { unfold approx_minimum. cbv zeta.
    replace (0 / ((0 - 15/100) * (0 - 30/100))) with 0 by field. replace (0 / ((30/100 - 0) * (30/100 - 15/100))) with 0 by field.
    destruct (Req_EM_T _ 0) as [Z|_]; [exfalso; revert Z; replace (1 / ((15/100 - 0) * (15/100 - 30/100))) with (-400/9) by field; lra|].
    match goal with |- context [Rlt_dec (30/100) ?s] => replace s with (15/100) by (field; lra) end.
    destruct (Rlt_dec (30/100) (15/100)); [lra|]. destruct (Rlt_dec (15/100) 0); [lra|reflexivity]. }
  cbv zeta. rewrite E. unfold parabola. repeat split; lra.
Qed.
Print Assumptions C49_concave_refuted.
Example C49_ex : approx_minimum 0 (15/100) (30/100) (9/400) 0 (9/400) = 15/100.
Proof.
  destruct (C49_minimum 0 (15/100) (30/100) (9/400) 0 (9/400)) as (m & Hm & A & _); [lra|lra|lra|].
  assert (P : forall x, parabola 0 (15/100) (30/100) (9/400) 0 (9/400) x = (x - 15/100) * (x - 15/100)) by (intro x; unfold parabola; field).
  assert (m = 15/100) as ->; [|apply A; lra].
  specialize (Hm (15/100)). rewrite !P in Hm. assert (Z : (m - 15/100) * (m - 15/100) <= 0) by lra.
  destruct (Req_dec m (15/100)) as [|N]; [assumption|]. assert (0 < (m - 15/100) * (m - 15/100)) by (apply (Rsqr_pos_lt (m - 15/100)); lra). lra.
Qed.

(** * C53 *)
(** The list of measurements of the fixed-step flow (any step > 0, number of iterations, start and stop
    times, measured values): it has meas_count + 1 entries; its times in the order in which scaleset
    stores them increase strictly, for the entries used by the scale setting (the first meas_count) ... *)
Theorem C53_order : forall delta_t smiters START STOP W0STOP obs obsc fuel, 0 < delta_t -> (smiters < fuel)%nat -> exists l mc c,
  flow_RK3 delta_t smiters START STOP W0STOP obs obsc fuel = Some (l, mc, c) /\ length l = S mc /\
  increasing (firstn mc (map m_time (rev l))) /\
  (INR c * delta_t <= STOP -> increasing (map m_time (rev l)) /\
    forall k, (1 <= k <= c)%nat -> START <= INR k * delta_t -> In (rec (INR k * delta_t) (obs k)) l).
Proof. intros. now apply flow_ok. Qed.
Print Assumptions C53_order.
(** ... but when the flow overshoots the stop time and is corrected, the last measurement is recorded
    with the time before the correction *)
Theorem C53_correction_refuted : exists delta_t smiters START STOP W0STOP obs obsc l mc c a b,
  0 < delta_t /\ flow_RK3 delta_t smiters START STOP W0STOP obs obsc (S smiters) = Some (a :: b :: l, mc, c) /\
  m_time a = m_time b /\ m_time a <> STOP /\ m_Gt a <> m_Gt b.
Proof.
  exists 1, 3%nat, 0, (1/2), 1000, (fun k => (INR k, 0)), (5, 0), [rec 0 (0, 0)], 2%nat, 2%nat, (rec (1 * 1) (5, 0)), (rec (1 * 1) (1, 0)).
  split; [lra|]. split; [|cbn; repeat split; lra].
  unfold flow_RK3. cbn [flow_loop Nat.ltb Nat.leb].
  replace (INR 1) with 1 by reflexivity. destruct (Rle_dec 0 (1 * 1)) as [_|N]; [|lra].
  cbn [rec m_Gt m_time fst snd INR].
  destruct (Rlt_dec _ (1000 * (3/2))) as [_|N]; [|exfalso; apply N; lra].
  destruct (Rlt_dec (1 * 1) (1/2)) as [N|_]; [lra|]. replace (INR 1) with 1 by reflexivity.
  destruct (Rlt_dec (1/2) (1 * 1)) as [_|N]; [|lra]. reflexivity.
Qed.
Print Assumptions C53_correction_refuted.
(** A reported scale comes from an interval whose end points bracket the target, the last such one among
    the measurements used, and lies strictly inside it. *)
Theorem C53_bracket : forall x y N scale s, (N <= length y)%nat -> evaluate_scale x y N scale = Some s -> s <> -1 ->
  exists i x0 x1 y0 y1, (i + 1 < N)%nat /\ nth_error x i = Some x0 /\ nth_error x (S i) = Some x1 /\
    nth_error y i = Some y0 /\ nth_error y (S i) = Some y1 /\ y0 < scale < y1 /\ x0 < s < x1 /\
    (forall j a b, (i < j)%nat -> (j + 1 < N)%nat -> nth_error y j = Some a -> nth_error y (S j) = Some b -> ~ (a < scale < b)).
Proof. exact evaluate_in. Qed.
Print Assumptions C53_bracket.
(** If the cubic of the interval has three real roots the interpolant takes the target value there *)
Theorem C53_root_partial : forall x y der mu up s x0 x1 y0 y1 d0 d1,
  rd2 x up = Some (x0, x1) -> rd2 y up = Some (y0, y1) -> rd2 der up = Some (d0, d1) ->
  x0 < x1 -> spl_disc x0 x1 y0 y1 d0 d1 mu -> solve_spline x y der mu up = Some s -> s <> -1 -> hermite x0 x1 y0 y1 d0 d1 s = mu.
Proof. exact solve_real. Qed.
Print Assumptions C53_root_partial.
(** but with one real root the real part of a complex one may be returned: here the interpolant crosses the
    target 0 at 4/5 and nowhere else, 3/10 is returned *)
Theorem C53_root_refuted : exists x y der mu x0 x1 y0 y1 d0 d1 s,
  x = [x0; x1] /\ y = [y0; y1] /\ der = [d0; d1] /\ x0 < x1 /\ y0 < mu < y1 /\
  solve_spline x y der mu 1 = Some s /\ hermite x0 x1 y0 y1 d0 d1 s <> mu /\
  (forall t, hermite x0 x1 y0 y1 d0 d1 t = mu <-> t = 4/5).
Proof.
  exists bx, by_, bd, 0, 0, 1, (bp 0), (bp 1), (709/1200), (3 - 14/5 + 709/1200), (3/10).
  repeat (split; [first [reflexivity | lra | unfold bp; lra | exact bad_solve]|]). split; [rewrite bp_hermite; unfold bp; lra|].
  intro t. rewrite bp_hermite. unfold bp. split; [|intros ->; ring].
  intro E. apply Rmult_integral in E. destruct E as [E|E]; [lra|]. assert (0 <= (t - 3/10) * (t - 3/10)) by apply Rle_0_sqr. lra.
Qed.
Print Assumptions C53_root_refuted.
(** The reported t0 is bracketed by two consecutive measurements, neither of them the newest, whose flowed energies (clover:
    the measured one; otherwise 32 t^2 (1 - plaquette)) bracket the target. *)
Theorem C53_t0 : forall l count T_0 W_0 clover t0 w0, length l = S count -> scaleset l count T_0 W_0 clover = Some (t0, w0) -> t0 <> -1 ->
  exists j newer older, (1 <= j)%nat /\ nth_error l j = Some newer /\ nth_error l (S j) = Some older /\
    energy clover older < T_0 < energy clover newer /\ m_time older < t0 < m_time newer.
Proof. exact scaleset_t0. Qed.
Print Assumptions C53_t0.
(** The equation solver: whenever it answers for a quadratic, and for every cubic that is not a shifted perfect cube with
    a positive root, its answers are the roots with their multiplicities. *)
Theorem C53_quadratic : forall ca cb cc z0 z1, quad_solve ca cb cc = Some (z0, z1) -> forall z : C,
  (RtoC ca * z * z + RtoC cb * z + RtoC cc)%C = (RtoC ca * (z - z0) * (z - z1))%C.
Proof. exact quad_roots. Qed.
Print Assumptions C53_quadratic.
Theorem C53_cubic : forall ca cb cc cd eval, PREC_TOL <= Rabs ca -> PREC_TOL <= Rabs (cd - eval) ->
  cb * cb <> 3 * ca * cc \/ 0 <= (cb / ca) * (cb / ca) * (cb / ca) * 2 - 9 * (cb / ca) * (cc / ca) + 27 * ((cd - eval) / ca) ->
  exists z0 z1 z2, cubic_solve ca cb cc cd eval = Some (z0, z1, z2) /\ forall z : C,
    (RtoC ca * z * z * z + RtoC cb * z * z + RtoC cc * z + RtoC (cd - eval) = RtoC ca * (z - z0) * (z - z1) * (z - z2))%C.
Proof. exact cubic_roots. Qed.
Print Assumptions C53_cubic.
(** x^3 + x + 1 has one real root, x^3 - 3 x + 1 three *)
Example C53_cubic_ex : (exists z0 z1 z2, cubic_solve 1 0 1 1 0 = Some (z0, z1, z2) /\ (z0 * z1 * z2)%C = RtoC (-1)) /\
  exists z0 z1 z2, cubic_solve 1 0 (-3) 1 0 = Some (z0, z1, z2) /\ (z0 * z1 * z2)%C = RtoC (-1).
Proof.
  assert (G : forall cc, cc <> 0 -> exists z0 z1 z2, cubic_solve 1 0 cc 1 0 = Some (z0, z1, z2) /\ (z0 * z1 * z2)%C = RtoC (-1)).
  { intros cc N. destruct (C53_cubic 1 0 cc 1 0) as (z0 & z1 & z2 & E & H).
    - rewrite Rabs_R1. unfold PREC_TOL. lra.
    - replace (1 - 0) with 1 by ring. rewrite Rabs_R1. unfold PREC_TOL. lra.
    - left. lra.
    - exists z0, z1, z2. split; [exact E|]. specialize (H C0). replace (1 - 0) with 1 in H by ring. change (RtoC 1) with C1 in H.
      assert (K : C1 = (- (z0 * z1 * z2))%C) by (transitivity (C1 * C0 * C0 * C0 + RtoC 0 * C0 * C0 + RtoC cc * C0 + C1)%C; [ring|rewrite H; ring]).
      replace (RtoC (-1)) with (- C1)%C by cring. rewrite K. ring. }
  split; apply G; lra.
Qed.
(** the excluded cubics: t^3 = 1/8 is answered with 0, so that a bracketed target with the solution 1/2 is reported as not found *)
Theorem C53_missed_refuted : exists x y der mu x0 x1 y0 y1 d0 d1 t,
  x = [x0; x1] /\ y = [y0; y1] /\ der = [d0; d1] /\ x0 < x1 /\ y0 < mu < y1 /\ x0 < t < x1 /\ hermite x0 x1 y0 y1 d0 d1 t = mu /\
  solve_spline x y der mu 1 = Some (-1).
Proof.
  exists mx, my, md, 0, 0, 1, (-1/8), (7/8), 0, 3, (1/2).
  repeat (split; [first [reflexivity | lra | rewrite miss_hermite; field]|]). exact miss_solve.
Qed.
Print Assumptions C53_missed_refuted.
(** the last measurement is not used: a target bracketed by the last two measurements only is reported as
    not bracketed, whatever the values *)
Theorem C53_last_unused : forall l count T_0 W_0 clover, length l = S count ->
  (forall i a b, (i + 1 < count)%nat -> nth_error (map (gt_of clover) (rev l)) i = Some a -> nth_error (map (gt_of clover) (rev l)) (S i) = Some b -> ~ (a < T_0 < b)) ->
  scaleset l count T_0 W_0 clover = Some (-1, -1).
Proof.
  intros l count T_0 W_0 clover L H. unfold scaleset. rewrite (proj2 (Nat.ltb_ge (length l) (count + 1))) by lia. cbv zeta.
  rewrite firstn_all2 by lia. destruct (Nat.eqb_spec count 0) as [->|N]; [reflexivity|].
  rewrite evaluate_none; [|rewrite map_length, rev_length; lia|exact H]. destruct (Req_EM_T (-1) (-1)) as [_|N']; [reflexivity|now destruct N'].
Qed.
Print Assumptions C53_last_unused.
Theorem C53_last_refuted : exists l a b, length l = 4%nat /\ increasing (map m_time (rev l)) /\
  nth_error (map m_Gt l) 1 = Some a /\ nth_error (map m_Gt l) 0 = Some b /\ a < 3/10 < b /\ scaleset l 3 (3/10) (3/10) true = Some (-1, -1).
Proof.
  exists [rec 3 (4/10, 0); rec 2 (2/10, 0); rec 1 (1/10, 0); rec 0 (0, 0)], (2/10), (4/10). split; [reflexivity|]. split.
  - intros i j a b L Ha Hb.
    destruct i as [|[|[|[|i]]]]; cbn in Ha; try (injection Ha as <-); try (destruct i; discriminate);
    destruct j as [|[|[|[|j]]]]; cbn in Hb; try (injection Hb as <-); try (destruct j; discriminate); first [lia | lra].
  - split; [reflexivity|]. split; [reflexivity|]. split; [lra|].
    apply C53_last_unused; [reflexivity|]. intros i a b Hi Ha Hb. destruct i as [|[|i]]; [| |lia]; cbn in Ha, Hb; injection Ha as <-; injection Hb as <-; lra.
Qed.
Print Assumptions C53_last_refuted.
(** on the parabola k t^2, known at 0, 1, 2, the scale k r^2 with 1 < r < 2 is found at r *)
Lemma parabola_scale : forall k r, 1/2 < k -> 1 < r < 2 -> evaluate_scale [0; 1; 2] [0; k; 4 * k] 3 (k * (r * r)) = Some r.
Proof.
  intros k r Hk Hr. assert (R2 : 1 < r * r < 4) by (split; nra). assert (K1 : k < k * (r * r)) by nra. assert (K4 : k * (r * r) < 4 * k) by nra.
  assert (Cr : crossing [0; k; 4 * k] (k * (r * r)) 3 = 2%nat).
  { cbn. destruct (Rlt_dec (k * (r * r)) (4 * k)); [|lra]. destruct (Rlt_dec k (k * (r * r))); [reflexivity|lra]. }
  unfold evaluate_scale. rewrite Cr. cbn [Nat.eqb].
  assert (I : increasing [0; 1; 2]).
  { intros i j a b L Ha Hb. destruct i as [|[|[|i]]]; cbn in Ha; try (injection Ha as <-); try (destruct i; discriminate);
    destruct j as [|[|[|j]]]; cbn in Hb; try (injection Hb as <-); try (destruct j; discriminate); first [lia | lra]. }
  pose proof (fun i xi => C21_derivative [0; 1; 2] 0 0 k 0 0 i xi I ltac:(cbn; lia) ltac:(reflexivity) ltac:(reflexivity)) as D. cbn [length] in D.
  replace (map (peval [0; 0; k; 0; 0]) [0; 1; 2]) with [0; k; 4 * k] in D by (cbn; repeat (apply f_equal2; [ring|]); reflexivity).
  assert (E : ders [0; 1; 2] [0; k; 4 * k] 3 3 = Some [0; 2 * k; 4 * k]).
  { cbn [ders]. rewrite (D 0%nat 0 eq_refl), (D 1%nat 1 eq_refl), (D 2%nat 2 eq_refl). cbn. f_equal. repeat (apply f_equal2; [ring|]). reflexivity. }
  rewrite E. unfold solve_spline. change (Z.of_nat 2 =? 0)%Z with false. cbv iota.
  change (rd2 [0; 1; 2] (Z.of_nat 2)) with (Some (1, 2)). change (rd2 [0; k; 4 * k] (Z.of_nat 2)) with (Some (k, 4 * k)).
  change (rd2 [0; 2 * k; 4 * k] (Z.of_nat 2)) with (Some (2 * k, 4 * k)).
  cbv iota beta zeta. replace (spl_a k (4 * k) (2 * k * (2 - 1)) (4 * k * (2 - 1))) with 0 by (unfold spl_a; ring).
  replace (spl_b 0 (2 * k * (2 - 1)) (4 * k * (2 - 1))) with k by (unfold spl_b; field). replace (2 * k * (2 - 1)) with (2 * k) by ring.
  unfold cubic_solve. rewrite Rabs_R0. destruct (Rlt_dec 0 PREC_TOL) as [_|N]; [|unfold PREC_TOL in N; lra].
  unfold quad_solve. destruct (Req_EM_T k 0) as [|_]; [lra|].
  assert (Sq : csqrt (2 * k * (2 * k) - 4 * k * (k - k * (r * r))) = (2 * k * r, 0)).
  { unfold csqrt. replace (2 * k * (2 * k) - 4 * k * (k - k * (r * r))) with (2 * k * r * (2 * k * r)) by ring.
    assert (0 <= 2 * k * r) by nra. assert (0 <= 2 * k * r * (2 * k * r)) by apply Rle_0_sqr.
    destruct (Rlt_dec _ 0); [lra|]. now rewrite sqrt_square. }
  rewrite Sq. unfold sgn. destruct (Rlt_dec (2 * k) 0); [lra|].
  replace (RtoC (-1/2) * (RtoC (2 * k) + RtoC 1 * ((2 * k * r)%R, 0%R)))%C with (RtoC (- (k * (1 + r)))) by (cunfold; f_equal; field).
  assert (P : 0 < k * (1 + r)) by nra.
  destruct (Req_EM_T _ 0) as [Z|_]; [exfalso; unfold RtoC, re, im in Z; cbn [fst snd] in Z; nra|].
  assert (Z0 : Cdiv (RtoC (- (k * (1 + r)))) (RtoC k) = RtoC (- (1 + r))) by (unfold Cdiv, Cinv, norm2; cunfold; f_equal; field; lra).
  assert (Z1 : Cdiv (RtoC (k - k * (r * r))) (RtoC (- (k * (1 + r)))) = RtoC (r - 1)).
  { unfold Cdiv, Cinv, norm2; cunfold; f_equal; field; split; lra. }
  rewrite Z0, Z1. cbn [re fst RtoC].
  destruct (Rlt_dec (- (1 + r) * (2 - 1) + 1) 2) as [_|N]; [|lra]. destruct (Rlt_dec 1 (- (1 + r) * (2 - 1) + 1)) as [N|_]; [lra|].
  destruct (Rlt_dec ((r - 1) * (2 - 1) + 1) 2) as [_|N]; [|lra]. destruct (Rlt_dec 1 ((r - 1) * (2 - 1) + 1)) as [_|N]; [|lra].
  f_equal. ring.
Qed.
(** four measurements on the parabola t^2: both scales are found *)
Example C53_ex : scaleset [rec 3 (9, 0); rec 2 (4, 0); rec 1 (1, 0); rec 0 (0, 0)] 3 (9/4) (9/2) true = Some (3/2, 3/2).
Proof.
  unfold scaleset. cbn [length Nat.ltb Nat.leb Nat.add Nat.eqb firstn rev app map rec m_time m_Gt gt_of fst snd].
  assert (W : forall k r x y, 1/2 < k -> 1 < r < 2 -> evaluate_scale [0; 1; 2; x] [0; k; 4 * k; y] 3 (k * (r * r)) = evaluate_scale [0; 1; 2] [0; k; 4 * k] 3 (k * (r * r))).
  { intros k r x y Hk Hr. unfold evaluate_scale.
    assert (C : crossing [0; k; 4 * k; y] (k * (r * r)) 3 = crossing [0; k; 4 * k] (k * (r * r)) 3) by reflexivity. rewrite C.
    assert (D : ders [0; 1; 2; x] [0; k; 4 * k; y] 3 3 = ders [0; 1; 2] [0; k; 4 * k] 3 3) by reflexivity. rewrite D.
    assert (Cr : crossing [0; k; 4 * k] (k * (r * r)) 3 = 2%nat).
    { assert (R2 : 1 < r * r < 4) by (split; nra). cbn. destruct (Rlt_dec (k * (r * r)) (4 * k)); [|nra]. destruct (Rlt_dec k (k * (r * r))); [reflexivity|nra]. }
    rewrite Cr. reflexivity. }
  replace [0; 1; 4; 9] with [0; 1; 4 * 1; 9] by (repeat (apply f_equal2; [lra|]); reflexivity).
  replace (9/4) with (1 * (3/2 * (3/2))) by field. rewrite W by lra. rewrite parabola_scale by lra.
  destruct (Req_EM_T (3/2) (-1)) as [N|_]; [lra|].
  assert (I : increasing [0; 1; 2]).
  { intros i j a b L Ha Hb. destruct i as [|[|[|i]]]; cbn in Ha; try (injection Ha as <-); try (destruct i; discriminate);
    destruct j as [|[|[|j]]]; cbn in Hb; try (injection Hb as <-); try (destruct j; discriminate); first [lia | lra]. }
  pose proof (fun i xi => C21_derivative [0; 1; 2] 0 0 1 0 0 i xi I ltac:(cbn; lia) ltac:(reflexivity) ltac:(reflexivity)) as D. cbn [length] in D.
  replace (map (peval [0; 0; 1; 0; 0]) [0; 1; 2]) with [0; 1; 4 * 1] in D by (cbn; repeat (apply f_equal2; [ring|]); reflexivity).
  assert (E : ders [0; 1; 2; 3] [0; 1; 4 * 1; 9] 3 3 = Some [0; 2; 4]).
  { transitivity (ders [0; 1; 2] [0; 1; 4 * 1] 3 3); [reflexivity|].
    cbn [ders]. rewrite (D 0%nat 0 eq_refl), (D 1%nat 1 eq_refl), (D 2%nat 2 eq_refl). cbn. f_equal. repeat (apply f_equal2; [ring|]). reflexivity. }
  rewrite E. cbn [mulR].
  replace (evaluate_scale [0; 1; 2; 3] [0 * 0; 1 * 2; 2 * 4] 3 (9/2)) with (evaluate_scale [0; 1; 2] [0; 2; 4 * 2] 3 (2 * (3/2 * (3/2)))).
  - now rewrite parabola_scale by lra.
  - replace [0 * 0; 1 * 2; 2 * 4] with [0; 2; 4 * 2] by (repeat (apply f_equal2; [lra|]); reflexivity). replace (9/2) with (2 * (3/2 * (3/2))) by field.
    unfold evaluate_scale.
    assert (C : crossing [0; 2; 4 * 2] (2 * (3/2 * (3/2))) 3 = 2%nat) by (cbn; destruct (Rlt_dec _ (4 * 2)); [|lra]; destruct (Rlt_dec 2 _); [reflexivity|lra]).
    rewrite C. reflexivity.
Qed.
