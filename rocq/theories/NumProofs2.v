From Coq Require Import ZArith Reals List PeanoNat Lia Lra.
From Verif Require Import CInt Cplx ProjModel NumModel NumProofs.
Import ListNotations.
Local Open Scope R_scope.

(** the nodes are strictly increasing *)
Definition increasing (x : list R) : Prop :=
  forall i j a b, (i < j)%nat -> nth_error x i = Some a -> nth_error x j = Some b -> a < b.

Lemma inc_tail : forall a x, increasing (a :: x) -> increasing x.
Proof. intros a x H i j u v L A B. exact (H (S i) (S j) u v (proj1 (Nat.succ_lt_mono i j) L) A B). Qed.
Lemma inc_head : forall a b x, increasing (a :: b :: x) -> a < b.
Proof. intros a b x H. apply (H 0%nat 1%nat); [lia|reflexivity|reflexivity]. Qed.
Lemma inc_skip : forall n x, increasing x -> increasing (skipn n x).
Proof. induction n; intros x H; [assumption|]. destruct x as [|a x]; [assumption|]. cbn. apply IHn. now apply (inc_tail a). Qed.
Lemma skip_nth : forall (A : Type) n (x : list A) k, nth_error (skipn n x) k = nth_error x (n + k).
Proof. induction n; intros x k; [reflexivity|]. destruct x; [now destruct k|]. cbn. apply IHn. Qed.
Lemma skip_map : forall (A B : Type) (f : A -> B) n (x : list A), skipn n (map f x) = map f (skipn n x).
Proof. induction n; intro x; [reflexivity|]. destruct x; [reflexivity|]. cbn. apply IHn. Qed.

Lemma der_exact : forall x c0 c1 c2 c3 c4 i xi,
  increasing x -> (3 <= length x)%nat -> (length x = 3%nat -> c3 = 0) -> ((length x < 5)%nat -> c4 = 0) ->
  nth_error x i = Some xi ->
  spline_der x (map (peval [c0; c1; c2; c3; c4]) x) (length x) i = Some (pder [c0; c1; c2; c3; c4] xi).
Proof.
  intros x c0 c1 c2 c3 c4 i xi I L3 Z3 Z4 Hi.
  assert (Li : (i < length x)%nat) by (apply nth_error_Some; rewrite Hi; discriminate).
  unfold spline_der. rewrite (proj2 (Nat.ltb_lt i _) Li). rewrite (proj2 (Nat.ltb_ge (length x) 3) L3).
  destruct (Nat.eqb_spec (length x) 3) as [E3|N3].
  - rewrite (Z3 E3), (Z4 ltac:(lia)). clear Z3 Z4. destruct x as [|u [|v [|w [|]]]]; try discriminate E3. clear L3 E3.
    pose proof (inc_head _ _ _ I) as H0. pose proof (inc_head _ _ _ (inc_tail _ _ I)) as H1.
    destruct (h2_exact c0 c1 c2 u v w H0 H1) as (A & B & C).
    destruct i as [|[|[|i]]]; cbn in Li; [| | |lia]; injection Hi as <-; unfold ap3, rd3; cbn [skipn map Nat.eqb]; [rewrite A|rewrite B|rewrite C]; reflexivity.
  - clear Z3. destruct (Nat.eqb_spec (length x) 4) as [E4|N4].
    + rewrite (Z4 ltac:(lia)). clear Z4. destruct x as [|u [|v [|w [|z [|]]]]]; try discriminate E4. clear L3 E4 N3.
      pose proof (inc_head _ _ _ I) as H0. pose proof (inc_head _ _ _ (inc_tail _ _ I)) as H1. pose proof (inc_head _ _ _ (inc_tail _ _ (inc_tail _ _ I))) as H2.
      destruct i as [|[|[|[|i]]]]; cbn in Li; [| | | |lia]; injection Hi as <-; unfold ap4, rd4; cbn [skipn map Nat.eqb];
        [rewrite h3_first_exact|rewrite h3_second_exact|rewrite h3_third_exact|rewrite h3_last_exact]; try assumption; reflexivity.
    + clear Z4. assert (L5 : (5 <= length x)%nat) by lia.
      assert (W : forall k, (k + 5 <= length x)%nat -> exists a b c d e t, skipn k x = a :: b :: c :: d :: e :: t /\
        a < b /\ b < c /\ c < d /\ d < e).
      { intros k Hk. pose proof (inc_skip k x I) as J. assert (LS : length (skipn k x) = (length x - k)%nat) by apply skipn_length.
        destruct (skipn k x) as [|a [|b [|c [|d [|e t]]]]] eqn:E; cbn in LS; try lia.
        exists a, b, c, d, e, t. split; [reflexivity|].
        pose proof (inc_tail _ _ J) as J1. pose proof (inc_tail _ _ J1) as J2. pose proof (inc_tail _ _ J2) as J3.
        repeat split; eapply inc_head; eassumption. }
      assert (G : forall k j f, (k + 5 <= length x)%nat -> (j < 5)%nat -> i = (k + j)%nat ->
        (forall a b c d e t, skipn k x = a :: b :: c :: d :: e :: t -> a < b -> b < c -> c < d -> d < e ->
          f a b c d e (peval [c0; c1; c2; c3; c4] a) (peval [c0; c1; c2; c3; c4] b) (peval [c0; c1; c2; c3; c4] c) (peval [c0; c1; c2; c3; c4] d) (peval [c0; c1; c2; c3; c4] e) = pder [c0; c1; c2; c3; c4] xi) ->
        ap5 f x (map (peval [c0; c1; c2; c3; c4]) x) k = Some (pder [c0; c1; c2; c3; c4] xi)).
      { intros k j f Hk Hj Eij Hf. destruct (W k Hk) as (a & b & c & d & e & t & E & A & B & C & D).
        unfold ap5, rd5. rewrite skip_map, E. cbn [map]. f_equal. eapply Hf; eassumption. }
      assert (P : forall k j a b c d e t, skipn k x = a :: b :: c :: d :: e :: t -> i = (k + j)%nat -> nth_error (a :: b :: c :: d :: e :: t) j = Some xi).
      { intros k j a b c d e t E Eij. rewrite <- E, skip_nth, <- Eij. exact Hi. }
      destruct (Nat.eqb_spec i 0) as [E0|E0]; [|destruct (Nat.eqb_spec i 1) as [E1|E1]; [|destruct (Nat.ltb_spec i (length x - 2)) as [E2|E2]; [|destruct (Nat.eqb_spec i (length x - 2)) as [E3|E3]]]].
      * apply (G 0 0)%nat; [lia|lia|lia|]. intros a b c d e t E A B C D.
        pose proof (P 0 0 _ _ _ _ _ _ E E0)%nat as Q. injection Q as <-. now apply h4_0_exact.
      * apply (G 0 1)%nat; [lia|lia|lia|]. intros a b c d e t E A B C D.
        pose proof (P 0 1 _ _ _ _ _ _ E E1)%nat as Q. injection Q as <-. now apply h4_1_exact.
      * apply (G (i - 2) 2)%nat; [lia|lia|lia|]. intros a b c d e t E A B C D.
        assert (Ei : i = (i - 2 + 2)%nat) by lia.
        pose proof (P (i - 2) 2 _ _ _ _ _ _ E Ei)%nat as Q. injection Q as <-. now apply h4_2_exact.
      * apply (G (length x - 5) 3)%nat; [lia|lia|lia|]. intros a b c d e t E A B C D.
        assert (Ei : i = (length x - 5 + 3)%nat) by lia.
        pose proof (P (length x - 5) 3 _ _ _ _ _ _ E Ei)%nat as Q. injection Q as <-. now apply h4_3_exact.
      * apply (G (length x - 5) 4)%nat; [lia|lia|lia|]. intros a b c d e t E A B C D.
        assert (Ei : i = (length x - 5 + 4)%nat) by lia.
        pose proof (P (length x - 5) 4 _ _ _ _ _ _ E Ei)%nat as Q. injection Q as <-. now apply h4_4_exact.
Qed.

(** ** find_idx *)
Lemma rd_nth : forall a i, (i < length a)%nat -> rd a (Z.of_nat i) = nth_error a i.
Proof. intros. unfold rd. rewrite (proj2 (Z.ltb_ge (Z.of_nat i) 0)) by lia. now rewrite Nat2Z.id. Qed.

Lemma find_ok : forall fuel X target low high, (low < high)%nat -> (high <= length X)%nat -> (high - low <= fuel)%nat ->
  (Z.of_nat (length X) < 2 ^ 63)%Z ->
  exists ref, find_idx fuel target X (Z.of_nat high) (Z.of_nat low) = Some (Z.of_nat ref) /\ (low < ref <= high)%nat /\
    ((ref - 1)%nat = low \/ exists v, nth_error X (ref - 1) = Some v /\ v < target) /\
    (ref = high \/ exists v, nth_error X ref = Some v /\ target <= v).
Proof.
  induction fuel as [|f IH]; intros X target low high Hl Hh Hf HN; [lia|].
  assert (T : (two64 = 2 * 2 ^ 63)%Z) by reflexivity.
  cbn [find_idx]. rewrite !u64_small by lia.
  destruct (Z.ltb_spec (Z.of_nat high - Z.of_nat low) 2) as [A|A].
  - exists high. split; [reflexivity|]. split; [lia|]. split; left; lia.
  - set (m := Nat.div2 (high + low)).
    assert (Em : Z.shiftr (Z.of_nat high + Z.of_nat low) 1 = Z.of_nat m).
    { unfold m. rewrite Z.shiftr_div_pow2 by lia. rewrite Nat.div2_div, Nat2Z.inj_div, Nat2Z.inj_add. reflexivity. }
    assert (Hm : (low < m < high)%nat).
    { assert (B : (2 * m <= high + low <= 2 * m + 1)%nat).
      { unfold m. pose proof (Nat.div2_odd (high + low)) as O. destruct (Nat.odd (high+low)); cbn [Nat.b2n] in O; lia. }
      lia. }
    rewrite Em. clearbody m. rewrite rd_nth by lia.
    destruct (nth_error X m) as [v|] eqn:Ev; [|apply nth_error_None in Ev; lia].
    destruct (Rlt_dec v target) as [C|C].
    + destruct (IH X target m high) as (ref & E & R1 & R2 & R3); [lia|lia|lia|assumption|].
      exists ref. split; [exact E|]. split; [lia|]. split; [|exact R3]. destruct R2 as [R2|R2]; [|right; exact R2].
      right. exists v. split; [|assumption]. now rewrite R2.
    + destruct (IH X target low m) as (ref & E & R1 & R2 & R3); [lia|lia|lia|assumption|].
      exists ref. split; [exact E|]. split; [lia|]. split; [exact R2|]. right. destruct R3 as [->|R3]; [|exact R3].
      exists v. split; [assumption|lra].
Qed.

Lemma bracket : forall fuel X target x0 xl, increasing X -> (2 <= length X)%nat -> (length X <= fuel)%nat ->
  (Z.of_nat (length X) < 2 ^ 63)%Z ->
  nth_error X 0 = Some x0 -> nth_error X (length X - 1) = Some xl -> x0 <= target -> target <= xl ->
  exists ref a b, find_idx fuel target X (Z.of_nat (length X)) 0 = Some (Z.of_nat ref) /\ (1 <= ref <= length X - 1)%nat /\
    nth_error X (ref - 1) = Some a /\ nth_error X ref = Some b /\ a <= target <= b.
Proof.
  intros fuel X target x0 xl I L F N H0 Hl T0 Tl.
  destruct (find_ok fuel X target 0 (length X)) as (ref & E & R1 & R2 & R3); [lia|lia|lia|assumption|].
  assert (Hr : (ref <= length X - 1)%nat).
  { destruct R3 as [->|(v & Hv & _)].
    - destruct R2 as [R2|(v & Hv & C)]; [lia|]. rewrite Hv in Hl. injection Hl as ->. lra.
    - assert (ref < length X)%nat by (apply nth_error_Some; rewrite Hv; discriminate). lia. }
  destruct (nth_error X (ref - 1)) as [a|] eqn:Ea; [|apply nth_error_None in Ea; lia].
  destruct (nth_error X ref) as [b|] eqn:Eb; [|apply nth_error_None in Eb; lia].
  exists ref, a, b. split; [exact E|]. split; [lia|]. split; [exact Ea|]. split; [exact Eb|]. split.
  - destruct R2 as [R2|(v & Hv & C)]; [|injection Hv as ->; lra].
    rewrite R2, H0 in Ea. injection Ea as ->. assumption.
  - destruct R3 as [->|(v & Hv & C)]; [lia|]. injection Hv as ->. assumption.
Qed.

(** a value and a slope at each end of an interval fix one cubic (Hermite) *)
Definition hermite (x0 x1 y0 y1 d0 d1 mu : R) : R :=
  let t := (mu - x0) / (x1 - x0) in
  (2*t*t*t - 3*t*t + 1) * y0 + (t*t*t - 2*t*t + t) * (x1 - x0) * d0 + (- 2*t*t*t + 3*t*t) * y1 + (t*t*t - t*t) * (x1 - x0) * d1.

Lemma rd2_ok : forall x ref a b, (1 <= ref)%nat -> nth_error x (ref - 1) = Some a -> nth_error x ref = Some b -> rd2 x (Z.of_nat ref) = Some (a, b).
Proof.
  intros x ref a b L A B. unfold rd2.
  replace (Z.of_nat ref - 1)%Z with (Z.of_nat (ref - 1)) by lia. rewrite !rd_nth by (apply nth_error_Some; congruence). now rewrite A, B.
Qed.
Lemma cubic_eval_ok : forall fuel x y der mu x0 xl, increasing x -> (2 <= length x)%nat -> (length x <= fuel)%nat ->
  (Z.of_nat (length x) < 2 ^ 63)%Z -> length y = length x -> length der = length x ->
  nth_error x 0 = Some x0 -> nth_error x (length x - 1) = Some xl -> x0 <= mu -> mu <= xl ->
  exists i a b ya yb da db, nth_error x i = Some a /\ nth_error x (S i) = Some b /\
    nth_error y i = Some ya /\ nth_error y (S i) = Some yb /\ nth_error der i = Some da /\ nth_error der (S i) = Some db /\
    a <= mu <= b /\ cubic_eval fuel x y der mu (Z.of_nat (length x)) = Some (hermite a b ya yb da db mu).
Proof.
  intros fuel x y der mu x0 xl I L F N Ly Ld H0 Hl T0 Tl.
  destruct (bracket fuel x mu x0 xl I L F N H0 Hl T0 Tl) as (ref & a & b & E & R & A & B & M).
  destruct (nth_error y (ref - 1)) as [ya|] eqn:Ya; [|apply nth_error_None in Ya; lia].
  destruct (nth_error y ref) as [yb|] eqn:Yb; [|apply nth_error_None in Yb; lia].
  destruct (nth_error der (ref - 1)) as [da|] eqn:Da; [|apply nth_error_None in Da; lia].
  destruct (nth_error der ref) as [db|] eqn:Db; [|apply nth_error_None in Db; lia].
  exists (ref - 1)%nat, a, b, ya, yb, da, db. replace (S (ref - 1)) with ref by lia.
  repeat (split; [assumption|]). unfold cubic_eval. rewrite E.
  rewrite (rd2_ok _ _ _ _ (proj1 R) A B), (rd2_ok _ _ _ _ (proj1 R) Ya Yb), (rd2_ok _ _ _ _ (proj1 R) Da Db).
  f_equal. assert (a < b) by (apply (I (ref-1) ref a b)%nat; [lia|assumption|assumption]).
  unfold hermite, spl_a, spl_b. field. lra.
Qed.
Lemma hermite_l : forall x0 x1 y0 y1 d0 d1, x0 < x1 -> hermite x0 x1 y0 y1 d0 d1 x0 = y0.
Proof. intros. unfold hermite. field. lra. Qed.
Lemma hermite_r : forall x0 x1 y0 y1 d0 d1, x0 < x1 -> hermite x0 x1 y0 y1 d0 d1 x1 = y1.
Proof. intros. unfold hermite. field. lra. Qed.
Lemma hermite_cubic : forall c0 c1 c2 c3 x0 x1 mu, x0 < x1 ->
  hermite x0 x1 (peval [c0; c1; c2; c3] x0) (peval [c0; c1; c2; c3] x1) (pder [c0; c1; c2; c3] x0) (pder [c0; c1; c2; c3] x1) mu = peval [c0; c1; c2; c3] mu.
Proof. intros. unfold hermite. cbn. field. lra. Qed.

(** beyond the last node the index is one past the end *)
Lemma find_beyond : forall fuel X target low high, (low < high)%nat -> (high <= length X)%nat -> (high - low <= fuel)%nat ->
  (Z.of_nat (length X) < 2 ^ 63)%Z -> (forall v, In v X -> v < target) ->
  find_idx fuel target X (Z.of_nat high) (Z.of_nat low) = Some (Z.of_nat high).
Proof.
  intros fuel X target low high Hl Hh Hf HN All.
  destruct (find_ok fuel X target low high Hl Hh Hf HN) as (ref & E & R1 & R2 & R3). rewrite E. do 2 f_equal.
  destruct R3 as [->|(v & Hv & C)]; [reflexivity|]. apply nth_error_In in Hv. apply All in Hv. lra.
Qed.
Lemma cubic_beyond : forall fuel x y der mu, (1 <= length x)%nat -> (length x <= fuel)%nat -> (Z.of_nat (length x) < 2 ^ 63)%Z ->
  (forall v, In v x -> v < mu) -> cubic_eval fuel x y der mu (Z.of_nat (length x)) = None.
Proof.
  intros fuel x y der mu L F N All. unfold cubic_eval. change 0%Z with (Z.of_nat 0). rewrite find_beyond; [|lia|lia|lia|assumption|assumption].
  unfold rd2, rd. destruct (Z.ltb_spec (Z.of_nat (length x)) 0); [lia|]. rewrite Nat2Z.id.
  rewrite (proj2 (nth_error_None x (length x))) by lia.
  destruct (Z.of_nat (length x) - 1 <? 0)%Z; [reflexivity|]. now destruct (nth_error x (Z.to_nat (Z.of_nat (length x) - 1))).
Qed.

(** ** line search *)
(** the parabola through three points *)
Definition parabola (a0 a1 a2 f0 f1 f2 x : R) : R :=
  f0 * ((x-a1)*(x-a2)) / ((a0-a1)*(a0-a2)) + f1 * ((x-a0)*(x-a2)) / ((a1-a0)*(a1-a2)) + f2 * ((x-a0)*(x-a1)) / ((a2-a0)*(a2-a1)).
Lemma parabola_through : forall a0 a1 a2 f0 f1 f2, a0 < a1 -> a1 < a2 ->
  parabola a0 a1 a2 f0 f1 f2 a0 = f0 /\ parabola a0 a1 a2 f0 f1 f2 a1 = f1 /\ parabola a0 a1 a2 f0 f1 f2 a2 = f2.
Proof. intros. unfold parabola. repeat split; field; lra. Qed.
Lemma parabola_vertex : forall a0 a1 a2 f0 f1 f2 m x, a0 < a1 -> a1 < a2 ->
  let A := f0 / ((a0-a1)*(a0-a2)) in let B := f1 / ((a1-a0)*(a1-a2)) in let C := f2 / ((a2-a0)*(a2-a1)) in
  m * (2*(A+B+C)) = a0*(B+C) + a1*(A+C) + a2*(A+B) ->
  parabola a0 a1 a2 f0 f1 f2 x = parabola a0 a1 a2 f0 f1 f2 m + (A+B+C) * ((x-m)*(x-m)).
Proof.
  intros a0 a1 a2 f0 f1 f2 m x H0 H1 A B C E.
  assert (P : forall z, parabola a0 a1 a2 f0 f1 f2 z = A * ((z-a1)*(z-a2)) + B * ((z-a0)*(z-a2)) + C * ((z-a0)*(z-a1))).
  { intro z. unfold parabola, A, B, C. field. repeat split; lra. }
  rewrite !P. clear P. clearbody A B C.
  replace (A * ((x - a1) * (x - a2)) + B * ((x - a0) * (x - a2)) + C * ((x - a0) * (x - a1)))
    with ((A+B+C)*x*x - x * (a0*(B+C) + a1*(A+C) + a2*(A+B)) + (A*a1*a2 + B*a0*a2 + C*a0*a1)) by ring.
  rewrite <- E.
  replace (A * ((m - a1) * (m - a2)) + B * ((m - a0) * (m - a2)) + C * ((m - a0) * (m - a1)))
    with ((A+B+C)*m*m - m * (a0*(B+C) + a1*(A+C) + a2*(A+B)) + (A*a1*a2 + B*a0*a2 + C*a0*a1)) by ring.
  rewrite <- E. ring.
Qed.

(** second divided difference *)
Definition curv (a0 a1 a2 f0 f1 f2 : R) : R := f0 / ((a0-a1)*(a0-a2)) + f1 / ((a1-a0)*(a1-a2)) + f2 / ((a2-a0)*(a2-a1)).
Lemma curv_sign : forall a0 a1 a2 f0 f1 f2, a0 < a1 -> a1 < a2 ->
  (f1 * (a2 - a0) < f0 * (a2 - a1) + f2 * (a1 - a0) <-> 0 < curv a0 a1 a2 f0 f1 f2).
Proof.
  intros a0 a1 a2 f0 f1 f2 H0 H1.
  assert (D : 0 < (a1-a0)*(a2-a1)*(a2-a0)) by (repeat apply Rmult_lt_0_compat; lra).
  assert (E : curv a0 a1 a2 f0 f1 f2 * ((a1-a0)*(a2-a1)*(a2-a0)) = f0 * (a2 - a1) + f2 * (a1 - a0) - f1 * (a2 - a0)) by (unfold curv; field; lra).
  split; intro H.
  - apply (Rmult_lt_reg_r _ _ _ D). rewrite E. lra.
  - assert (0 < curv a0 a1 a2 f0 f1 f2 * ((a1-a0)*(a2-a1)*(a2-a0))) by (now apply Rmult_lt_0_compat). lra.
Qed.
Lemma min_ok : forall a0 a1 a2 f0 f1 f2 m, a0 < a1 -> a1 < a2 -> 0 < curv a0 a1 a2 f0 f1 f2 ->
  (forall x, parabola a0 a1 a2 f0 f1 f2 m <= parabola a0 a1 a2 f0 f1 f2 x) ->
  approx_minimum a0 a1 a2 f0 f1 f2 = if Rlt_dec a2 m then a2 else if Rlt_dec m a0 then 8/100 else m.
Proof.
  intros a0 a1 a2 f0 f1 f2 m H0 H1 Hc Hm.
  unfold approx_minimum. cbv zeta.
  set (A := f0 / ((a0-a1)*(a0-a2))). set (B := f1 / ((a1-a0)*(a1-a2))). set (C := f2 / ((a2-a0)*(a2-a1))).
  assert (Hc' : 0 < A + B + C) by exact Hc.
  destruct (Req_EM_T (2*(A+B+C)) 0) as [E|_]; [lra|].
  set (v := (a0*(B+C) + a1*(A+C) + a2*(A+B)) / (2*(A+B+C))).
  assert (Hv : v * (2*(A+B+C)) = a0*(B+C) + a1*(A+C) + a2*(A+B)) by (unfold v; field; lra).
  assert (V : v = m).
  { pose proof (parabola_vertex a0 a1 a2 f0 f1 f2 v m H0 H1 Hv) as P. cbv zeta in P. fold A B C in P.
    specialize (Hm v). assert (Q : (A+B+C) * ((m-v)*(m-v)) <= 0) by lra.
    destruct (Req_dec m v) as [->|N]; [reflexivity|]. exfalso.
    assert (0 < (m-v)*(m-v)) by (apply (Rsqr_pos_lt (m - v)); lra).
    assert (0 < (A+B+C) * ((m-v)*(m-v))) by (now apply Rmult_lt_0_compat). lra. }
  rewrite <- V. reflexivity.
Qed.
Lemma min_exists : forall a0 a1 a2 f0 f1 f2, a0 < a1 -> a1 < a2 -> 0 < curv a0 a1 a2 f0 f1 f2 ->
  exists m, forall x, parabola a0 a1 a2 f0 f1 f2 m <= parabola a0 a1 a2 f0 f1 f2 x.
Proof.
  intros a0 a1 a2 f0 f1 f2 H0 H1 Hc.
  set (A := f0 / ((a0-a1)*(a0-a2))). set (B := f1 / ((a1-a0)*(a1-a2))). set (C := f2 / ((a2-a0)*(a2-a1))).
  assert (Hc' : 0 < A + B + C) by exact Hc.
  exists ((a0*(B+C) + a1*(A+C) + a2*(A+B)) / (2*(A+B+C))). intro x. set (v := _ / _).
  assert (Hv : v * (2*(A+B+C)) = a0*(B+C) + a1*(A+C) + a2*(A+B)) by (unfold v; field; lra).
  rewrite (parabola_vertex a0 a1 a2 f0 f1 f2 v x H0 H1 Hv). fold A B C.
  assert (0 <= (A + B + C) * ((x - v) * (x - v))) by (apply Rmult_le_pos; [lra|apply Rle_0_sqr]). lra.
Qed.
Lemma min_range : forall a0 a1 a2 f0 f1 f2, a0 < a1 -> a1 < a2 -> a0 <= 8/100 <= a2 ->
  a0 <= approx_minimum a0 a1 a2 f0 f1 f2 <= a2.
Proof.
  intros a0 a1 a2 f0 f1 f2 H0 H1 H. unfold approx_minimum. cbv zeta.
  repeat match goal with |- context [if ?d then _ else _] => destruct d end; lra.
Qed.
