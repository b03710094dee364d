From Coq Require Import ZArith Reals List PeanoNat Lia Lra.
From Verif Require Import CInt Cplx Arr ProjModel ProjProofs NumModel NumProofs NumProofs2 ScaleModel ScaleProofs ScaleProofs2.
Import ListNotations.
Local Open Scope R_scope.

(** ** cube roots and square roots *)
Lemma cbrt_cube : forall x, 0 <= x -> cbrt x * cbrt x * cbrt x = x.
Proof.
  intros x H. unfold cbrt. destruct (Req_EM_T x 0) as [->|N]; [ring|]. assert (0 < x) by lra.
  rewrite <- !Rpower_plus. replace (1/3 + 1/3 + 1/3) with 1 by field. now apply Rpower_1.
Qed.
Lemma expi_cube : forall p, ((cos (p/3), sin (p/3)) * (cos (p/3), sin (p/3)) * (cos (p/3), sin (p/3)))%C = (cos p, sin p).
Proof.
  intro p. replace (cos p) with (cos (p/3 + p/3 + p/3)) by (f_equal; field). replace (sin p) with (sin (p/3 + p/3 + p/3)) by (f_equal; field).
  rewrite !cos_plus, !sin_plus, !cos_plus. unfold Cmul. cbn [re im fst snd]. f_equal; ring.
Qed.
Lemma cubert_cube : forall z, (cubert z * cubert z * cubert z)%C = z.
Proof.
  intro z. unfold cubert. cbv zeta. set (r := cabs z). set (e := (cos (carg z / 3), sin (carg z / 3))).
  assert (E : (e * e * e)%C = (cos (carg z), sin (carg z))) by apply expi_cube.
  assert (Cr : (RtoC (cbrt r) * RtoC (cbrt r) * RtoC (cbrt r))%C = RtoC r).
  { rewrite <- (cbrt_cube r) at 4 by apply sqrt_pos. cring. }
  transitivity ((RtoC (cbrt r) * RtoC (cbrt r) * RtoC (cbrt r)) * (e * e * e))%C; [ring|]. rewrite E, Cr. apply (carg_spec z).
Qed.
Lemma csqrt_sq : forall x, (csqrt x * csqrt x)%C = RtoC x.
Proof.
  intro x. unfold csqrt. destruct (Rlt_dec x 0) as [L|L]; unfold Cmul, RtoC; cbn [re im fst snd].
  - assert (S : sqrt (- x) * sqrt (- x) = - x) by (apply sqrt_sqrt; lra). f_equal; [lra|ring].
  - assert (S : sqrt x * sqrt x = x) by (apply sqrt_sqrt; lra). f_equal; [lra|ring].
Qed.
Lemma n0 : forall z : C, re z * re z + im z * im z = 0 <-> z = C0.
Proof. intro z. apply norm2_zero. Qed.

(** ** quadratics *)
Lemma quad_roots : forall ca cb cc z0 z1, quad_solve ca cb cc = Some (z0, z1) -> forall z : C,
  (RtoC ca * z * z + RtoC cb * z + RtoC cc)%C = (RtoC ca * (z - z0) * (z - z1))%C.
Proof.
  intros ca cb cc z0 z1 H z. unfold quad_solve in H. cbv zeta in H.
  set (q := (RtoC (-1/2) * (RtoC cb + RtoC (sgn cb) * csqrt (cb*cb - 4 * ca*cc)))%C) in *.
  destruct (Req_EM_T ca 0) as [|Na]; [discriminate|]. destruct (Req_EM_T (re q * re q + im q * im q) 0) as [|Nq]; [discriminate|].
  injection H as <- <-.
  assert (Hq : q <> C0) by (intro E; apply Nq; now apply n0).
  assert (Ha : RtoC ca <> C0) by (intro E; injection E; intros; contradiction).
  assert (S1 : sgn cb * sgn cb = 1) by (unfold sgn; destruct (Rlt_dec cb 0); ring).
  assert (K : (q * q + RtoC cb * q + RtoC ca * RtoC cc)%C = C0).
  { unfold q. set (s := csqrt (cb * cb - 4 * ca * cc)). assert (E : (s * s)%C = RtoC (cb * cb - 4 * ca * cc)) by apply csqrt_sq.
    clearbody s. set (g := sgn cb) in *. clearbody g.
    assert (E' : (RtoC g * RtoC g)%C = C1) by (unfold RtoC, Cmul, C1; cbn; f_equal; [lra|ring]).
    transitivity (RtoC (1/4) * ((RtoC g * RtoC g) * (s * s) - RtoC (cb * cb - 4 * ca * cc)))%C; [|rewrite E, E'; ring].
    clear. destruct s as [u v]. apply C_eq; cunfold; field. }
  transitivity (RtoC ca * (z * z - (q / RtoC ca + RtoC cc / q) * z + (q / RtoC ca) * (RtoC cc / q)))%C; [|ring].
  replace (q / RtoC ca + RtoC cc / q)%C with ((q * q + RtoC ca * RtoC cc) / (RtoC ca * q))%C by (field; split; assumption).
  replace (q * q + RtoC ca * RtoC cc)%C with (- RtoC cb * q)%C; [field; split; assumption|].
  transitivity (q * q + RtoC cb * q + RtoC ca * RtoC cc - RtoC cb * q)%C; [rewrite K; ring|ring].
Qed.

(** ** cubics *)
Lemma cardano : forall (A B w i3 : C), (i3 * i3)%C = RtoC (-3) -> let s := (A + B)%C in let m := (A - B)%C in
  ((w - s) * (w - (RtoC (-1/2) * s - i3 * RtoC (1/2) * m)) * (w - (RtoC (-1/2) * s + i3 * RtoC (1/2) * m)) =
   w * w * w - RtoC 3 * (A * B) * w - (A * A * A + B * B * B))%C.
Proof.
  intros A B w i3 H s m.
  transitivity ((w - s) * ((w + RtoC (1/2) * s) * (w + RtoC (1/2) * s) - RtoC (1/4) * (i3 * i3) * (m * m)))%C.
  - replace (RtoC (-1/2)) with (- RtoC (1/2))%C by (unfold RtoC, Copp; cbn; f_equal; field).
    replace (RtoC (1/4)) with (RtoC (1/2) * RtoC (1/2))%C by (unfold RtoC, Cmul; cbn; f_equal; field). ring.
  - rewrite H. unfold s, m. clear. set (h := RtoC (1/2)).
    assert (H2 : (h + h)%C = C1) by (unfold h, RtoC, Cadd, C1; cbn; f_equal; field).
    replace (RtoC (1/4) * RtoC (-3))%C with (- (h * h * (C1 + C1 + C1)))%C by (unfold h, RtoC, Cmul, Copp, Cadd, C1; cbn; f_equal; field).
    replace (RtoC 3) with (C1 + C1 + C1)%C by (unfold RtoC, Cadd, C1; cbn; f_equal; ring).
    clearbody h.
    assert (H4 : (h * h + h * h + h * h + h * h)%C = C1) by (transitivity ((h + h) * (h + h))%C; [ring|rewrite H2; ring]).
    transitivity ((w - (A + B)) * (w * w + (h + h) * (A + B) * w + (h*h + h*h + h*h + h*h) * (A * A + B * B - A * B)))%C; [ring|].
    rewrite H2, H4. ring.
Qed.
Lemma i3_sq : (Ci * RtoC (sqrt 3) * (Ci * RtoC (sqrt 3)))%C = RtoC (-3).
Proof.
  assert (S : sqrt 3 * sqrt 3 = 3) by (apply sqrt_sqrt; lra). unfold Ci, RtoC, Cmul. cbn [re im fst snd]. f_equal; [|ring].
  transitivity (- (sqrt 3 * sqrt 3)); [ring|lra].
Qed.
Lemma shift_poly : forall ca cb cc d, ca <> 0 -> let a := cb / ca in let b := cc / ca in let c := d / ca in
  let Q := (a * a - 3 * b) / 9 in let Rr := (a * (2 * a * a - 9 * b) + 27 * c) / 54 in forall z : C,
  (RtoC ca * z * z * z + RtoC cb * z * z + RtoC cc * z + RtoC d =
   RtoC ca * ((z + RtoC (a/3)) * (z + RtoC (a/3)) * (z + RtoC (a/3)) - RtoC 3 * RtoC Q * (z + RtoC (a/3)) + RtoC 2 * RtoC Rr))%C.
Proof.
  intros ca cb cc d N a b c Q Rr [u v]. unfold Q, Rr, a, b, c. apply C_eq; cunfold; field; assumption.
Qed.
Lemma trig_factor : forall Q p, 0 < Q -> forall w : C, let f q := RtoC (-2 * sqrt Q * cos q) in
  ((w - f p) * (w - f (p + 2 * PI / 3)%R) * (w - f (p - 2 * PI / 3)%R) = w * w * w - RtoC 3 * RtoC Q * w + RtoC 2 * RtoC (cos (3 * p) * (sqrt Q * Q))%R)%C.
Proof.
  intros Q p HQ w f.
  assert (S : sqrt Q * sqrt Q = Q) by (apply sqrt_sqrt; lra).
  assert (T : sqrt 3 * sqrt 3 = 3) by (apply sqrt_sqrt; lra).
  assert (P : sin p * sin p = 1 - cos p * cos p) by (pose proof (sin2_cos2 p) as H; unfold Rsqr in H; lra).
  assert (C23 : cos (2 * PI / 3) = -1/2) by (rewrite <- cos_2PI3; f_equal; field).
  assert (S23 : sin (2 * PI / 3) = sqrt 3 / 2) by (rewrite <- sin_2PI3; f_equal; field).
  unfold f. rewrite cos3, cos_plus, cos_minus, C23, S23.
  set (q := sqrt Q) in *. set (t := sqrt 3) in *. set (c := cos p) in *. set (s := sin p) in *. clearbody q t c s.
  rewrite <- S. clear S HQ.
  transitivity ((w + RtoC (2 * q * c)) * (w * w - RtoC (2 * q * c) * w + RtoC (q * q * (c * c - (t * t) * (s * s)))))%C.
  - destruct w as [u v]. apply C_eq; cunfold; field.
  - rewrite T, P. destruct w as [u v]. apply C_eq; cunfold; ring.
Qed.
Lemma cubic_roots : forall ca cb cc cd eval, PREC_TOL <= Rabs ca -> PREC_TOL <= Rabs (cd - eval) ->
  cb * cb <> 3 * ca * cc \/ 0 <= (cb / ca) * (cb / ca) * (cb / ca) * 2 - 9 * (cb / ca) * (cc / ca) + 27 * ((cd - eval) / ca) ->
  exists z0 z1 z2, cubic_solve ca cb cc cd eval = Some (z0, z1, z2) /\ forall z : C,
    (RtoC ca * z * z * z + RtoC cb * z * z + RtoC cc * z + RtoC (cd - eval) = RtoC ca * (z - z0) * (z - z1) * (z - z2))%C.
Proof.
  intros ca cb cc cd eval Ha Hd HN.
  assert (Hca : ca <> 0). { intros ->. rewrite Rabs_R0 in Ha. unfold PREC_TOL in Ha. lra. }
  pose proof (shift_poly ca cb cc (cd - eval) Hca) as SP. cbv zeta in SP.
  unfold cubic_solve. destruct (Rlt_dec (Rabs ca) PREC_TOL); [lra|]. destruct (Rlt_dec (Rabs (cd - eval)) PREC_TOL); [lra|]. cbv zeta.
  assert (HN' : (cb / ca * (cb / ca) - 3 * (cc / ca)) / 9 = 0 -> 0 <= (cb / ca * (2 * (cb / ca) * (cb / ca) - 9 * (cc / ca)) + 27 * ((cd - eval) / ca)) / 54).
  { intro E. destruct HN as [HN|HN]; [exfalso; apply HN|].
    - assert (E2 : (cb / ca * (cb / ca) - 3 * (cc / ca)) / 9 * (9 * (ca * ca)) = cb * cb - 3 * ca * cc) by (field; assumption). rewrite E in E2. lra.
    - lra. }
  clear HN. set (a := cb / ca) in *. set (b := cc / ca) in *. set (c := (cd - eval) / ca) in *.
  set (Q := (a * a - 3 * b) / 9) in *. set (Rr := (a * (2 * a * a - 9 * b) + 27 * c) / 54) in *. clearbody Q Rr.
  set (h := RtoC (a / 3)) in *.
  destruct (Rlt_dec (Rr * Rr) (Q * Q * Q)) as [D|D].
  - (* three real roots *)
    assert (HQ : 0 < Q).
    { assert (0 <= Rr * Rr) by apply Rle_0_sqr. destruct (Rlt_dec 0 Q) as [|N]; [assumption|]. exfalso.
      assert (0 <= (-Q) * (-Q) * (-Q)) by (repeat apply Rmult_le_pos; lra). nra. }
    set (theta := acos (Rr / sqrt (Q*Q*Q))).
    assert (S3 : sqrt (Q*Q*Q) = sqrt Q * Q).
    { rewrite sqrt_mult by first [apply Rmult_le_pos; lra | lra]. rewrite sqrt_square by lra. ring. }
    assert (Sp : 0 < sqrt Q * Q) by (apply Rmult_lt_0_compat; [now apply sqrt_lt_R0|assumption]).
    assert (CT : cos theta * (sqrt Q * Q) = Rr).
    { unfold theta. rewrite S3. rewrite cos_acos; [unfold Rdiv; rewrite Rmult_assoc, Rinv_l by lra; ring|].
      assert (SS : (sqrt Q * Q) * (sqrt Q * Q) = Q * Q * Q).
      { replace (sqrt Q * Q * (sqrt Q * Q)) with ((sqrt Q * sqrt Q) * (Q * Q)) by ring. rewrite sqrt_sqrt by lra. ring. }
      set (k := sqrt Q * Q) in *. assert (B : Rr * Rr < k * k) by (rewrite SS; assumption).
      assert (- k < Rr < k) by (split; nra).
      split; [apply (Rmult_le_reg_r k)|apply (Rmult_le_reg_r k)]; try assumption; unfold Rdiv; rewrite Rmult_assoc, Rinv_l by lra; lra. }
    do 3 eexists. split; [reflexivity|]. intro z. rewrite SP.
    pose proof (trig_factor Q (theta / 3) HQ (z + h)%C) as T. cbv zeta in T.
    replace (3 * (theta / 3)) with theta in T by field. rewrite CT in T. rewrite <- T.
    replace ((theta + 2 * PI) / 3) with (theta / 3 + 2 * PI / 3) by field. replace ((theta - 2 * PI) / 3) with (theta / 3 - 2 * PI / 3) by field.
    assert (G : forall x, (z - RtoC (x - a / 3) = z + h - RtoC x)%C) by (intro x; unfold h; cring). rewrite !G. ring.
  - (* one real root *)
    set (S := csqrt (Rr * Rr - Q * Q * Q)).
    assert (HS : (S * S)%C = (RtoC Rr * RtoC Rr - RtoC Q * RtoC Q * RtoC Q)%C) by (unfold S; rewrite csqrt_sq; cring).
    set (res := cubert (RtoC Rr + S)%C). assert (HR : (res * res * res)%C = (RtoC Rr + S)%C) by apply cubert_cube.
    set (A := (- res)%C). assert (HA : (A * A * A)%C = (- (RtoC Rr + S))%C) by (unfold A; transitivity (- (res * res * res))%C; [ring|now rewrite HR]).
    set (B := if Req_EM_T (re A * re A + im A * im A) 0 then C0 else Cdiv (RtoC Q) A).
    assert (HB : (A * B = RtoC Q)%C /\ (A * A * A + B * B * B = - (RtoC 2 * RtoC Rr))%C).
    { unfold B. destruct (Req_EM_T (re A * re A + im A * im A) 0) as [E|E].
      - assert (A0 : A = C0) by now apply n0. rewrite A0 in HA |- *.
        assert (Z : (RtoC Rr + S)%C = C0) by (transitivity (- - (RtoC Rr + S))%C; [ring|rewrite <- HA; ring]).
        assert (Sr : S = (sqrt (Rr * Rr - Q * Q * Q), 0)) by (unfold S, csqrt; destruct (Rlt_dec _ 0); [lra|reflexivity]).
        rewrite Sr in Z. unfold RtoC, Cadd, C0 in Z. cbn [re im fst snd] in Z. injection Z as Z _.
        assert (Q3 : Q * Q * Q = 0). { assert (SS : sqrt (Rr * Rr - Q*Q*Q) * sqrt (Rr * Rr - Q*Q*Q) = Rr * Rr - Q*Q*Q) by (apply sqrt_sqrt; lra).
          replace (sqrt (Rr * Rr - Q * Q * Q)) with (- Rr) in SS by lra. lra. }
        assert (Q0 : Q = 0). { apply Rmult_integral in Q3. destruct Q3 as [Q3|Q3]; [|assumption]. apply Rmult_integral in Q3. destruct Q3; assumption. }
        specialize (HN' Q0). assert (0 <= sqrt (Rr * Rr - Q*Q*Q)) by apply sqrt_pos. assert (R0 : Rr = 0) by lra.
        rewrite Q0, R0. split; cring.
      - assert (A0 : A <> C0) by (intro X; apply E; now apply n0).
        assert (K : ((A * A * A) * (RtoC Rr - S))%C = (- (RtoC Q * RtoC Q * RtoC Q))%C).
        { rewrite HA. transitivity (S * S - RtoC Rr * RtoC Rr)%C; [ring|]. rewrite HS. ring. }
        split; [field; assumption|].
        replace (RtoC Q / A * (RtoC Q / A) * (RtoC Q / A))%C with ((RtoC Q * RtoC Q * RtoC Q) / (A * A * A))%C by (field; assumption).
        replace (RtoC Q * RtoC Q * RtoC Q)%C with (- ((A * A * A) * (RtoC Rr - S)))%C by (rewrite K; ring).
        transitivity (A * A * A - (RtoC Rr - S))%C; [field; assumption|]. rewrite HA.
        replace (RtoC 2) with (C1 + C1)%C by cring. ring. }
    clearbody B. destruct HB as [HB1 HB2].
    do 3 eexists. split; [reflexivity|]. intro z. rewrite SP.
    pose proof (cardano A B (z + h)%C (Ci * RtoC (sqrt 3))%C i3_sq) as K. cbv zeta in K. rewrite HB1, HB2 in K.
    transitivity (RtoC ca * ((z + h) * (z + h) * (z + h) - RtoC 3 * RtoC Q * (z + h) - - (RtoC 2 * RtoC Rr)))%C; [ring|].
    rewrite <- K. ring.
Qed.

(** with Q = 0 and R < 0 all three are the inflection point: the interpolant t^3 - 1/8 is not solved for 0 *)
Definition mx : list R := [0; 1].
Definition my : list R := [-1/8; 7/8].
Definition md : list R := [0; 3].
Lemma miss_hermite : forall t, hermite 0 1 (-1/8) (7/8) 0 3 t = t * t * t - 1/8.
Proof. intro t. unfold hermite. field. Qed.
Lemma miss_solve : solve_spline mx my md 0 1 = Some (-1).
Proof.
  unfold solve_spline. change (1 =? 0)%Z with false. cbv iota. unfold mx, my, md.
  change (rd2 [0; 1] 1) with (Some (0, 1)). change (rd2 [-1/8; 7/8] 1) with (Some (-1/8, 7/8)). change (rd2 [0; 3] 1) with (Some (0, 3)). cbv iota zeta beta.
  replace (spl_a (-1/8) (7/8) (0 * (1 - 0)) (3 * (1 - 0))) with 1 by (unfold spl_a; field).
  replace (spl_b 1 (0 * (1 - 0)) (3 * (1 - 0))) with 0 by (unfold spl_b; field). replace (0 * (1 - 0)) with 0 by ring.
  assert (E : exists z1 z2, cubic_solve 1 0 0 (-1/8) 0 = Some (C0, z1, z2) /\ re z1 = 0 /\ re z2 = 0).
  { unfold cubic_solve. rewrite Rabs_R1. destruct (Rlt_dec 1 PREC_TOL) as [L|_]; [unfold PREC_TOL in L; lra|].
    replace (-1/8 - 0) with (- (1/8)) by field. rewrite Rabs_Ropp, Rabs_pos_eq by lra.
    destruct (Rlt_dec (1/8) PREC_TOL) as [L|_]; [unfold PREC_TOL in L; lra|]. cbv zeta.
    replace ((0 / 1 * (2 * (0 / 1) * (0 / 1) - 9 * (0 / 1)) + 27 * (- (1/8) / 1)) / 54) with (- (1/16)) by field.
    replace ((0 / 1 * (0 / 1) - 3 * (0 / 1)) / 9) with 0 by field.
    destruct (Rlt_dec (- (1/16) * - (1/16)) (0 * 0 * 0)) as [L|_]; [lra|].
    assert (Sq : csqrt (- (1/16) * - (1/16) - 0 * 0 * 0) = (1/16, 0)).
    { unfold csqrt. destruct (Rlt_dec _ 0) as [L|_]; [lra|]. f_equal.
      replace (- (1/16) * - (1/16) - 0 * 0 * 0) with (1/16 * (1/16)) by field. apply sqrt_square. lra. }
    rewrite Sq. replace (RtoC (- (1/16)) + ((1/16)%R, 0%R))%C with C0 by (unfold RtoC, Cadd, C0; cbn; f_equal; field).
    assert (Cu : cubert C0 = C0).
    { unfold cubert, cabs, C0. cbn [re im fst snd]. replace (0 * 0 + 0 * 0) with 0 by ring. rewrite sqrt_0. unfold cbrt.
      destruct (Req_EM_T 0 0) as [_|N]; [|now destruct N]. unfold RtoC, Cmul. cbn. f_equal; ring. }
    rewrite Cu. destruct (Req_EM_T _ 0) as [_|N]; [|exfalso; apply N; cbn; ring].
    eexists. eexists. split; [apply (f_equal Some); apply (f_equal2 pair); [apply (f_equal2 pair); [|reflexivity]|reflexivity]; cunfold; f_equal; field|].
    split; cunfold; field. }
  destruct E as (z1 & z2 & E & E1 & E2). rewrite E, E1, E2. cbn [re fst C0]. replace (0 * (1 - 0) + 0) with 0 by ring.
  destruct (Rlt_dec 0 1) as [_|N]; [|lra]. destruct (Rlt_dec 0 0) as [N|_]; [lra|]. reflexivity.
Qed.

(** ** scaleset *)
(** specification: the flowed energy of a measurement *)
Definition energy (clover : bool) (m : meas) : R := if clover then m_Gt m else 32 * m_time m ^ 2 * (1 - m_plaq m).
Lemma gt_energy : forall c m, gt_of c m = energy c m.
Proof. intros c m. unfold gt_of, energy. destruct c; [reflexivity|ring]. Qed.
Lemma scaleset_t0 : forall l count T_0 W_0 clover t0 w0, length l = S count -> scaleset l count T_0 W_0 clover = Some (t0, w0) -> t0 <> -1 ->
  exists j newer older, (1 <= j)%nat /\ nth_error l j = Some newer /\ nth_error l (S j) = Some older /\
    energy clover older < T_0 < energy clover newer /\ m_time older < t0 < m_time newer.
Proof.
  intros l count T_0 W_0 clover t0 w0 L H N. unfold scaleset in H. rewrite (proj2 (Nat.ltb_ge (length l) (count + 1))) in H by lia.
  cbv zeta in H. rewrite firstn_all2 in H by lia. destruct (Nat.eqb count 0); [injection H as <- <-; now destruct N|].
  destruct (evaluate_scale _ _ count T_0) as [t|] eqn:E; [|discriminate].
  destruct (Req_EM_T t (-1)) as [Et|Et]; [injection H as <- <-; now destruct N|].
  destruct (ders _ _ _ _) as [der|]; [|discriminate]. destruct (evaluate_scale _ (mulR _ _) _ _); [|discriminate]. injection H as <- <-.
  apply evaluate_in in E; [|rewrite map_length, rev_length; lia|assumption].
  destruct E as (i & x0 & x1 & y0 & y1 & Hi & X0 & X1 & Y0 & Y1 & HY & HX & _).
  rewrite nth_error_map in X0, X1, Y0, Y1.
  destruct (nth_error (rev l) i) as [o|] eqn:Eo; [|discriminate]. destruct (nth_error (rev l) (S i)) as [n|] eqn:En; [|discriminate].
  injection X0 as <-. injection X1 as <-. injection Y0 as <-. injection Y1 as <-.
  rewrite nth_rev in Eo, En by lia. exists (length l - 1 - S i)%nat, n, o.
  split; [lia|]. split; [assumption|]. split; [now replace (S (length l - 1 - S i)) with (length l - 1 - i)%nat by lia|].
  rewrite <- !gt_energy. now split.
Qed.
