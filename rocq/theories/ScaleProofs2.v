From Coq Require Import ZArith Reals List PeanoNat Lia Lra.
From Verif Require Import CInt Cplx Arr ProjModel NumModel NumProofs NumProofs2 ScaleModel ScaleProofs.
Import ListNotations.
Local Open Scope R_scope.

(** ** the cubic *)
Lemma cos3 : forall p, cos (3 * p) = 4 * (cos p * cos p * cos p) - 3 * cos p.
Proof.
  intro p. replace (3 * p) with (2 * p + p) by ring. rewrite cos_plus, sin_2a, cos_2a.
  assert (S : sin p * sin p = 1 - cos p * cos p) by (pose proof (sin2_cos2 p) as H; unfold Rsqr in H; lra).
  replace (2 * sin p * cos p * sin p) with (2 * cos p * (sin p * sin p)) by ring. rewrite S. ring.
Qed.
Lemma depressed : forall a b c z, let Q := (a * a - 3 * b) / 9 in let Rr := (a * (2 * a * a - 9 * b) + 27 * c) / 54 in
  z * z * z + a * (z * z) + b * z + c = (z + a/3) * (z + a/3) * (z + a/3) - 3 * Q * (z + a/3) + 2 * Rr.
Proof. intros. unfold Q, Rr. field. Qed.
Lemma trig_root : forall Q Rr p, 0 < Q -> cos (3 * p) * (sqrt Q * Q) = Rr ->
  let w := -2 * sqrt Q * cos p in w * w * w - 3 * Q * w + 2 * Rr = 0.
Proof.
  intros Q Rr p HQ H w. unfold w. rewrite <- H, cos3.
  assert (S : sqrt Q * sqrt Q = Q) by (apply sqrt_sqrt; lra). set (q := sqrt Q) in *. clearbody q. rewrite <- S. ring.
Qed.
Lemma cos_period' : forall p, cos (p + 2 * PI) = cos p.
Proof. intro p. rewrite cos_plus, cos_2PI, sin_2PI. ring. Qed.

Lemma three_real : forall ca cb cc cd eval z0 z1 z2, PREC_TOL <= Rabs ca -> PREC_TOL <= Rabs (cd - eval) ->
  let a := cb / ca in let b := cc / ca in let c := (cd - eval) / ca in
  let Q := (a * a - 3 * b) / 9 in let Rr := (a * (2 * a * a - 9 * b) + 27 * c) / 54 in
  Rr * Rr < Q * Q * Q -> cubic_solve ca cb cc cd eval = Some (z0, z1, z2) ->
  forall z, In z [z0; z1; z2] -> im z = 0 /\ cd + re z * (cc + re z * (cb + re z * ca)) = eval.
Proof.
  intros ca cb cc cd eval z0 z1 z2 Ha Hd a b c Q Rr HD H z Hz.
  assert (Hca : ca <> 0). { intros ->. rewrite Rabs_R0 in Ha. unfold PREC_TOL in Ha. lra. }
  unfold cubic_solve in H.
  destruct (Rlt_dec (Rabs ca) PREC_TOL); [lra|]. destruct (Rlt_dec (Rabs (cd - eval)) PREC_TOL); [lra|].
  cbv zeta in H. fold a b c in H. fold Q Rr in H. destruct (Rlt_dec (Rr * Rr) (Q * Q * Q)) as [_|N]; [|now destruct N].
  assert (HQ : 0 < Q).
  { assert (0 <= Rr * Rr) by apply Rle_0_sqr. destruct (Rlt_dec 0 Q) as [|N]; [assumption|]. exfalso.
    assert (0 <= (-Q) * (-Q) * (-Q)) by (repeat apply Rmult_le_pos; lra). nra. }
  set (theta := acos (Rr / sqrt (Q*Q*Q))) in H.
  assert (S3 : sqrt (Q*Q*Q) = sqrt Q * Q).
  { rewrite sqrt_mult by first [apply Rmult_le_pos; lra | lra]. rewrite sqrt_square by lra. ring. }
  assert (Sp : 0 < sqrt Q * Q) by (apply Rmult_lt_0_compat; [now apply sqrt_lt_R0|assumption]).
  assert (CT : cos theta * (sqrt Q * Q) = Rr).
  { unfold theta. rewrite S3. rewrite cos_acos; [unfold Rdiv; rewrite Rmult_assoc, Rinv_l by lra; ring|].
    assert (SS : (sqrt Q * Q) * (sqrt Q * Q) = Q * Q * Q).
    { replace (sqrt Q * Q * (sqrt Q * Q)) with ((sqrt Q * sqrt Q) * (Q * Q)) by ring. rewrite sqrt_sqrt by lra. ring. }
    set (k := sqrt Q * Q) in *. assert (B : Rr * Rr < k * k) by (rewrite SS; assumption).
    assert (- k < Rr < k) by (split; nra).
    split; [apply (Rmult_le_reg_r k)|apply (Rmult_le_reg_r k)]; try assumption; unfold Rdiv; rewrite Rmult_assoc, Rinv_l by lra; lra. }
  assert (G : forall p, cos (3 * p) = cos theta -> forall w, w = -2 * sqrt Q * cos p - a/3 -> cd + w * (cc + w * (cb + w * ca)) = eval).
  { intros p Hp w Hw. assert (CP : cos (3 * p) * (sqrt Q * Q) = Rr) by (rewrite Hp; exact CT).
    pose proof (trig_root Q Rr p HQ CP) as T. cbv zeta in T.
    pose proof (depressed a b c w) as D. cbv zeta in D. fold Q Rr in D. replace (w + a/3) with (-2 * sqrt Q * cos p) in D by (rewrite Hw; ring).
    rewrite T in D. unfold a, b, c in D.
    assert (E : ca * (w * w * w + cb / ca * (w * w) + cc / ca * w + (cd - eval) / ca) = 0) by (rewrite D; ring).
    assert (E2 : ca * (w * w * w + cb / ca * (w * w) + cc / ca * w + (cd - eval) / ca) = w * w * w * ca + cb * (w*w) + cc * w + (cd - eval)) by (field; assumption).
    rewrite E2 in E. nra. }
  injection H as <- <- <-.
  destruct Hz as [<-|[<-|[<-|[]]]]; (split; [reflexivity|]); cbn [re fst RtoC].
  - apply (G (theta / 3)); [f_equal; field|reflexivity].
  - apply (G ((theta + 2 * PI) / 3)); [|reflexivity]. replace (3 * ((theta + 2 * PI) / 3)) with (theta + 2 * PI) by field. apply cos_period'.
  - apply (G ((theta - 2 * PI) / 3)); [|reflexivity]. replace (3 * ((theta - 2 * PI) / 3)) with (theta - 2 * PI) by field.
    rewrite <- (cos_period' (theta - 2 * PI)). f_equal. ring.
Qed.

(** the discriminant of the cubic solved on an interval *)
Definition spl_disc (x0 x1 y0 y1 d0 d1 mu : R) : Prop :=
  let yp := d0 * (x1 - x0) in let yp_p := d1 * (x1 - x0) in
  let ca := spl_a y0 y1 yp yp_p in let cb := spl_b ca yp yp_p in
  let a := cb / ca in let b := yp / ca in let c := (y0 - mu) / ca in
  let Q := (a * a - 3 * b) / 9 in let Rr := (a * (2 * a * a - 9 * b) + 27 * c) / 54 in
  PREC_TOL <= Rabs ca /\ PREC_TOL <= Rabs (y0 - mu) /\ Rr * Rr < Q * Q * Q.
Lemma solve_real : forall x y der mu up s x0 x1 y0 y1 d0 d1, rd2 x up = Some (x0, x1) -> rd2 y up = Some (y0, y1) -> rd2 der up = Some (d0, d1) ->
  x0 < x1 -> spl_disc x0 x1 y0 y1 d0 d1 mu -> solve_spline x y der mu up = Some s -> s <> -1 -> hermite x0 x1 y0 y1 d0 d1 s = mu.
Proof.
  intros x y der mu up s x0 x1 y0 y1 d0 d1 Ex Ey Ed Hx (D1 & D2 & D3) H Ns. unfold solve_spline in H.
  destruct (up =? 0)%Z; [injection H as <-; now destruct Ns|]. rewrite Ex, Ey, Ed in H. cbv zeta in H.
  set (ca := spl_a _ _ _ _) in *. set (cb := spl_b _ _ _) in *.
  destruct (cubic_solve ca cb (d0 * (x1 - x0)) y0 mu) as [[[z0 z1] z2]|] eqn:E; [|discriminate].
  pose proof (three_real ca cb (d0 * (x1 - x0)) y0 mu z0 z1 z2 D1 D2 D3 E) as R.
  assert (G : forall z, In z [z0; z1; z2] -> hermite x0 x1 y0 y1 d0 d1 (re z * (x1 - x0) + x0) = mu).
  { intros z Hz. destruct (R z Hz) as [_ V]. rewrite <- V. unfold hermite, cb, ca, spl_a, spl_b. field. lra. }
  injection H as H.
  match type of H with (if ?b then _ else _) = _ => destruct b end; [rewrite <- H; apply G; now left|].
  match type of H with (if ?b then _ else _) = _ => destruct b end; [rewrite <- H; apply G; right; now left|].
  match type of H with (if ?b then _ else _) = _ => destruct b end; [rewrite <- H; apply G; right; right; now left|].
  now destruct Ns.
Qed.

(** ** a complex pair may be taken for the solution *)
Lemma cbrt_pow : forall x, 0 < x -> cbrt (x * x * x) = x.
Proof.
  intros x H. unfold cbrt. assert (0 < x * x * x) by (repeat apply Rmult_lt_0_compat; assumption).
  destruct (Req_EM_T (x*x*x) 0); [lra|]. replace (x * x * x) with (Rpower x 3).
  - rewrite Rpower_mult. replace (3 * (1/3)) with 1 by field. now apply Rpower_1.
  - replace 3 with (1 + 1 + 1) by ring. rewrite !Rpower_plus, Rpower_1 by assumption. reflexivity.
Qed.
Lemma cubert_neg : forall r, 0 < r -> cubert (RtoC (- (r * r * r))) = (RtoC r * ((1/2)%R, (sqrt 3 / 2)%R))%C.
Proof.
  intros r H. assert (P : 0 < r * r * r) by (repeat apply Rmult_lt_0_compat; assumption). unfold cubert.
  assert (A : cabs (RtoC (- (r * r * r))) = r * r * r).
  { unfold cabs, RtoC. cbn [re im fst snd]. replace (- (r * r * r) * - (r * r * r) + 0 * 0) with ((r*r*r) * (r*r*r)) by ring. apply sqrt_square. lra. }
  assert (B : carg (RtoC (- (r * r * r))) = PI).
  { unfold carg. assert (N2 : norm2 (RtoC (- (r * r * r))) = (r*r*r) * (r*r*r)) by (unfold norm2, RtoC; cbn [re im fst snd]; ring).
    rewrite N2. destruct (Req_EM_T (r * r * r * (r * r * r)) 0) as [E|_]; [apply Rmult_integral in E; lra|].
    destruct (Rle_dec 0 (im (RtoC (- (r*r*r))))) as [_|N]; [|cbn in N; lra].
    rewrite sqrt_square by lra. cbn [re fst RtoC]. replace (- (r*r*r) / (r*r*r)) with (-(1)) by (field; lra).
    rewrite acos_opp, acos_1. ring. }
  rewrite A, B, cbrt_pow by assumption. rewrite cos_PI3, sin_PI3. reflexivity.
Qed.

Definition bx : list R := [0; 1].
Definition bp (t : R) : R := (t - 4/5) * ((t - 3/10) * (t - 3/10) + 1/48).
Definition by_ : list R := [bp 0; bp 1].
Definition bd : list R := [709/1200; 3 - 14/5 + 709/1200].
Lemma bp_hermite : forall t, hermite 0 1 (bp 0) (bp 1) (709/1200) (3 - 14/5 + 709/1200) t = bp t.
Proof. intro t. unfold hermite, bp. field. Qed.
Lemma bad_solve : solve_spline bx by_ bd 0 1 = Some (3/10).
Proof.
  unfold solve_spline. change (1 =? 0)%Z with false. cbv iota. unfold bx, by_, bd.
  change (rd2 [0; 1] 1) with (Some (0, 1)). change (rd2 [bp 0; bp 1] 1) with (Some (bp 0, bp 1)).
  change (rd2 [709/1200; 3 - 14/5 + 709/1200] 1) with (Some (709/1200, 3 - 14/5 + 709/1200)). cbv iota zeta beta.
  replace (spl_a (bp 0) (bp 1) (709/1200 * (1 - 0)) ((3 - 14/5 + 709/1200) * (1 - 0))) with 1 by (unfold spl_a, bp; field).
  replace (spl_b 1 (709/1200 * (1 - 0)) ((3 - 14/5 + 709/1200) * (1 - 0))) with (-7/5) by (unfold spl_b; field).
  replace (709/1200 * (1 - 0)) with (709/1200) by ring. replace (bp 0) with (- (133/1500)) by (unfold bp; field).
  assert (E : exists z1 z2 i, cubic_solve 1 (-7/5) (709/1200) (- (133/1500)) 0 = Some ((3/10, i), z1, z2)).
  { unfold cubic_solve. rewrite Rabs_R1. destruct (Rlt_dec 1 PREC_TOL) as [L|_]; [unfold PREC_TOL in L; lra|].
    replace (- (133/1500) - 0) with (- (133/1500)) by ring. rewrite Rabs_Ropp, Rabs_pos_eq by lra.
    destruct (Rlt_dec (133/1500) PREC_TOL) as [L|_]; [unfold PREC_TOL in L; lra|]. cbv zeta.
    replace ((-7/5 / 1 * (2 * (-7/5 / 1) * (-7/5 / 1) - 9 * (709/1200 / 1)) + 27 * (- (133/1500) / 1)) / 54) with (- (7/864)) by field.
    replace ((-7/5 / 1 * (-7/5 / 1) - 3 * (709/1200 / 1)) / 9) with (1/48) by field.
    destruct (Rlt_dec (- (7/864) * - (7/864)) (1/48 * (1/48) * (1/48))) as [L|_]; [lra|].
    assert (Sq : csqrt (- (7/864) * - (7/864) - 1/48 * (1/48) * (1/48)) = (13/1728, 0)).
    { unfold csqrt. destruct (Rlt_dec _ 0) as [L|_]; [lra|]. f_equal.
      replace (- (7/864) * - (7/864) - 1/48 * (1/48) * (1/48)) with (13/1728 * (13/1728)) by field. apply sqrt_square. lra. }
    rewrite Sq.
    replace (RtoC (- (7/864)) + ((13/1728)%R, 0%R))%C with (RtoC (- (1/12 * (1/12) * (1/12)))) by (unfold RtoC, Cadd; cbn; f_equal; field).
    rewrite cubert_neg by lra.
    set (A := (- (RtoC (1/12) * ((1/2)%R, (sqrt 3 / 2)%R)))%C).
    assert (S3 : sqrt 3 * sqrt 3 = 3) by (apply sqrt_sqrt; lra).
    assert (HA : A = (-1/24, - sqrt 3 / 24)) by (unfold A, RtoC, Cmul, Copp; cbn; f_equal; field).
    rewrite HA. cbn [re im fst snd].
    destruct (Req_EM_T (-1/24 * (-1/24) + - sqrt 3 / 24 * (- sqrt 3 / 24)) 0) as [L|_].
    - exfalso. assert (0 <= - sqrt 3 / 24 * (- sqrt 3 / 24)) by apply Rle_0_sqr. lra.
    - assert (HB : Cdiv (RtoC (1/48)) (-1/24, - sqrt 3 / 24) = (-1/8, sqrt 3 / 8)).
      { assert (Nz : ((-1/24, - sqrt 3 / 24) : C) <> C0) by (intro Z; injection Z as Z _; lra).
        assert (M : (((-1/8)%R, (sqrt 3 / 8)%R) * ((-1/24)%R, (- sqrt 3 / 24)%R))%C = RtoC (1/48)).
        { unfold Cmul, RtoC. cbn. f_equal; [|field].
          replace (-1 / 8 * (-1 / 24) - sqrt 3 / 8 * (- sqrt 3 / 24)) with ((1 + sqrt 3 * sqrt 3) / 192) by field. rewrite S3. field. }
        rewrite <- M. field. exact Nz. }
      rewrite HB.
      eexists. eexists. exists (- sqrt 3 / 24 + sqrt 3 / 8). apply (f_equal Some). apply (f_equal2 pair); [apply (f_equal2 pair); [|reflexivity]|reflexivity].
      unfold Csub, RtoC, Copp, Cadd. cbn. apply (f_equal2 pair); field. }
  destruct E as (z1 & z2 & i & E). rewrite E. cbn [re fst].
  destruct (Rlt_dec (3/10 * (1 - 0) + 0) 1) as [_|N]; [|lra]. destruct (Rlt_dec 0 (3/10 * (1 - 0) + 0)) as [_|N]; [|lra]. f_equal. field.
Qed.
