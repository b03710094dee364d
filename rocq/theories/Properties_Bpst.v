(** C75: the instanton configuration *)
From Coq Require Import Lia Lra.
From Verif Require Import CInt GeomModel GeomSpec GeomProofs Cplx CMat Det Arr MatModel MatSpec MatProofs ProjModel ProjProofs SpecCalc ExpModel ExpSpec ExpProofs ExpProofs2 FieldModel FieldProofs BpstModel BpstProofs BpstProofs2.
Import ListNotations.
Local Open Scope R_scope.

(** Every link, SU(2) and SU(3), any lattice: the exponential of i c times the direction of the potential of the
    instanton at the site, special unitary; the centre is half way between sites.  c is the difference of two angles over the
    distances from the line of the link, without and with the size 4 of the instanton; the cotangents are as they should be
    but for the sum of all coordinates in place of that along the link.  Missing: c should be the integral of the profile
    along the link, see C75_profile_refuted; links with an exponent so small (or eigenvalues so close) that a series is used. *)
Theorem C75_link_partial : forall n junk ds lat i mu, (n = 2 \/ n = 3)%nat -> GeomSpec.lattice_ok ds -> length ds = 4%nat -> (i < volume ds)%nat -> (mu < 4)%nat ->
  exists x r c, in_box ds x /\ index_of ds x = Z.of_nat i /\ instanton_site n junk ds lat i mu = Some r /\
  let y nu := IZR (nth nu x 0%Z) - (IZR (nth nu ds 0 / 2)%Z - / 2) in
  let A := algebra c (direction_of y mu) in
  (exp_exact n A -> is_exp n (mscale Ci A) (mx n r) /\ SUn n (mx n r)) /\
  exists a b, let s := sqrt (away2 y mu) in let s' := sqrt (away2 y mu + 4 * 4) in let all := y 0%nat + y 1%nat + y 2%nat + y 3%nat in
  0 < a < PI /\ s * cos a = (dist2 y mu 0 + all) * sin a /\ 0 < b < PI /\ s' * cos b = (dist2 y mu 0 + 4 * 4 + all) * sin b /\ c = a / s - b / s'.
Proof.
  intros n junk ds lat i mu Hn Ok L Hi Hm. destruct (coords_of_site ds (Z.of_nat i) Ok) as (x & Ex & Bx & Ix & _); [unfold volume in Hi; lia|]. rewrite L in Ex.
  destruct (site_ok n junk ds lat i mu x Hn Hm Ex) as (r & Er & X). exists x, r, (coefficient (position ds x) mu). split; [exact Bx|]. split; [exact Ix|]. split; [exact Er|].
  cbv zeta in *. split; [exact X|]. change (fun nu => IZR (nth nu x 0%Z) - (IZR (nth nu ds 0 / 2)%Z - / 2)) with (position ds x).
  pose proof (position_away ds x mu Hm) as Aw. set (y := position ds x) in *. 
  change (IZR (nth 0 x 0%Z) - (IZR (nth 0 ds 0 / 2)%Z - / 2)) with (y 0%nat). change (IZR (nth 1 x 0%Z) - (IZR (nth 1 ds 0 / 2)%Z - / 2)) with (y 1%nat). change (IZR (nth 2 x 0%Z) - (IZR (nth 2 ds 0 / 2)%Z - / 2)) with (y 2%nat). change (IZR (nth 3 x 0%Z) - (IZR (nth 3 ds 0 / 2)%Z - / 2)) with (y 3%nat).
  unfold coefficient. rewrite !Asing_eq by exact Hm. cbv zeta. unfold rho. replace (away2 y mu + 0 * 0) with (away2 y mu) by ring.
  set (s := sqrt (away2 y mu)). set (s' := sqrt (away2 y mu + 4 * 4)). assert (Ps : 0 < s) by now apply sqrt_lt_R0. assert (Ps' : 0 < s') by (apply sqrt_lt_R0; lra).
  replace (dist2 y mu 0) with (away2 y mu + y mu * y mu) by (rewrite (away_dist y mu 0 Hm); ring).
  replace (away2 y mu + y mu * y mu + (y 0%nat + y 1%nat + y 2%nat + y 3%nat)) with (away2 y mu + y mu * y mu + y mu + others y mu) by (unfold others; ring).
  replace (away2 y mu + y mu * y mu + 4 * 4 + (y 0%nat + y 1%nat + y 2%nat + y 3%nat)) with (away2 y mu + 4 * 4 + y mu * y mu + y mu + others y mu) by (unfold others; ring).
  set (q := away2 y mu + y mu * y mu + y mu + others y mu). set (q' := away2 y mu + 4 * 4 + y mu * y mu + y mu + others y mu).
  destruct (atan2_pos s q Ps) as (B & Cs & Sn). destruct (atan2_pos s' q' Ps') as (B' & Cs' & Sn').
  assert (Cot : forall h t s q, h * cos t = q -> h * sin t = s -> s * cos t = q * sin t) by (intros h t u v <- <-; ring).
  exists (atan2 s q), (atan2 s' q'). split; [exact B|]. split; [now apply (Cot (sqrt (q * q + s * s)))|]. split; [exact B'|]. split; [now apply (Cot (sqrt (q' * q' + s' * s')))|reflexivity].
Qed.
Print Assumptions C75_link_partial.

(** * The corner of the 2^4 lattice *)
Definition corner : nat -> R := fun _ => - / 2.
Definition s0 : R := sqrt (3 / 4).
Definition s4 : R := sqrt (3 / 4 + 4 * 4).
Lemma s0_ok : 0 < s0 < 1 /\ s0 * s0 = 3 / 4.
Proof. unfold s0. pose proof (sqrt_sqrt (3 / 4) ltac:(lra)). pose proof (sqrt_lt_R0 (3 / 4) ltac:(lra)). split; [nra|assumption]. Qed.
Lemma s4_ok : 1 < s4 < 15 /\ s4 * s4 = 3 / 4 + 4 * 4.
Proof. unfold s4. pose proof (sqrt_sqrt (3 / 4 + 4 * 4) ltac:(lra)). pose proof (sqrt_lt_R0 (3 / 4 + 4 * 4) ltac:(lra)). split; [nra|assumption]. Qed.
Lemma corner_away mu : (mu < 4)%nat -> away2 corner mu = 3 / 4.
Proof. intro H. unfold away2, dist2, corner. destruct mu as [|[|[|[|mu]]]]; try lia; cbn [Nat.eqb]; lra. Qed.
Lemma corner_coefficient : coefficient corner 0 * s0 = atan2 s0 (-1) - s0 / s4 * atan2 s4 15.
Proof.
  unfold coefficient. rewrite !Asing_eq by lia. rewrite !corner_away by lia. unfold rho, others, corner.
  replace (3 / 4 + 0 * 0) with (3 / 4) by ring. fold s0 s4.
  replace (3 / 4 + - / 2 * - / 2 + - / 2 + (- / 2 + - / 2 + - / 2 + - / 2 - - / 2)) with (-1) by lra.
  replace (3 / 4 + 4 * 4 + - / 2 * - / 2 + - / 2 + (- / 2 + - / 2 + - / 2 + - / 2 - - / 2)) with 15 by lra.
  destruct s0_ok, s4_ok. field. lra.
Qed.
Lemma corner_angle : PI / 2 < coefficient corner 0 * s0 < PI.
Proof.
  rewrite corner_coefficient. destruct s0_ok as [S0 Q0], s4_ok as [S4 Q4]. pose proof PI_RGT_0 as Pi.
  destruct (atan2_pos s0 (-1) ltac:(lra)) as (B & Cs & Sn). destruct (atan2_pos s4 15 ltac:(lra)) as (B' & Cs' & Sn').
  set (t := atan2 s0 (-1)) in *. set (t' := atan2 s4 15) in *. set (h := sqrt (-1 * -1 + s0 * s0)) in *. set (h' := sqrt (15 * 15 + s4 * s4)) in *.
  assert (Hh : 0 < h) by (apply sqrt_lt_R0; nra). assert (Hh' : 0 < h') by (apply sqrt_lt_R0; nra). pose proof cos_PI4 as C4. pose proof sin_PI4 as I4. assert (R2 : 0 < 1 / sqrt 2) by (apply Rdiv_lt_0_compat; [lra|apply sqrt_lt_R0; lra]).
  assert (T : 3 * (PI / 4) < t).
  { apply Rnot_le_lt. intro N. assert (G : 0 <= sin (t + PI / 4)) by (apply sin_ge_0; lra). rewrite sin_plus, C4, I4 in G. assert (0 <= sin t + cos t) by nra. assert (h * sin t + h * cos t = s0 - 1) by lra. nra. }
  assert (T' : t' < PI / 4).
  { apply Rnot_le_lt. intro N. assert (G : 0 <= sin (t' - PI / 4)) by (apply sin_ge_0; lra). rewrite sin_minus, C4, I4 in G. assert (cos t' <= sin t') by nra. assert (h' * sin t' - h' * cos t' = s4 - 15) by lra. nra. }
  assert (Q : 0 < s0 / s4 < 1). { split; [apply Rdiv_lt_0_compat; lra|]. apply (Rmult_lt_reg_r s4); [lra|]. unfold Rdiv. rewrite Rmult_assoc, Rinv_l by lra. lra. }
  assert (0 < s0 / s4 * t' < PI / 4) by (split; [apply Rmult_lt_0_compat; lra|nra]). lra.
Qed.
Lemma corner_integral : exists v, integral01 (profile 4 corner 0) v /\ - (PI / 2) < v * s0 < PI / 2.
Proof.
  destruct s0_ok as [S0 Q0], s4_ok as [S4 Q4]. pose proof PI_RGT_0 as Pi.
  set (P := fun s => atan ((- / 2 + 1) / s) / s - atan ((- / 2 + 0) / s) / s).
  assert (I : forall s, 0 < s -> integral01 (fun t => / ((- / 2 + t) * (- / 2 + t) + s * s)) (P s)) by (intros s Hs; exists (fun t => atan ((- / 2 + t) / s) / s); split; [now apply primitive|reflexivity]).
  exists (P s0 - P s4). split.
  - eapply integral_ext; [|apply integral_minus; apply I; lra]. intro t. cbv beta. unfold profile. rewrite away_dist, corner_away by lia. rewrite Q0, Q4. change (corner 0%nat) with (- / 2). pose proof (Rle_0_sqr (- / 2 + t)) as Q. unfold Rsqr in Q. field. split; apply Rgt_not_eq; nra.
  - assert (B : forall s, / 2 < s -> 0 < P s * s < PI / 2).
    { intros s Hs. assert (E : P s * s = 2 * atan (/ 2 / s)). { unfold P. replace (- / 2 + 1) with (/ 2) by lra. replace ((- / 2 + 0) / s) with (- (/ 2 / s)) by (field; lra). rewrite atan_opp. field. lra. }
      rewrite E. assert (0 < / 2 / s) by (apply Rdiv_lt_0_compat; lra). assert (/ 2 / s < 1) by (apply (Rmult_lt_reg_r s); [lra|]; unfold Rdiv; rewrite Rmult_assoc, Rinv_l by lra; lra).
      pose proof (atan_increasing _ _ H) as A1. pose proof (atan_increasing _ _ H0) as A2. rewrite atan_0 in A1. rewrite atan_1 in A2. lra. }
    assert (/ 2 < s0) by nra. pose proof (B s0 H) as B0. pose proof (B s4 ltac:(lra)) as B4.
    assert (P4 : 0 < P s4) by (destruct (Rle_lt_dec (P s4) 0); [nra|assumption]). assert (0 < P s4 * s0 < PI / 2) by (split; [apply Rmult_lt_0_compat; lra|nra]). lra.
Qed.
Lemma corner_zz c : sqrt (zz (algebra c (direction_of corner 0))) = Rabs (c * s0).
Proof.
  destruct s0_ok as [S0 Q0]. rewrite zz_algebra. unfold direction_of, hooft, eps, corner. cbn [Nat.eqb INR]. rewrite <- sqrt_Rsqr_abs. f_equal. unfold Rsqr. replace (c * s0 * (c * s0)) with (c * c * (s0 * s0)) by ring. rewrite Q0. field.
Qed.

(** Not the link of an instanton: at the corner of the 2^4 lattice the link of SU(2) in the direction 0 has a negative trace;
    with the integral of the profile along the link it is positive.  (To the square of the distance at one end the sum of all
    coordinates is added instead of that along the link.) *)
Theorem C75_profile_refuted : exists junk ds lat i mu r, GeomSpec.lattice_ok ds /\ length ds = 4%nat /\ (i < volume ds)%nat /\ (mu < 4)%nat /\
  instanton_site 2 junk ds lat i mu = Some r /\ re (mtr 2 (mx 2 r)) < 0 /\
  exists x, in_box ds x /\ index_of ds x = Z.of_nat i /\
  let y nu := IZR (nth nu x 0%Z) - (IZR (nth nu ds 0 / 2)%Z - / 2) in
  (exists v, integral01 (profile 4 y mu) v) /\
  forall v E, integral01 (profile 4 y mu) v -> is_exp 2 (mscale Ci (algebra v (direction_of y mu))) E -> 0 < re (mtr 2 E).
Proof.
  set (ds := [2; 2; 2; 2]%Z). assert (Ok : GeomSpec.lattice_ok ds) by (split; [discriminate|]; split; [repeat constructor; unfold two31; lia|unfold two31; cbn; lia]).
  set (lat := fun _ : nat => mkSite (fun _ _ => C0) (fun _ => 0%nat) (fun _ => 0%nat)). set (x := [0; 0; 0; 0]%Z).
  assert (Ex : get_mom_2piBZ ds (Z.of_nat 0) 4 = Some x) by reflexivity.
  destruct (site_ok 2 (fun _ => C0) ds lat 0 0 x (or_introl eq_refl) ltac:(lia) Ex) as (r & Er & X). cbv zeta in X.
  assert (Y : forall nu, (nu < 4)%nat -> position ds x nu = corner nu) by (intros nu H; destruct nu as [|[|[|[|nu]]]]; try lia; unfold position, centre, corner, ds, x; cbn [nth]; change (2 / 2)%Z with 1%Z; lra).
  assert (Dr : forall a, direction_of (position ds x) 0 a = direction_of corner 0 a) by (intro a; unfold direction_of; rewrite !Y by lia; reflexivity).
  assert (Ds : forall t, dist2 (position ds x) 0 t = dist2 corner 0 t) by (intro t; unfold dist2; cbn [Nat.eqb]; rewrite !Y by lia; reflexivity).
  assert (Al : forall c, meq 2 (algebra c (direction_of (position ds x) 0)) (algebra c (direction_of corner 0))) by (intros c i j _ _; unfold algebra; rewrite !Dr; reflexivity).
  assert (Zq : forall c, zz (algebra c (direction_of (position ds x) 0)) = zz (algebra c (direction_of corner 0))) by (intro c; rewrite !zz_algebra, !Dr; reflexivity).
  assert (Co : coefficient (position ds x) 0 = coefficient corner 0) by (unfold coefficient; rewrite !Asing_eq by lia; unfold away2, others; rewrite !Ds, !Y by lia; reflexivity).
  pose proof corner_angle as An. pose proof PI_RGT_0 as Pi. destruct s0_ok as [S0 Q0].
  exists (fun _ => C0), ds, lat, 0%nat, 0%nat, r. split; [exact Ok|]. split; [reflexivity|]. split; [unfold volume; cbn; lia|]. split; [lia|]. split; [exact Er|]. split.
  - destruct (algebra_ok 2 (coefficient (position ds x) 0) (direction_of (position ds x) 0) (or_introl eq_refl)) as [H T].
    assert (Big : sqrt (zz (algebra (coefficient (position ds x) 0) (direction_of (position ds x) 0))) = coefficient corner 0 * s0) by (rewrite Zq, Co, corner_zz; apply Rabs_pos_eq; lra).
    destruct X as [X _]; [cbn [exp_exact]; right; pose proof (zz_nonneg _ H T) as Zn; rewrite <- (sqrt_sqrt _ Zn), Big; pose proof PI2_1; unfold SINTOLSU2; nra|].
    rewrite (trace_exp _ _ H T X), Big. assert (cos (coefficient corner 0 * s0) < 0) by (apply cos_lt_0; lra). lra.
  - exists x. split; [unfold ds, x; repeat constructor; lia|]. split; [reflexivity|]. change (fun nu => IZR (nth nu x 0%Z) - (IZR (nth nu ds 0 / 2)%Z - / 2)) with (position ds x). cbv zeta.
    destruct corner_integral as (v0 & I0 & B0). assert (J0 : integral01 (profile 4 (position ds x) 0) v0) by (eapply integral_ext; [|exact I0]; intro t; unfold profile; now rewrite Ds).
    split; [eauto|]. intros v E I HE. assert (v = v0) by (eapply integral_unique; eassumption). subst v.
    destruct (algebra_ok 2 v0 (direction_of (position ds x) 0) (or_introl eq_refl)) as [H T]. rewrite (trace_exp _ _ H T HE), Zq, corner_zz.
    assert (0 < cos (Rabs (v0 * s0))) by (apply cos_gt_0; [pose proof (Rabs_pos (v0 * s0)); lra|apply Rabs_def1; lra]). lra.
Qed.
Print Assumptions C75_profile_refuted.

(** * Cases meeting the hypotheses *)
Example C75_link_case : GeomSpec.lattice_ok [2; 3; 4; 5]%Z /\ (7 < volume [2; 3; 4; 5]%Z)%nat /\ get_mom_2piBZ [2; 3; 4; 5]%Z 7 4 = Some [1; 0; 1; 0]%Z.
Proof. split; [split; [discriminate|]; split; [repeat constructor; unfold two31; lia|unfold two31; cbn; lia]|]. split; [unfold volume; cbn; lia|reflexivity]. Qed.
(** the exponent at the corner is in the range where no series is used *)
Example C75_exact_case : exp_exact 2 (algebra (coefficient corner 0) (direction_of corner 0)).
Proof.
  right. destruct (algebra_ok 2 (coefficient corner 0) (direction_of corner 0) (or_introl eq_refl)) as [H T]. pose proof (zz_nonneg _ H T) as Zn. rewrite <- (sqrt_sqrt _ Zn), corner_zz.
  pose proof corner_angle. pose proof PI2_1. rewrite Rabs_pos_eq by lra. unfold SINTOLSU2. nra.
Qed.
