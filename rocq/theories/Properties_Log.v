(** C77: the logarithm of SU(2) links *)
From Coq Require Import Lia Lra.
From Verif Require Import Cplx CMat Det Arr MatModel MatSpec MatProofs ProjModel ProjProofs SpecCalc ExpModel ExpSpec ExpProofs ExpProofs2 BpstProofs BpstProofs2 LogModel.
Local Open Scope R_scope.

(** * Specification: the angle of a matrix of SU(2), between 0 and pi *)
Definition angle (U : mat) : R := acos (re (mtr 2 U) / 2).

Lemma su2_parts U : SU2 (mx 2 U) -> U 2%nat = (- conj (U 1%nat))%C /\ U 3%nat = conj (U 0%nat) /\
  re (U 0%nat) * re (U 0%nat) + im (U 0%nat) * im (U 0%nat) + re (U 1%nat) * re (U 1%nat) + im (U 1%nat) * im (U 1%nat) = 1.
Proof.
  intro H. destruct (SU2_form _ H) as [E1 E2]. unfold mx in *. cbn [Nat.add Nat.mul] in *. split; [exact E1|]. split; [exact E2|].
  destruct H as [_ D]. unfold det2 in D. cbn [Nat.add Nat.mul] in D. rewrite E1, E2 in D. destruct (U 0%nat) as [a b], (U 1%nat) as [c d]. injection D as D1 D2. cbn in *. lra.
Qed.
Lemma angle_is U : SU2 (mx 2 U) -> angle (mx 2 U) = acos (re (U 0%nat)) /\ -1 <= re (U 0%nat) <= 1.
Proof.
  intro H. destruct (su2_parts U H) as (_ & E & N). split; [|nra]. unfold angle, mtr, mx. cbn [csum Nat.add Nat.mul]. rewrite E. f_equal. destruct (U 0%nat) as [a b]. cunfold. cbn. field.
Qed.
Lemma carg_unit c : -1 <= c <= 1 -> carg (c, sqrt (1 - c * c)) = acos c.
Proof.
  intro H. unfold carg, norm2. cbn [re im fst snd]. assert (S : sqrt (1 - c * c) * sqrt (1 - c * c) = 1 - c * c) by (apply sqrt_sqrt; nra). rewrite S. replace (c * c + (1 - c * c)) with 1 by ring.
  destruct (Req_EM_T 1 0); [lra|]. destruct (Rle_dec 0 (sqrt (1 - c * c))) as [_|N]; [|exfalso; apply N, sqrt_pos]. rewrite sqrt_1. f_equal. field.
Qed.
Lemma sin_angle c : -1 <= c <= 1 -> sqrt (1 - c * c) = sin (acos c).
Proof. intro H. rewrite sin_acos by lra. now unfold Rsqr. Qed.
Lemma taylor_pos z : Rabs z < SINTOLSU2 -> 0 < taylor_sinc z.
Proof.
  intro H. apply Rabs_def2 in H. unfold SINTOLSU2 in H. unfold taylor_sinc.
  assert (A : 0 <= 1 - z / 42 <= 2) by lra. set (a := 1 - z / 42) in *. assert (B : 0 <= 1 - z / 20 * a <= 2) by nra. set (b := 1 - z / 20 * a) in *. nra.
Qed.
(** what is returned: the factor f1 *)
Definition factor (h : R) : R := if Rlt_dec (Rabs h) SINTOLSU2 then taylor_sinc h else sin h / h.
Lemma log_ok Q U : SU2 (mx 2 U) -> let h := angle (mx 2 U) in let f := factor h in
  (f = 0 /\ exact_log_slow_2 Q U = None) \/
  (f <> 0 /\ exists r, exact_log_slow_2 Q U = Some r /\ hermitian 2 (mx 2 r) /\ traceless 2 (mx 2 r) /\ frame 4 r Q /\
   zz (mx 2 r) = (sin h / f) * (sin h / f) /\ meq 2 (mx 2 U) (lin2 (mx 2 r) (cos h) f)).
Proof.
  intro H. cbv zeta. destruct (angle_is U H) as [E B]. destruct (su2_parts U H) as (U2 & U3 & N). rewrite E. unfold exact_log_slow_2. cbn [re im fst snd]. rewrite (carg_unit _ B), (sin_angle _ B). fold (factor (acos (re (U 0%nat)))).
  set (h := acos (re (U 0%nat))). assert (Ch : cos h = re (U 0%nat)) by (apply cos_acos; lra). set (f := factor h). change (if Rlt_dec (Rabs h) SINTOLSU2 then taylor_sinc h else sin h / h) with f. destruct (Req_EM_T f 0) as [Z|Z]; [left; split; [exact Z|reflexivity]|]. right. split; [exact Z|]. eexists. split; [reflexivity|].
  pose proof (sin2_cos2 h) as SC. unfold Rsqr in SC. rewrite Ch in SC.
  match goal with |- hermitian 2 (mx 2 ?r) /\ _ => set (R := r) end.
  assert (R0 : R 0%nat = (im (U 0%nat) / f, 0)) by (unfold R, upd; cbn [Nat.eqb]; destruct (U 0%nat) as [a b]; apply C_eq; cunfold; field; exact Z).
  assert (R1 : R 1%nat = (im (U 1%nat) / f, - (re (U 1%nat) / f))) by (unfold R, upd; cbn [Nat.eqb]; destruct (U 1%nat) as [a b]; apply C_eq; cunfold; field; exact Z).
  assert (R2 : R 2%nat = conj (R 1%nat)) by (unfold R, upd; cbn [Nat.eqb]; reflexivity).
  assert (R3 : R 3%nat = (- R 0%nat)%C) by (unfold R, upd; cbn [Nat.eqb]; reflexivity).
  assert (Fr : frame 4 R Q) by (intros k Hk; unfold R, upd; destruct k as [|[|[|[|k]]]]; try lia; reflexivity).
  clearbody R. assert (Hh : hermitian 2 (mx 2 R)).
  { intros i j Hi Hj. unfold dag, mx. destruct i as [|[|i]]; try lia; destruct j as [|[|j]]; try lia; cbn [Nat.add Nat.mul]; rewrite ?R3, ?R2, ?R1, ?R0; apply C_eq; cunfold; ring. }
  assert (Ht : traceless 2 (mx 2 R)) by (unfold traceless, mtr, mx; cbn [csum Nat.add Nat.mul]; rewrite R3; ring).
  split; [exact Hh|]. split; [exact Ht|]. split; [exact Fr|]. split.
  - rewrite (zz_is _ Hh Ht). unfold mx. cbn [Nat.add Nat.mul]. rewrite R0, R1. cbn [re im fst snd]. apply (Rmult_eq_reg_l (f * f)); [|nra]. transitivity (im (U 0%nat) * im (U 0%nat) + im (U 1%nat) * im (U 1%nat) + re (U 1%nat) * re (U 1%nat)); [field; exact Z|]. transitivity (sin h * sin h); [lra|field; exact Z].
  - intros i j Hi Hj. unfold lin2, madd, mscale, mx, mid. rewrite Ch. destruct i as [|[|i]]; try lia; destruct j as [|[|j]]; try lia; cbn [Nat.add Nat.mul Nat.eqb]; rewrite ?R3, ?R2, ?R1, ?R0, ?U2, ?U3; destruct (U 0%nat) as [a b], (U 1%nat) as [c d]; apply C_eq; cunfold; field; exact Z.
Qed.

(** Every matrix of SU(2) but minus one has a logarithm, hermitian and traceless, and nothing else is written.  Its
    exponential is the matrix if the angle is not below 10^-4, or zero.  Missing: minus one and small angles, see
    C77_minus_one_refuted and C77_small_refuted; more colours. *)
Theorem C77_log_partial : forall Q U, SU2 (mx 2 U) -> re (mtr 2 (mx 2 U)) <> -2 ->
  exists r, exact_log_slow_2 Q U = Some r /\ hermitian 2 (mx 2 r) /\ traceless 2 (mx 2 r) /\ frame 4 r Q /\
  (angle (mx 2 U) = 0 \/ 1 / 10000 <= angle (mx 2 U) -> is_exp 2 (mscale Ci (mx 2 r)) (mx 2 U)).
Proof.
  intros Q U H Nm. destruct (angle_is U H) as [E B]. destruct (su2_parts U H) as (U2 & U3 & N).
  assert (Bh : 0 <= angle (mx 2 U) < PI).
  { rewrite E. pose proof (acos_bound (re (U 0%nat))). split; [lra|]. destruct (Req_dec (acos (re (U 0%nat))) PI) as [P|]; [|lra]. exfalso. assert (C : cos (acos (re (U 0%nat))) = re (U 0%nat)) by (apply cos_acos; lra). rewrite P, cos_PI in C.
    apply Nm. unfold mtr, mx. cbn [csum Nat.add Nat.mul]. rewrite U3. destruct (U 0%nat) as [a b]. cunfold. cbn in *. lra. }
  destruct (log_ok Q U H) as [[Z _]|(Z & r & Er & Hh & Ht & Fr & Zq & M)].
  - exfalso. unfold factor in Z. destruct (Rlt_dec (Rabs (angle (mx 2 U))) SINTOLSU2) as [L|L]; [pose proof (taylor_pos _ L); lra|]. rewrite Rabs_pos_eq in L by lra. unfold SINTOLSU2 in L.
    assert (0 < sin (angle (mx 2 U)) / angle (mx 2 U)) by (apply Rdiv_lt_0_compat; [apply sin_gt_0; lra|lra]). lra.
  - exists r. split; [exact Er|]. split; [exact Hh|]. split; [exact Ht|]. split; [exact Fr|]. intro A. eapply is_exp_ext; [reflexivity| |exact (exp2 _ Hh Ht)]. rewrite M. set (h := angle (mx 2 U)) in *. set (f := factor h) in *.
    destruct A as [A|A].
    + rewrite A, sin_0 in Zq. assert (Z0 : zz (mx 2 r) = 0) by (rewrite Zq; field; exact Z). rewrite Z0, sqrt_0, A, cos_0. destruct (Req_EM_T 0 0); [|contradiction].
      assert (F1 : f = 1). { unfold f, factor. rewrite A, Rabs_R0. destruct (Rlt_dec 0 SINTOLSU2) as [_|K]; [unfold taylor_sinc; field|exfalso; apply K; unfold SINTOLSU2; lra]. } rewrite F1. reflexivity.
    + assert (F1 : f = sin h / h). { unfold f, factor. destruct (Rlt_dec (Rabs h) SINTOLSU2) as [K|_]; [rewrite Rabs_pos_eq in K by lra; unfold SINTOLSU2 in K; lra|reflexivity]. }
      assert (Sn : 0 < sin h) by (apply sin_gt_0; lra). assert (Z0 : zz (mx 2 r) = h * h) by (rewrite Zq, F1; field; lra). rewrite Z0. rewrite sqrt_square by lra. destruct (Req_EM_T (h * h) 0); [nra|]. rewrite F1. reflexivity.
Qed.
Print Assumptions C77_log_partial.

(** Minus one is in SU(2), is the exponential of i pi sigma_3, and its logarithm is not a number. *)
Definition diagonal (z : C) : arr := fun k => match k with 0%nat => z | 3%nat => conj z | _ => C0 end.
Lemma diagonal_SU2 h : SU2 (mx 2 (diagonal (cos h, sin h))).
Proof.
  pose proof (sin2_cos2 h) as S. unfold Rsqr in S. split; [split; intros i j Hi Hj; unfold mmul, dag, mx, mid; cbn [csum]; destruct i as [|[|i]]; try lia; destruct j as [|[|j]]; try lia; cbn [Nat.add Nat.mul Nat.eqb diagonal]; apply C_eq; cunfold; nra|].
  unfold det2, mx. cbn [Nat.add Nat.mul diagonal]. apply C_eq; cunfold; nra.
Qed.
Lemma diagonal_angle h : 0 <= h <= PI -> angle (mx 2 (diagonal (cos h, sin h))) = h.
Proof. intro H. destruct (angle_is _ (diagonal_SU2 h)) as [E _]. rewrite E. cbn [diagonal re fst]. now apply acos_cos. Qed.
Theorem C77_minus_one_refuted : exists Q U, SU2 (mx 2 U) /\ exact_log_slow_2 Q U = None.
Proof.
  exists (fun _ => C0), (diagonal (cos PI, sin PI)). split; [apply diagonal_SU2|]. pose proof PI_RGT_0. pose proof PI2_1.
  destruct (log_ok (fun _ => C0) _ (diagonal_SU2 PI)) as [[_ E]|(Z & _)]; [exact E|]. exfalso. apply Z. rewrite diagonal_angle by lra. unfold factor. destruct (Rlt_dec (Rabs PI) SINTOLSU2) as [L|_]; [rewrite Rabs_pos_eq in L by lra; unfold SINTOLSU2 in L; lra|]. rewrite sin_PI. field. lra.
Qed.
Print Assumptions C77_minus_one_refuted.

(** For small angles the exponential of what is returned is not the matrix: the series has the angle where its square is meant. *)
Theorem C77_small_refuted : exists Q U r, SU2 (mx 2 U) /\ exact_log_slow_2 Q U = Some r /\ ~ is_exp 2 (mscale Ci (mx 2 r)) (mx 2 U).
Proof.
  set (h := 1 / 20000). pose proof PI_RGT_0. pose proof PI2_1. exists (fun _ => C0), (diagonal (cos h, sin h)).
  assert (Hh : 0 < h < SINTOLSU2) by (unfold h, SINTOLSU2; lra). assert (Ab : Rabs h < SINTOLSU2) by (rewrite Rabs_pos_eq; lra). pose proof (taylor_pos h Ab) as T. destruct (su2_dev h Hh) as [D1 D2].
  destruct (log_ok (fun _ => C0) _ (diagonal_SU2 h)) as [[Z _]|(Z & r & Er & He & Tr & _ & Zq & M)]; rewrite ?diagonal_angle in * by (unfold h; lra); unfold factor in *; (destruct (Rlt_dec (Rabs h) SINTOLSU2) as [_|K]; [|contradiction]); [lra|].
  exists r. split; [apply diagonal_SU2|]. split; [exact Er|]. intro X. pose proof (trace_exp _ _ He Tr X) as Et. rewrite Zq in Et.
  assert (Sp : 0 < sin h) by (apply sin_gt_0; unfold h; lra). set (w := sin h / taylor_sinc h) in *. assert (Wp : 0 < w) by (apply Rdiv_lt_0_compat; lra). rewrite sqrt_square in Et by lra.
  assert (Wt : w * taylor_sinc h = sin h) by (unfold w; field; lra). assert (Lo : h < w) by (destruct (Rle_lt_dec w h); [nra|assumption]).
  assert (Tl : / 2 < taylor_sinc h) by (unfold taylor_sinc, h; lra). assert (Sl : sin h <= 1) by (pose proof (SIN_bound h); lra). assert (Hi : w < PI) by nra.
  pose proof (cos_decreasing_1 h w ltac:(lra) ltac:(unfold h; lra) ltac:(lra) ltac:(lra) Lo) as Cd.
  unfold mtr, mx in Et. cbn [csum Nat.add Nat.mul diagonal] in Et. unfold conj, C0, Cadd in Et. cbn [re im fst snd] in Et. lra.
Qed.
Print Assumptions C77_small_refuted.

(** Minus one is the only matrix of SU(2) without a result. *)
Theorem C77_no_result : forall Q U, SU2 (mx 2 U) -> (exact_log_slow_2 Q U = None <-> re (mtr 2 (mx 2 U)) = -2).
Proof.
  intros Q U H. split; intro A.
  - destruct (Req_dec (re (mtr 2 (mx 2 U))) (-2)) as [E|E]; [exact E|]. destruct (C77_log_partial Q U H E) as (r & Er & _). congruence.
  - assert (Ea : angle (mx 2 U) = PI) by (unfold angle; rewrite A; replace (-2 / 2) with (cos PI) by (rewrite cos_PI; field); apply acos_cos; pose proof PI_RGT_0; lra).
    pose proof PI_RGT_0. pose proof PI2_1. destruct (log_ok Q U H) as [[_ E]|(Z & _)]; [exact E|]. exfalso. apply Z. rewrite Ea. unfold factor.
    destruct (Rlt_dec (Rabs PI) SINTOLSU2) as [L|_]; [rewrite Rabs_pos_eq in L by lra; unfold SINTOLSU2 in L; lra|]. rewrite sin_PI. field. lra.
Qed.
Print Assumptions C77_no_result.

(** For every angle between 0 and 10^-4 the exponential of what is returned is another matrix. *)
Theorem C77_small_angles : forall Q U r, SU2 (mx 2 U) -> 0 < angle (mx 2 U) < 1 / 10000 -> exact_log_slow_2 Q U = Some r ->
  ~ is_exp 2 (mscale Ci (mx 2 r)) (mx 2 U).
Proof.
  intros Q U r0 H A Er0 X. destruct (angle_is U H) as [E B]. destruct (su2_parts U H) as (_ & U3 & _). pose proof PI_RGT_0. pose proof PI2_1.
  assert (Ch : cos (angle (mx 2 U)) = re (U 0%nat)) by (rewrite E; apply cos_acos; lra).
  assert (Tr2 : re (mtr 2 (mx 2 U)) = 2 * cos (angle (mx 2 U))) by (rewrite Ch; unfold mtr, mx; cbn [csum Nat.add Nat.mul]; rewrite U3; destruct (U 0%nat) as [a b]; cunfold; cbn; ring).
  destruct (log_ok Q U H) as [[_ N]|(Z & r & Er & He & Tr & _ & Zq & M)]; [congruence|]. rewrite Er in Er0. injection Er0 as <-.
  set (h := angle (mx 2 U)) in *. clearbody h. assert (Hh : 0 < h < SINTOLSU2) by (unfold SINTOLSU2; lra). assert (Ab : Rabs h < SINTOLSU2) by (rewrite Rabs_pos_eq; lra).
  pose proof (taylor_pos h Ab) as T. destruct (su2_dev h Hh) as [D1 D2]. unfold factor in *. destruct (Rlt_dec (Rabs h) SINTOLSU2) as [_|K]; [|contradiction].
  pose proof (trace_exp _ _ He Tr X) as Et. rewrite Zq in Et. assert (Sp : 0 < sin h) by (apply sin_gt_0; lra).
  set (w := sin h / taylor_sinc h) in *. assert (Wp : 0 < w) by (apply Rdiv_lt_0_compat; lra). rewrite sqrt_square in Et by lra.
  assert (Wt : w * taylor_sinc h = sin h) by (unfold w; field; lra). assert (Lo : h < w) by (clear - Wt T D1 D2 Hh Wp Sp; destruct (Rle_lt_dec w h); [nra|assumption]).
  assert (Tl : / 2 < taylor_sinc h).
  { clear - A. unfold taylor_sinc. assert (0 <= 1 - h / 42 <= 1) by lra. set (a := 1 - h / 42) in *. assert (0 <= 1 - h / 20 * a <= 1) by nra. set (b := 1 - h / 20 * a) in *. nra. }
  assert (Sl : sin h <= 1) by (pose proof (SIN_bound h); lra). assert (Hi : w < PI) by (assert (w < 2) by (clear - Wt Tl Sl Wp; nra); lra).
  pose proof (cos_decreasing_1 h w ltac:(lra) ltac:(lra) ltac:(lra) ltac:(lra) Lo) as Cd. lra.
Qed.
Print Assumptions C77_small_angles.

(** * A case meeting the hypotheses: the diagonal matrix of angle 1 *)
Example C77_log_case : SU2 (mx 2 (diagonal (cos 1, sin 1))) /\ angle (mx 2 (diagonal (cos 1, sin 1))) = 1.
Proof. split; [apply diagonal_SU2|]. apply diagonal_angle. pose proof PI2_1. lra. Qed.
(** The hypotheses of C77_small_angles are met: angle 1/20000, with a result *)
Example C77_small_case : exists r, let U := diagonal (cos (1 / 20000), sin (1 / 20000)) in SU2 (mx 2 U) /\ 0 < angle (mx 2 U) < 1 / 10000 /\ exact_log_slow_2 (fun _ => C0) U = Some r.
Proof.
  pose proof PI2_1. assert (A : angle (mx 2 (diagonal (cos (1 / 20000), sin (1 / 20000)))) = 1 / 20000) by (apply diagonal_angle; lra).
  destruct (exact_log_slow_2 (fun _ => C0) (diagonal (cos (1 / 20000), sin (1 / 20000)))) as [r|] eqn:Er.
  - exists r. cbv zeta. split; [apply diagonal_SU2|]. split; [rewrite A; lra|exact Er].
  - exfalso. apply (C77_no_result _ _ (diagonal_SU2 (1 / 20000))) in Er. unfold angle in A. rewrite Er in A. replace (-2 / 2) with (cos PI) in A by (rewrite cos_PI; field). rewrite acos_cos in A by lra. lra.
Qed.
