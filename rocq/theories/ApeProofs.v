(** The APE projection: a group element; the normalised sum and gauge covariant for two
    colours; not gauge covariant for three. *)
From Coq Require Import PeanoNat Lia List Reals Lra Setoid.
From Verif Require Import CMat Det Arr MatSpec MmulModel MatModel MmulProofs MatProofs InvProofs Su2Model Su2Proofs GramModel GramProofs
  FieldModel FieldProofs FieldProofs2 ProjProofs ExpProofs2 AxialModel AxialProofs AxialProofs2 GivensProofs GivensProofs2 ApeModel.
Import ListNotations.
Local Open Scope C_scope.

(** * The sum that is projected *)
Definition blend (al sa : R) (U S : mat) : mat := madd (mscale (RtoC al) U) (mscale (RtoC sa) S).
Lemma blend_loop : forall n al sa (S U s : arr),
  holds n (for_ (n*n) (fun elem s => upd s elem (RtoC al * U elem + RtoC sa * S elem)) s) s (blend al sa (mx n U) (mx n S)).
Proof.
  intros n al sa S U s.
  pose proof (fill1 (n*n) (fun e _ => RtoC al * U e + RtoC sa * S e) s) as F. cbv beta in F.
  split.
  - intros i j Hi Hj. unfold mx at 1. rewrite F, (proj2 (Nat.ltb_lt _ _)) by nia. reflexivity.
  - intros x Hx. rewrite F. now rewrite (proj2 (Nat.ltb_ge _ _)) by lia.
Qed.
Lemma ape_group : forall n tol tmp sl S U sa al r, (2 <= n)%nat -> leading n (blend al sa (mx n U) (mx n S)) ->
  project_APE n tol tmp sl S U sa al = Some r -> SUn n (mx n r) /\ frame (n*n) r sl.
Proof.
  intros n tol tmp sl S U sa al r Hn L E. unfold project_APE in E. destruct (blend_loop n al sa S U sl) as [B F].
  set (V := for_ _ _ _) in *. destruct (givens_reunit_group n tol tmp V r Hn) as (G & Fr & _); [|exact E|].
  - eapply leading_ext; [symmetry; exact B|exact L].
  - split; [exact G|]. intros x Hx. rewrite Fr by assumption. now apply F.
Qed.

(** * Two colours *)
Definition qn (M : mat) : R := (norm2 (M 0%nat 0%nat) + norm2 (M 0%nat 1%nat))%R.
Definition qunit (M : mat) : mat := mscale (RtoC (/ sqrt (qn M))) M.
Lemma qn_pos : forall M, (0 <= qn M)%R.
Proof. intro M. unfold qn, norm2. pose proof (Rle_0_sqr (re (M 0%nat 0%nat))). pose proof (Rle_0_sqr (im (M 0%nat 0%nat))).
  pose proof (Rle_0_sqr (re (M 0%nat 1%nat))). pose proof (Rle_0_sqr (im (M 0%nat 1%nat))). unfold Rsqr in *. lra. Qed.
Lemma quat_square : forall M, quaternionic M -> meq 2 (mmul 2 M (dag M)) (mscale (RtoC (qn M)) mid).
Proof.
  intros M [Q1 Q2]. split2; unfold mmul, dag, mscale, mid, qn; cbn [csum Nat.eqb]; rewrite ?Q1, ?Q2;
    destruct (M 0%nat 0%nat), (M 0%nat 1%nat); unfold norm2; apply C_eq; cunfold; ring.
Qed.
Lemma qunit_SUn : forall M, quaternionic M -> (0 < qn M)%R -> SUn 2 (qunit M).
Proof.
  intros M Q H. apply SUn_2. pose proof (sqrt_lt_R0 _ H) as P. pose proof (sqrt_sqrt (qn M) ltac:(lra)) as SS.
  set (k := (/ sqrt (qn M))%R).
  assert (K : (k * k * qn M = 1)%R). { unfold k. rewrite <- SS at 3. field. lra. }
  destruct Q as [Q1 Q2]. unfold qn, norm2 in K. unfold qunit. fold k. destruct (M 0%nat 0%nat) as [a b] eqn:E0, (M 0%nat 1%nat) as [c d] eqn:E1. cbn [re im] in K.
  split; [split|]; [split2|split2|]; unfold det2, mmul, dag, mid, mscale; cbn [csum Nat.eqb]; rewrite ?Q1, ?Q2, ?E0, ?E1;
    apply C_eq; cunfold; nra.
Qed.
Lemma SU2_re_tr : forall X, SUn 2 X -> (re (mtr 2 X) <= 2)%R.
Proof.
  intros X H. destruct (SU2_embed X H) as [_ U]. pose proof (proj1 (SUn_2 X) H) as H2. destruct (SU2_form X H2) as [_ F].
  unfold mtr. cbn [csum]. rewrite F. unfold unit2, norm2 in U. destruct (X 0%nat 0%nat) as [a b], (X 0%nat 1%nat) as [c d]. cunfold. nra.
Qed.
Lemma qunit_scale : forall M, (0 < qn M)%R -> meq 2 M (mscale (RtoC (sqrt (qn M))) (qunit M)).
Proof.
  intros M H i j Hi Hj. unfold qunit, mscale. pose proof (sqrt_lt_R0 _ H). destruct (M i j). apply C_eq; cunfold; field; lra.
Qed.
Lemma quat_leading : forall M, quaternionic M -> (0 < qn M)%R -> leading 2 M.
Proof.
  intros M [Q1 Q2] H a Ha i Hi. replace i with 0%nat by lia.
  pose proof (Ha 0%nat ltac:(lia)) as H0. pose proof (Ha 1%nat ltac:(lia)) as H1. unfold tr_ in H0, H1. cbn [csum] in H0, H1.
  rewrite Q1 in H1. unfold qn, norm2 in H.
  destruct (a 0%nat) as [x y], (M 0%nat 0%nat) as [p q], (M 0%nat 1%nat) as [r s].
  apply (f_equal re) in H0 as R0. apply (f_equal im) in H0 as I0. apply (f_equal re) in H1 as R1. apply (f_equal im) in H1 as I1. cunfold.
  assert (Z : ((x*x + y*y) * (p*p + q*q + (r*r + s*s)) = 0)%R).
  { transitivity ((x*p - y*q)*(x*p - y*q) + (x*q + y*p)*(x*q + y*p) + (x*r - y*s)*(x*r - y*s) + (x*s+y*r)*(x*s+y*r))%R; [ring|].
    replace (x*p - y*q)%R with 0%R by lra. replace (x*q + y*p)%R with 0%R by lra.
    assert ((x*x+y*y)*(r*r+s*s) = (x * r - y * - s)*(x * r - y * - s) + (x * - s + y * r)*(x * - s + y * r))%R as W by ring.
    assert (A : (x * r - y * - s = 0)%R) by lra. assert (B : (x * - s + y * r = 0)%R) by lra.
    assert (((x*x+y*y)*(r*r+s*s) = 0)%R) by (rewrite W, A, B; ring). nra. }
  assert (x*x + y*y = 0)%R by nra. apply C_eq; cunfold; nra.
Qed.
Lemma givens_quat : forall tol tmp U, quaternionic (mx 2 U) -> (0 < qn (mx 2 U))%R ->
  exists r, givens_reunit 2 tol tmp U = Some r /\ holds 2 r U (qunit (mx 2 U)).
Proof.
  intros tol tmp U Q H. pose proof (quat_leading _ Q H) as L.
  destruct (givens_two_tracks tol tmp U L) as [W G]. cbv zeta in G.
  set (w := gram_reunit 2 (equiv 2 tmp U)) in *. set (T := mmul 2 (mx 2 U) (dag (mx 2 w))) in *.
  pose proof (givens_su2_ok (T 0%nat 0%nat + conj (T 1%nat 1%nat)) (T 0%nat 1%nat - conj (T 1%nat 0%nat))) as K.
  destruct (givens_su2 _ _) as [[t0 t1]|].
  - destruct G as (r & E & F & _). exists r. split; [exact E|]. split; [|exact F].
    destruct (givens_two_max tol tmp U r L E (qunit (mx 2 U)) (qunit_SUn _ Q H)) as [M1 M2].
    destruct (givens_reunit_group 2 tol tmp U r (le_n 2) L E) as (SR & _ & _).
    symmetry. apply M2. apply Rle_antisym; [exact M1|].
    pose proof (sqrt_lt_R0 _ H) as P. set (d := sqrt (qn (mx 2 U))) in *.
    assert (O : forall X, overlap 2 (mx 2 U) X = (d * overlap 2 (qunit (mx 2 U)) X)%R).
    { intro X. unfold overlap. transitivity (re (mtr 2 (mmul 2 (mscale (RtoC d) (qunit (mx 2 U))) (dag X)))).
      - f_equal. unfold d. now rewrite <- (qunit_scale _ H).
      - unfold mtr, mmul, mscale. cbn [csum]. destruct (qunit (mx 2 U) 0%nat 0%nat), (qunit (mx 2 U) 0%nat 1%nat), (qunit (mx 2 U) 1%nat 0%nat), (qunit (mx 2 U) 1%nat 1%nat).
        destruct (dag X 0%nat 0%nat), (dag X 0%nat 1%nat), (dag X 1%nat 0%nat), (dag X 1%nat 1%nat). cunfold. ring. }
    rewrite !O. apply Rmult_le_compat_l; [lra|].
    replace (overlap 2 (qunit (mx 2 U)) (qunit (mx 2 U))) with 2%R.
    + apply SU2_re_tr. apply SUn_mmul; [now apply qunit_SUn|now apply SUn_dag].
    + unfold overlap. destruct (qunit_SUn _ Q H) as [[U1 _] _]. rewrite U1. unfold mtr, mid. cbn [csum Nat.eqb]. cunfold. ring.
  - exfalso. destruct K as [K0 K1].
    assert (QT : quaternionic T) by (apply quat_mul; [exact Q|apply quat_dag, quat_SU2, W]).
    destruct QT as [Q1 Q2]. rewrite Q2, conj_conj in K0. rewrite Q1 in K1.
    assert (Z0 : T 0%nat 0%nat = C0). { destruct (T 0%nat 0%nat). injection K0 as A B. apply C_eq; cunfold; lra. }
    assert (Z1 : T 0%nat 1%nat = C0). { destruct (T 0%nat 1%nat). apply (f_equal re) in K1 as A. apply (f_equal im) in K1 as B. apply C_eq; cunfold; lra. }
    assert (Z : meq 2 T mzero). { split2; rewrite ?Q1, ?Q2, ?Z0, ?Z1; unfold mzero; apply C_eq; cunfold; ring. }
    assert (Y : meq 2 (mx 2 U) (mmul 2 T (mx 2 w))).
    { unfold T. rewrite mmul_assoc. destruct W as [[_ W2] _]. rewrite W2. now rewrite mmul_1_r. }
    rewrite Z in Y.
    assert (X : forall a b, (a < 2)%nat -> (b < 2)%nat -> mx 2 U a b = C0).
    { intros a b Ha Hb. rewrite Y by assumption. unfold mmul, mzero. cbn [csum]. ring. }
    unfold qn in H. rewrite !X in H by lia. unfold norm2 in H. cunfold. lra.
Qed.
Lemma quat_blend : forall al sa U S, quaternionic U -> quaternionic S -> quaternionic (blend al sa U S).
Proof.
  intros al sa U S [U1 U2] [S1 S2]. unfold blend, quaternionic, madd, mscale. rewrite U1, U2, S1, S2.
  destruct (U 0%nat 0%nat), (U 0%nat 1%nat), (S 0%nat 0%nat), (S 0%nat 1%nat). split; apply C_eq; cunfold; ring.
Qed.
Lemma qn_ext : forall A B, meq 2 A B -> qn A = qn B.
Proof. intros A B E. unfold qn. now rewrite !E by lia. Qed.
Lemma qunit_ext : forall A B, meq 2 A B -> meq 2 (qunit A) (qunit B).
Proof. intros A B E. unfold qunit. rewrite (qn_ext A B E). intros i j Hi Hj. unfold mscale. now rewrite E. Qed.
Lemma ape_two : forall tol tmp sl S U sa al, let M := blend al sa (mx 2 U) (mx 2 S) in
  quaternionic (mx 2 U) -> quaternionic (mx 2 S) -> (0 < qn M)%R ->
  exists r, project_APE 2 tol tmp sl S U sa al = Some r /\ holds 2 r sl (qunit M) /\ SUn 2 (mx 2 r).
Proof.
  intros tol tmp sl S U sa al M QU QS H. unfold project_APE. destruct (blend_loop 2 al sa S U sl) as [B F]. fold M in B.
  set (V := for_ _ _ _) in *. assert (QM : quaternionic M) by now apply quat_blend.
  assert (QV : quaternionic (mx 2 V)) by (eapply quat_ext; [exact B|exact QM]).
  rewrite <- (qn_ext _ _ B) in H.
  destruct (givens_quat tol tmp V QV H) as (r & E & R1 & R2). exists r. split; [exact E|]. split; [split|].
  - rewrite R1. now apply qunit_ext.
  - intros x Hx. rewrite R2 by assumption. now apply F.
  - eapply SUn_ext; [symmetry; exact R1|]. now apply qunit_SUn.
Qed.
Lemma qn_gauged : forall g h M, SUn 2 g -> SUn 2 h -> quaternionic M -> qn (mmul 2 (mmul 2 g M) (dag h)) = qn M.
Proof.
  intros g h M G H Q.
  assert (Q' : quaternionic (mmul 2 (mmul 2 g M) (dag h))) by (repeat (assumption || apply quat_mul || apply quat_dag || apply quat_SU2)).
  pose proof (quat_square _ Q') as S'. pose proof (quat_square _ Q) as S.
  assert (E : meq 2 (mmul 2 (mmul 2 (mmul 2 g M) (dag h)) (dag (mmul 2 (mmul 2 g M) (dag h)))) (mscale (RtoC (qn M)) mid)).
  { rewrite !dag_mmul, dag_dag, !mmul_assoc. destruct H as [[_ H2] _]. rewrite <- (mmul_assoc 2 (dag h) h), H2, mmul_1_l.
    rewrite <- (mmul_assoc 2 M (dag M)), S. destruct G as [[G1 _] _].
    rewrite mmul_scale_l, mmul_1_l, mmul_scale_r, G1. reflexivity. }
  rewrite S' in E. specialize (E 0 0 ltac:(lia) ltac:(lia))%nat. unfold mscale, mid in E. cbn [Nat.eqb] in E.
  apply (f_equal re) in E. cunfold. lra.
Qed.
Lemma qunit_gauged : forall g h M, SUn 2 g -> SUn 2 h -> quaternionic M ->
  meq 2 (qunit (mmul 2 (mmul 2 g M) (dag h))) (mmul 2 (mmul 2 g (qunit M)) (dag h)).
Proof.
  intros g h M G H Q. unfold qunit. rewrite qn_gauged by assumption. now rewrite mmul_scale_r, mmul_scale_l.
Qed.
Lemma blend_gauged : forall n al sa g h U S, 
  meq n (blend al sa (mmul n (mmul n g U) (dag h)) (mmul n (mmul n g S) (dag h))) (mmul n (mmul n g (blend al sa U S)) (dag h)).
Proof.
  intros n al sa g h U S. unfold blend. now rewrite mmul_add_r, mmul_add_l, !mmul_scale_r, !mmul_scale_l.
Qed.
Lemma ape_two_covariant : forall tol tmp tmp' sl sl' S S' U U' g h sa al, let M := blend al sa (mx 2 U) (mx 2 S) in
  SUn 2 g -> SUn 2 h -> quaternionic (mx 2 U) -> quaternionic (mx 2 S) -> (0 < qn M)%R ->
  meq 2 (mx 2 U') (mmul 2 (mmul 2 g (mx 2 U)) (dag h)) -> meq 2 (mx 2 S') (mmul 2 (mmul 2 g (mx 2 S)) (dag h)) ->
  exists r r', project_APE 2 tol tmp sl S U sa al = Some r /\ project_APE 2 tol tmp' sl' S' U' sa al = Some r' /\
    SUn 2 (mx 2 r) /\ SUn 2 (mx 2 r') /\ meq 2 (mx 2 r) (qunit M) /\
    meq 2 (mx 2 r') (mmul 2 (mmul 2 g (mx 2 r)) (dag h)).
Proof.
  intros tol tmp tmp' sl sl' S S' U U' g h sa al M G H QU QS P EU ES.
  destruct (ape_two tol tmp sl S U sa al QU QS P) as (r & E & [R _] & SR). fold M in R.
  assert (QM : quaternionic M) by now apply quat_blend.
  assert (QU' : quaternionic (mx 2 U')).
  { eapply quat_ext; [exact EU|]. repeat (assumption || apply quat_mul || apply quat_dag || apply quat_SU2). }
  assert (QS' : quaternionic (mx 2 S')).
  { eapply quat_ext; [exact ES|]. repeat (assumption || apply quat_mul || apply quat_dag || apply quat_SU2). }
  assert (B : meq 2 (blend al sa (mx 2 U') (mx 2 S')) (mmul 2 (mmul 2 g M) (dag h))).
  { unfold M. rewrite <- blend_gauged. intros i j Hi Hj. unfold blend, madd, mscale. now rewrite EU, ES by assumption. }
  assert (P' : (0 < qn (blend al sa (mx 2 U') (mx 2 S')))%R) by (rewrite (qn_ext _ _ B), qn_gauged; assumption).
  destruct (ape_two tol tmp' sl' S' U' sa al QU' QS' P') as (r' & E' & [R' _] & SR').
  exists r, r'. repeat (split; [assumption|]). rewrite R', (qunit_ext _ _ B), R. now apply qunit_gauged.
Qed.

(** * Three colours: diagonal matrices *)
Lemma sqrt_sq_abs : forall a, sqrt (a*a + 0*0) = Rabs a.
Proof. intro a. replace (a*a + 0*0)%R with (Rsqr a) by (unfold Rsqr; ring). apply sqrt_Rsqr_abs. Qed.
Lemma gram_diag : forall a b c, a <> 0%R -> b <> 0%R ->
  meq 3 (mx 3 (gram_reunit 3 (dg a b c))) (mx 3 (dg (a / Rabs a) (b / Rabs b) (a / Rabs a * (b / Rabs b)))).
Proof.
  intros a b c Ha Hb. cbn [gram_reunit]. destruct (gram_3_form (dg a b c)) as (_ & A0 & A1 & A2).
  set (r := gram_reunit_3 (dg a b c)) in *. pose proof (Rabs_no_R0 a Ha) as Na. pose proof (Rabs_no_R0 b Hb) as Nb.
  assert (N0 : rnorm 3 (col 3 (dg a b c) 0) = (a*a + 0*0)%R).
  { unfold rnorm, col, mx, dg, norm2. cbn [rsum Nat.add Nat.mul]. cunfold. ring. }
  assert (S2 : forall k, (k < 3)%nat -> second (dg a b c) k = col 3 (dg a b c) 1 k).
  { intros k Hk. unfold second. match goal with |- _ - ?d * _ = _ => replace d with C0 end; [ring|].
    unfold dot, nrm, col, mx, dg. cbn [csum Nat.add Nat.mul]. apply C_eq; cunfold; ring. }
  assert (N1 : rnorm 3 (second (dg a b c)) = (b*b + 0*0)%R).
  { unfold rnorm. cbn [rsum]. rewrite !S2 by lia. unfold col, mx, dg, norm2. cbn [Nat.add Nat.mul]. cunfold. ring. }
  assert (E0 : forall i, (i < 3)%nat -> mx 3 r i 0%nat = if Nat.eqb i 0 then RtoC (a / Rabs a) else C0).
  { intros i Hi. rewrite A0 by assumption. unfold nrm. rewrite N0, sqrt_sq_abs. unfold col, mx, dg.
    destruct i as [|[|[|i]]]; [| | |lia]; cbn [Nat.eqb Nat.add Nat.mul]; apply C_eq; cunfold; try (field; assumption); ring. }
  assert (E1 : forall i, (i < 3)%nat -> mx 3 r i 1%nat = if Nat.eqb i 1 then RtoC (b / Rabs b) else C0).
  { intros i Hi. rewrite A1 by assumption. unfold nrm. rewrite N1, sqrt_sq_abs, S2 by assumption. unfold col, mx, dg.
    destruct i as [|[|[|i]]]; [| | |lia]; cbn [Nat.eqb Nat.add Nat.mul]; apply C_eq; cunfold; try (field; assumption); ring. }
  intros i j Hi Hj. destruct j as [|[|[|j]]]; [| | |lia].
  - rewrite E0 by assumption. destruct i as [|[|[|i]]]; [reflexivity..|lia].
  - rewrite E1 by assumption. destruct i as [|[|[|i]]]; [reflexivity..|lia].
  - rewrite A2 by assumption. unfold cofactor. change (3-1)%nat with 2%nat. rewrite mdet_2. unfold det2, minor, skip.
    destruct i as [|[|[|i]]]; [| | |lia]; cbn [Nat.ltb Nat.leb Nat.add]; rewrite ?E0, ?E1 by lia; cbn [Nat.eqb]; unfold sgn; cbn [Nat.even];
      unfold mx, dg; cbn [Nat.add Nat.mul]; apply C_eq; cunfold; ring.
Qed.
Lemma dg_rot : forall p q r U w W a b c, (p < 3)%nat -> (q < 3)%nat -> p <> q -> rotates 3 p q r -> meq 3 (mx 3 U) (mx 3 (dg a b c)) ->
  meq 3 (mx 3 w) W ->
  match Rlt_dec 0 (nth p [a; b; c] 0%R + nth q [a; b; c] 0%R) with
  | left _ => exists U' w', r U w = Some (U', w') /\ meq 3 (mx 3 U') (mx 3 (dg a b c)) /\ meq 3 (mx 3 w') W
  | right _ => (nth p [a; b; c] 0 + nth q [a; b; c] 0 = 0)%R -> r U w = None
  end.
Proof.
  intros p q r U w W a b c Hp Hq N R EU EW. specialize (R U w). rewrite !EU in R by assumption.
  assert (X : mx 3 (dg a b c) p p + conj (mx 3 (dg a b c) q q) = RtoC (nth p [a; b; c] 0%R + nth q [a; b; c] 0%R)).
  { clear - Hp Hq. unfold mx, dg. destruct p as [|[|[|p]]]; try lia; destruct q as [|[|[|q]]]; try lia; cbn; apply C_eq; cunfold; ring. }
  assert (Z : mx 3 (dg a b c) p q - conj (mx 3 (dg a b c) q p) = C0).
  { clear - Hp Hq N. unfold mx, dg. destruct p as [|[|[|p]]]; try lia; destruct q as [|[|[|q]]]; try lia; cbn; cring. }
  rewrite X, Z in R. destruct (Rlt_dec _ _) as [L|L].
  - rewrite givens_su2_pos in R by assumption. destruct R as (U' & w' & R1 & R2 & R3). exists U', w'. split; [exact R1|].
    rewrite R2, R3, embed_one, EU, EW, dag_mid. split; [apply mmul_1_r|apply mmul_1_l].
  - intro Z0. rewrite Z0 in R. change (RtoC 0) with C0 in R. rewrite givens_su2_zero in R. exact R.
Qed.
Lemma dg_start' : forall tmp U a b c, a <> 0%R -> b <> 0%R -> meq 3 (mx 3 U) (mx 3 (dg a b c)) -> let sa := (a / Rabs a)%R in let sb := (b / Rabs b)%R in
  meq 3 (mx 3 (gram_reunit 3 (equiv 3 tmp U))) (mx 3 (dg sa sb (sa * sb))) /\
  meq 3 (mx 3 (multab_dag 3 U (equiv 3 tmp U) (gram_reunit 3 (equiv 3 tmp U)))) (mx 3 (dg (a * sa) (b * sb) (c * (sa * sb)))).
Proof.
  intros tmp U a b c Ha Hb EU sa sb.
  assert (G : meq 3 (mx 3 (gram_reunit 3 (equiv 3 tmp U))) (mx 3 (dg sa sb (sa * sb)))).
  { rewrite (gram_equiv 3 tmp U) by lia. etransitivity; [apply mx_agree, (gram_reunit_agree 3 U (dg a b c)); [lia|now apply agree_mx]|]. now apply gram_diag. }
  split; [exact G|].
  destruct (multab_dag_ok 3 U (equiv 3 tmp U) (gram_reunit 3 (equiv 3 tmp U))) as [-> _].
  rewrite G. destruct (equiv_ok 3 tmp U) as [-> _]. rewrite EU.
  split3; unfold mmul, dag, mx, dg; cbn [csum Nat.add Nat.mul]; apply C_eq; cunfold; ring.
Qed.
Lemma givens_diag_stays : forall tol tmp U0 a b c, (0 < a)%R -> (0 < b)%R -> (0 < a + c)%R -> (0 < b + c)%R -> meq 3 (mx 3 U0) (mx 3 (dg a b c)) ->
  exists r, givens_reunit 3 tol tmp U0 = Some r /\ meq 3 (mx 3 r) mid.
Proof.
  intros tol tmp U0 a b c Ha Hb Hac Hbc EU. destruct (dg_start' tmp U0 a b c ltac:(lra) ltac:(lra) EU) as [W S].
  rewrite (Rabs_pos_eq a), (Rabs_pos_eq b) in W, S by lra.
  replace (a / a)%R with 1%R in W, S by (field; lra). replace (b / b)%R with 1%R in W, S by (field; lra).
  replace (a * 1)%R with a in S by ring. replace (b * 1)%R with b in S by ring. replace (c * (1 * 1))%R with c in S by ring.
  replace (1 * 1)%R with 1%R in W by ring. rewrite dg_one in W. unfold givens_reunit.
  set (w := gram_reunit 3 (equiv 3 tmp U0)) in *. set (U1 := multab_dag 3 _ _ w) in *.
  assert (G : forall fuel old U w, meq 3 (mx 3 U) (mx 3 (dg a b c)) -> meq 3 (mx 3 w) mid ->
    exists w', givens_loop 3 tol fuel old U w = Some w' /\ meq 3 (mx 3 w') mid).
  { clear - Ha Hb Hac Hbc. induction fuel as [|fuel IH]; intros old U w S W; cbn [givens_loop]; [exists w; split; [reflexivity|assumption]|].
    unfold sweep. cbn [rotations].
    pose proof (dg_rot 0 1 rotation1 U w mid a b c ltac:(lia) ltac:(lia) ltac:(lia) rotation1_ok S W) as R1. cbn [nth] in R1.
    destruct (Rlt_dec 0 (a + b)); [|lra]. destruct R1 as (U2 & w2 & -> & S2 & W2).
    pose proof (dg_rot 1 2 rotation2 U2 w2 mid a b c ltac:(lia) ltac:(lia) ltac:(lia) rotation2_ok S2 W2) as R2. cbn [nth] in R2.
    destruct (Rlt_dec 0 (b + c)); [|lra]. destruct R2 as (U3 & w3 & -> & S3 & W3).
    pose proof (dg_rot 2 0 rotation3 U3 w3 mid a b c ltac:(lia) ltac:(lia) ltac:(lia) rotation3_ok S3 W3) as R3. cbn [nth] in R3.
    destruct (Rlt_dec 0 (c + a)); [|lra]. destruct R3 as (U4 & w4 & -> & S4 & W4).
    destruct (Req_EM_T _ _); [now apply IH|]. destruct (Rlt_dec _ _); [now exists w4|now apply IH]. }
  destruct (G 75%nat (speed_trace_Re 3 U1) U1 w S W) as (w' & -> & E). eexists. split; [reflexivity|].
  destruct (equiv_ok 3 U0 w') as [-> _]. exact E.
Qed.
Lemma givens_diag_divides : forall tol tmp U0 a b, (a < 0)%R -> (0 < b)%R -> meq 3 (mx 3 U0) (mx 3 (dg a b b)) -> givens_reunit 3 tol tmp U0 = None.
Proof.
  intros tol tmp U0 a b Ha Hb EU. destruct (dg_start' tmp U0 a b b ltac:(lra) ltac:(lra) EU) as [W S].
  rewrite (Rabs_left a), (Rabs_pos_eq b) in W, S by lra.
  replace (a / - a)%R with (-1)%R in W, S by (field; lra). replace (b / b)%R with 1%R in W, S by (field; lra).
  replace (a * -1)%R with (- a)%R in S by ring. replace (b * 1)%R with b in S by ring. replace (b * (-1 * 1))%R with (- b)%R in S by ring.
  unfold givens_reunit.
  set (w := gram_reunit 3 (equiv 3 tmp U0)) in *. set (U1 := multab_dag 3 _ _ w) in *.
  assert (Q : rotations (sweep 3) U1 w = None); [|now rewrite (loop_none 3 tol 74 _ U1 w Q)].
  unfold sweep. cbn [rotations].
  pose proof (dg_rot 0 1 rotation1 U1 w _ (- a) b (- b) ltac:(lia) ltac:(lia) ltac:(lia) rotation1_ok S W) as R1. cbn [nth] in R1.
  destruct (Rlt_dec 0 (- a + b)); [|lra]. destruct R1 as (U2 & w2 & -> & S2 & W2).
  pose proof (dg_rot 1 2 rotation2 U2 w2 _ (- a) b (- b) ltac:(lia) ltac:(lia) ltac:(lia) rotation2_ok S2 W2) as R2. cbn [nth] in R2.
  destruct (Rlt_dec 0 (b + - b)); [lra|]. rewrite R2 by lra. reflexivity.
Qed.
