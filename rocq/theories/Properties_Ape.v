(** C33: APE smearing. *)
From Coq Require Import PeanoNat Reals Lra Lia List ZArith Setoid.
From Verif Require Import CMat Det Arr MatSpec MatModel MatEx MatProofs MmulProofs GramModel GramProofs FieldModel FieldProofs FieldProofs2
  ProjProofs ExpProofs2 AxialModel GivensProofs GivensProofs2 ApeModel ApeProofs Properties_Field.
Import ListNotations.
Local Open Scope C_scope.

(** Whenever the projection goes through (no division by zero) the smeared link is special
    unitary, for every number of colours; only its own entries are written.  [leading]:
    the rows or columns the orthonormalisation starts from are independent. *)
Theorem C33_ape_group : forall n tol tmp sl S U sa al r, (2 <= n)%nat ->
  leading n (madd (mscale (RtoC al) (mx n U)) (mscale (RtoC sa) (mx n S))) ->
  project_APE n tol tmp sl S U sa al = Some r -> SUn n (mx n r) /\ frame (n*n) r sl.
Proof. exact ape_group. Qed.
Print Assumptions C33_ape_group.

(** Two colours: the smeared link is the sum divided by the root of its determinant, and
    transforms like the link.  The hypothesis says that the sum is not zero. *)
Theorem C33_ape_su2 : forall ds g lat lat' tol tmp tmp' a1 a2 b1 b2 sl sl' z i mu dir sa al,
  GeomSpec.lattice_ok ds -> navig ds lat ->
  let ND := length ds in let V := volume ds in
  group_field 2 ND V lat -> group_gauge 2 V g -> gauged 2 ND V g lat lat' -> (forall k, (k < 4)%nat -> z k = C0) ->
  (i < V)%nat -> (mu < dir)%nat -> (dir <= ND)%nat ->
  let S := all_staples 2 a1 a2 z lat i mu dir in
  let S' := all_staples 2 b1 b2 z lat' i mu dir in
  let M := madd (mscale (RtoC al) (lnk 2 lat i mu)) (mscale (RtoC sa) (mx 2 S)) in
  M 0%nat 0%nat <> C0 \/ M 0%nat 1%nat <> C0 ->
  exists r r' d, project_APE 2 tol tmp sl S (O (lat i) mu) sa al = Some r /\ project_APE 2 tol tmp' sl' S' (O (lat' i) mu) sa al = Some r' /\
    SUn 2 (mx 2 r) /\ SUn 2 (mx 2 r') /\
    (0 < d)%R /\ mdet 2 M = RtoC (d*d) /\ meq 2 M (mscale (RtoC d) (mx 2 r)) /\
    meq 2 (mx 2 r') (mmul 2 (mmul 2 (g i) (mx 2 r)) (dag (g (nbr (lat i) mu)))).
Proof.
  intros ds g lat lat' tol tmp tmp' a1 a2 b1 b2 sl sl' z i mu dir sa al Hok Nav ND V F G Ga Hz Hi Hm Hd S S' M N.
  pose proof (navig_geom ds lat Hok Nav) as Geo. fold ND V in Geo.
  assert (Geo' : geom_ok ND V lat') by (eapply geom_ok_same; [apply Ga|exact Geo]).
  pose proof (gauged_group 2 ND V g lat lat' (g_nbr _ _ _ Geo) G F Ga) as F'.
  assert (Z : meq 2 (mx 2 z) mzero) by (intros p q Hp Hq; apply Hz; unfold mx; nia).
  destruct (all_staples_ok 2 ND V a1 a2 z lat i mu dir Geo F Hi Hm Hd) as [E1 _].
  destruct (all_staples_ok 2 ND V b1 b2 z lat' i mu dir Geo' F' Hi Hm Hd) as [E2 _].
  rewrite Z, madd_0_l in E1, E2. fold S in E1. fold S' in E2.
  assert (QS : quaternionic (mx 2 S)).
  { eapply quat_ext; [exact E1|]. eapply quat_staple; eassumption. }
  assert (QU : quaternionic (mx 2 (O (lat i) mu))) by (apply quat_SU2, F; [assumption|lia]).
  assert (P : (0 < qn M)%R).
  { destruct (Rle_lt_or_eq_dec 0 (qn M) (qn_pos M)) as [L|L]; [exact L|]. exfalso. unfold qn, norm2 in L.
    destruct (M 0%nat 0%nat) as [p q], (M 0%nat 1%nat) as [r s]. cbn [re im] in L.
    destruct N as [N|N]; apply N; apply C_eq; cunfold; nra. }
  assert (ES : meq 2 (mx 2 S') (mmul 2 (mmul 2 (g i) (mx 2 S)) (dag (g (nbr (lat i) mu))))).
  { rewrite E1, E2. apply (staple_sum_gauged 2 ND V); try assumption; [intros j Hj; apply (G j Hj)|lia]. }
  destruct (ape_two_covariant tol tmp tmp' sl sl' S S' (O (lat i) mu) (O (lat' i) mu) (g i) (g (nbr (lat i) mu)) sa al) as (r & r' & A & B & D & E & Q & K);
    try assumption.
  - now apply G.
  - apply G. apply Geo; [assumption|lia].
  - apply Ga; [assumption|lia].
  - fold M in Q. exists r, r', (sqrt (qn M)). repeat (split; [assumption|]).
    pose proof (sqrt_lt_R0 _ P) as SP. split; [exact SP|]. split.
    + rewrite sqrt_sqrt by lra. rewrite mdet_2. destruct (quat_blend al sa _ _ QU QS) as [Q1 Q2]. change (blend al sa (mx 2 (O (lat i) mu)) (mx 2 S)) with M in Q1, Q2.
      unfold det2, qn, norm2. rewrite Q1, Q2. destruct (M 0%nat 0%nat), (M 0%nat 1%nat). apply C_eq; cunfold; ring.
    + split; [|exact K]. etransitivity; [apply (qunit_scale M P)|]. intros p q Hp Hq. unfold mscale. now rewrite Q.
Qed.
Print Assumptions C33_ape_su2.

(** Three colours: not covariant.  The link 1 with the six staples 1, 1, diag(1,-1,-1),
    diag(1,-1,-1), diag(-1,1,-1), diag(-1,1,-1), weights 1 - alpha and alpha / 6 with
    alpha = 21/22, is projected to 1.  After the gauge transformation that permutes the
    colours cyclically the projection divides zero by zero. *)
Definition perm3 : arr := fun x => match x with 2%nat | 3%nat | 7%nat => C1 | _ => C0 end.
Theorem C33_ape_su3_refuted : exists (X : nat -> mat) g, (forall k, SUn 3 (X k)) /\ SUn 3 g /\
  forall tol tmp sl S S' U U', let alpha := (21/22)%R in
    meq 3 (mx 3 U) mid -> meq 3 (mx 3 S) (msum (map X (seq 0 6))) ->
    meq 3 (mx 3 U') (mmul 3 (mmul 3 g (mx 3 U)) (dag g)) -> meq 3 (mx 3 S') (mmul 3 (mmul 3 g (mx 3 S)) (dag g)) ->
    (exists r, project_APE 3 tol tmp sl S U (alpha / 6) (1 - alpha) = Some r /\ meq 3 (mx 3 r) mid) /\
    project_APE 3 tol tmp sl S' U' (alpha / 6) (1 - alpha) = None.
Proof.
  set (X := fun k : nat => match k with 0%nat | 1%nat => mx 3 (dg 1 1 1) | 2%nat | 3%nat => mx 3 (dg 1 (-1) (-1)) | _ => mx 3 (dg (-1) 1 (-1)) end).
  exists X, (mx 3 perm3).
  assert (D3 : forall a b c, (a*a = 1)%R -> (b*b = 1)%R -> (c*c = 1)%R -> (a*b*c = 1)%R -> SUn 3 (mx 3 (dg a b c))).
  { intros a b c Ha Hb Hc Hd. apply SUn_3. split; [split|]; [split3|split3|]; unfold det3, mmul, dag, mid, mx, dg; cbn [csum Nat.add Nat.mul Nat.eqb];
      apply C_eq; cunfold; lra. }
  split; [|split].
  - intros [|[|[|[|k]]]]; apply D3; lra.
  - apply SUn_3. split; [split|]; [split3|split3|]; unfold det3, mmul, dag, mid, mx, perm3; cbn [csum Nat.add Nat.mul Nat.eqb]; apply C_eq; cunfold; lra.
  - intros tol tmp sl S S' U U' alpha EU ES EU' ES'.
    assert (ES2 : meq 3 (mx 3 S) (mx 3 (dg 2 2 (-2)))).
    { rewrite ES. unfold X. cbn [seq map msum fold_right].
      split3; unfold madd, mzero, mx, dg; cbn [Nat.add Nat.mul]; apply C_eq; cunfold; lra. }
    assert (ES3 : meq 3 (mx 3 S') (mx 3 (dg (-2) 2 2))).
    { rewrite ES', ES2. split3; unfold mmul, dag, mx, perm3, dg; cbn [csum Nat.add Nat.mul]; apply C_eq; cunfold; lra. }
    assert (EU3 : meq 3 (mx 3 U') mid).
    { rewrite EU', EU. split3; unfold mmul, dag, mid, mx, perm3; cbn [csum Nat.add Nat.mul Nat.eqb]; apply C_eq; cunfold; lra. }
    unfold project_APE.
    destruct (blend_loop 3 (1 - alpha) (alpha / 6) S U sl) as [B _]. destruct (blend_loop 3 (1 - alpha) (alpha / 6) S' U' sl) as [B' _].
    match type of B with meq 3 (mx 3 ?v) _ => set (V := v) in * end.
    match type of B' with meq 3 (mx 3 ?v) _ => set (V' := v) in * end.
    assert (BV : meq 3 (mx 3 V) (mx 3 (dg (4/11) (4/11) (-3/11)))).
    { intros i j Hi Hj. rewrite B by assumption. unfold blend, madd, mscale. rewrite EU, ES2 by assumption. unfold alpha.
      clear -Hi Hj. revert i j Hi Hj. split3; unfold mid, mx, dg; cbn [Nat.add Nat.mul Nat.eqb]; apply C_eq; cunfold; lra. }
    assert (BV' : meq 3 (mx 3 V') (mx 3 (dg (-3/11) (4/11) (4/11)))).
    { intros i j Hi Hj. rewrite B' by assumption. unfold blend, madd, mscale. rewrite EU3, ES3 by assumption. unfold alpha.
      clear -Hi Hj. revert i j Hi Hj. split3; unfold mid, mx, dg; cbn [Nat.add Nat.mul Nat.eqb]; apply C_eq; cunfold; lra. }
    split.
    + apply (givens_diag_stays tol tmp V (4/11) (4/11) (-3/11)); try lra. exact BV.
    + apply (givens_diag_divides tol tmp V' (-3/11) (4/11)); try lra. exact BV'.
Qed.
Print Assumptions C33_ape_su3_refuted.

(** the hypotheses of the two positive theorems on a 2x3 lattice of unit links: the
    staple is 2, and any weights with al + 2 sa <> 0 will do *)
Example C33_ape_ex : leading 3 (madd (mscale (RtoC (1/4)) (mx 3 ex_su3)) (mscale (RtoC (1/8)) (mx 3 ex_su3))).
Proof.
  assert (L : leading 3 (mx 3 ex_su3)).
  { intros a Ha. destruct (proj2 (SUn_3 _) ex_su3_ok) as [[_ U2] _]. intros i Hi.
    assert (E : csum 3 (fun c => conj (mx 3 ex_su3 c i) * csum 2 (fun k => a k * tr_ (mx 3 ex_su3) k c)) = a i).
    { transitivity (csum 2 (fun k => a k * mmul 3 (dag (mx 3 ex_su3)) (mx 3 ex_su3) i k)).
      - unfold mmul, dag, tr_. cbn [csum]. ring.
      - cbn [csum]. rewrite !U2 by lia. destruct i as [|[|i]]; [| |lia]; unfold mid; cbn [Nat.eqb]; ring. }
    rewrite <- E. cbn [csum] in *. rewrite !Ha by lia. ring. }
  apply (leading_ext 3 (mscale (RtoC (3/8)) (mx 3 ex_su3))).
  - intros i j Hi Hj. unfold madd, mscale. destruct (mx 3 ex_su3 i j). apply C_eq; cunfold; lra.
  - intros a Ha i Hi. apply L; [|exact Hi]. intros c Hc. specialize (Ha c Hc). unfold tr_, mscale in *. cbn [csum] in *.
    destruct (a 0%nat), (a 1%nat), (mx 3 ex_su3 c 0%nat), (mx 3 ex_su3 c 1%nat).
    apply (f_equal re) in Ha as R. apply (f_equal im) in Ha as I. apply C_eq; cunfold; lra.
Qed.
Definition ape_lat : lattice := init_navig [2; 3]%Z (fun _ _ k => if Nat.eqb (k mod 3) 0 then C1 else C0).
Example C33_ape_su2_ex : GeomSpec.lattice_ok [2; 3]%Z /\ navig [2; 3]%Z ape_lat /\ group_field 2 2 6 ape_lat /\
  madd (mscale (RtoC (1/2)) (lnk 2 ape_lat 1 0)) (mscale (RtoC (1/4)) (mx 2 (all_staples 2 (fun _ => C0) (fun _ => C0) (fun _ => C0) ape_lat 1 0 2))) 0%nat 0%nat <> C0.
Proof.
  assert (O1 : forall i mu, meq 2 (lnk 2 ape_lat i mu) mid) by (intros i mu; split2; reflexivity).
  assert (F : group_field 2 2 6 ape_lat).
  { intros i mu _ _. apply (SUn_ext 2 mid); [symmetry; apply O1|apply SUn_mid]. }
  split; [exact ex_dims|]. split; [apply init_navig_ok, ex_dims|]. split; [exact F|].
  pose proof (navig_geom [2; 3]%Z ape_lat ex_dims (init_navig_ok _ _ ex_dims)) as Geo.
  destruct (all_staples_ok 2 2 6 (fun _ => C0) (fun _ => C0) (fun _ => C0) ape_lat 1 0 2 Geo F ltac:(lia) ltac:(lia) ltac:(lia)) as [E _].
  unfold madd at 1, mscale. rewrite O1, E by lia. unfold staple_sum. cbn [others seq filter negb Nat.eqb map msum fold_right].
  unfold madd at 1 2. unfold staple, madd, mmul, dag. cbn [csum]. rewrite !O1 by lia. unfold mid, mzero, mx. cbn [Nat.eqb Nat.add Nat.mul].
  intro X. apply (f_equal re) in X. cunfold. lra.
Qed.
