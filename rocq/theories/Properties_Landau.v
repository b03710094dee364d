(** C68, C69: Fourier accelerated Landau gauge fixing. *)
From Coq Require Import Permutation Lia Lra Psatz.
From Verif Require Import CInt GeomModel GeomSpec GeomProofs GeomProofs2 Cplx CMat Det Arr MatModel MatSpec MatProofs MatProofs2 ProjModel ProjProofs GramModel GramProofs FieldModel FieldProofs FieldProofs2 FftModel FftProofs QtopModel QtopSpec QtopProofs QtopProofs2 QtopProofs4 SmearModel StaticModel StaticProofs GluonSpec GluonModel GluonProofs GluonProofs2 GluonProofs3 GluonProofs4 InstProofs InstProofs2 CfgSpec CfgProofs HypProofs SmearProofs U1Model U1Spec U1Proofs U1Proofs2 U1Proofs3 LandauModel LandauSpec LandauProofs LandauProofs2 LandauProofs3 LandauProofs4 LandauProofs5 LandauProofs6.
Local Open Scope Z_scope.

(** * C68: the steps *)
(** The derivative measures the divergence of the gauge field, times 2 (SU(2): one half), for any order of
    the sites; the other slots of the reduction array are left alone. *)
Theorem C68_measured_partial sched n ND V tmp lat red inp red' inp' : any_order sched -> (2 <= n)%nat -> group_field n ND V lat -> geom_ok ND V lat ->
  FA_deriv sched n ND V tmp lat red inp = (red', inp') ->
  red' 5%nat = (red 5%nat + (match n with 2%nat => 1/2 | _ => 2 end) * violation n ND V lat)%R /\ (forall k, k <> 5%nat -> red' k = red k) /\
  (forall x, (x < V)%nat -> carries n inp' x (mscale Ci (divergence n ND lat x))).
Proof. exact (FA_deriv_ok sched n ND V tmp lat red inp red' inp'). Qed.
Print Assumptions C68_measured_partial.
(** the test before the first step, and it vanishes in Landau gauge only *)
Theorem C68_tested sched n ND V tmp lat : any_order sched -> (2 <= n)%nat -> (0 < V)%nat -> group_field n ND V lat -> geom_ok ND V lat ->
  theta_test_lin sched n V ND tmp lat = (4 * violation n ND V lat / INR (n * V))%R /\
  (theta_test_lin sched n V ND tmp lat = 0%R <-> forall x, (x < V)%nat -> meq n (divergence n ND lat x) mzero).
Proof.
  intros Any Hn HV F Geo. pose proof (theta_test_ok sched n ND V tmp lat Any Hn F Geo) as E. split; [exact E|]. rewrite E.
  assert (Np : (0 < INR (n * V))%R) by (apply lt_0_INR; nia).
  assert (K : forall x, re (mtr n (mmul n (divergence n ND lat x) (divergence n ND lat x))) = dsum n (fun i => dsum n (fun j => Cplx.norm2 (divergence n ND lat x i j)))).
  { intro x. set (D := divergence n ND lat x). assert (H : meq n D (dag D)) by (pose proof (part_herm n lat Hn ND x) as H; rewrite part_div in H; symmetry; exact H).
    replace (re (mtr n (mmul n D D))) with (inner n D D) by (unfold inner; now rewrite <- H). rewrite inner_entries. apply dsum_ext. intros i Hi. apply dsum_ext. intros j Hj. destruct (D i j). unfold Cplx.norm2. cunfold. cbn. ring. }
  assert (P0 : forall x i, (0 <= dsum n (fun j => Cplx.norm2 (divergence n ND lat x i j)))%R) by (intros; apply dsum_nonneg; intros; apply norm2_nonneg).
  assert (P1 : forall x, (0 <= dsum n (fun i => dsum n (fun j => Cplx.norm2 (divergence n ND lat x i j))))%R) by (intros; apply dsum_nonneg; intros; apply P0).
  unfold violation. rewrite (dsum_ext V _ (fun x => dsum n (fun i => dsum n (fun j => Cplx.norm2 (divergence n ND lat x i j))))) by (intros; apply K). split.
  - intros Z0 x Hx i j Hi Hj. apply norm2_zero.
    assert (Z1 : dsum V (fun x => dsum n (fun i => dsum n (fun j => Cplx.norm2 (divergence n ND lat x i j)))) = 0%R).
    { apply (Rmult_eq_reg_r (4 / INR (n * V))); [|apply Rgt_not_eq, Rdiv_lt_0_compat; lra]. rewrite Rmult_0_l, <- Z0. unfold Rdiv. ring. }
    pose proof (dsum_term V (fun x => dsum n (fun i => dsum n (fun j => Cplx.norm2 (divergence n ND lat x i j)))) x (fun x _ => P1 x) Hx) as T1. cbv beta in T1.
    pose proof (dsum_term n (fun i => dsum n (fun j => Cplx.norm2 (divergence n ND lat x i j))) i (fun i _ => P0 x i) Hi) as T2. cbv beta in T2.
    pose proof (dsum_term n (fun j => Cplx.norm2 (divergence n ND lat x i j)) j (fun j _ => norm2_nonneg _) Hj) as T3. cbv beta in T3.
    pose proof (norm2_nonneg (divergence n ND lat x i j)). lra.
  - intro H. rewrite (dsum_ext V _ (fun _ => 0 * 0)%R); [rewrite (dsum_mul V 0 (fun _ => 0%R)); unfold Rdiv; ring|]. intros x Hx.
    rewrite (dsum_ext n _ (fun _ => 0 * 0)%R); [rewrite (dsum_mul n 0 (fun _ => 0%R)); ring|]. intros i Hi.
    rewrite (dsum_ext n _ (fun _ => 0 * 0)%R); [rewrite (dsum_mul n 0 (fun _ => 0%R)); ring|]. intros j Hj. rewrite (H x Hx i j Hi Hj). unfold mzero, C0, Cplx.norm2. cbn. ring.
Qed.
Print Assumptions C68_tested.
(** the two measures of one accuracy are not the same: on an SU(2) field the test is 8 times the other *)
Theorem C68_measured_refuted : exists n ND V lat, group_field n ND V lat /\ geom_ok ND V lat /\ forall sched tmp inp red' inp', any_order sched ->
  FA_deriv sched n ND V tmp lat (fun _ => 0%R) inp = (red', inp') -> (0 < red' 5%nat * (1 / INR (n * V)))%R /\ theta_test_lin sched n V ND tmp lat = (8 * (red' 5%nat * (1 / INR (n * V))))%R.
Proof.
  exists 2%nat, 1%nat, 2%nat, two_lat. destruct two_good as [F Geo]. split; [exact F|]. split; [exact Geo|]. intros sched tmp inp red' inp' Any E.
  destruct (FA_deriv_ok sched 2 1 2 tmp two_lat _ inp red' inp' Any ltac:(lia) F Geo E) as (-> & _). rewrite (theta_test_ok sched 2 1 2 tmp two_lat Any ltac:(lia) F Geo), two_violation. cbn. split; lra.
Qed.
Print Assumptions C68_measured_refuted.

(** The direction of a step after the Fourier acceleration: i times the divergence, multiplied in momentum
    space by 4 d / p^2.  It is in the Lie algebra, and moving along it the sum of the traces of the links,
    which Landau gauge maximises, goes up unless the field is in Landau gauge already. *)
Theorem C68_ascent_partial r red lat s red' s' : sound r -> good r lat -> deriv_and_accelerate r red lat s = (red', s') ->
  let n := nc r in let ND := length (dims_ r) in let V := nsites (dims_ r) in
  let iD := fun x => mscale Ci (divergence n ND lat x) in
  let X := match bld r with WithFFTW => accelerated (dims_ r) iD | NoFFTW => iD end in
  (forall x, (x < V)%nat -> carries n (fst s') x (X x) /\ tangent n (X x)) /\
  exists slope q, (forall a, along n ND V lat X a = (functional n ND V lat + a * slope + a * a * q)%R) /\ (0 <= slope)%R /\
    (slope = 0%R -> forall x, (x < V)%nat -> meq n (divergence n ND lat x) mzero).
Proof.
  intros So G E n ND V iD X. destruct (dna_ok r So red lat s red' s' G E) as (_ & _ & Ti). fold iD X in Ti. rewrite V_sites in Ti by assumption. split; [exact Ti|].
  pose proof (s_nc r So) as Hn. pose proof (proj2 G) as Geo. rewrite V_sites in Geo by assumption.
  destruct (slope_ok n ND V lat X Hn Geo (fun x Hx => proj2 (Ti x Hx))) as [q Q]. eexists. exists q. split; [exact Q|]. fold (iD 0%nat).
  assert (Z0 : (forall x i j, (x < V)%nat -> (i < n)%nat -> (j < n)%nat -> iD x i j = C0) -> forall x, (x < V)%nat -> meq n (divergence n ND lat x) mzero).
  { intros H x Hx i j Hi Hj. pose proof (H x i j Hx Hi Hj) as K. unfold iD, mscale in K. destruct (divergence n ND lat x i j) as [u w]. unfold mzero, C0 in *. cunfold. cbn in K. injection K as K1 K2. f_equal; lra. }
  change (fun x => inner n (X x) (mscale Ci (divergence n ND lat x))) with (fun x => inner n (X x) (iD x)). unfold X, direction. destruct (bld r).
  - split; [apply (accel_nonneg (dims_ r) (s_dims r So))|]. intro S0. apply Z0. intros x i j Hx Hi Hj. now apply (accel_zero (dims_ r) (s_dims r So) n iD S0).
  - assert (N : forall x i j, (0 <= re (iD x i j * conj (iD x i j))%C)%R) by (intros; destruct (iD x i j); cunfold; cbn; nra).
    assert (N1 : forall x, (0 <= inner n (iD x) (iD x))%R) by (intros; rewrite inner_entries; do 2 (apply dsum_nonneg; intros); apply N).
    split; [apply dsum_nonneg; intros; apply N1|]. intro S0. apply Z0. intros x i j Hx Hi Hj.
    pose proof (dsum_term V (fun x => inner n (iD x) (iD x)) x (fun x _ => N1 x) Hx) as T1. cbv beta in T1. rewrite S0, inner_entries in T1.
    pose proof (dsum_term n (fun i => dsum n (fun j => re (iD x i j * conj (iD x i j))%C)) i (fun i _ => dsum_nonneg n _ (fun j _ => N x i j)) Hi) as T2. cbv beta in T2.
    pose proof (dsum_term n (fun j => re (iD x i j * conj (iD x i j))%C) j (fun j _ => N x i j) Hj) as T3. cbv beta in T3.
    apply norm2_zero. pose proof (norm2_nonneg (iD x i j)). replace (Cplx.norm2 (iD x i j)) with (re (iD x i j * conj (iD x i j))%C) in * by (destruct (iD x i j); unfold Cplx.norm2; cunfold; cbn; ring). lra.
Qed.
Print Assumptions C68_ascent_partial.

(** Any step along any field of the Lie algebra, by any amount, is an SU(N) gauge transformation. *)
Theorem C68_step sched n ND V tmp inp X alpha lat : any_order sched -> (2 <= n)%nat -> group_field n ND V lat -> geom_ok ND V lat ->
  (forall x, (x < V)%nat -> carries n inp x (X x) /\ tangent n (X x)) ->
  exists g, group_gauge n V g /\ gauged n ND V g lat (egauge_Landau sched n ND V tmp inp alpha lat).
Proof. exact (egauge_ok sched n ND V tmp inp alpha lat X). Qed.
Print Assumptions C68_step.
(** So is a whole run of either method, however it ends. *)
Theorem C68_run r sn old fuel acc max lat s it th lat' s' : sound r -> 0 <= max < two31 -> good r lat ->
  FACG r sn old fuel acc max lat s = Some (it, th, lat', s') \/ FASD r fuel acc max lat s = Some (it, th, lat', s') ->
  exists g, group_gauge (nc r) (nsites (dims_ r)) g /\ gauged (nc r) (length (dims_ r)) (nsites (dims_ r)) g lat lat'.
Proof.
  intros So Hm G H. rewrite <- V_sites by assumption. change (orbit (nc r) (length (dims_ r)) (Z.to_nat (lvolume (dims_ r))) lat lat'). destruct H as [E|E].
  - eapply FACG_orbit; eassumption.
  - apply FASD_ok in E; try assumption. destruct E as [(_ & -> & _)|(_ & l & O & _ & O')]; [apply orbit_refl|eapply orbit_trans; eassumption].
Qed.
Print Assumptions C68_run.

(** The scalar products of the conjugate gradient are those of the Lie algebra for SU(2) ... *)
Theorem C68_products_partial inp old x X Y : carries 2 inp x X -> carries 2 old x Y -> tangent 2 X -> tangent 2 Y ->
  PR3_site 2 inp old x = (inner 2 X X, inner 2 X (msub X Y)) /\ DER3_site 2 inp x = inner 2 X X.
Proof.
  intros CX CY [HX TX] [HY TY]. destruct (packed2 _ _ CX) as (X0 & X1). destruct (packed2 _ _ CY) as (Y0 & Y1). cbv beta in *.
  pose proof (anti_diag 2 X 0 HX ltac:(lia)) as RX. pose proof (anti_diag 2 Y 0 HY ltac:(lia)) as RY.
  pose proof (anti_off 2 X 0 1 HX ltac:(lia) ltac:(lia)) as OX. pose proof (anti_off 2 Y 0 1 HY ltac:(lia) ltac:(lia)) as OY.
  unfold traceless, mtr in TX, TY. cbn [csum] in TX, TY.
  assert (DX : X 1%nat 1%nat = (- X 0%nat 0%nat)%C) by (transitivity (C0 + X 0%nat 0%nat + X 1%nat 1%nat - X 0%nat 0%nat)%C; [ring|rewrite TX; ring]).
  assert (DY : Y 1%nat 1%nat = (- Y 0%nat 0%nat)%C) by (transitivity (C0 + Y 0%nat 0%nat + Y 1%nat 1%nat - Y 0%nat 0%nat)%C; [ring|rewrite TY; ring]).
  unfold PR3_site, DER3_site. rewrite !inner_entries. rewrite !dsum_S, !dsum_0. unfold msub. rewrite X0, X1, Y0, Y1, OX, OY, DX, DY.
  destruct (X 0%nat 0%nat) as [a b], (X 0%nat 1%nat) as [c d], (Y 0%nat 0%nat) as [e f], (Y 0%nat 1%nat) as [g h]. cbn [re fst] in RX, RY. subst a e. cunfold. cbn. split; [f_equal|]; ring.
Qed.
Print Assumptions C68_products_partial.
(** ... and not for SU(3), where the product of the two diagonal entries comes with the wrong sign, nor for
    SU(4), where imaginary diagonals do not count *)
Definition diag (d : nat -> R) : mat := fun i j => if Nat.eqb i j then (0, d i)%R else C0.
Definition d3 (i : nat) : R := match i with 0%nat | 1%nat => 1 | _ => -2 end%R.
Definition f3 : fields := fun c _ => match c with 0%nat => (-1, 1)%R | _ => C0 end.
Definition d4 (i : nat) : R := match i with 0%nat => 1 | 1%nat => -1 | _ => 0 end%R.
Definition f4 : fields := fun c _ => match c with 0%nat => (0, 1)%R | 4%nat => (0, -1)%R | _ => C0 end.
Lemma diag_tangent n d : dsum n d = 0%R -> tangent n (diag d).
Proof.
  intro H. split.
  - intros i j _ _. unfold dag, mscale, diag. rewrite (Nat.eqb_sym j i). destruct (Nat.eqb_spec i j) as [->|]; cring.
  - unfold traceless, mtr. enough (K : csum n (fun i => diag d i i) = (0%R, dsum n d)) by (now rewrite K, H). clear H. induction n as [|n IH]; [reflexivity|]. cbn [csum]. rewrite IH, dsum_S. unfold diag. rewrite Nat.eqb_refl. cunfold. cbn. f_equal; ring.
Qed.
Theorem C68_products_refuted : (exists inp X, carries 3 inp 0 X /\ tangent 3 X /\ inner 3 X X = 6%R /\ forall old, fst (PR3_site 3 inp old 0) = 2%R /\ DER3_site 3 inp 0 = 2%R) /\
  (exists inp X, carries 4 inp 0 X /\ tangent 4 X /\ inner 4 X X = 2%R /\ forall old, PR3_site 4 inp old 0 = (0, 0)%R /\ DER3_site 4 inp 0 = 0%R).
Proof.
  split.
  - exists f3, (diag d3). split; [cbn; repeat split; f_equal; lra|]. split; [apply diag_tangent; rewrite !dsum_S, dsum_0; cbn; lra|]. split.
    + rewrite inner_entries, !dsum_S, !dsum_0. unfold diag, d3, C0. cbn [Nat.eqb]. cunfold. cbn. ring.
    + intro old. unfold PR3_site, DER3_site, f3, C0. cbn. split; lra.
  - exists f4, (diag d4). split; [|split; [apply diag_tangent; rewrite !dsum_S, dsum_0; cbn; lra|split]].
    + intros i j Hi Hj. destruct i as [|[|[|i]]]; try lia; destruct j as [|[|[|[|j]]]]; try lia; reflexivity.
    + rewrite inner_entries, !dsum_S, !dsum_0. unfold diag, d4, C0. cbn [Nat.eqb]. cunfold. cbn. ring.
    + intro old. unfold PR3_site, DER3_site, trace_ab_herm_short, trace_ab_herm_short_n. cbn [for_ Nat.sub Nat.add f4]. unfold C0. cbn [re im fst snd]. split; [f_equal|]; ring.
Qed.
Print Assumptions C68_products_refuted.

(** * C69: what is reported *)
(** Conjugate gradient: either the field was good enough, or a number of iterations below the limit and an
    accuracy as asked for, that of the field before the last step, or the sign of giving up. *)
Theorem C69_conjugate_gradient r sn old fuel acc max lat s it th lat' s' : sound r -> 0 <= max < two31 -> good r lat ->
  FACG r sn old fuel acc max lat s = Some (it, th, lat', s') ->
  let n := nc r in let ND := length (dims_ r) in let V := nsites (dims_ r) in
  it = 0 /\ lat' = lat /\ th = (4 * violation n ND V lat / INR (n * V))%R /\ (th < acc)%R \/
  (it = 123456789 /\ (1000 * acc <= th)%R \/ 0 < it < max /\ (th <= acc)%R) /\
  exists l, orbit n ND V lat l /\ th = ((match n with 2%nat => 1/2 | _ => 2 end) * violation n ND V l / INR (n * V))%R /\ orbit n ND V l lat'.
Proof. intros So Hm G E n ND V. unfold V. rewrite <- V_sites by assumption. exact (FACG_ok r So sn old fuel acc max lat s it th lat' s' Hm G E). Qed.
Print Assumptions C69_conjugate_gradient.
(** Through the restarts: -1, or the accuracy was reached, as long as the file can be read again. *)
Theorem C69_reported_partial r sn old fuel acc max grab lat s c th lat' : sound r -> 0 <= max < two31 -> good r lat ->
  (forall k, exists l, grab k = Some l /\ good r l) ->
  GF_wrap_landau (fun l s => FACG r sn old fuel acc max l s) grab max lat s = Some (c, th, lat') -> c = -1 \/ (th <= acc)%R.
Proof.
  intros So Hm G Hg E.
  set (cb := fun l s => FACG r sn old fuel acc max l s) in *.
  assert (K : forall l s it th l' s', good r l -> cb l s = Some (it, th, l', s') -> it = GIVEN_UP \/ (th <= acc)%R).
  { intros l s0 it t l' s' Gl C. apply FACG_ok in C; try assumption. destruct C as [(_ & _ & _ & C)|([(C & _)|(_ & C)] & _)]; [right; lra|now left|now right]. }
  assert (R0 : forall todo k i t l0 s0 c th lat', restarts cb grab max todo k i t l0 s0 = Some (c, th, lat') -> c = u64 (-1) \/ (th <= acc)%R).
  { induction todo as [|todo IH]; intros k i t l0 s0 c1 th1 lat1 R; [injection R as <- _ _; now left|]. cbn [restarts] in R. destruct (Hg k) as (l & Gk & Gl). rewrite Gk in R.
    destruct (cb l s0) as [[[[i1 t1] l1] s1]|] eqn:C; [|discriminate]. cbn [bindo] in R. destruct (Z.eqb_spec i1 GIVEN_UP) as [->|N]; [now apply IH in R|]. injection R as _ <- _. right. destruct (K _ _ _ _ _ _ Gl C); [contradiction|assumption]. }
  unfold GF_wrap_landau, Landau in E. destruct (cb lat s) as [[[[i t] l] s1]|] eqn:C; [|discriminate]. cbn [bindo] in E. destruct (Z.eqb_spec i GIVEN_UP) as [->|N].
  - destruct (restarts _ _ _ _ _ _ _ _ _) as [[[c1 t1] l1]|] eqn:R; [|discriminate]. cbn [bindo] in E. injection E as <- <- <-. destruct (R0 _ _ _ _ _ _ _ _ _ R) as [->|H]; [left; reflexivity|now right].
  - cbn [bindo] in E. injection E as _ <- _. right. destruct (K _ _ _ _ _ _ G C); [contradiction|assumption].
Qed.
Print Assumptions C69_reported_partial.
(** six fresh starts, and then the failure is reported *)
Theorem C69_failure callback grab max lat s : (forall l s, exists th l' s', callback l s = Some (123456789, th, l', s')) -> (forall k, grab k <> None) ->
  exists th lat', GF_wrap_landau callback grab max lat s = Some (-1, th, lat').
Proof. exact (driver_all_fail callback grab max lat s). Qed.
Print Assumptions C69_failure.
(** Not if the file cannot be read for the restart: the field is not fixed, and a number of iterations is reported *)
Theorem C69_unreadable_refuted : exists r lat, sound r /\ good r lat /\ forall sn old s, let cg := fun l s => FACG r sn old 1 0 1 l s in
  exists th l s' , cg lat s = Some (123456789, th, l, s') /\ GF_wrap_landau cg (fun _ => None) 1 lat s = Some (123456789, th, l).
Proof.
  exists two_run, two_lat. split; [exact two_sound|]. split; [exact two_good|]. intros sn old s cg. destruct (FACG_gives_up two_run two_sound sn old 0 two_lat s two_good) as (th & l & s' & E).
  exists th, l, s'. split; [exact E|]. exact (driver_no_file cg 1 two_lat s th l s' E).
Qed.
Print Assumptions C69_unreadable_refuted.
(** Nor with steepest descent, which adds the iterations to the sign of giving up: no restart, and the
    wrapper returns a positive number with the accuracy 2000 times too large. *)
Theorem C69_descent_refuted : exists r lat acc, sound r /\ good r lat /\ (0 < acc)%R /\ forall fuel grab s,
  exists lat', GF_wrap_landau (fun l s => FASD r (S fuel) acc 1 l s) grab 1 lat s = Some (123456790, (2000 * acc)%R, lat').
Proof.
  exists two_run, two_lat, (accuracy two_run two_lat / 2000)%R. split; [exact two_sound|]. split; [exact two_good|].
  assert (Pv : (0 < violation 2 1 2 two_lat)%R) by (rewrite two_violation; lra).
  split.
  - unfold accuracy. change (Z.to_nat (lvolume (dims_ two_run))) with 2%nat. change (nc two_run) with 2%nat. change (length (dims_ two_run)) with 1%nat. rewrite two_violation. cbn. lra.
  - intros fuel grab s. replace (2000 * (accuracy two_run two_lat / 2000))%R with (accuracy two_run two_lat) by field. exact (FASD_gives_up two_run two_sound fuel grab two_lat s two_good Pv).
Qed.
Print Assumptions C69_descent_refuted.
(** what steepest descent does report *)
Theorem C69_descent_partial r fuel acc max lat s it th lat' s' : sound r -> 0 <= max < two31 -> good r lat -> FASD r fuel acc max lat s = Some (it, th, lat', s') ->
  let n := nc r in let ND := length (dims_ r) in let V := nsites (dims_ r) in
  it = 0 /\ lat' = lat /\ th = (4 * violation n ND V lat / INR (n * V))%R /\ (th < acc)%R \/
  (123456789 + max <= it /\ (1000 * acc <= th)%R \/ 0 < it < max /\ (th <= acc)%R) /\
  exists l, orbit n ND V lat l /\ th = ((match n with 2%nat => 1/2 | _ => 2 end) * violation n ND V l / INR (n * V))%R /\ orbit n ND V l lat'.
Proof. intros So Hm G E n ND V. unfold V. rewrite <- V_sites by assumption. exact (FASD_ok r So fuel acc max lat s it th lat' s' Hm G E). Qed.
Print Assumptions C69_descent_partial.
(** After one restart the number reported is 123456789 too large, and the iterations before are not in it. *)
Theorem C69_count_refuted : exists callback grab max lat s k, 0 < k < max /\ (exists th l s1, callback lat s = Some (123456789, th, l, s1) /\ exists l2 th2 l3 s3, grab 1%nat = Some l2 /\ callback l2 s1 = Some (k, th2, l3, s3) /\
  GF_wrap_landau callback grab max lat s = Some (123456789 + k, th2, l3)).
Proof.
  pose (lat0 := two_lat). pose (lat1 := fun _ : nat => mkSite (fun _ => two_link 0) (fun _ => 5%nat) (fun _ => 5%nat)).
  pose (cb := fun (l : lattice) (s : fields * fields) => Some (if Nat.eqb (nbr (l 0%nat) 0%nat) 5 then 10 else 123456789, 0%R, l, s)).
  exists cb, (fun _ => Some lat1), 100, lat0, (fun _ _ => C0, fun _ _ => C0), 10. split; [lia|]. exists 0%R, lat0, (fun _ _ => C0, fun _ _ => C0). split; [reflexivity|].
  exists lat1, 0%R, lat1, (fun _ _ => C0, fun _ _ => C0). split; [reflexivity|]. split; [reflexivity|].
  apply (driver_count cb (fun _ => Some lat1) 100 lat0 _ 0%R lat0 (fun _ _ => C0, fun _ _ => C0) lat1 10 0%R lat1 (fun _ _ => C0, fun _ _ => C0)); try reflexivity; lia.
Qed.
Print Assumptions C69_count_refuted.

(** * A field that meets the hypotheses *)
Example C68_case : sound two_run /\ good two_run two_lat /\ violation 2 1 2 two_lat = 4%R /\ (forall sched tmp, any_order sched -> theta_test_lin sched 2 2 1 tmp two_lat = 4%R) /\
  (exists red' s', deriv_and_accelerate two_run (fun _ => 0%R) two_lat (fun _ _ => C0, fun _ _ => C0) = (red', s') /\ red' 5%nat = 2%R).
Proof.
  split; [exact two_sound|]. split; [exact two_good|]. split; [exact two_violation|]. destruct two_good as [F Geo]. split.
  - intros sched tmp Any. rewrite (theta_test_ok sched 2 1 2 tmp two_lat Any ltac:(lia) F Geo), two_violation. cbn. lra.
  - destruct (deriv_and_accelerate two_run (fun _ => 0%R) two_lat (fun _ _ => C0, fun _ _ => C0)) as [red' s'] eqn:D. exists red', s'. split; [reflexivity|].
    destruct (dna_ok two_run two_sound _ _ _ _ _ two_good D) as (-> & _). change (violation (nc two_run) (length (dims_ two_run)) (Z.to_nat (lvolume (dims_ two_run))) two_lat) with (violation 2 1 2 two_lat). rewrite two_violation. cbn. lra.
Qed.
Example C68_products_case : carries 2 (fun c _ => match c with 0%nat => (0, 1)%R | _ => (2, 3)%R end) 0 (fun i j => match i, j with 0%nat, 0%nat => (0, 1)%R | 0%nat, _ => (2, 3)%R | _, 0%nat => (-2, 3)%R | _, _ => (0, -1)%R end).
Proof. intros i j Hi Hj. destruct i as [|i]; [|lia]. destruct j as [|[|j]]; try lia; reflexivity. Qed.
