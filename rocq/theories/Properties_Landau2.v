(** C68, continued: what a step is, how long it is, and its direction. *)
From Coq Require Import Permutation Lia Lra Psatz.
From Verif Require Import CInt GeomModel GeomSpec GeomProofs GeomProofs2 Cplx CMat Det Arr MatModel MatSpec MatProofs MatProofs2 ProjModel ProjProofs GramModel FieldModel FieldProofs FieldProofs2 FftModel FftProofs QtopModel QtopSpec QtopProofs QtopProofs2 QtopProofs4 SmearModel StaticModel StaticProofs GluonSpec GluonModel GluonProofs GluonProofs2 GluonProofs3 GluonProofs4 InstProofs InstProofs2 CfgSpec CfgProofs NumModel NumProofs2 U1Spec LandauModel LandauSpec LandauSpec2 LandauProofs LandauProofs2 LandauProofs3 LandauProofs4 LandauProofs5 LandauProofs6 LandauProofs8 Properties_Landau.
Local Open Scope Z_scope.

(** A step of length alpha along X is the gauge transformation by 1 + alpha X brought back to SU(N). *)
Theorem C68_step_exact sched n ND V tmp inp X alpha lat : any_order sched -> (2 <= n)%nat -> group_field n ND V lat -> geom_ok ND V lat ->
  (forall x, (x < V)%nat -> carries n inp x (X x) /\ tangent n (X x)) ->
  exists g, (forall x, (x < V)%nat -> reunitarised n (madd mid (mscale (RtoC alpha) (X x))) (g x)) /\ gauged n ND V g lat (egauge_Landau sched n ND V tmp inp alpha lat).
Proof. exact (egauge_schmidt sched n ND V tmp inp alpha lat X). Qed.
Print Assumptions C68_step_exact.

(** The line search: the sums of the traces now and after steps of length 0.15 and 0.30 are added to what
    the reduction array holds.  If that was 0 the step taken is the best of a parabola through the three. *)
Lemma best f0 f1 f2 : best_step f0 f1 f2 (approx_minimum 0 (15/100) (30/100) (- f0) (- f1) (- f2)).
Proof.
  split; [apply min_range; lra|]. intros c1 c2 E1 E2 Neg m.
  assert (P : forall x, parabola 0 (15/100) (30/100) (- f0) (- f1) (- f2) x = (- (f0 + c1 * x + c2 * x * x))%R) by (intro x; unfold parabola; rewrite <- E1, <- E2; field).
  assert (C0 : (0 < curv 0 (15/100) (30/100) (- f0) (- f1) (- f2))%R) by (apply curv_sign; lra).
  assert (M : forall x, (parabola 0 (15/100) (30/100) (- f0) (- f1) (- f2) m <= parabola 0 (15/100) (30/100) (- f0) (- f1) (- f2) x)%R).
  { intro x. rewrite !P. assert (Q : (c1 = - (2 * c2 * m))%R) by (unfold m; field; lra). rewrite Q. clear - Neg. clearbody m.
    assert (H : (0 <= (- c2) * ((x - m) * (x - m)))%R) by (apply Rmult_le_pos; [lra|apply Rle_0_sqr]). lra. }
  rewrite (min_ok 0 (15/100) (30/100) _ _ _ m ltac:(lra) ltac:(lra) C0 M). destruct (Rlt_dec (30/100) m); [|destruct (Rlt_dec m 0)]; repeat split; intros; lra.
Qed.
Theorem C68_line_search sched n ND V tmp inp X red lat red' lat' : any_order sched -> (2 <= n)%nat -> group_field n ND V lat -> geom_ok ND V lat ->
  (forall x, (x < V)%nat -> carries n inp x (X x) /\ tangent n (X x)) ->
  line_search_Landau sched n ND V tmp inp red lat = (red', lat') ->
  let F := fun a => functional n ND V (egauge_Landau sched n ND V tmp inp a lat) in
  red' 0%nat = (red 0%nat + functional n ND V lat)%R /\ red' 1%nat = (red 1%nat + F (15/100))%R /\ red' 2%nat = (red 2%nat + F (30/100))%R /\
  (forall k, (3 <= k)%nat -> red' k = red k) /\
  exists a, best_step (red' 0%nat) (red' 1%nat) (red' 2%nat) a /\ lat' = egauge_Landau sched n ND V tmp inp a lat.
Proof.
  intros Any Hn G Geo Ta E F. destruct (line_search_ok sched n ND V tmp inp red lat red' lat' X Any Hn G Geo Ta E) as (A & B & C & D & L).
  split; [exact A|]. split; [exact B|]. split; [exact C|]. split; [exact D|]. eexists. split; [apply best|exact L].
Qed.
Print Assumptions C68_line_search.

(** ** the conjugate gradient, SU(2) *)
Lemma PR3_sums sched V inp old X Y red : any_order sched -> tangents 2 V inp X -> tangents 2 V old Y ->
  sum_PR3 sched 2 V inp old red 3%nat = (red 3%nat + dsum V (fun x => inner 2 (X x) (X x)))%R /\
  sum_PR3 sched 2 V inp old red 4%nat = (red 4%nat + dsum V (fun x => inner 2 (X x) (msub (X x) (Y x))))%R /\
  (forall k, k <> 3%nat -> k <> 4%nat -> sum_PR3 sched 2 V inp old red k = red k).
Proof.
  intros Any TX TY. unfold sum_PR3.
  assert (K : forall order red k, fold_left (fun red i => let '(s1, s2) := PR3_site 2 inp old i in add_red (add_red red 3 s1) 4 s2) order red k =
    if Nat.eqb k 3 then (red k + sum_over (fun i => fst (PR3_site 2 inp old i)) order)%R else if Nat.eqb k 4 then (red k + sum_over (fun i => snd (PR3_site 2 inp old i)) order)%R else red k).
  { induction order as [|i order IH]; intros red0 k; cbn [fold_left]; [rewrite !sum_nil; destruct (Nat.eqb k 3), (Nat.eqb k 4); ring|]. rewrite IH, !sum_cons. destruct (PR3_site 2 inp old i) as [s1 s2]. unfold add_red. cbn [fst snd].
    destruct (Nat.eqb_spec k 3) as [->|]; [cbn [Nat.eqb]; ring|]. destruct (Nat.eqb_spec k 4) as [->|]; ring. }
  split; [|split].
  - rewrite K. cbn [Nat.eqb]. rewrite (order_sum sched _ V _ Any). f_equal. apply dsum_ext. intros x Hx. destruct (TX x Hx) as [C1 T1], (TY x Hx) as [C2 T2]. now rewrite (proj1 (C68_products_partial inp old x _ _ C1 C2 T1 T2)).
  - rewrite K. cbn [Nat.eqb]. rewrite (order_sum sched _ V _ Any). f_equal. apply dsum_ext. intros x Hx. destruct (TX x Hx) as [C1 T1], (TY x Hx) as [C2 T2]. now rewrite (proj1 (C68_products_partial inp old x _ _ C1 C2 T1 T2)).
  - intros k N3 N4. rewrite K. rewrite (proj2 (Nat.eqb_neq k 3) N3), (proj2 (Nat.eqb_neq k 4) N4). reflexivity.
Qed.
(** X the new direction of ascent, Z the previous one, Y the previous direction of the step: the new one is
    X + beta Y, with Polak and Ribiere's beta and, close to the end, that of Fletcher and Reeves; then the
    line search, or close to the end a step of the given length.  [norm_Z] is what the code holds for the
    square of Z.  SU(2): see C68_products_refuted for the others. *)
Theorem C68_conjugate_partial r red lat s sn old norm_Z Y Z tr red' lat' s' sn' old' norm' : sound r -> nc r = 2%nat -> good r lat ->
  let ND := length (dims_ r) in let V := nsites (dims_ r) in
  tangents 2 V sn Y -> tangents 2 V old Z ->
  cg_step r (red, lat, s, sn, old, norm_Z) = (tr, (red', lat', s', sn', old', norm')) ->
  let iD := fun x => mscale Ci (divergence 2 ND lat x) in
  let X := match bld r with WithFFTW => accelerated (dims_ r) iD | NoFFTW => iD end in
  let dot := fun A B => dsum V (fun x => inner 2 (A x) (B x)) in
  let beta := (if Rlt_dec tr (5 / 10 ^ 11) then dot X X / norm_Z else Rmax 0 (dot X (fun x => msub (X x) (Z x)) / norm_Z))%R in
  let F := fun a => functional 2 ND V (egauge_Landau (sch r) 2 ND V (tmp_ r) sn' a lat) in
  norm' = dot X X /\ tangents 2 V old' X /\ tangents 2 V sn' (fun x => madd (X x) (mscale (RtoC beta) (Y x))) /\ red' 3%nat = dot X X /\
  exists a, (if Rlt_dec (5 / 10 ^ 11) tr then best_step (functional 2 ND V lat) (F (15/100)%R) (F (30/100)%R) a else a = gf_alpha r) /\ lat' = egauge_Landau (sch r) 2 ND V (tmp_ r) sn' a lat.
Proof.
  intros So N2 G ND V TY TZ E iD X dot beta F. pose proof (V_sites r So) as EV.
  assert (Any : any_order (sch r)) by apply So.
  unfold cg_step in E. destruct (deriv_and_accelerate r (fun _ => 0%R) lat s) as [red1 s1] eqn:D. destruct (dna_ok r So _ _ _ _ _ G D) as (R5 & Rk & TX). unfold good in G. rewrite EV, N2 in *. fold V in E, TX, G. fold ND in G, E.
  assert (EX : direction r lat = X) by (unfold direction, X, iD; rewrite N2; reflexivity). rewrite EX in TX.
  destruct (PR3_sums (sch r) V (fst s1) old X Z red1 Any TX TZ) as (S3 & S4 & Sk). rewrite (Rk 3%nat ltac:(lia)) in S3. rewrite (Rk 4%nat ltac:(lia)) in S4. rewrite Rplus_0_l in S3, S4. rewrite S3, S4 in E.
  set (tr0 := (red1 5%nat * GFNORM_LANDAU r)%R) in E. set (b := beta_of _ _ _ _) in E.
  set (sn1 := fun c j : nat => if (Nat.ltb c (TRUE_HERM 2) && Nat.ltb j V)%bool then (fst s1 c j + RtoC b * sn c j)%C else sn c j) in E.
  set (old1 := fun c j : nat => if (Nat.ltb c (TRUE_HERM 2) && Nat.ltb j V)%bool then fst s1 c j else old c j) in E.
  assert (Ts : tangents 2 V sn1 (fun x => madd (X x) (mscale (RtoC b) (Y x)))) by (apply (tangents_own 2 V _ sn _ ltac:(lia)), tangents_combine; [lia|assumption|assumption]).
  assert (To : tangents 2 V old1 X) by (now apply (tangents_own 2 V (fst s1) old X ltac:(lia))).
  assert (Bb : tr = tr0 -> b = beta).
  { intro Et. unfold b, beta, beta_of, CG_TOL. rewrite Et. fold dot. destruct (Rlt_dec tr0 (5 / 10 ^ 11)); [reflexivity|]. fold (dot X (fun x => msub (X x) (Z x))). unfold Rmax. set (q := (_ / norm_Z)%R). destruct (Rlt_dec q 0), (Rle_dec 0 q); lra. }
  unfold CG_TOL in E at 1. destruct (Rlt_dec (5 / 10 ^ 11) tr0) as [L|L].
  - destruct (line_search_Landau _ _ _ _ _ _ _ _) as [red2 lat2] eqn:Ls. injection E as Et Er El _ Esn Eo En. symmetry in Et. specialize (Bb Et). rewrite Bb in *. subst red2 lat2 old' norm'. rewrite <- Esn.
    destruct (C68_line_search (sch r) 2 ND V (tmp_ r) sn1 _ _ lat red' lat' Any ltac:(lia) (proj1 G) (proj2 G) Ts Ls) as (A0 & A1 & A2 & A3 & a & Ba & La).
    split; [reflexivity|]. split; [exact To|]. split; [exact Ts|]. split; [now rewrite A3, S3 by lia|]. exists a. rewrite Et. destruct (Rlt_dec (5 / 10 ^ 11) tr0) as [_|N]; [|contradiction]. split; [|exact La].
    rewrite A0, A1, A2, !Sk, !Rk, !Rplus_0_l in Ba by lia. unfold F. rewrite <- Esn. exact Ba.
  - injection E as Et Er El _ Esn Eo En. symmetry in Et. specialize (Bb Et). rewrite Bb in *. subst old' norm'. rewrite <- Esn.
    split; [reflexivity|]. split; [exact To|]. split; [exact Ts|]. split; [now rewrite <- Er, S3|]. exists (gf_alpha r). rewrite Et. destruct (Rlt_dec (5 / 10 ^ 11) tr0) as [N|_]; [contradiction|]. split; [reflexivity|]. symmetry. exact El.
Qed.
Print Assumptions C68_conjugate_partial.

(** The first step goes along X, and its square is kept, if the reduction array holds 0 ... *)
Theorem C68_start_partial r fuel acc max red lat s sn old norm : sound r -> nc r = 2%nat -> good r lat ->
  let ND := length (dims_ r) in let V := nsites (dims_ r) in
  let iD := fun x => mscale Ci (divergence 2 ND lat x) in
  let X := match bld r with WithFFTW => accelerated (dims_ r) iD | NoFFTW => iD end in
  exists red1 lat1 s1 sn1 old1, let F := fun a => functional 2 ND V (egauge_Landau (sch r) 2 ND V (tmp_ r) (fst s1) a lat) in
  steep_Landau_FACG r fuel acc max (red, lat, s, sn, old, norm) = cg_loop r fuel acc max 0 (red1, lat1, s1, sn1, old1, red 3%nat + dsum V (fun x => inner 2 (X x) (X x)))%R /\
  tangents 2 V (fst s1) X /\ tangents 2 V sn1 X /\ tangents 2 V old1 X /\
  exists a, best_step (red 0%nat + functional 2 ND V lat) (red 1%nat + F (15/100)%R) (red 2%nat + F (30/100)%R) a /\ lat1 = egauge_Landau (sch r) 2 ND V (tmp_ r) (fst s1) a lat.
Proof.
  intros So N2 G ND V iD X. pose proof (V_sites r So) as EV. assert (Any : any_order (sch r)) by apply So.
  unfold steep_Landau_FACG. destruct (deriv_and_accelerate r red lat s) as [red0 s1] eqn:D. destruct (dna_ok r So _ _ _ _ _ G D) as (R5 & Rk & TX). unfold good in G. rewrite EV, N2 in *. fold V in TX, G |- *. fold ND in G |- *.
  assert (EX : direction r lat = X) by (unfold direction, X, iD; rewrite N2; reflexivity). rewrite EX in TX.
  destruct (line_search_Landau _ _ _ _ _ _ _ _) as [red2 lat2] eqn:Ls.
  destruct (C68_line_search (sch r) 2 ND V (tmp_ r) (fst s1) X _ lat red2 lat2 Any ltac:(lia) (proj1 G) (proj2 G) TX Ls) as (A0 & A1 & A2 & A3 & a & Ba & La).
  assert (S3 : sum_DER3 (sch r) 2 V (fst s1) red2 3%nat = (red 3%nat + dsum V (fun x => inner 2 (X x) (X x)))%R).
  { unfold sum_DER3. rewrite (fold_add_red (DER3_site 2 (fst s1)) 3). cbn [Nat.eqb]. rewrite A3, Rk by lia. f_equal. rewrite (order_sum (sch r) _ V _ Any). apply dsum_ext. intros x Hx. destruct (TX x Hx) as [Cx Tx]. apply (C68_products_partial (fst s1) (fst s1) x _ _ Cx Cx Tx Tx). }
  rewrite S3. eexists _, lat2, s1, _, _. split; [reflexivity|]. split; [exact TX|]. split; [now apply (tangents_own 2 V (fst s1) sn X ltac:(lia))|]. split; [now apply (tangents_own 2 V (fst s1) old X ltac:(lia))|].
  exists a. split; [|exact La]. rewrite A0, A1, A2, !Rk in Ba by lia. exact Ba.
Qed.
Print Assumptions C68_start_partial.
(** ... which it does not when the method is continued after its limit of iterations: the square kept is then
    too large, by that of the last direction before. *)
Definition flat_run : run := mkRun NoFFTW (fun _ n => seq 0 n) two 2 (1/10) (fun i => match psq_landau two i with Some v => v | None => 0 end)%R (fun _ => C0).
Lemma flat_sound : sound flat_run.
Proof. destruct two_sound as [A B C D]. constructor; [exact A|exact B|exact C|exact D]. Qed.
Lemma flat_good : good flat_run two_lat. Proof. exact two_good. Qed.
Lemma square_div n ND lat x : (2 <= n)%nat -> inner n (mscale Ci (divergence n ND lat x)) (mscale Ci (divergence n ND lat x)) = re (mtr n (mmul n (divergence n ND lat x) (divergence n ND lat x))).
Proof.
  intro Hn. set (D := divergence n ND lat x). assert (H : meq n D (dag D)) by (pose proof (part_herm n lat Hn ND x) as H; rewrite part_div in H; symmetry; exact H).
  replace (re (mtr n (mmul n D D))) with (inner n D D) by (unfold inner; now rewrite <- H). rewrite !inner_entries. apply dsum_ext. intros i Hi. apply dsum_ext. intros j Hj. unfold mscale. destruct (D i j). cunfold. cbn. ring.
Qed.
Theorem C68_continuation_refuted : exists r lat s sn old norm tr lat' s' sn' old' norm' red', sound r /\ nc r = 2%nat /\ good r lat /\ good r lat' /\
  cg_step r (fun _ => 0%R, lat, s, sn, old, norm) = (tr, (red', lat', s', sn', old', norm')) /\
  forall fuel acc max, exists red1 lat1 s1 sn1 old1 X kept, steep_Landau_FACG r fuel acc max (red', lat', s', sn', old', norm') = cg_loop r fuel acc max 0 (red1, lat1, s1, sn1, old1, kept) /\
    tangents 2 (nsites (dims_ r)) old1 X /\ kept = (4 + dsum (nsites (dims_ r)) (fun x => inner 2 (X x) (X x)))%R.
Proof.
  pose (z := (fun _ _ => C0) : fields). assert (Tz : tangents 2 2 z (fun _ => mzero)).
  { intros x Hx. split; [|split].
    - intros i j Hi Hj. reflexivity.
    - intros i j _ _. unfold dag, mscale, mzero. cring.
    - unfold traceless, mtr, mzero. cbn [csum]. cring. }
  destruct (cg_step flat_run (fun _ => 0%R, two_lat, (z, z), z, z, 1%R)) as [tr [[[[[red' lat'] s'] sn'] old'] norm']] eqn:E.
  exists flat_run, two_lat, (z, z), z, z, 1%R, tr, lat', s', sn', old', norm', red'. split; [exact flat_sound|]. split; [reflexivity|]. split; [exact flat_good|].
  destruct (cg_step_ok flat_run flat_sound (fun _ => 0%R, two_lat, (z, z), z, z, 1%R) tr (red', lat', s', sn', old', norm') flat_good (ex_intro _ _ Tz) E) as (_ & Or & _). cbn [cg_lat] in Or.
  assert (G' : good flat_run lat') by (eapply good_orbit; [exact flat_good|exact Or]). split; [exact G'|]. split; [exact E|]. intros fuel acc max.
  destruct (C68_conjugate_partial flat_run _ two_lat (z, z) z z 1%R _ _ tr red' lat' s' sn' old' norm' flat_sound eq_refl flat_good Tz Tz E) as (_ & _ & _ & R3 & _).
  destruct (C68_start_partial flat_run fuel acc max red' lat' s' sn' old' norm' flat_sound eq_refl G') as (red1 & lat1 & s1 & sn1 & old1 & H1 & _ & _ & H4 & _).
  exists red1, lat1, s1, sn1, old1. eexists. eexists. split; [exact H1|]. split; [exact H4|]. cbv beta. f_equal. rewrite R3.
  cbn [bld flat_run]. rewrite <- two_violation. unfold violation. apply dsum_ext. intros x Hx. apply square_div. lia.
Qed.
Print Assumptions C68_continuation_refuted.

(** * Cases that meet the hypotheses *)
Example C68_step_case : tangents 2 2 (fun c _ => match c with 0%nat => (0, 1)%R | _ => C0 end) (fun _ => diag (fun i => match i with 0%nat => 1 | _ => -1 end)%R).
Proof.
  intros x Hx. split; [|apply diag_tangent; rewrite !dsum_S, dsum_0; cbn; lra].
  intros i j Hi Hj. destruct i as [|i]; [|lia]. destruct j as [|[|j]]; try lia; reflexivity.
Qed.
Example C68_best_case : best_step 1 (1 + 15/100 * (2/10) - 15/100 * (15/100)) (1 + 30/100 * (2/10) - 30/100 * (30/100)) (1/10).
Proof. split; [lra|]. intros c1 c2 E1 E2 N m. assert (c2 = -1)%R by lra. assert (c1 = 2/10)%R by lra. unfold m. subst c1 c2. repeat split; intros; lra. Qed.
