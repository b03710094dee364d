(** C66: quenched U(1) fields (U1/SUNCxU1_config.c).  C67: their observables (U1/U1_obs.c, U1/U1_top.c). *)
From Coq Require Import Permutation Psatz.
From Verif Require Import CInt GeomModel GeomSpec GeomProofs GeomProofs2 Cplx CMat Arr MatSpec MatModel FftModel FftProofs QtopModel QtopSpec QtopProofs QtopProofs2 QtopProofs4.
From Verif Require Import SmearModel StaticModel StaticProofs GluonModel GluonSpec GluonProofs GluonProofs2 GluonProofs3 GluonProofs4 Properties_Gluon Properties_Gluon2 U1Model U1Spec U1Proofs U1Proofs2 U1Proofs3 U1Proofs4 U1Proofs5 U1Proofs6.
Local Open Scope Z_scope.

(** * C66 *)
Definition four (d0 d1 d2 d3 : Z) : Prop := lattice_ok [d0; d1; d2; d3] /\ Forall (fun L => Z.even L = true) [d0; d1; d2; d3].
Definition coupling (alpha charge : R) : R := (sqrt (4 * PI * alpha) * charge)%R.
(** In four dimensions with even extents: the field is the one of the modes 1 / |phat| without spatial zero
    modes, it is real, and every link is multiplied by exp( i e q A ), in whatever order *)
Theorem C66_field_partial sched d0 d1 d2 d3 NC alpha charge noise inp out psq lat : four d0 d1 d2 d3 -> any_order sched ->
  let ds := [d0; d1; d2; d3] in
  exists out' lat', suNC_cross_u1 WithFFTW sched ds NC alpha charge noise inp out psq lat = Some (0, out', lat') /\
  (forall mu x, (mu < 4)%nat -> (x < nsites ds)%nat -> out' mu x = photon ds (noise mu) x /\ im (out' mu x) = 0%R) /\
  (forall mu x, (mu < 4)%nat -> (x < nsites ds)%nat -> meq NC (mx NC (lat' x mu)) (mscale (cis (coupling alpha charge * re (out' mu x))) (mx NC (lat x mu)))).
Proof.
  intros (Hok & Hev) Any ds. destruct (fields_ok d0 d1 d2 d3 Hok Hev sched Any NC alpha charge noise inp out psq lat) as (out' & lat' & E & F & G). exists out', lat'. split; [exact E|]. split.
  - intros mu x Hm Hx. rewrite F by assumption. split; [reflexivity|]. apply photon_real, (four_pos _ _ _ _ Hok).
  - intros mu x Hm Hx i j Hi Hj. unfold mx, mscale. rewrite G by assumption. replace (Nat.ltb (j + NC * i) (NC * NC)) with true by (symmetry; apply Nat.ltb_lt; nia). rewrite F by assumption. unfold coupling. fold ds.
    replace (sqrt (4 * PI * alpha) * charge * re (photon ds (noise mu) x))%R with (re (photon ds (noise mu) x) * sqrt (4 * PI * alpha) * charge)%R by ring. ring.
Qed.
Print Assumptions C66_field_partial.
Definition lat4 : list Z := [4; 2; 2; 2].
Example C66_field_case : four 4 2 2 2 /\ any_order (fun _ n => rev (seq 0 n)) /\ mirror lat4 1 = 3%nat /\ (0 < weight lat4 1)%R /\ mode_of lat4 (fun k => (INR k, 1%R)) 3 = (weight lat4 1, (- weight lat4 1)%R).
Proof.
  assert (Hok : lattice_ok lat4) by (split; [discriminate|]; split; [repeat (constructor; [unfold two31; lia|]); constructor|reflexivity]).
  assert (M1 : mirror lat4 1 = 3%nat) by (vm_compute; reflexivity). assert (M3 : mirror lat4 3 = 1%nat) by (vm_compute; reflexivity).
  split; [split; [exact Hok|repeat constructor]|]. split; [intros key n; apply Permutation_sym, Permutation_rev|]. split; [exact M1|]. split.
  - unfold weight. replace (spatially_zero lat4 1) with false by (vm_compute; reflexivity). unfold Rdiv. rewrite Rmult_1_l. apply Rinv_0_lt_compat, sqrt_lt_R0, phat2_pos; [exact Hok|vm_compute; reflexivity].
  - unfold mode_of. rewrite M3. cbn [Nat.eqb Nat.ltb Nat.leb]. apply C_eq; cunfold; cbn; ring.
Qed.
(** No momentum-zero part on any time slice, so the norm printed is 0 *)
Theorem C66_slices_partial sched sched' d0 d1 d2 d3 NC alpha charge noise inp out psq lat out' lat' : four d0 d1 d2 d3 -> any_order sched -> any_order sched' ->
  let ds := [d0; d1; d2; d3] in let N := nsites [d0; d1; d2] in
  suNC_cross_u1 WithFFTW sched ds NC alpha charge noise inp out psq lat = Some (0, out', lat') ->
  (forall mu t, (mu < 4)%nat -> (t < Z.to_nat d3)%nat -> csum N (fun i => out' mu (i + N * t)%nat) = C0) /\ normU sched' ds out' = 0%R.
Proof.
  intros (Hok & Hev) Any Any' ds N E. destruct (fields_ok d0 d1 d2 d3 Hok Hev sched Any NC alpha charge noise inp out psq lat) as (o & l & E' & F & _). unfold ds in E. rewrite E' in E. injection E as <- <-.
  pose proof (four_pos _ _ _ _ Hok) as pos. assert (Hd3 : 0 < d3) by (rewrite Forall_forall in pos; apply pos; cbn; auto).
  assert (VN : nsites ds = (N * Z.to_nat d3)%nat).
  { unfold N, ds, nsites. assert (P3 : 0 < prodZ [d0; d1; d2]) by (apply prodZ_pos; rewrite Forall_forall in *; intros z Hz; apply pos; cbn in *; tauto). rewrite <- Z2Nat.inj_mul by lia. f_equal. unfold prodZ. cbn [fold_right]. ring. }
  assert (Sl : forall mu t, (mu < 4)%nat -> (t < Z.to_nat d3)%nat -> csum N (fun i => o mu (i + N * t)%nat) = C0).
  { intros mu t Hm Ht. rewrite (csum_ext _ _ (fun i => photon ds (noise mu) (i + N * t)%nat)) by (intros i Hi; apply F; [assumption|]; fold ds; rewrite VN; nia). apply (slice_sum [d0; d1; d2] d3 pos (noise mu) t). }
  split; [exact Sl|]. unfold normU. rewrite lvolume_prod by assumption. fold (nsites ds).
  assert (T : forall l s, fold_left (fun sum i => for_ (length ds) (fun mu sum => (sum + re (o mu i))%R) sum) l s = (s + sum_over (fun i => dsum 4 (fun mu => re (o mu i))) l)%R).
  { induction l0 as [|i l0 IH]; intro s; cbn [fold_left]; [unfold sum_over; cbn; ring|]. rewrite IH. unfold sum_over. cbn [fold_right length ds for_]. rewrite !dsum_S, dsum_0. ring. }
  rewrite T. rewrite (sum_over_perm _ _ _ (Any' [5] (nsites ds))). rewrite CfgProofs.sum_dsum.
  assert (Z0 : dsum (nsites ds) (fun i => dsum 4 (fun mu => re (o mu i))) = 0%R).
  { rewrite InstProofs2.dsum_swap_any. rewrite (dsum_ext 4 _ (fun _ => 0%R)); [rewrite !dsum_S, dsum_0; ring|]. intros mu Hm. rewrite <- GluonProofs2.re_csum, VN, csum_prod.
    rewrite (csum_ext _ _ (fun _ => C0)); [rewrite csum_0; reflexivity|]. intros t Ht. now apply Sl. }
  rewrite Z0. replace ((0 + 0) * (0 + 0) / IZR (prodZ ds))%R with 0%R by (unfold Rdiv; ring). apply sqrt_0.
Qed.
Print Assumptions C66_slices_partial.
(** The links stay unitary and a plaquette is multiplied by exp( i e q F ), F the plaquette angle of A *)
Lemma cis_unit x : (cis x * conj (cis x))%C = C1.
Proof. rewrite <- cis_opp, <- cis_add. replace (x + - x)%R with 0%R by ring. apply cis_0. Qed.
Theorem C66_links_partial sched d0 d1 d2 d3 NC alpha charge noise inp out psq lat out' lat' : four d0 d1 d2 d3 -> any_order sched ->
  let ds := [d0; d1; d2; d3] in let A := fun mu x => re (out' mu x) in
  suNC_cross_u1 WithFFTW sched ds NC alpha charge noise inp out psq lat = Some (0, out', lat') ->
  (forall mu x, (mu < 4)%nat -> (x < nsites ds)%nat -> unitary NC (mx NC (lat x mu)) -> unitary NC (mx NC (lat' x mu))) /\
  (forall mu nu x, (mu < 4)%nat -> (nu < 4)%nat -> (x < nsites ds)%nat ->
    let P := fun l : field arr => mmul NC (mmul NC (mx NC (l x mu)) (mx NC (l (ahead ds x mu) nu))) (mmul NC (dag (mx NC (l (ahead ds x nu) mu))) (dag (mx NC (l x nu)))) in
    meq NC (P lat') (mscale (cis (coupling alpha charge * face ds A x mu nu)) (P lat))).
Proof.
  intros Hf Any ds A E. destruct (C66_field_partial sched d0 d1 d2 d3 NC alpha charge noise inp out psq lat Hf Any) as (o & l & E' & F & G). fold ds in E', F, G. rewrite E' in E. injection E as <- <-. destruct Hf as (Hok & Hev).
  split.
  - intros mu x Hm Hx [U1 U2]. specialize (G mu x Hm Hx). split.
    + rewrite G, dag_scale, mmul_scale_l, mmul_scale_r, U1. intros i j Hi Hj. unfold mscale. set (c := cis _). replace (c * (conj c * mid i j))%C with (c * conj c * mid i j)%C by ring. unfold c. rewrite cis_unit. ring.
    + rewrite G, dag_scale, mmul_scale_l, mmul_scale_r, U2. intros i j Hi Hj. unfold mscale. set (c := cis _). match goal with |- ?l = _ => replace l with (c * conj c * mid i j)%C by ring end. unfold c. rewrite cis_unit. ring.
  - intros mu nu x Hm Hn Hx P. unfold P. rewrite !G by (try assumption; apply (ahead_lt ds Hok)). rewrite !dag_scale. repeat first [rewrite mmul_scale_l | rewrite mmul_scale_r]. intros i j Hi Hj. unfold mscale. match goal with |- ?l = (_ * ?m)%C => set (M := m) end.
    unfold face, A. unfold Rminus. rewrite !Rmult_plus_distr_l, <- !Ropp_mult_distr_r, !cis_add, !cis_opp. ring.
Qed.
Print Assumptions C66_links_partial.
Theorem C66_uncharged_partial sched d0 d1 d2 d3 NC alpha charge noise inp out psq lat : four d0 d1 d2 d3 -> any_order sched -> alpha = 0%R \/ charge = 0%R ->
  let ds := [d0; d1; d2; d3] in
  exists out' lat', suNC_cross_u1 WithFFTW sched ds NC alpha charge noise inp out psq lat = Some (0, out', lat') /\
  forall mu x, (mu < 4)%nat -> (x < nsites ds)%nat -> meq NC (mx NC (lat' x mu)) (mx NC (lat x mu)).
Proof.
  intros Hf Any H0 ds. destruct (C66_field_partial sched d0 d1 d2 d3 NC alpha charge noise inp out psq lat Hf Any) as (o & l & E' & F & G). exists o, l. split; [exact E'|]. intros mu x Hm Hx. rewrite (G mu x Hm Hx).
  assert (C : coupling alpha charge = 0%R) by (unfold coupling; destruct H0 as [->| ->]; rewrite ?Rmult_0_r, ?sqrt_0; ring). rewrite C, Rmult_0_l, cis_0. apply mscale_1.
Qed.
Print Assumptions C66_uncharged_partial.
(** An odd extent: a write far beyond the end of the arrays *)
Theorem C66_odd_undefined sched d0 d1 d2 d3 NC alpha charge noise inp out psq lat : lattice_ok [d0; d1; d2; d3] -> Exists (fun L => Z.even L = false) [d0; d1; d2; d3] ->
  suNC_cross_u1 WithFFTW sched [d0; d1; d2; d3] NC alpha charge noise inp out psq lat = None.
Proof. intros Hok Ho. now apply odd_fails. Qed.
Print Assumptions C66_odd_undefined.
Theorem C66_odd_refuted : exists ds, lattice_ok ds /\ length ds = 4%nat /\ forall sched NC alpha charge noise inp out psq lat, suNC_cross_u1 WithFFTW sched ds NC alpha charge noise inp out psq lat = None.
Proof.
  exists [3; 3; 3; 4]. assert (Hok : lattice_ok [3; 3; 3; 4]) by (split; [discriminate|]; split; [repeat (constructor; [unfold two31; lia|]); constructor|reflexivity]).
  split; [exact Hok|]. split; [reflexivity|]. intros. apply C66_odd_undefined; [exact Hok|]. now constructor.
Qed.
Print Assumptions C66_odd_refuted.
(** Three dimensions: modes beyond the wrong last site are not made conjugate to each other, the field is
    another one *)
Theorem C66_three_refuted : exists ds noise, lattice_ok ds /\ Forall (fun L => Z.even L = true) ds /\ forall sched NC alpha charge inp out psq lat, any_order sched ->
  exists out' lat', suNC_cross_u1 WithFFTW sched ds NC alpha charge noise inp out psq lat = Some (0, out', lat') /\ photon ds (noise 0%nat) 0 = C0 /\ out' 0%nat 0%nat <> C0.
Proof.
  exists cube4, (one_mode 63%nat). split; [exact cube4_ok|]. split; [exact cube4_even|]. intros sched NC alpha charge inp out psq lat Any.
  destruct (cube4_field sched NC alpha charge inp out psq lat Any) as (o & l & E & H). exists o, l. split; [exact E|]. split; [apply cube4_photon|]. intro Z0. apply H. rewrite Z0. reflexivity.
Qed.
Print Assumptions C66_three_refuted.
(** Without FFTW nothing is done, the failure is dropped and success is reported *)
Theorem C66_build_refuted : exists ds noise, four 4 2 2 2 /\ ds = [4; 2; 2; 2] /\ forall sched NC alpha charge inp out psq lat,
  suNC_cross_u1 NoFFTW sched ds NC alpha charge noise inp out psq lat = Some (-1, out, lat) /\
  read_and_U1 NoFFTW sched ds NC alpha charge noise inp out psq lat = Some (0, lat).
Proof. exists [4; 2; 2; 2], (fun _ k => RtoC (INR k)). split; [exact (proj1 C66_field_case)|]. split; [reflexivity|]. intros. split; reflexivity. Qed.
Print Assumptions C66_build_refuted.

(** * C67 *)
Definition fits (ds : list Z) : Prop := lattice_ok ds /\ (2 <= length ds)%nat /\ prodZ ds * Z.of_nat (length ds) * (Z.of_nat (length ds) - 1) < two64.
Definition angles (O : nat -> arr) (mu x : nat) : R := re (O mu x).
(** Compact and noncompact plaquette, compact and noncompact rectangle *)
Theorem C67_averages sched ds O : fits ds -> any_order sched ->
  let A := angles O in
  non_plaquette sched ds O = Some (average ds (fun x mu nu => cos (face ds A x mu nu)), average ds (fun x mu nu => face ds A x mu nu * face ds A x mu nu)%R) /\
  U1_rectangle sched ds O = Some
  ((average ds (fun x mu nu => cos (long_face ds A x mu nu)) + average ds (fun x mu nu => cos (tall_face ds A x mu nu))) / 2,
   (average ds (fun x mu nu => long_face ds A x mu nu * long_face ds A x mu nu) + average ds (fun x mu nu => tall_face ds A x mu nu * tall_face ds A x mu nu)) / 2)%R.
Proof. intros (Hok & H2 & Hn) Any A. split; [now apply plaquette_ok|now apply rectangle_ok]. Qed.
Print Assumptions C67_averages.
Definition one_link (a : R) : nat -> arr := fun mu x => if (Nat.eqb mu 0 && Nat.eqb x 0)%bool then RtoC a else C0.
Definition hyper2 : list Z := [2; 2; 2; 2].
Lemma hyper2_ok : lattice_ok hyper2.
Proof. split; [discriminate|]; split; [repeat (constructor; [unfold two31; lia|]); constructor|reflexivity]. Qed.
Example C67_averages_case : fits hyper2 /\ face hyper2 (angles (one_link 3)) 0 1 0 = (-3)%R /\ face hyper2 (angles (one_link 3)) 2 1 0 = 3%R /\ face hyper2 (angles (one_link 3)) 5 1 0 = 0%R.
Proof.
  split; [split; [exact hyper2_ok|split; [cbn; lia|vm_compute; reflexivity]]|]. unfold face, angles, one_link.
  change (ahead hyper2 0 1) with 2%nat. change (ahead hyper2 0 0) with 1%nat. change (ahead hyper2 2 1) with 0%nat. change (ahead hyper2 2 0) with 3%nat. change (ahead hyper2 5 1) with 7%nat. change (ahead hyper2 5 0) with 4%nat. cbn. repeat split; ring.
Qed.
(** Gauge invariance *)
Lemma face_transformed ds O O' : lattice_ok ds -> transformed ds (angles O) (angles O') -> forall x mu nu, (x < nsites ds)%nat -> (mu < length ds)%nat -> (nu < length ds)%nat -> face ds (angles O') x mu nu = face ds (angles O) x mu nu.
Proof.
  intros Hok (a & Ha) x mu nu Hx Hm Hn. unfold face. rewrite !Ha by (try assumption; apply (ahead_lt ds Hok)). rewrite (ahead_comm ds Hok x nu mu). ring.
Qed.
Theorem C67_gauge_invariant sched ds O O' : fits ds -> any_order sched -> transformed ds (angles O) (angles O') ->
  non_plaquette sched ds O' = non_plaquette sched ds O /\ U1_rectangle sched ds O' = U1_rectangle sched ds O.
Proof.
  intros Hf Any T. destruct (C67_averages sched ds O Hf Any) as [P R]. destruct (C67_averages sched ds O' Hf Any) as [P' R']. rewrite P, R, P', R'. destruct Hf as (Hok & H2 & Hn). pose proof (face_transformed ds O O' Hok T) as F.
  split; [f_equal; f_equal|f_equal; f_equal; (f_equal; f_equal)]; apply average_ext; intros x mu nu Hx Hnu Hmu; unfold long_face, tall_face; rewrite !F by (try assumption; try apply (ahead_lt ds Hok); lia); reflexivity.
Qed.
Print Assumptions C67_gauge_invariant.
(** The compact averages see angles modulo 2 pi and lie in [-1, 1]; the noncompact ones are not negative *)
Lemma cos_turns x k : cos (x + 2 * PI * IZR k) = cos x.
Proof. pose proof (cis_add x (2 * PI * IZR k)) as E. rewrite cis_int in E. apply (f_equal re) in E. unfold cis in E. cunfold. cbn in E. lra. Qed.
Lemma average_bounds ds f lo hi : fits ds -> (forall x mu nu, (x < nsites ds)%nat -> (nu < mu)%nat -> (mu < length ds)%nat -> lo <= f x mu nu <= hi)%R -> (lo <= average ds f <= hi)%R.
Proof.
  intros (Hok & H2 & Hn) H. pose proof (norm_pos ds Hok H2) as P. unfold average. set (D := (INR (nsites ds) * INR (length ds) * (INR (length ds) - 1))%R) in *.
  assert (Cst : forall n c, dsum n (fun _ => c) = (INR n * c)%R) by (intros n c; induction n as [|n IH]; [rewrite dsum_0; cbn; ring|rewrite dsum_S, IH, S_INR; ring]).
  assert (Pc : forall n c, pairs n (fun _ _ => c) = (INR n * (INR n - 1) / 2 * c)%R) by (intros n c; unfold pairs; induction n as [|n IH]; [rewrite dsum_0; cbn; lra|rewrite dsum_S, IH, Cst, S_INR; field]).
  assert (Tot : forall c, dsum (nsites ds) (fun _ => pairs (length ds) (fun _ _ => c)) = (D / 2 * c)%R) by (intro c; rewrite Cst, Pc; unfold D; field).
  assert (B : (D / 2 * lo <= dsum (nsites ds) (fun x => pairs (length ds) (f x)) <= D / 2 * hi)%R).
  { rewrite <- !Tot. split; apply dsum_le; intros x Hx; unfold pairs; apply dsum_le; intros mu Hm; apply dsum_le; intros nu Hnu; now apply H. }
  replace (INR (nsites ds) * INR (length ds) * (INR (length ds) - 1) / 2)%R with (D / 2)%R by reflexivity. set (T := dsum _ _) in *. assert (Q : (T / (D / 2) * (D / 2) = T)%R) by (field; lra). split; apply (Rmult_le_reg_r (D / 2)); lra.
Qed.
Theorem C67_compact sched ds O O' (k : nat -> nat -> Z) : fits ds -> any_order sched -> (forall mu x, (mu < length ds)%nat -> (x < nsites ds)%nat -> angles O' mu x = (angles O mu x + 2 * PI * IZR (k mu x))%R) ->
  exists c n c' n' r s r' s', non_plaquette sched ds O = Some (c, n) /\ non_plaquette sched ds O' = Some (c', n') /\ U1_rectangle sched ds O = Some (r, s) /\ U1_rectangle sched ds O' = Some (r', s') /\
  c' = c /\ r' = r /\ (-1 <= c <= 1)%R /\ (-1 <= r <= 1)%R /\ (0 <= n)%R /\ (0 <= s)%R.
Proof.
  intros Hf Any HO. destruct (C67_averages sched ds O Hf Any) as [P R]. destruct (C67_averages sched ds O' Hf Any) as [P' R']. pose proof Hf as (Hok & H2 & Hn). do 8 eexists. split; [exact P|]. split; [exact P'|]. split; [exact R|]. split; [exact R'|].
  assert (Fk : forall x mu nu, (x < nsites ds)%nat -> (mu < length ds)%nat -> (nu < length ds)%nat -> face ds (angles O') x mu nu = (face ds (angles O) x mu nu + 2 * PI * IZR (from_links ds k x mu nu))%R).
  { intros x mu nu Hx Hm Hnu. unfold face, from_links. rewrite !HO by (try assumption; apply (ahead_lt ds Hok)). rewrite !minus_IZR, plus_IZR. ring. }
  assert (Sq : forall f, (forall x mu nu, (x < nsites ds)%nat -> (nu < mu)%nat -> (mu < length ds)%nat -> 0 <= f x mu nu)%R -> (0 <= average ds f)%R).
  { intros f H. pose proof (norm_pos ds Hok H2) as Pp. unfold average, Rdiv. apply Rmult_le_pos; [|left; apply Rinv_0_lt_compat; lra]. apply dsum_nonneg. intros x Hx. unfold pairs. apply dsum_nonneg. intros mu Hm. apply dsum_nonneg. intros nu Hnu. now apply H. }
  assert (Cb : forall f, (-1 <= average ds (fun x mu nu => cos (f x mu nu)) <= 1)%R) by (intro f; apply average_bounds; [exact Hf|]; intros; apply COS_bound).
  split; [|split; [|split; [|split; [|split]]]].
  - apply average_ext. intros x mu nu Hx Hnu Hmu. rewrite Fk by (assumption || lia). apply cos_turns.
  - f_equal. f_equal; apply average_ext; intros x mu nu Hx Hnu Hmu; unfold long_face, tall_face; rewrite !Fk by (try assumption; try apply (ahead_lt ds Hok); lia).
    + replace (face ds (angles O) x mu nu + 2 * PI * IZR (from_links ds k x mu nu) + (face ds (angles O) (ahead ds x mu) mu nu + 2 * PI * IZR (from_links ds k (ahead ds x mu) mu nu)))%R with (face ds (angles O) x mu nu + face ds (angles O) (ahead ds x mu) mu nu + 2 * PI * IZR (from_links ds k x mu nu + from_links ds k (ahead ds x mu) mu nu))%R by (rewrite plus_IZR; ring). apply cos_turns.
    + replace (face ds (angles O) x mu nu + 2 * PI * IZR (from_links ds k x mu nu) + (face ds (angles O) (ahead ds x nu) mu nu + 2 * PI * IZR (from_links ds k (ahead ds x nu) mu nu)))%R with (face ds (angles O) x mu nu + face ds (angles O) (ahead ds x nu) mu nu + 2 * PI * IZR (from_links ds k x mu nu + from_links ds k (ahead ds x nu) mu nu))%R by (rewrite plus_IZR; ring). apply cos_turns.
  - apply Cb.
  - pose proof (Cb (fun x mu nu => long_face ds (angles O) x mu nu)). pose proof (Cb (fun x mu nu => tall_face ds (angles O) x mu nu)). lra.
  - apply Sq. intros. apply Rle_0_sqr.
  - assert (0 <= average ds (fun x mu nu => long_face ds (angles O) x mu nu * long_face ds (angles O) x mu nu))%R by (apply Sq; intros; apply Rle_0_sqr). assert (0 <= average ds (fun x mu nu => tall_face ds (angles O) x mu nu * tall_face ds (angles O) x mu nu))%R by (apply Sq; intros; apply Rle_0_sqr). lra.
Qed.
Print Assumptions C67_compact.
(** The counts and the charge, for angles within int: the sheet counts windings, the monopoles of the first and the last
    direction are fluxes out of cubes; the windings are at most the number of turns *)
Section Counts.
Variables (ds : list Z) (O : nat -> arr).
Let w (x mu nu : nat) : Z := winding (face ds (angles O) x mu nu).
Lemma S_ok : lattice_ok ds -> (forall x mu nu, (x < nsites ds)%nat -> (mu < length ds)%nat -> (nu < length ds)%nat -> Rabs (face ds (angles O) x mu nu) < IZR two31)%R ->
  forall x mu nu, (x < nsites ds)%nat -> (mu < length ds)%nat -> (nu < length ds)%nat -> obtain_S ds O x mu nu = Some (w x mu nu).
Proof. intros Hok Hi x mu nu Hx Hm Hn. unfold obtain_S. rewrite nface_ok by assumption. cbn [bindo]. apply mod_ok. now apply Hi. Qed.
Lemma w_anti y a b : w y a b = - w y b a.
Proof. unfold w. rewrite <- winding_opp. f_equal. unfold face. ring. Qed.
End Counts.
Theorem C67_counts_partial sched ds O : lattice_ok ds -> length ds = 4%nat -> any_order sched ->
  (forall x mu nu, (x < nsites ds)%nat -> (mu < length ds)%nat -> (nu < length ds)%nat -> Rabs (face ds (angles O) x mu nu) < IZR two31)%R ->
  exists (n : nat -> nat -> nat -> Z) (m : nat -> nat -> Z),
  U1_topological sched ds O = Some (zsum (seq 0 4) (fun mu => zsum (seq 0 (nsites ds)) (fun x => Z.abs (m mu x))), sheet_area ds n, dsum (nsites ds) (naive_charge ds (angles O)) * (1583143494411527678811 / 1000000000000000000000000))%R /\
  (forall x mu nu, (Rabs (IZR (n x mu nu)) <= Rabs (face ds (angles O) x mu nu) / TWOPI < Rabs (IZR (n x mu nu)) + 1 + 1 / TWOPI)%R) /\
  (forall x, Z.abs (m 0%nat x) = Z.abs (cube_flux ds n x 1 2 3) /\ Z.abs (m 3%nat x) = Z.abs (cube_flux ds n x 0 1 2)).
Proof.
  intros Hok H4 Any Hi. set (n := fun x mu nu => winding (face ds (angles O) x mu nu)). exists n, (code_flux ds n). pose proof (S_ok ds O Hok Hi) as HS. split; [|split].
  - unfold U1_topological. rewrite (current_ok ds Hok sched Any _ (code_flux ds n)) by (intros mu x Hm Hx; apply (dirac_ok ds Hok _ n HS); [assumption|lia|assumption]). cbn [bindo]. rewrite (sheet_ok ds Hok sched Any _ n HS). cbn [bindo]. rewrite charge_ok by assumption. cbn [bindo]. rewrite H4. reflexivity.
  - intros x mu nu. apply winding_bounds.
  - intro x. split; [rewrite flux_0, Z.abs_opp by (intros; apply w_anti); reflexivity|rewrite flux_3 by (intros; apply w_anti); reflexivity].
Qed.
Print Assumptions C67_counts_partial.
(** Small angles: no sheets, no monopoles *)
Theorem C67_small sched ds O : lattice_ok ds -> length ds = 4%nat -> any_order sched ->
  (forall x mu nu, (x < nsites ds)%nat -> (mu < length ds)%nat -> (nu < length ds)%nat -> Rabs (face ds (angles O) x mu nu) < TWOPI)%R ->
  exists q, U1_topological sched ds O = Some (0, 0, q).
Proof.
  intros Hok H4 Any Hi. pose proof TWOPI_pos.
  assert (Hb : (forall x mu nu, (x < nsites ds)%nat -> (mu < length ds)%nat -> (nu < length ds)%nat -> Rabs (face ds (angles O) x mu nu) < IZR two31)%R).
  { intros x mu nu Hx Hm Hn. specialize (Hi x mu nu Hx Hm Hn). assert (7 < IZR two31)%R by (unfold two31; lra). lra. }
  assert (HS : forall x mu nu, (x < nsites ds)%nat -> (mu < length ds)%nat -> (nu < length ds)%nat -> obtain_S ds O x mu nu = Some ((fun _ _ _ => 0) x mu nu)).
  { intros x mu nu Hx Hm Hn. rewrite (S_ok ds O Hok Hb) by assumption. now rewrite winding_small by (now apply Hi). }
  set (z := fun _ _ _ : nat => 0) in *. eexists. unfold U1_topological.
  assert (Cf : forall mu x, code_flux ds z mu x = 0).
  { intros mu x. unfold code_flux, z. rewrite (zsum_ext _ _ (fun _ => 0)); [apply zsum_0|]. intros nu _. destruct (Nat.eqb nu mu); [reflexivity|]. rewrite (zsum_ext _ _ (fun _ => 0)); [apply zsum_0|]. intros rho _. rewrite (zsum_ext _ _ (fun _ => 0)); [apply zsum_0|]. intros sigma _. destruct (_ || _)%bool; [reflexivity|]. lia. }
  rewrite (current_ok ds Hok sched Any _ (code_flux ds z)) by (intros mu x Hm Hx; apply (dirac_ok ds Hok _ z HS); [assumption|lia|assumption]). cbn [bindo]. rewrite (sheet_ok ds Hok sched Any _ z HS). cbn [bindo]. rewrite charge_ok by assumption. cbn [bindo].
  assert (M0 : zsum (seq 0 (length ds)) (fun mu => zsum (seq 0 (nsites ds)) (fun x => Z.abs (code_flux ds z mu x))) = 0).
  { rewrite (zsum_ext _ _ (fun _ => 0)); [apply zsum_0|]. intros mu _. rewrite (zsum_ext _ _ (fun _ => 0)); [apply zsum_0|]. intros x _. now rewrite Cf. }
  assert (S0 : sheet_area ds z = 0).
  { unfold sheet_area. rewrite (zsum_ext _ _ (fun _ => 0)); [apply zsum_0|]. intros x _. rewrite (zsum_ext _ _ (fun _ => 0)); [apply zsum_0|]. intros mu _. rewrite (zsum_ext _ _ (fun _ => 0)); [apply zsum_0|]. reflexivity. }
  rewrite M0, S0. reflexivity.
Qed.
Print Assumptions C67_small.
(** Turns are missed: the angle is cut to an integer before the division by 2 pi *)
Lemma PI_bounds : (3 < PI < 345 / 100)%R.
Proof.
  split; [pose proof PI2_3_2; lra|]. pose proof (proj2 (PI_ineq 2)) as P. unfold sum_f_R0, tg_alt, PI_tg in P. cbn in P. lra.
Qed.
Definition unit_link (mu x : nat) : Z := if (Nat.eqb mu 0 && Nat.eqb x 0)%bool then 1 else 0.
Lemma one_face a x mu nu : face hyper2 (angles (one_link a)) x mu nu = (IZR (from_links hyper2 unit_link x mu nu) * a)%R.
Proof.
  unfold face, from_links, angles, one_link, unit_link. rewrite !minus_IZR, plus_IZR. destruct (_ && _)%bool, (_ && _)%bool, (_ && _)%bool, (_ && _)%bool; cbn; ring.
Qed.
Lemma unit_small : forall x mu nu, (x < nsites hyper2)%nat -> (mu < length hyper2)%nat -> (nu < length hyper2)%nat -> from_links hyper2 unit_link x mu nu = 0 \/ from_links hyper2 unit_link x mu nu = 1 \/ from_links hyper2 unit_link x mu nu = -1.
Proof.
  intros x mu nu Hx Hm Hn.
  assert (T : forallb (fun x => forallb (fun mu => forallb (fun nu => let k := from_links hyper2 unit_link x mu nu in (k =? 0) || (k =? 1) || (k =? -1))%bool (seq 0 4)) (seq 0 4)) (seq 0 16) = true) by (vm_compute; reflexivity).
  rewrite forallb_forall in T. specialize (T x ltac:(apply in_seq; change (nsites hyper2) with 16%nat in Hx; lia)). rewrite forallb_forall in T. specialize (T mu ltac:(apply in_seq; cbn in Hm; lia)). rewrite forallb_forall in T. specialize (T nu ltac:(apply in_seq; cbn in Hn; lia)). cbv zeta in T. lia.
Qed.
Lemma one_turn a x mu nu : (69 / 10 <= a <= 7)%R -> (x < nsites hyper2)%nat -> (mu < length hyper2)%nat -> (nu < length hyper2)%nat -> turns (face hyper2 (angles (one_link a)) x mu nu) (from_links hyper2 unit_link x mu nu).
Proof.
  intros Ha Hx Hm Hn. rewrite one_face. pose proof PI_bounds. unfold turns.
  destruct (unit_small x mu nu Hx Hm Hn) as [E|[E|E]]; rewrite E.
  - replace (0 * a)%R with 0%R by ring. rewrite Rabs_R0. split; lra.
  - replace (1 * a)%R with a by ring. rewrite Rabs_R1, (Rabs_right a) by lra. split; lra.
  - replace (-1 * a)%R with (- a)%R by ring. rewrite !Rabs_left by lra. split; lra.
Qed.
Theorem C67_sheet_refuted : exists ds O n, lattice_ok ds /\ length ds = 4%nat /\ (forall x mu nu, (x < nsites ds)%nat -> (mu < length ds)%nat -> (nu < length ds)%nat -> turns (face ds (angles O) x mu nu) (n x mu nu)) /\
  sheet_area ds n = 6 /\ forall sched, any_order sched -> exists mono q, U1_topological sched ds O = Some (mono, 0, q).
Proof.
  exists hyper2, (one_link (69 / 10)), (from_links hyper2 unit_link). split; [exact hyper2_ok|]. split; [reflexivity|]. split; [intros; apply one_turn; try assumption; lra|]. split; [vm_compute; reflexivity|].
  intros sched Any.
  assert (W6 : winding (69 / 10) = 0).
  { unfold winding. assert (E : trunc (69 / 10) = 6) by (unfold trunc; destruct (Rle_dec 0 (69 / 10)) as [H|H]; [symmetry; apply Int_part_unique; lra|lra]). rewrite E. apply trunc_small. pose proof TWOPI_pos. rewrite Rabs_div, Rabs_right by lra. apply (Rmult_lt_reg_r TWOPI); [lra|]. unfold Rdiv. rewrite Rmult_assoc, Rinv_l by lra. unfold TWOPI. lra. }
  assert (HS : forall x mu nu, (x < nsites hyper2)%nat -> (mu < length hyper2)%nat -> (nu < length hyper2)%nat -> obtain_S hyper2 (one_link (69 / 10)) x mu nu = Some ((fun _ _ _ => 0) x mu nu)).
  { intros x mu nu Hx Hm Hn. unfold obtain_S. rewrite (nface_ok hyper2 hyper2_ok) by assumption. cbn [bindo]. change (fun mu0 x0 : nat => re (one_link (69 / 10) mu0 x0)) with (angles (one_link (69 / 10))). rewrite one_face.
    assert (B : (7 < IZR two31)%R) by (unfold two31; lra). destruct (unit_small x mu nu Hx Hm Hn) as [E|[E|E]]; rewrite E.
    - rewrite Rmult_0_l. rewrite mod_ok by (rewrite Rabs_R0; lra). f_equal. apply winding_small. rewrite Rabs_R0. pose proof TWOPI_pos. lra.
    - rewrite Rmult_1_l. rewrite mod_ok by (rewrite Rabs_right; lra). now rewrite W6.
    - replace (-1 * (69 / 10))%R with (- (69 / 10))%R by ring. rewrite mod_ok by (rewrite Rabs_left; lra). now rewrite winding_opp, W6. }
  unfold U1_topological. rewrite (current_ok hyper2 hyper2_ok sched Any _ (code_flux hyper2 (fun _ _ _ => 0))) by (intros mu x Hm Hx; apply (dirac_ok hyper2 hyper2_ok _ _ HS); [reflexivity|exact Hm|assumption]). cbn [bindo].
  rewrite (sheet_ok hyper2 hyper2_ok sched Any _ _ HS). cbn [bindo]. rewrite (charge_ok hyper2 hyper2_ok sched Any) by reflexivity. cbn [bindo]. do 2 eexists. reflexivity.
Qed.
Print Assumptions C67_sheet_refuted.
(** Monopoles that are not there: the signs of the second and third direction are wrong *)
Theorem C67_monopoles_refuted : exists ds O n, lattice_ok ds /\ length ds = 4%nat /\ (forall x mu nu, (x < nsites ds)%nat -> (mu < length ds)%nat -> (nu < length ds)%nat -> turns (face ds (angles O) x mu nu) (n x mu nu)) /\
  (forall x mu nu, (x < nsites ds)%nat -> (mu < length ds)%nat -> (nu < length ds)%nat -> obtain_S ds O x mu nu = Some (n x mu nu)) /\ monopoles ds n = 0 /\ exists count, 0 < count /\ forall sched, any_order sched -> exists sheet q, U1_topological sched ds O = Some (count, sheet, q).
Proof.
  exists hyper2, (one_link 7), (from_links hyper2 unit_link). split; [exact hyper2_ok|]. split; [reflexivity|]. split; [intros; apply one_turn; try assumption; lra|].
  assert (W7 : winding 7 = 1).
  { unfold winding. rewrite (trunc_IZR 7). unfold trunc. assert (I : (0 < / TWOPI)%R) by (apply Rinv_0_lt_compat; pose proof TWOPI_pos; lra). destruct (Rle_dec 0 (7 / TWOPI)) as [H|H]; [|exfalso; apply H; unfold Rdiv; apply Rmult_le_pos; lra].
    symmetry. apply Int_part_unique. assert (E : (TWOPI * / TWOPI = 1)%R) by (apply Rinv_r; pose proof TWOPI_pos; lra). unfold Rdiv. pose proof TWOPI_pos. split; nra. }
  assert (HS : forall x mu nu, (x < nsites hyper2)%nat -> (mu < length hyper2)%nat -> (nu < length hyper2)%nat -> obtain_S hyper2 (one_link 7) x mu nu = Some (from_links hyper2 unit_link x mu nu)).
  { intros x mu nu Hx Hm Hn. unfold obtain_S. rewrite (nface_ok hyper2 hyper2_ok) by assumption. cbn [bindo]. change (fun mu0 x0 : nat => re (one_link 7 mu0 x0)) with (angles (one_link 7)). rewrite one_face.
    assert (B : (7 < IZR two31)%R) by (unfold two31; lra). destruct (unit_small x mu nu Hx Hm Hn) as [E|[E|E]]; rewrite E.
    - rewrite Rmult_0_l. rewrite mod_ok by (rewrite Rabs_R0; lra). f_equal. apply winding_small. rewrite Rabs_R0. pose proof TWOPI_pos. lra.
    - rewrite Rmult_1_l. rewrite mod_ok by (rewrite Rabs_right; lra). now rewrite W7.
    - replace (-1 * 7)%R with (- (7))%R by ring. rewrite mod_ok by (rewrite Rabs_left; lra). now rewrite winding_opp, W7. }
  split; [exact HS|]. split; [vm_compute; reflexivity|].
  exists (zsum (seq 0 4) (fun mu => zsum (seq 0 16) (fun x => Z.abs (code_flux hyper2 (from_links hyper2 unit_link) mu x)))). split; [vm_compute; reflexivity|]. intros sched Any.
  unfold U1_topological. rewrite (current_ok hyper2 hyper2_ok sched Any _ (code_flux hyper2 (from_links hyper2 unit_link))) by (intros mu x Hm Hx; apply (dirac_ok hyper2 hyper2_ok _ _ HS); [reflexivity|exact Hm|assumption]). cbn [bindo].
  rewrite (sheet_ok hyper2 hyper2_ok sched Any _ _ HS). cbn [bindo]. rewrite (charge_ok hyper2 hyper2_ok sched Any) by reflexivity. cbn [bindo]. do 2 eexists. reflexivity.
Qed.
Print Assumptions C67_monopoles_refuted.
