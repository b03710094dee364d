(** Steepest descent, the drivers, and small fields on which the claims fail. *)
From Coq Require Import Permutation Lia Lra Psatz.
From Verif Require Import CInt GeomModel GeomSpec GeomProofs GeomProofs2 Cplx CMat Det Arr MatModel MatSpec MatProofs MatProofs2 ProjModel ProjProofs GramModel GramProofs FieldModel FieldProofs FieldProofs2 FftModel FftProofs QtopModel QtopSpec QtopProofs QtopProofs2 QtopProofs4 SmearModel StaticModel StaticProofs GluonSpec GluonModel GluonProofs GluonProofs2 GluonProofs3 GluonProofs4 InstProofs InstProofs2 CfgSpec CfgProofs HypProofs SmearProofs U1Model U1Spec U1Proofs U1Proofs2 U1Proofs3 LandauModel LandauSpec LandauProofs LandauProofs2 LandauProofs3 LandauProofs4 LandauProofs5.
Local Open Scope Z_scope.

Section Descent.
Variable r : run.
Hypothesis So : sound r.
Local Notation n := (nc r).
Local Notation ND := (length (dims_ r)).
Local Notation V := (Z.to_nat (lvolume (dims_ r))).
Lemma sd_loop_ok acc max : 0 <= max < two31 -> forall fuel loc lat s it tr lat' s', 0 <= loc -> loc < Z.max 1 max -> good r lat ->
  steep_Landau_FASD r fuel acc max loc lat s = Some (it, tr, lat', s') ->
  loc < it <= Z.max 1 max /\ ((tr <= acc)%R \/ max <= it) /\ exists l, orbit n ND V lat l /\ tr = accuracy r l /\ orbit n ND V l lat'.
Proof.
  intro Hmax. induction fuel as [|fuel IH]; intros loc lat s it tr lat' s' H0 H1 G E; [discriminate|]. cbn [steep_Landau_FASD] in E.
  destruct (deriv_and_accelerate r (fun _ => 0%R) lat s) as [red s1] eqn:D. destruct (dna_ok r So _ _ _ _ _ G D) as (R5 & _ & Ti).
  assert (A : (red 5%nat * GFNORM_LANDAU r)%R = accuracy r lat) by (rewrite R5; unfold accuracy, GFNORM_LANDAU, Rdiv; ring). rewrite A in E.
  pose proof (egauge_orbit r So (fst s1) (gf_alpha r) lat _ G Ti) as O. set (lat1 := egauge_Landau _ _ _ _ _ _ _ _) in *.
  assert (U : u64 (loc + 1) = loc + 1) by (apply u64_id; unfold two64, two31 in *; lia). rewrite U in E.
  destruct (Rlt_dec acc (accuracy r lat)) as [L|L].
  - destruct (Z.ltb_spec (loc + 1) max).
    + apply IH in E; try lia; [|eapply good_orbit; eassumption]. destruct E as (B & C & l & O1 & A1 & O2). split; [lia|]. split; [exact C|]. exists l. split; [eapply orbit_trans; eassumption|]. split; assumption.
    + injection E as <- <- <- <-. split; [lia|]. split; [right; lia|]. exists lat. split; [apply orbit_refl|]. split; [reflexivity|assumption].
  - injection E as <- <- <- <-. split; [lia|]. split; [left; lra|]. exists lat. split; [apply orbit_refl|]. split; [reflexivity|assumption].
Qed.
(** what steepest descent gives back, too large a count included *)
Theorem FASD_ok fuel acc max lat s it th lat' s' : 0 <= max < two31 -> good r lat -> FASD r fuel acc max lat s = Some (it, th, lat', s') ->
  it = 0 /\ lat' = lat /\ th = (4 * violation n ND V lat / INR (n * V))%R /\ (th < acc)%R \/
  (GIVEN_UP + max <= it /\ (1000 * acc <= th)%R \/ 0 < it < max /\ (th <= acc)%R) /\ exists l, orbit n ND V lat l /\ th = accuracy r l /\ orbit n ND V l lat'.
Proof.
  intros Hmax G E. unfold FASD in E. rewrite (theta_test_ok (sch r) n ND V (tmp_ r) lat (s_order r So) (s_nc r So)) in E by apply G.
  destruct (Rlt_dec _ acc) as [L|L]; [injection E as <- <- <- _; left; repeat split; assumption|]. right. clear L.
  assert (Z0 : forall fuel lat s it th lat' s', good r lat -> FASD_top r fuel acc max 0 lat s = Some (it, th, lat', s') ->
    (GIVEN_UP + max <= it /\ (1000 * acc <= th)%R \/ 0 < it < max /\ (th <= acc)%R) /\ exists l, orbit n ND V lat l /\ th = accuracy r l /\ orbit n ND V l lat').
  { clear - So Hmax. induction fuel as [|fuel IH]; intros lat s it th lat' s' G E; [discriminate|]. cbn [FASD_top] in E.
    destruct (steep_Landau_FASD r (S fuel) acc max 0 lat s) as [[[[l t] lat1] s1]|] eqn:St; [|discriminate]. cbn [bindo] in E.
    destruct (sd_loop_ok acc max Hmax (S fuel) 0 lat s l t lat1 s1 ltac:(lia) ltac:(lia) G St) as (B & C & x & O1 & A & O2).
    assert (U : u64 (i32 l) = l) by (rewrite i32_id by (unfold two31 in *; lia); apply u64_id; unfold two64, two31 in *; lia). rewrite U in E.
    assert (O : orbit n ND V lat lat1) by (eapply orbit_trans; eassumption). destruct (Z.leb_spec max l) as [Le|Lt].
    - destruct (Rlt_dec t (1000 * acc)) as [Lth|Lth].
      + change (u64 (0 + 0)) with 0 in E. apply IH in E; [|eapply good_orbit; eassumption]. destruct E as (D & x' & O1' & A' & O2'). split; [exact D|]. exists x'. split; [eapply orbit_trans; eassumption|]. split; assumption.
      + assert (U2 : u64 (GIVEN_UP + l) = GIVEN_UP + l) by (apply u64_id; unfold GIVEN_UP, two64, two31 in *; lia). rewrite U2 in E. clear U2. remember (GIVEN_UP + l) as cnt eqn:Ec. injection E as <- <- <- <-. split; [left; split; [lia|lra]|exists x; tauto].
    - assert (U2 : u64 (0 + l) = l) by (apply u64_id; unfold two64, two31 in *; lia). rewrite U2 in E. injection E as <- <- <- <-. split; [right; split; [lia|destruct C; [assumption|lia]]|exists x; tauto]. }
  exact (Z0 _ _ _ _ _ _ _ G E).
Qed.
(** one step and a required accuracy 2000 times the present one: steepest descent gives up, and the wrapper reports a number of iterations *)
Lemma FASD_gives_up fuel grab lat s : good r lat -> (0 < violation n ND V lat)%R -> let acc := (accuracy r lat / 2000)%R in
  exists lat', GF_wrap_landau (fun l s => FASD r (S fuel) acc 1 l s) grab 1 lat s = Some (123456790, accuracy r lat, lat').
Proof.
  intros G Pv acc. pose proof (s_nc r So) as Hn.
  assert (Np : (0 < INR (n * V))%R) by (apply lt_0_INR; assert (0 < V)%nat by (rewrite V_sites by assumption; apply nsites_pos, So); nia).
  assert (Pa : (0 < accuracy r lat)%R) by (unfold accuracy; apply Rdiv_lt_0_compat; [apply Rmult_lt_0_compat; [unfold norm_of; destruct n as [|[|[|m]]]; lra|assumption]|assumption]).
  assert (Le : (accuracy r lat <= 4 * violation n ND V lat / INR (n * V))%R) by (unfold accuracy; apply Rmult_le_compat_r; [left; now apply Rinv_0_lt_compat|]; apply Rmult_le_compat_r; [lra|]; unfold norm_of; destruct n as [|[|[|m]]]; lra).
  unfold GF_wrap_landau, Landau, FASD. rewrite (theta_test_ok (sch r) n ND V (tmp_ r) lat (s_order r So) Hn) by apply G.
  destruct (Rlt_dec _ acc) as [L|L]; [exfalso; unfold acc in L; lra|]. cbn [FASD_top steep_Landau_FASD].
  destruct (deriv_and_accelerate r (fun _ => 0%R) lat s) as [red s1] eqn:D. destruct (dna_ok r So _ _ _ _ _ G D) as (R5 & _ & Ti).
  assert (A : (red 5%nat * GFNORM_LANDAU r)%R = accuracy r lat) by (rewrite R5; unfold accuracy, GFNORM_LANDAU, Rdiv; ring). rewrite A.
  change (u64 (0 + 1)) with 1. change (1 <? 1) with false. cbv iota.
  destruct (Rlt_dec acc (accuracy r lat)) as [L1|L1]; [|exfalso; unfold acc in L1; lra]. cbn [bindo]. change (u64 (i32 1)) with 1. change (1 <=? 1) with true. cbv iota.
  destruct (Rlt_dec (accuracy r lat) (1000 * acc)) as [L2|L2]; [exfalso; unfold acc in L2; lra|]. cbn [bindo]. change (u64 (GIVEN_UP + 1) =? GIVEN_UP) with false. cbv iota. cbn [bindo].
  change (i32 (u64 (GIVEN_UP + 1))) with 123456790. eexists. reflexivity.
Qed.
(** no accuracy at all asked for in one step *)
Lemma FACG_gives_up sn old fuel lat s : good r lat -> exists th lat' s', FACG r sn old (S fuel) 0 1 lat s = Some (GIVEN_UP, th, lat', s').
Proof.
  intro G. unfold FACG. rewrite (theta_test_ok (sch r) n ND V (tmp_ r) lat (s_order r So) (s_nc r So)) by apply G.
  assert (P : forall l, (0 <= violation n ND V l)%R).
  { intro l. apply dsum_nonneg. intros x Hx. set (D := divergence n ND l x). assert (H : meq n D (dag D)) by (pose proof (part_herm n l (s_nc r So) ND x) as H; rewrite part_div in H; symmetry; exact H).
    replace (re (mtr n (mmul n D D))) with (inner n D D) by (unfold inner; now rewrite <- H). rewrite inner_entries. apply dsum_nonneg. intros i Hi. apply dsum_nonneg. intros j Hj. destruct (D i j). cunfold. cbn. nra. }
  assert (Np : (0 <= / INR (n * V))%R) by (destruct (Nat.eq_dec (n * V) 0) as [->|N]; [cbn; rewrite Rinv_0; lra|left; apply Rinv_0_lt_compat, lt_0_INR; lia]).
  destruct (Rlt_dec _ 0) as [L|L]; [exfalso; pose proof (P lat); unfold Rdiv in L; nra|].
  cbn [FACG_top]. unfold steep_Landau_FACG. destruct (deriv_and_accelerate r (fun _ => 0%R) lat s) as [red s1] eqn:D. destruct (dna_ok r So _ _ _ _ _ G D) as (R5 & _ & Ti).
  destruct (line_search_Landau _ _ _ _ _ _ _ _) as [red2 lat2] eqn:Ls. pose proof (line_orbit r So _ _ _ _ _ _ G Ti Ls) as O.
  cbn [cg_loop]. match goal with |- context [cg_step r ?st] => destruct (cg_step r st) as [tr st1] eqn:S; destruct (cg_step_ok r So st tr st1) as (A & _ & _); [eapply good_orbit; [exact G|exact O]|eexists; apply (tangents_own n V (fst s1) sn _ (s_nc r So) Ti)|exact S|] end.
  change (u64 (0 + 1)) with 1. change (1 <? 1) with false. cbv iota. cbn [cg_lat] in A.
  assert (N0 : (0 <= tr)%R) by (rewrite A; unfold accuracy, Rdiv; apply Rmult_le_pos; [apply Rmult_le_pos; [unfold norm_of; destruct n as [|[|[|m]]]; lra|apply P]|exact Np]).
  destruct st1 as [[[[[r0 l0] q0] n0] o0] i0].
  assert (K : forall x : option (Z * R * cg_state), x = Some (1, tr, (r0, l0, q0, n0, o0, i0)) -> exists th lat' s', (do ' (iters, th, (_, lat, s, _, _, _)) <- (do ' (l, th, st) <- x; let loc_iters := u64 (i32 l) in if (1 <=? loc_iters)%Z then if Rlt_dec th (1000 * 0) then FACG_top r fuel 0 1 st else Some (GIVEN_UP, th, st) else Some (loc_iters, th, st)); Some (iters, th, lat, s)) = Some (GIVEN_UP, th, lat', s')).
  { intros x ->. cbn [bindo]. change (u64 (i32 1)) with 1. change (1 <=? 1) with true. cbv iota. destruct (Rlt_dec tr (1000 * 0)); [lra|]. cbn [bindo]. do 3 eexists. reflexivity. }
  apply K. destruct (Rlt_dec 0 tr); reflexivity.
Qed.
End Descent.

(** * The driver *)
Section Drivers.
Variable callback : lattice -> fields * fields -> option (Z * R * lattice * (fields * fields)).
Variable grab : nat -> option lattice.
Variable acc : R.
Hypothesis Hcb : forall lat s it th lat' s', callback lat s = Some (it, th, lat', s') -> it = GIVEN_UP \/ (th <= acc)%R.
Lemma restarts_ok max : (forall k, grab k <> None) -> forall todo failure iters th lat s c th' lat', restarts callback grab max todo failure iters th lat s = Some (c, th', lat') -> c = u64 (-1) \/ (th' <= acc)%R.
Proof.
  intro Hg. induction todo as [|todo IH]; intros failure iters th lat s c th' lat' E; [injection E as <- _ _; now left|]. cbn [restarts] in E. destruct (grab failure) as [l|] eqn:Gf; [|now apply Hg in Gf].
  destruct (callback l s) as [[[[i t] l1] s1]|] eqn:Cb; [|discriminate]. cbn [bindo] in E. destruct (Z.eqb_spec i GIVEN_UP) as [->|N]; [now apply IH in E|]. injection E as _ <- _. right. destruct (Hcb _ _ _ _ _ _ Cb); [contradiction|assumption].
Qed.
Theorem driver_ok max lat s c th lat' : (forall k, grab k <> None) -> GF_wrap_landau callback grab max lat s = Some (c, th, lat') -> c = -1 \/ (th <= acc)%R.
Proof.
  intros Hg E. unfold GF_wrap_landau in E. destruct (Landau callback grab max lat s) as [[[i t] l]|] eqn:L; [|discriminate]. cbn [bindo] in E. injection E as <- <- <-.
  unfold Landau in L. destruct (callback lat s) as [[[[i0 t0] l0] s0]|] eqn:Cb; [|discriminate]. cbn [bindo] in L. destruct (Z.eqb_spec i0 GIVEN_UP) as [->|N].
  - apply restarts_ok in L; [|assumption]. destruct L as [->|L]; [left; reflexivity|now right].
  - injection L as <- <- <-. right. destruct (Hcb _ _ _ _ _ _ Cb); [contradiction|assumption].
Qed.
End Drivers.
(** the same field and file throughout: six fresh starts, and then a failure *)
Lemma driver_all_fail callback grab max lat s : (forall l s, exists th l' s', callback l s = Some (GIVEN_UP, th, l', s')) -> (forall k, grab k <> None) -> exists th lat', GF_wrap_landau callback grab max lat s = Some (-1, th, lat').
Proof.
  intros Hc Hg. unfold GF_wrap_landau, Landau. destruct (Hc lat s) as (th & l & s1 & ->). cbn [bindo]. rewrite Z.eqb_refl.
  assert (K : forall todo k i th l s, exists th' l', restarts callback grab max todo k i th l s = Some (u64 (-1), th', l')).
  { induction todo as [|todo IH]; intros k i th0 l0 s0; [do 2 eexists; reflexivity|]. cbn [restarts]. destruct (grab k) as [lk|] eqn:Gk; [|now apply Hg in Gk]. destruct (Hc lk s0) as (t1 & l1 & s2 & ->). cbn [bindo]. rewrite Z.eqb_refl. apply IH. }
  destruct (K (GF_GLU_FAILURES - 1)%nat 1%nat GIVEN_UP th l s1) as (th' & l' & ->). cbn [bindo]. do 2 eexists. reflexivity.
Qed.
Lemma driver_no_file callback max lat s th l s' : callback lat s = Some (GIVEN_UP, th, l, s') -> GF_wrap_landau callback (fun _ => None) max lat s = Some (GIVEN_UP, th, l).
Proof. intro H. unfold GF_wrap_landau, Landau. rewrite H. cbn [bindo]. rewrite Z.eqb_refl. reflexivity. Qed.
Lemma driver_count callback grab max lat s th l s' l2 k th2 l2' s2' : callback lat s = Some (GIVEN_UP, th, l, s') -> grab 1%nat = Some l2 -> callback l2 s' = Some (k, th2, l2', s2') -> 0 <= k -> k < GIVEN_UP ->
  GF_wrap_landau callback grab max lat s = Some (GIVEN_UP + k, th2, l2').
Proof.
  intros H Hg H2 K0 K1. unfold GF_wrap_landau, Landau. rewrite H. cbn [bindo]. rewrite Z.eqb_refl. change (GF_GLU_FAILURES - 1)%nat with 6%nat. cbn [restarts]. rewrite Hg, H2. cbn [bindo].
  destruct (Z.eqb_spec k GIVEN_UP); [lia|]. cbn [bindo]. rewrite u64_id by (unfold GIVEN_UP, two64 in *; lia). rewrite i32_id by (unfold GIVEN_UP, two31 in *; lia). reflexivity.
Qed.

(** * Small fields *)
(** SU(2) on two sites in one dimension: the unit matrix and diag(i,-i) *)
Definition two : list Z := [2].
Definition two_link (x : nat) : arr := match x with 0%nat => fun k => match k with 0%nat | 3%nat => C1 | _ => C0 end | _ => fun k => match k with 0%nat => Ci | 3%nat => (- Ci)%C | _ => C0 end end.
Definition two_lat : lattice := fun x => mkSite (fun _ => two_link x) (fun _ => Nat.modulo (x + 1) 2) (fun _ => Nat.modulo (x + 1) 2).
Definition two_run : run := mkRun WithFFTW (fun _ n => seq 0 n) two 2 (1/10) (fun i => match psq_landau two i with Some v => v | None => 0 end)%R (fun _ => C0).
Lemma two_ok : lattice_ok two.
Proof. split; [discriminate|]. split; [repeat (constructor; [unfold two31; lia|]); constructor|reflexivity]. Qed.
Lemma two_sound : sound two_run.
Proof.
  constructor; cbn [two_run sch nc dims_ psq_]; [intros k m; apply Permutation_refl|lia|exact two_ok|]. intros i Hi. rewrite psq_landau_ok by (exact two_ok || assumption). reflexivity.
Qed.
Lemma two_volume : Z.to_nat (lvolume two) = 2%nat. Proof. reflexivity. Qed.
Lemma two_good : good two_run two_lat.
Proof.
  split.
  - intros x mu Hx Hm. change (length (dims_ two_run)) with 1%nat in *. cbn [nc two_run] in *. change (Z.to_nat (lvolume (dims_ two_run))) with 2%nat in *. unfold lnk, two_lat. cbn [O].
    assert (K : forall a : arr, (forall k, (k < 4)%nat -> a k = two_link 0 k) \/ (forall k, (k < 4)%nat -> a k = two_link 1 k) -> SUn 2 (mx 2 a)).
    { intros a Ha. apply SUn_2. split; [split; intros i j Hi Hj; unfold mmul, dag, mx, mid; cbn [csum]; destruct i as [|[|i]]; try lia; destruct j as [|[|j]]; try lia; cbn [Nat.add Nat.mul Nat.eqb]; destruct Ha as [Ha|Ha]; rewrite !Ha by lia; unfold two_link; cring
        |unfold det2, mx; cbn [Nat.add Nat.mul]; destruct Ha as [Ha|Ha]; rewrite !Ha by lia; unfold two_link; cring]. }
    apply K. destruct x as [|[|x]]; [left|right|lia]; reflexivity.
  - change (length (dims_ two_run)) with 1%nat. change (Z.to_nat (lvolume (dims_ two_run))) with 2%nat. constructor; intros; unfold two_lat; cbn [nbr bck];
    destruct i as [|[|i]]; try lia; cbn; lia.
Qed.
Lemma trf_traceless0 n M : mtr n M = C0 -> meq n (trf n M) M.
Proof. intros H i j _ _. unfold trf, msub, mscale. rewrite H. unfold Cdiv. ring. Qed.
Definition sigma3 : mat := fun i j => match i, j with 0%nat, 0%nat => C1 | 1%nat, 1%nat => (- C1)%C | _, _ => C0 end.
Lemma herm_two1 : meq 2 (herm (mx 2 (two_link 1))) sigma3.
Proof. intros i j Hi Hj. unfold herm, aherm, mscale, msub, dag, mx, sigma3. destruct i as [|[|i]]; try lia; destruct j as [|[|j]]; try lia; cbn [Nat.add Nat.mul two_link]; unfold RtoC; cunfold; cbn; f_equal; field. Qed.
Lemma herm_two0 : meq 2 (herm (mx 2 (two_link 0))) mzero.
Proof. intros i j Hi Hj. unfold herm, aherm, mscale, msub, dag, mx, mzero. destruct i as [|[|i]]; try lia; destruct j as [|[|j]]; try lia; cbn [Nat.add Nat.mul two_link]; unfold RtoC, C0; cunfold; cbn; f_equal; field. Qed.
Lemma trf_two1 : meq 2 (trf 2 (herm (mx 2 (two_link 1)))) sigma3.
Proof. rewrite trf_traceless0; [exact herm_two1|]. rewrite herm_two1. unfold mtr, sigma3. cbn [csum]. ring. Qed.
Lemma trf_two0 : meq 2 (trf 2 (herm (mx 2 (two_link 0)))) mzero.
Proof. rewrite trf_traceless0; [exact herm_two0|]. rewrite herm_two0. unfold mtr, mzero. cbn [csum]. ring. Qed.
Lemma two_div0 : meq 2 (divergence 2 1 two_lat 0) sigma3.
Proof.
  intros i j Hi Hj. unfold divergence, msum, msub. cbn [csum]. change (bck (two_lat 0%nat) 0%nat) with 1%nat. change (lnk 2 two_lat 1 0) with (mx 2 (two_link 1)). change (lnk 2 two_lat 0 0) with (mx 2 (two_link 0)).
  rewrite (trf_two1 i j Hi Hj), (trf_two0 i j Hi Hj). unfold mzero. ring.
Qed.
Lemma two_div1 : meq 2 (divergence 2 1 two_lat 1) (mscale (- C1) sigma3).
Proof.
  intros i j Hi Hj. unfold divergence, msum, msub. cbn [csum]. change (bck (two_lat 1%nat) 0%nat) with 0%nat. change (lnk 2 two_lat 1 0) with (mx 2 (two_link 1)). change (lnk 2 two_lat 0 0) with (mx 2 (two_link 0)).
  rewrite (trf_two1 i j Hi Hj), (trf_two0 i j Hi Hj). unfold mzero, mscale. ring.
Qed.
Lemma two_violation : violation 2 1 2 two_lat = 4%R.
Proof.
  unfold violation. rewrite !dsum_S, dsum_0. rewrite two_div0, two_div1. unfold mtr, mmul, sigma3, mscale. cbn [csum]. unfold C1, C0. cunfold. cbn. ring.
Qed.
