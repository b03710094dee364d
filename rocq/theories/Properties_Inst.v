(** C64: the instantaneous gluon propagators. *)
From Coq Require Import Permutation Sorted Psatz FunctionalExtensionality.
From Verif Require Import CInt GeomModel GeomSpec GeomProofs GeomProofs2 Cplx CMat Det Arr MatSpec MatModel MatProofs ProjModel ProjProofs FftModel FftProofs QtopModel QtopSpec QtopProofs QtopProofs2 HypProofs.
From Verif Require Import StaticModel StaticProofs CutsModel CutsSpec CutsProofs CutsRModel CutsRSpec CutsRProofs Properties_Cuts SmearModel GluonModel GluonSpec GluonProofs GluonProofs2 GluonProofs3 GluonProofs4 GluonProofs5 Properties_Gluon Properties_Gluon2.
From Verif Require Import InstModel InstSpec InstProofs InstProofs2.
Local Open Scope Z_scope.

(** the momenta kept, in the spatial directions sd *)
Definition skept (sd : list Z) (L : Z) (n : nat) (ci : cut_info) (l : list veclist) : Prop :=
  get_mom_veclist (sd ++ [L]) (length sd) (safe_momenta (sd ++ [L]) n ci (length sd)) = Some l.
Definition no_edge (sd : list Z) (l : list veclist) : Prop := forall s p, In (s, p) l -> ~ edge sd p.

Lemma skept_middle sd L n ci l : sd <> [] -> lattice_ok (sd ++ [L]) -> skept sd L n ci l -> no_edge sd l -> (exists s, In (s, zeros sd ++ [0]) l) ->
  forall i s q, nth_error l i = Some (s, q ++ [0]) -> (i = (length l - 1) / 2)%nat <-> q = zeros sd.
Proof.
  intros Hne Hok El He Hz i s q Hi. pose proof (proj1 (C40_mirror sd [L] n ci l (lat_ok_slices sd L Hne Hok) El) He) as Mir.
  destruct (C40_middle sd [L] n ci l (lat_ok_slices sd L Hne Hok) El Mir) as [s0 Hm].
  { destruct Hz as [s1 Hz]. exists s1. unfold zeros in *. rewrite map_app. exact Hz. }
  unfold zeros in Hm. rewrite map_app in Hm. cbn [map] in Hm. fold (zeros sd) in Hm. split.
  - intros ->. rewrite Hi in Hm. injection Hm as _ Hm. now apply app_inj_tail in Hm.
  - intros ->. destruct (slist_in sd L _ l Hne Hok El) as [Srt Mem].
    assert (Es : s = s0). { apply nth_error_In, Mem in Hi. apply nth_error_In, Mem in Hm. destruct Hi as (q1 & _ & E1 & _ & ->), Hm as (q2 & _ & E2 & _ & ->). apply app_inj_tail in E1, E2. destruct E1 as [<- _], E2 as [<- _]. reflexivity. }
    subst s0. apply (sorted_nth_inj (fun a b : veclist => rlex (snd a) (snd b)) (fun a => rlex_irr (snd a)) l Srt _ _ _ Hi Hm).
Qed.

(** One pair of numbers for every momentum of the list: the spatial and the temporal part of the
    average over time slices of Tr A(p,t) A(p,t)^dagger, for any list without momenta on the edge of
    the zone that has the zero momentum.  Missing for the full claim: momenta on the edge. *)
Theorem C64_instantaneous_partial : forall sched sd L NC n ci l temp inp out s0 U,
  lattice_ok (sd ++ [L]) -> (2 <= length sd)%nat -> (2 <= NC)%nat -> any_order sched -> links_ok (sd ++ [L]) NC U ->
  skept sd L n ci l -> no_edge sd l -> (exists s, In (s, zeros sd ++ [0]) l) ->
  exists res, cuts_spatial true sched (sd ++ [L]) NC l temp inp out s0 U = Some res /\ length res = length l /\
  forall i s q, nth_error l i = Some (s, q ++ [0]) ->
    let c := INR (NC * NC - 1) in
    let V := INR (nsites (sd ++ [L])) in
    let D := length sd in
    let norm := if list_eq_dec Z.eq_dec q (zeros sd) then (2 / (c * INR D * V))%R else (2 / (c * INR (D - 1) * V))%R in
    nth_error res i = Some (norm * dsum D (fun mu => slices_sum NC (Z.to_nat L) sd (gauge_field NC U) q mu),
                            norm * slices_sum NC (Z.to_nat L) sd (gauge_field NC U) q D)%R.
Proof.
  intros sched sd L NC n ci l temp inp out s0 U Hok Hd HN Any HU El He Hz.
  assert (Hne : sd <> []) by (intros ->; cbn in Hd; lia).
  pose proof (proj1 (C40_mirror sd [L] n ci l (lat_ok_slices sd L Hne Hok) El) He) as Mir.
  destruct (inst_written sd L _ l Hne Hok El sched NC temp inp out s0 U Any ltac:(lia) (links_shaped _ NC U HU) Mir) as (res & E & Ln & F).
  exists res. split; [exact E|]. split; [exact Ln|]. intros i s q Hi c V D norm.
  assert (EN : inst_norm sd L l NC i = norm).
  { unfold inst_norm, norm. pose proof (skept_middle sd L n ci l Hne Hok El He Hz i s q Hi) as M. cbv zeta.
    replace (IZR (lvolume (sd ++ [L]))) with V.
    2: { unfold V, nsites. rewrite (lvolume_prod _ Hok), INR_IZR_INZ, Z2Nat.id; [reflexivity|]. pose proof (prodZ_pos (sd ++ [L]) (ok_pos _ (proj1 (proj2 Hok)))). lia. }
    destruct (list_eq_dec Z.eq_dec q (zeros sd)) as [Y|Nq]; destruct (Nat.eqb_spec i ((length l - 1) / 2)) as [Y'|N'].
    - rewrite mult_INR. reflexivity.
    - exfalso. now apply N', M.
    - exfalso. now apply Nq, M.
    - replace (Nat.ltb 1 (length sd)) with true by (symmetry; apply Nat.ltb_lt; lia). rewrite mult_INR. reflexivity. }
  rewrite (F i s q Hi), EN. f_equal. f_equal; apply Rmult_comm.
Qed.
Print Assumptions C64_instantaneous_partial.
Lemma slices_sum_nonneg n T sd A q mu : (0 <= slices_sum n T sd A q mu)%R.
Proof. apply dsum_nonneg. intros. apply norm2_nonneg. Qed.
Theorem C64_positive : forall sched sd L NC n ci l temp inp out s0 U,
  lattice_ok (sd ++ [L]) -> (2 <= length sd)%nat -> (2 <= NC)%nat -> any_order sched -> links_ok (sd ++ [L]) NC U ->
  skept sd L n ci l -> no_edge sd l ->
  exists res, cuts_spatial true sched (sd ++ [L]) NC l temp inp out s0 U = Some res /\
  forall sp tm, In (sp, tm) res -> (0 <= sp)%R /\ (0 <= tm)%R.
Proof.
  intros sched sd L NC n ci l temp inp out s0 U Hok Hd HN Any HU El He.
  assert (Hne : sd <> []) by (intros ->; cbn in Hd; lia).
  pose proof (proj1 (C40_mirror sd [L] n ci l (lat_ok_slices sd L Hne Hok) El) He) as Mir.
  destruct (inst_written sd L _ l Hne Hok El sched NC temp inp out s0 U Any ltac:(lia) (links_shaped _ NC U HU) Mir) as (res & E & Ln & F).
  exists res. split; [exact E|]. intros sp tm Hin. apply In_nth_error in Hin. destruct Hin as [i Hi].
  assert (Hi' : (i < length l)%nat) by (rewrite <- Ln; apply nth_error_Some; congruence).
  destruct (nth_error l i) as [[s p]|] eqn:Ei; [|apply nth_error_None in Ei; lia].
  pose proof (nth_error_In _ _ Ei) as Ii. apply (proj2 (slist_in sd L _ l Hne Hok El)) in Ii. destruct Ii as (q & _ & -> & _).
  rewrite (F i s q Ei) in Hi. injection Hi as <- <-.
  assert (N0 : (0 <= inst_norm sd L l NC i)%R).
  { assert (HV : 0 < lvolume (sd ++ [L])) by (rewrite (lvolume_prod _ Hok); apply prodZ_pos, (ok_pos _ (proj1 (proj2 Hok)))).
    unfold inst_norm. cbv zeta. destruct (Nat.eqb _ _); [|destruct (Nat.ltb_spec 1 (length sd))]; apply Rlt_le, t_norm_pos; try assumption; nia. }
  split; (apply Rmult_le_pos; [|exact N0]); [apply dsum_nonneg; intros|]; apply slices_sum_nonneg.
Qed.
Print Assumptions C64_positive.
(** A gauge transformation that is the same at all sites changes nothing *)
Theorem C64_global_gauge : forall sched sched' sd L NC n ci l temp inp out s0 temp' inp' out' s0' U U' g,
  lattice_ok (sd ++ [L]) -> sd <> [] -> (2 <= NC)%nat -> any_order sched -> any_order sched' -> links_ok (sd ++ [L]) NC U ->
  skept sd L n ci l -> no_edge sd l ->
  SUn NC g -> (forall x mu, (x < nsites (sd ++ [L]))%nat -> (mu < length (sd ++ [L]))%nat -> meq NC (mx NC (U' x mu)) (mmul NC (mmul NC g (mx NC (U x mu))) (dag g))) ->
  exists res, cuts_spatial true sched (sd ++ [L]) NC l temp inp out s0 U = Some res /\ cuts_spatial true sched' (sd ++ [L]) NC l temp' inp' out' s0' U' = Some res.
Proof.
  intros sched sched' sd L NC n ci l temp inp out s0 temp' inp' out' s0' U U' g Hok Hne HN Any Any' HU El He Hg HUU.
  pose proof (proj1 (C40_mirror sd [L] n ci l (lat_ok_slices sd L Hne Hok) El) He) as Mir.
  assert (HU' : links_ok (sd ++ [L]) NC U').
  { intros x mu Hx Hm. eapply FieldProofs.SUn_ext; [symmetry; apply HUU; assumption|]. apply SUn_mmul; [apply SUn_mmul; [exact Hg|now apply HU]|now apply SUn_dag]. }
  destruct (inst_written sd L _ l Hne Hok El sched NC temp inp out s0 U Any ltac:(lia) (links_shaped _ NC U HU) Mir) as (res & E & Ln & F).
  destruct (inst_written sd L _ l Hne Hok El sched' NC temp' inp' out' s0' U' Any' ltac:(lia) (links_shaped _ NC U' HU') Mir) as (res' & E' & Ln' & F').
  exists res. split; [exact E|]. rewrite E'. f_equal. apply nth_ext with (d := (0, 0)%R) (d' := (0, 0)%R); [congruence|]. intros i Hi. rewrite Ln' in Hi.
  destruct (nth_error l i) as [[s p]|] eqn:Ei; [|apply nth_error_None in Ei; lia].
  pose proof (nth_error_In _ _ Ei) as Ii. apply (proj2 (slist_in sd L _ l Hne Hok El)) in Ii. destruct Ii as (q & _ & -> & _).
  rewrite (nth_error_nth _ _ _ (F i s q Ei)), (nth_error_nth _ _ _ (F' i s q Ei)).
  assert (S : forall mu, (mu < length (sd ++ [L]))%nat -> slices_sum NC (Z.to_nat L) sd (gauge_field NC U') q mu = slices_sum NC (Z.to_nat L) sd (gauge_field NC U) q mu).
  { intros mu Hm. unfold slices_sum. apply dsum_ext. intros t Ht.
    assert (R : meq NC (slice_mode sd (gauge_field NC U') q t mu) (rot NC g (slice_mode sd (gauge_field NC U) q t mu))).
    { unfold slice_mode. rewrite rot_csum. intros a b Ha Hb. apply csum_ext. intros x Hx. f_equal. apply (gauge_field_rot NC g Hg U U'); try assumption. apply HUU; [|assumption].
      unfold nsites in *. rewrite prodZ_app, prodZ_cons. change (prodZ []) with 1. pose proof (sl_prod sd L Hok). destruct (sl_pos sd L Hok). nia. }
    rewrite (norm2_meq NC _ _ R). unfold norm2. rewrite <- (rot_tr NC g Hg (mmul NC (slice_mode sd (gauge_field NC U) q t mu) _)). f_equal. apply mtr_meq.
    rewrite (rot_dag NC g). apply (rot_mul NC g Hg). }
  rewrite app_length in S. cbn [length] in S.
  rewrite (dsum_ext (length sd) (fun mu => slices_sum NC (Z.to_nat L) sd (gauge_field NC U') q mu) (fun mu => slices_sum NC (Z.to_nat L) sd (gauge_field NC U) q mu)) by (intros mu Hm; apply S; lia).
  rewrite S by lia. reflexivity.
Qed.
Print Assumptions C64_global_gauge.

(** a cut in p^2 at up to 1/16 of the square of the smallest spatial extent *)
Theorem C64_psq_cut : forall sd L mx ag w m, lattice_ok (sd ++ [L]) -> sd <> [] -> is_small (sd ++ [L]) (length sd) m -> 4 <= m -> 0 <= mx -> 16 * mx <= m * m ->
  exists l, skept sd L (length sd) (cut PSQ_CUT mx ag w) l /\ no_edge sd l /\ (exists s, In (s, zeros sd ++ [0]) l).
Proof.
  intros sd L mx ag w m Hok Hne Hm H4 H0 H16. assert (pos : Forall (fun L => 0 < L) sd) by (apply (sl_pos sd L Hok)).
  destruct (mom_veclist_ok sd [L] (safe_momenta (sd ++ [L]) (length sd) (cut PSQ_CUT mx ag w) (length sd)) (lat_ok_slices sd L Hne Hok)) as (l & El & _).
  exists l. split; [exact El|]. destruct (slist_in sd L _ l Hne Hok El) as [_ Mem]. split.
  - intros s p Hp (mu & K & H1 & H2 & H3). apply Mem in Hp. destruct Hp as (q & Hz & -> & Hs & _). apply (C39_psq_cut _ _ _ _ _ _ m) in Hs; [|assumption].
    assert (Hmu : (mu < length sd)%nat) by (apply nth_error_Some; congruence). assert (Lq := zone_length _ _ Hz).
    set (ff := fun mu => (frac (sd ++ [L]) (q ++ [0%Z]) mu * frac (sd ++ [L]) (q ++ [0%Z]) mu)%R) in *.
    assert (Tm : (ff mu <= ssum (length sd) ff)%R) by (apply ssum_term; [intros; unfold ff; nra|assumption]).
    assert (EL : nth mu (sd ++ [L]) 0 = K) by (rewrite app_nth1 by assumption; now apply nth_error_nth).
    assert (EQ : nth mu (q ++ [0]) 0 = - (K / 2)) by (now apply nth_error_nth).
    assert (HL : m <= K). { destruct Hm as (_ & Hm). apply Hm. rewrite firstn_app, firstn_all, Nat.sub_diag, app_nil_r. rewrite <- EL, app_nth1 by assumption. now apply nth_In. }
    unfold psq in Hs. fold ff in Hs. unfold ff in Tm at 1. unfold frac in Tm. rewrite EL, EQ in Tm. set (S := ssum _ ff) in *.
    assert (EK : K = 2 * (K / 2)) by (pose proof (Z.div_mod K 2); rewrite Zmod_even, H3 in H; lia).
    set (h := K / 2) in *. clearbody h. clear EL H1. subst K.
    assert (Q : (IZR (- h) / IZR (2 * h) * (IZR (- h) / IZR (2 * h)) = 1 / 4)%R) by (rewrite opp_IZR, mult_IZR; field; apply IZR_neq; lia). rewrite Q in Tm.
    apply IZR_le in H16. rewrite !mult_IZR in H16. assert (0 < IZR m * IZR m)%R by (assert (0 < IZR m)%R by (apply IZR_lt; lia); nra). nra.
  - exists (horner sd (residues sd (zeros sd))). apply Mem. exists (zeros sd). split; [now apply zeros_zone|]. split; [reflexivity|]. split; [|reflexivity].
    apply (C39_psq_cut _ _ _ _ _ _ m); [assumption|]. unfold psq.
    replace (ssum _ _) with 0%R; [rewrite Rmult_0_r; apply IZR_le; lia|].
    assert (Z0 : forall n, (0 = ssum n (fun mu => frac (sd ++ [L]) (zeros sd ++ [0%Z]) mu * frac (sd ++ [L]) (zeros sd ++ [0%Z]) mu))%R).
    { induction n as [|n IH]; cbn [ssum]; [reflexivity|]. rewrite <- IH. assert (E : nth n (zeros sd ++ [0]) 0 = 0) by (unfold zeros; clear; revert n; induction sd; intros [|[|n]]; cbn; auto). unfold frac. rewrite E. unfold Rdiv. ring. }
    apply Z0.
Qed.
Print Assumptions C64_psq_cut.
Example C64_instantaneous_ex : let sd := [4; 4; 8] in let L := 6 in let U := some_links (fun x mu => Nat.eqb x 5) in exists l, lattice_ok (sd ++ [L]) /\ links_ok (sd ++ [L]) 2 U /\
  skept sd L 3 (cut PSQ_CUT 1 0 0%R) l /\ no_edge sd l /\ (exists s, In (s, zeros sd ++ [0]) l).
Proof.
  intros sd L U. assert (Hok : lattice_ok (sd ++ [L])) by (split; [discriminate|]; split; [repeat (constructor; [unfold two31; lia|]); constructor|reflexivity]).
  destruct (C64_psq_cut sd L 1 0 0%R 4 Hok) as (l & H1 & H2 & H3); [discriminate| |lia|lia|lia|].
  { split; [now left|]. intros K HK. cbn in HK. lia. }
  exists l. split; [exact Hok|]. split; [apply some_links_ok|]. auto.
Qed.

(** * Where it fails *)
(** Without FFTW the failure of the transform is ignored: the numbers are made of the links
    themselves.  With all links 1 the gauge field is zero, the written number is not. *)
Theorem C64_no_fftw_refuted : exists sd L ci l U i, lattice_ok (sd ++ [L]) /\ links_ok (sd ++ [L]) 2 U /\ skept sd L (length sd) ci l /\ no_edge sd l /\ (exists s, In (s, zeros sd ++ [0]) l) /\
  (forall x mu, meq 2 (gauge_field 2 U x mu) mzero) /\
  forall sched temp inp out s0, any_order sched -> exists res sp tm, cuts_spatial false sched (sd ++ [L]) 2 l temp inp out s0 U = Some res /\ nth_error res i = Some (sp, tm) /\ (0 < sp)%R.
Proof.
  set (sd := [1; 1; 1]). set (L := 1).
  assert (Hok : lattice_ok (sd ++ [L])) by (split; [discriminate|]; split; [repeat (constructor; [unfold two31; lia|]); constructor|reflexivity]).
  exists sd, L, (cut PSQ_CUT 1 0 0%R), [(0, [0; 0; 0; 0])], (some_links (fun _ _ => false)), 0%nat.
  assert (El : skept sd L 3 (cut PSQ_CUT 1 0 0%R) [(0, [0; 0; 0; 0])]).
  { unfold skept. pose proof (mom_veclist_eq sd [L] (safe_momenta (sd ++ [L]) 3 (cut PSQ_CUT 1 0 0%R) (length sd)) (lat_ok_slices sd L ltac:(discriminate) Hok)) as E. rewrite E. clear E.
    change (zrange (prodZ sd)) with [0]. cbn [filter]. replace (pp sd 0 ++ zeros [L]) with [0; 0; 0; 0] by (vm_compute; reflexivity).
    replace (safe_momenta (sd ++ [L]) 3 (cut PSQ_CUT 1 0 0%R) (length sd) [0; 0; 0; 0]) with true; [vm_compute; reflexivity|].
    symmetry. apply (C39_psq_cut _ _ _ _ _ _ 1); [split; [now left|]; intros K HK; cbn in HK; lia|]. unfold psq, frac, ssum, sd, L. cbn [length nth app]. lra. }
  split; [exact Hok|]. split; [apply some_links_ok|]. split; [exact El|]. split.
  { intros s p [E|[]] (mu & K & H1 & _ & H3). destruct mu as [|[|[|mu]]]; try (injection H1 as <-; discriminate H3). destruct mu; discriminate H1. }
  split; [exists 0; now left|]. split; [intros; apply (some_gauge (fun _ _ => false))|].
  intros sched temp inp out s0 Any. unfold cuts_spatial, mom_gauge_spatial. cbn [bindo].
  destruct (correct_pspace_ok sched (sd ++ [L]) 2 Hok Any (length (sd ++ [L]) - 1) [(0, [0; 0; 0; 0])] (some_links (fun _ _ => false))) as (A & EA & FA).
  { intros idx k [E|[]]. injection E as <- <-. split; [lia|reflexivity]. }
  { repeat constructor. intros []. }
  rewrite EA. cbn [bindo].
  assert (V : forall mu l, (mu < 3)%nat -> (l < 4)%nat -> A 0%nat mu l = one l).
  { intros mu l Hm Hl. change (A (Z.to_nat 0) mu l = one l). rewrite (FA 0 [0; 0; 0; 0] mu l); [|now left|exact Hm|exact Hl]. replace (PI * IZR (nth mu [0%Z; 0%Z; 0%Z; 0%Z] 0%Z) / _)%R with 0%R; [rewrite cis_0; unfold some_links; ring|].
    replace (nth mu [0; 0; 0; 0] 0) with 0 by (do 3 (destruct mu as [|mu]; [reflexivity|]); lia). unfold Rdiv. ring. }
  assert (Tr : forall mu, (mu < 3)%nat -> re (trace_ab 2 (A 0%nat mu) (A 0%nat mu)) = 2%R).
  { intros mu Hm. rewrite trace_ab_ok. unfold mtr, mmul, mx. cbn [csum Nat.mul Nat.add]. rewrite !V by lia. unfold one. cunfold. ring. }
  destruct (write_all sched 1 (inst_prop (sd ++ [L]) 2 A [(0, [0; 0; 0; 0])]) (fun _ => (6 * (2 / (INR (3 * 3) * 1)), re (trace_ab 2 (A 0%nat 3%nat) (A 0%nat 3%nat)) * (2 / (INR (3 * 3) * 1))))%R Any) with (s0 := s0) as (s & E & F).
  { intros i Hi. replace i with 0%nat by lia. unfold inst_prop. cbn [nth_error length Nat.sub bindo]. unfold inst_sums.
    change (Lt (sd ++ [L])) with 1%nat. change (LCU (sd ++ [L])) with 1%nat. change (lvolume (sd ++ [L])) with 1. change (length (sd ++ [L])) with 4%nat.
    cbn [for_ bindo Nat.sub]. change (Z.to_nat (Z.of_nat (1 * 0) + 0)) with 0%nat. change (Z.of_nat (1 * 0) + 0) with 0. cbn [Z.leb Z.ltb Z.compare andb bindo].
    rewrite !Tr by lia. change ((0 =? 0 / 2)%nat) with true. change (Nat.ltb 1 4) with true. cbv iota. change ((2 * 2 - 1) * 3)%nat with (3 * 3)%nat.
    rewrite !Rplus_0_l. replace (2 + 2 + 2)%R with 6%R by ring. reflexivity. }
  change (length [(0, [0; 0; 0; 0])]) with 1%nat. change (length (sd ++ [L]) - 1)%nat with 3%nat in *. rewrite E. cbn [bindo]. do 3 eexists. split; [reflexivity|]. cbn [seq map nth_error]. rewrite (F 0%nat) by lia. split; [reflexivity|].
  cbn [INR Nat.mul Nat.add]. assert (0 < / ((1 + 1 + 1 + 1 + 1 + 1 + 1 + 1 + 1) * 1))%R by (apply Rinv_0_lt_compat; lra). unfold Rdiv. lra.
Qed.
Print Assumptions C64_no_fftw_refuted.

(** On the edge of the zone: 2^3 x 2, all momenta kept, one temporal link different from 1.  The
    temporal number of the zero momentum, a sum of absolute squares, is negative. *)
Lemma inst_sums_any sd L NC (A : field arr) s s' : lattice_ok (sd ++ [L]) -> 0 <= s < prodZ sd -> 0 <= s' < prodZ sd ->
  exists sp, inst_sums (sd ++ [L]) NC A s s' = Some (sp, dsum (Z.to_nat L) (fun t => re (trace_ab NC (A (Z.to_nat s + fft_size sd * t)%nat (length sd)) (A (Z.to_nat s' + fft_size sd * t)%nat (length sd))))).
Proof.
  intros Hok R1 R2. unfold inst_sums. rewrite (sl_Lt sd L), (sl_LCU sd L Hok). replace (length (sd ++ [L]) - 1)%nat with (length sd) by (rewrite app_length; cbn; lia).
  set (N := fft_size sd). set (T := Z.to_nat L).
  assert (K : forall n, (n <= T)%nat -> exists sp, for_ n (fun t st => do ' (sp, tm) <- st;
    if (0 <=? Z.of_nat (N * t) + s) && (Z.of_nat (N * t) + s <? lvolume (sd ++ [L])) && (0 <=? Z.of_nat (N * t) + s') && (Z.of_nat (N * t) + s' <? lvolume (sd ++ [L])) then
      Some (for_ (length sd) (fun mu v => (v + re (trace_ab NC (A (Z.to_nat (Z.of_nat (N * t) + s)) mu) (A (Z.to_nat (Z.of_nat (N * t) + s')) mu)))%R) sp,
        (tm + re (trace_ab NC (A (Z.to_nat (Z.of_nat (N * t) + s)) (length sd)) (A (Z.to_nat (Z.of_nat (N * t) + s')) (length sd))))%R)
    else None) (Some (0%R, 0%R)) = Some (sp, dsum n (fun t => re (trace_ab NC (A (Z.to_nat s + N * t)%nat (length sd)) (A (Z.to_nat s' + N * t)%nat (length sd)))))).
  { induction n as [|n IH]; intro Hn; [exists 0%R; reflexivity|]. destruct (IH ltac:(lia)) as [sp E]. cbn [for_]. rewrite E. cbn [bindo].
    pose proof (sl_prod sd L Hok) as PP. destruct (sl_pos sd L Hok) as [_ HL].
    assert (Hv : Z.of_nat (N * n) + prodZ sd <= lvolume (sd ++ [L])).
    { rewrite (sl_volume sd L Hok), Nat2Z.inj_mul. unfold N, fft_size. rewrite Z2Nat.id by lia. unfold T in Hn. nia. }
    replace ((0 <=? Z.of_nat (N * n) + s) && (Z.of_nat (N * n) + s <? lvolume (sd ++ [L])) && (0 <=? Z.of_nat (N * n) + s') && (Z.of_nat (N * n) + s' <? lvolume (sd ++ [L]))) with true by lia.
    replace (Z.to_nat (Z.of_nat (N * n) + s)) with (Z.to_nat s + N * n)%nat by lia. replace (Z.to_nat (Z.of_nat (N * n) + s')) with (Z.to_nat s' + N * n)%nat by lia.
    rewrite dsum_S. eexists. reflexivity. }
  apply K. lia.
Qed.
Definition cube2 : list Z := [2; 2; 2].
Definition cube2_list : list veclist := match get_mom_veclist (cube2 ++ [2]) 3 (fun _ => true) with Some l => l | None => [] end.
Definition one_link (x mu : nat) : bool := (Nat.eqb x 1 && Nat.eqb mu 3)%bool.
Lemma cube2_kept : skept cube2 2 3 (cut PSQ_CUT 4 0 0%R) cube2_list.
Proof.
  assert (Hok : lattice_ok (cube2 ++ [2])) by (split; [discriminate|]; split; [repeat (constructor; [unfold two31; lia|]); constructor|reflexivity]).
  unfold skept, cube2_list. change (length cube2) with 3%nat. pose proof (mom_veclist_eq cube2 [2] (safe_momenta (cube2 ++ [2]) 3 (cut PSQ_CUT 4 0 0%R) 3) (lat_ok_slices cube2 2 ltac:(discriminate) Hok)) as E.
  pose proof (mom_veclist_eq cube2 [2] (fun _ => true) (lat_ok_slices cube2 2 ltac:(discriminate) Hok)) as E'. change (length cube2) with 3%nat in E, E'. rewrite E, E'. f_equal. f_equal. apply filter_ext_in.
  intros p Hp. apply (C39_psq_cut _ _ _ _ _ _ 2); [split; [now left|]; intros K HK; cbn in HK; lia|].
  assert (Hz : zone cube2 (pp cube2 p)) by (apply pp_zone; repeat (constructor; [lia|]); constructor). revert Hz. generalize (pp cube2 p). intros q Hk.
  do 3 (inversion Hk as [|? ? ? ? ?H Hk']; subst; clear Hk; rename Hk' into Hk). inversion Hk; subst.
  unfold psq, frac, ssum, cube2, zeros. cbn [length nth map app]. change (2 / 2) with 1 in *.
  assert (B : forall q, -(1) <= q < 2 - 1 -> (IZR q * IZR q <= 1)%R) by (intros q Hq; assert (q * q <= 1) by nia; rewrite <- mult_IZR; now apply IZR_le).
  apply B in H, H0, H1. lra.
Qed.
Lemma one_link_mode q t : meq 2 (slice_mode cube2 (gauge_field 2 (some_links one_link)) q t 3) (if Nat.eqb t 0 then mscale (cis (2 * PI * dot cube2 q (coords cube2 1))) s3 else mzero).
Proof.
  intros a b Ha Hb. unfold slice_mode. change (nsites cube2) with 8%nat.
  assert (Z : forall x, x <> 1%nat -> gauge_field 2 (some_links one_link) x 3%nat a b = C0).
  { intros x Hx. rewrite (some_gauge one_link x 3%nat a b Ha Hb). unfold one_link. destruct (Nat.eqb_spec x 1); [contradiction|reflexivity]. }
  destruct (Nat.eqb_spec t 0) as [->|Nt].
  - cbn [csum]. rewrite (Z (0 + 8 * 0)%nat), (Z (2 + 8 * 0)%nat), (Z (3 + 8 * 0)%nat), (Z (4 + 8 * 0)%nat), (Z (5 + 8 * 0)%nat), (Z (6 + 8 * 0)%nat), (Z (7 + 8 * 0)%nat) by lia. change (1 + 8 * 0)%nat with 1%nat. rewrite (some_gauge one_link 1%nat 3%nat a b Ha Hb). change (one_link 1 3) with true. cbv iota. unfold mscale. ring.
  - transitivity (csum 8 (fun _ => C0)); [apply csum_ext; intros x Hx; rewrite Z by lia; ring|apply csum_0].
Qed.
Theorem C64_edge_refuted : exists sd L ci l U i s, lattice_ok (sd ++ [L]) /\ links_ok (sd ++ [L]) 2 U /\ skept sd L (length sd) ci l /\ nth_error l i = Some (s, zeros sd ++ [0]) /\
  (0 < slices_sum 2 (Z.to_nat L) sd (gauge_field 2 U) (zeros sd) (length sd))%R /\
  forall sched temp inp out s0, any_order sched -> exists res sp tm, cuts_spatial true sched (sd ++ [L]) 2 l temp inp out s0 U = Some res /\ nth_error res i = Some (sp, tm) /\ (tm < 0)%R.
Proof.
  assert (Hok : lattice_ok (cube2 ++ [2])) by (split; [discriminate|]; split; [repeat (constructor; [unfold two31; lia|]); constructor|reflexivity]).
  assert (Hne : cube2 <> []) by discriminate.
  exists cube2, 2, (cut PSQ_CUT 4 0 0%R), cube2_list, (some_links one_link), 7%nat, 0.
  assert (E7 : nth_error cube2_list 7 = Some (0, [0; 0; 0] ++ [0])) by (vm_compute; reflexivity).
  assert (E0 : nth_error cube2_list 0 = Some (7, [-1; -1; -1] ++ [0])) by (vm_compute; reflexivity).
  assert (Ln : length cube2_list = 8%nat) by (vm_compute; reflexivity).
  split; [exact Hok|]. split; [apply some_links_ok|]. split; [exact cube2_kept|]. split; [exact E7|].
  assert (D0 : cis (2 * PI * dot cube2 [0; 0; 0] (coords cube2 1)) = C1).
  { rewrite <- cis_0. f_equal. unfold dot, coords. cbn. field. }
  assert (D1 : cis (2 * PI * dot cube2 [-1; -1; -1] (coords cube2 1)) = (- C1)%C).
  { replace (2 * PI * _)%R with (- PI)%R; [unfold cis; rewrite cos_neg, sin_neg, cos_PI, sin_PI; apply C_eq; cunfold; ring|]. unfold dot, coords. cbn. field. }
  assert (M0 : forall t, meq 2 (slice_mode cube2 (gauge_field 2 (some_links one_link)) [0; 0; 0] t 3) (if Nat.eqb t 0 then s3 else mzero)).
  { intro t. rewrite one_link_mode, D0. destruct (Nat.eqb t 0); [|reflexivity]. intros a b _ _. unfold mscale. ring. }
  assert (M1 : forall t, meq 2 (slice_mode cube2 (gauge_field 2 (some_links one_link)) [-1; -1; -1] t 3) (if Nat.eqb t 0 then mscale (- C1)%C s3 else mzero)).
  { intro t. now rewrite one_link_mode, D1. }
  split.
  - unfold slices_sum. change (zeros cube2) with [0; 0; 0]. change (length cube2) with 3%nat. change (Z.to_nat 2) with 2%nat. unfold dsum. cbn [seq map fold_right].
    rewrite !(norm2_meq 2 _ _ (M0 _)). cbn [Nat.eqb]. rewrite (norm2_zero 2 mzero) by reflexivity.
    replace s3 with (mscale (RtoC 1) s3); [rewrite norm2_s3; lra|]. apply functional_extensionality. intro a. apply functional_extensionality. intro b. unfold mscale. destruct (s3 a b). apply C_eq; cunfold; ring.
  - intros sched temp inp out s0 Any.
    destruct (mom_gauge_spatial_ok sched cube2 2 2 Hok Any temp inp out (some_links one_link) ltac:(lia)) as (A & EA & FA).
    { intros i mu Hi Hm. apply (links_shaped (cube2 ++ [2]) 2 _ (some_links_ok (cube2 ++ [2]) one_link)); [exact Hi|exact Hm]. }
    unfold cuts_spatial. rewrite EA. cbn [bindo]. change (length (cube2 ++ [2%Z]) - 1)%nat with 3%nat.
    destruct (correct_pspace_ok sched (cube2 ++ [2]) 2 Hok Any 3 cube2_list A) as (A' & EC & _).
    { intros idx k Hk. apply (slist_range cube2 2 _ cube2_list Hne Hok cube2_kept) in Hk. cbn in Hk |- *. lia. }
    { apply (slist_nodup cube2 2 _ cube2_list Hne Hok cube2_kept). }
    rewrite EC. cbn [bindo]. set (g := fun i => match inst_prop (cube2 ++ [2]) 2 A' cube2_list i with Some v => v | None => (0%R, 0%R) end).
    assert (V : forall s q t, In (s, q ++ [0]) cube2_list -> (t < 2)%nat -> meq 2 (mx 2 (A' (Z.to_nat s + fft_size cube2 * t)%nat 3%nat)) (slice_mode cube2 (gauge_field 2 (some_links one_link)) q t 3)).
    { intros s q t H Ht. rewrite (value_ok cube2 2 _ cube2_list Hne Hok cube2_kept sched 2 (some_links one_link) A A' Any ltac:(lia) FA EC s q t 3 H Ht ltac:(cbn; lia)).
      unfold ph. change (Nat.ltb 3 (length cube2)) with false. rewrite andb_false_r. intros a b _ _. unfold mscale. ring. }
    assert (Q : forall i, (i < 8)%nat -> inst_prop (cube2 ++ [2]) 2 A' cube2_list i = Some (g i)).
    { intros i Hi. unfold g. assert (S : exists v, inst_prop (cube2 ++ [2]) 2 A' cube2_list i = Some v); [|destruct S as [v ->]; reflexivity].
      unfold inst_prop. destruct (nth_error cube2_list i) as [[s p]|] eqn:Ei; [|apply nth_error_None in Ei; lia].
      destruct (nth_error cube2_list (length cube2_list - i - 1)) as [[s' p']|] eqn:Ej; [|apply nth_error_None in Ej; lia]. cbn [bindo].
      apply nth_error_In in Ei, Ej. destruct (inst_sums_any cube2 2 2 A' s s' Hok) as [sp ->]; [eapply (slist_range cube2 2 _ cube2_list Hne Hok cube2_kept); eassumption..|]. cbn [bindo]. eexists. reflexivity. }
    rewrite Ln. destruct (write_all sched 8 _ g Any Q s0) as (st & E & F). rewrite E. cbn [bindo]. do 3 eexists. split; [reflexivity|].
    cbn [seq map nth_error]. split; [reflexivity|].
    assert (G : snd (g 7%nat) = (-2 * (2 / (INR ((2 * 2 - 1) * 2) * 16)))%R).
    { unfold g, inst_prop. rewrite Ln, E7. change (8 - 7 - 1)%nat with 0%nat. rewrite E0. cbn [bindo].
      destruct (inst_sums_any cube2 2 2 A' 0 7 Hok) as [sp ->]; [cbn; lia..|]. cbn [bindo snd]. change (Nat.eqb 7 ((8 - 1) / 2)) with false.
      change (length (cube2 ++ [2])) with 4%nat. change (Nat.ltb 2 4) with true. cbv iota. change (lvolume (cube2 ++ [2])) with 16. change (4 - 2)%nat with 2%nat. f_equal.
      change (length cube2) with 3%nat. change (Z.to_nat 2) with 2%nat. unfold dsum. cbn [seq map fold_right].
      apply nth_error_In in E7, E0. rewrite !trace_ab_ok.
      assert (W : forall t, (t < 2)%nat -> re (mtr 2 (mmul 2 (mx 2 (A' (Z.to_nat 0 + fft_size cube2 * t)%nat 3%nat)) (mx 2 (A' (Z.to_nat 7 + fft_size cube2 * t)%nat 3%nat)))) = if Nat.eqb t 0 then (-2)%R else 0%R).
      { intros t Ht. rewrite (mtr_meq 2 _ (mmul 2 (if Nat.eqb t 0 then s3 else mzero) (if Nat.eqb t 0 then mscale (- C1)%C s3 else mzero))).
        - unfold mtr, mmul, mscale, s3, mzero. destruct (Nat.eqb t 0); cbn [csum]; cunfold; ring.
        - rewrite (V 0 [0; 0; 0] t E7 Ht), (V 7 [-1; -1; -1] t E0 Ht), M0, M1. reflexivity. }
      rewrite !W by lia. cbn [Nat.eqb]. ring. }
    pose proof (f_equal snd (F 7%nat ltac:(lia))) as G'. cbn [snd] in G'. rewrite G', G. cbn [INR Nat.mul Nat.add Nat.sub]. lra.
Qed.
Print Assumptions C64_edge_refuted.
