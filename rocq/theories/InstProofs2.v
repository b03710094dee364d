(** The instantaneous propagators: the list of momenta and the sums. *)
From Coq Require Import Permutation Sorted.
From Verif Require Import CInt GeomModel GeomSpec GeomProofs GeomProofs2 Cplx CMat Det Arr MatSpec MatModel MatProofs ProjModel ProjProofs FftModel FftProofs QtopModel QtopSpec QtopProofs QtopProofs2.
From Verif Require Import StaticModel StaticProofs CutsModel CutsSpec CutsProofs SmearModel GluonModel GluonSpec GluonProofs GluonProofs2 GluonProofs3 GluonProofs4 GluonProofs5 InstModel InstSpec InstProofs Properties_Cuts.
Local Open Scope Z_scope.

Lemma dsum_swap_any n m (f : nat -> nat -> R) : dsum n (fun i => dsum m (fun j => f i j)) = dsum m (fun j => dsum n (fun i => f i j)).
Proof.
  induction n as [|n IH].
  - rewrite dsum_0. induction m as [|m IH]; [reflexivity|]. rewrite dsum_S, <- IH, dsum_0. ring.
  - rewrite dsum_S, IH. clear IH. induction m as [|m IH]; [rewrite !dsum_0; ring|]. rewrite (dsum_S m), (dsum_S m (fun j => f n j)), (dsum_S m (fun j => dsum (S n) _)), <- IH, dsum_S. ring.
Qed.
Lemma for_add n f a : for_ n (fun mu s => (s + f mu)%R) a = (a + dsum n f)%R.
Proof. induction n as [|n IH]; cbn [for_]; [rewrite dsum_0; ring|]. rewrite IH, dsum_S. ring. Qed.
Lemma lat_ok_slices sd L : sd <> [] -> lattice_ok (sd ++ [L]) -> lat_ok sd [L].
Proof.
  intros Hne Hok. split; [cbn; lia|]. split; [assumption|]. destruct (Hok) as (_ & H & _). split; [exact H|].
  rewrite <- (lvolume_prod _ Hok). rewrite (sl_volume sd L Hok). pose proof (sl_prod sd L Hok). apply Forall_app in H as [_ H]. inversion H. unfold two31, two64 in *. nia.
Qed.
Lemma tr_phases n c c' A B M : (c * c' = C1)%C -> meq n A (mscale c M) -> meq n B (mscale c' (dag M)) -> re (mtr n (mmul n A B)) = norm2 n M.
Proof.
  intros Hc HA HB. unfold norm2. f_equal. unfold mtr. apply csum_ext. intros i Hi. unfold mmul. apply csum_ext. intros j Hj.
  rewrite (HA i j), (HB j i) by assumption. unfold mscale. transitivity ((c * c') * (M i j * dag M j i))%C; [ring|]. rewrite Hc. ring.
Qed.

Section List.
Variables (sd : list Z) (L : Z) (safe : list Z -> bool) (lst : list veclist).
Local Notation ds := (sd ++ [L]).
Hypothesis Hne : sd <> [].
Hypothesis Hok : lattice_ok ds.
Hypothesis El : get_mom_veclist ds (length sd) safe = Some lst.
Let pos : Forall (fun L => 0 < L) sd. Proof. apply (sl_pos sd L Hok). Qed.
Lemma slist_in : increasing_by (fun a b => rlex (snd a) (snd b)) lst /\
  forall s p, In (s, p) lst <-> exists q, zone sd q /\ p = q ++ [0] /\ safe p = true /\ s = horner sd (residues sd q).
Proof.
  destruct (mom_veclist_ok sd [L] safe (lat_ok_slices sd L Hne Hok)) as (l & E & Hs & Hi). rewrite El in E. injection E as <-. split; [assumption|].
  intros s p. rewrite Hi. assert (Hh : forall q, zone sd q -> index_of ds (residues sd q ++ zeros [L]) = horner sd (residues sd q)).
  { intros q Hz. assert (B : in_box sd (residues sd q)) by (apply residues_box; [assumption|now apply zone_length]). apply in_box_length in B.
    rewrite index_of_horner by (rewrite !app_length, B; reflexivity). unfold zeros. cbn [map]. rewrite horner_snoc by assumption. ring. }
  split; intros (q & Hz & -> & Hq & ->); exists q; (split; [assumption|]; split; [reflexivity|]; split; [assumption|]); [|symmetry]; now apply Hh.
Qed.
Lemma slist_range s p : In (s, p) lst -> 0 <= s < prodZ sd.
Proof.
  intro H. apply slist_in in H. destruct H as (q & Hz & _ & _ & ->). apply horner_bound, residues_box; [assumption|now apply zone_length].
Qed.
Lemma slist_nodup : NoDup (map fst lst).
Proof.
  destruct slist_in as [Hs Hi]. apply NoDup_map_in.
  - intros [s p] [t p'] H1 H2 Est. cbn [fst] in Est. subst t. f_equal. apply Hi in H1, H2. destruct H1 as (q & Z1 & -> & _ & E1), H2 as (q' & Z2 & -> & _ & E2).
    f_equal. apply (zone_unique sd pos); try assumption. rewrite E1 in E2.
    assert (B1 : in_box sd (residues sd q)) by (apply residues_box; [assumption|now apply zone_length]). assert (B2 : in_box sd (residues sd q')) by (apply residues_box; [assumption|now apply zone_length]).
    rewrite <- (digits_horner sd _ B1), <- (digits_horner sd _ B2). now rewrite E2.
  - clear -Hs. induction Hs as [|a l Hs IH Ha]; constructor; [|assumption]. intro H. rewrite Forall_forall in Ha. apply (rlex_irrefl (snd a)). now apply Ha.
Qed.

Section Values.
Variables (sched : schedule) (NC : nat) (U A A' : field arr).
Hypothesis Any : any_order sched.
Hypothesis HN : (0 < NC)%nat.
Let N := fft_size sd.
Let T := Z.to_nat L.
Let D := length sd.
Hypothesis Modes : forall t i mu a b, (t < T)%nat -> (i < N)%nat -> (mu < length ds)%nat -> (a < NC)%nat -> (b < NC)%nat ->
  mx NC (A (i + N * t)%nat mu) a b = dft BACKWARD sd (fun x => gauge_field NC U (x + N * t)%nat mu a b) i.
Hypothesis Corr : correct_pspace_landau sched ds NC D lst A = Some A'.
Let S q t mu := slice_mode sd (gauge_field NC U) q t mu.
Definition ph (q : list Z) (t mu : nat) : C := if (Nat.eqb t 0 && Nat.ltb mu D)%bool then cis (PI * IZR (nth mu (q ++ [0%Z]) 0%Z) / IZR (nth mu ds 1%Z))%R else C1.
Lemma value_ok s q t mu : In (s, q ++ [0]) lst -> (t < T)%nat -> (mu <= D)%nat ->
  meq NC (mx NC (A' (Z.to_nat s + N * t)%nat mu)) (mscale (ph q t mu) (S q t mu)).
Proof.
  intros H Ht Hm a b Ha Hb. pose proof (slist_range _ _ H) as Hr. assert (Hi : (Z.to_nat s < N)%nat) by (unfold N, fft_size; lia).
  pose proof H as H'. apply slist_in in H'. destruct H' as (q' & Hz & Eq & _ & Es). apply app_inj_tail in Eq as [<- _].
  assert (Lq : length q = length sd) by (now apply zone_length).
  assert (Hm' : (mu < length ds)%nat) by (rewrite app_length; cbn; unfold D in Hm; lia).
  assert (M0 : mx NC (A (Z.to_nat s + N * t)%nat mu) a b = S q t mu a b).
  { rewrite Modes by assumption. unfold S. apply (slice_mode_dft sd L Hok); [assumption|now rewrite Es]. }
  unfold ph. destruct (Nat.eqb_spec t 0) as [->|Nt]; [destruct (Nat.ltb_spec mu D) as [Lm|Gm]|]; cbn [andb].
  - destruct (correct_pspace_ok sched ds NC Hok Any D lst A) as (A'' & E & F).
    + intros idx k Hk. apply slist_range in Hk. rewrite <- (lvolume_prod _ Hok), (sl_volume sd L Hok). destruct (sl_pos sd L Hok). nia.
    + exact slist_nodup.
    + rewrite Corr in E. injection E as <-. rewrite Nat.mul_0_r, Nat.add_0_r in *. unfold mx in M0 |- *. rewrite (F s (q ++ [0]) mu _ H Lm) by nia.
      rewrite M0. unfold mscale. ring.
  - rewrite (correct_frame sched sd L NC D lst A A' Corr) by (now right). rewrite M0. unfold mscale. ring.
  - rewrite (correct_frame sched sd L NC D lst A A' Corr).
    + rewrite M0. unfold mscale. ring.
    + left. intros idx k Hk. apply slist_range in Hk. intro E. assert ((Z.to_nat idx < N)%nat) by (unfold N, fft_size; lia). nia.
Qed.
Lemma pair_ok s s' q t mu : In (s, q ++ [0]) lst -> In (s', map Z.opp (q ++ [0])) lst -> (t < T)%nat -> (mu <= D)%nat ->
  re (trace_ab NC (A' (Z.to_nat s + N * t)%nat mu) (A' (Z.to_nat s' + N * t)%nat mu)) = norm2 NC (S q t mu).
Proof.
  intros H H' Ht Hm. rewrite map_app in H'. cbn [map Z.opp] in H'.
  rewrite trace_ab_ok. apply (tr_phases NC (ph q t mu) (ph (map Z.opp q) t mu)).
  - unfold ph. destruct (Nat.eqb t 0 && Nat.ltb mu D)%bool; [|ring]. rewrite <- cis_add, <- cis_0. f_equal.
    change (map Z.opp q ++ [0]) with (map Z.opp q ++ map Z.opp [0]). rewrite <- map_app, nth_opp, opp_IZR. unfold Rdiv. ring.
  - now apply value_ok.
  - rewrite (value_ok s' (map Z.opp q) t mu H' Ht Hm). intros a b Ha Hb. unfold mscale. f_equal.
    apply (slice_mode_opp sd NC (gauge_field NC U) q t mu); try assumption. intros x Hx. now apply trf_herm_hermitian.
Qed.
Lemma inst_sums_ok s s' q : In (s, q ++ [0]) lst -> In (s', map Z.opp (q ++ [0])) lst ->
  inst_sums ds NC A' s s' = Some (dsum D (fun mu => slices_sum NC T sd (gauge_field NC U) q mu), slices_sum NC T sd (gauge_field NC U) q D).
Proof.
  intros H H'. unfold inst_sums. rewrite (sl_Lt sd L), (sl_LCU sd L Hok). fold N. fold T.
  replace (length ds - 1)%nat with D by (rewrite app_length; cbn; unfold D; lia).
  set (f := fun t mu => norm2 NC (S q t mu)).
  assert (K : forall n, (n <= T)%nat -> for_ n (fun t st => do ' (sp, tm) <- st;
    if (0 <=? Z.of_nat (N * t) + s) && (Z.of_nat (N * t) + s <? lvolume ds) && (0 <=? Z.of_nat (N * t) + s') && (Z.of_nat (N * t) + s' <? lvolume ds) then
      Some (for_ D (fun mu v => (v + re (trace_ab NC (A' (Z.to_nat (Z.of_nat (N * t) + s)) mu) (A' (Z.to_nat (Z.of_nat (N * t) + s')) mu)))%R) sp,
        (tm + re (trace_ab NC (A' (Z.to_nat (Z.of_nat (N * t) + s)) D) (A' (Z.to_nat (Z.of_nat (N * t) + s')) D)))%R)
    else None) (Some (0%R, 0%R)) = Some (dsum n (fun t => dsum D (f t)), dsum n (fun t => f t D))).
  { induction n as [|n IH]; intro Hn; [reflexivity|]. cbn [for_]. rewrite IH by lia. cbn [bindo].
    pose proof (slist_range _ _ H) as R1. pose proof (slist_range _ _ H') as R2. pose proof (sl_prod sd L Hok) as PP. destruct (sl_pos sd L Hok) as [_ HL].
    assert (Hv : Z.of_nat (N * n) + prodZ sd <= lvolume ds).
    { rewrite (sl_volume sd L Hok), Nat2Z.inj_mul. unfold N, fft_size. rewrite Z2Nat.id by lia. unfold T in Hn. nia. }
    replace ((0 <=? Z.of_nat (N * n) + s) && (Z.of_nat (N * n) + s <? lvolume ds) && (0 <=? Z.of_nat (N * n) + s') && (Z.of_nat (N * n) + s' <? lvolume ds)) with true by lia.
    replace (Z.to_nat (Z.of_nat (N * n) + s)) with (Z.to_nat s + N * n)%nat by lia. replace (Z.to_nat (Z.of_nat (N * n) + s')) with (Z.to_nat s' + N * n)%nat by lia.
    f_equal. f_equal.
    - rewrite for_add, dsum_S. f_equal. apply dsum_ext. intros mu Hm. now apply pair_ok; try lia.
    - rewrite dsum_S. f_equal. now apply pair_ok. }
  etransitivity; [apply (K T); lia|]. f_equal. f_equal. unfold slices_sum. apply dsum_swap_any.
Qed.
End Values.

(** what is written *)
Definition inst_norm (NC : nat) (i : nat) : R :=
  let V := IZR (lvolume ds) in
  let D := length sd in
  if Nat.eqb i ((length lst - 1) / 2) then (2 / (INR ((NC * NC - 1) * D) * V))%R
  else if Nat.ltb 1 D then (2 / (INR ((NC * NC - 1) * (D - 1)) * V))%R else (2 / (INR (NC * NC - 1) * V))%R.
Lemma write_all sched n (f : nat -> option (R * R)) g : any_order sched -> (forall i, (i < n)%nat -> f i = Some (g i)) -> forall s0 : (nat -> R) * (nat -> R), exists s,
  mfor (sched [4] n) (fun i s => do ' (sp, tm) <- f i; Some (fun k => if Nat.eqb k i then sp else fst s k, fun k => if Nat.eqb k i then tm else snd s k)) s0 = Some s /\
  forall i, (i < n)%nat -> (fst s i, snd s i) = g i.
Proof.
  intros Any H s0. destruct (perm_order _ _ (Any [4] n)) as [Nd In1].
  assert (K : forall order, NoDup order -> (forall i, In i order -> (i < n)%nat) -> forall s0 : (nat -> R) * (nat -> R), exists s,
    mfor order (fun i s => do ' (sp, tm) <- f i; Some (fun k => if Nat.eqb k i then sp else fst s k, fun k => if Nat.eqb k i then tm else snd s k)) s0 = Some s /\
    (forall i, In i order -> (fst s i, snd s i) = g i) /\ (forall i, ~ In i order -> fst s i = fst s0 i /\ snd s i = snd s0 i)).
  { clear s0 Nd In1. induction order as [|i order IH]; intros Nd Hi s0; [exists s0; split; [reflexivity|split; [intros i []|split; reflexivity]]|].
    inversion_clear Nd as [|? ? NI Nd']. cbn [mfor]. rewrite H by (apply Hi, in_eq). destruct (g i) as [x y] eqn:G. cbn [bindo].
    edestruct (IH Nd' (fun j Hj => Hi j (in_cons _ _ _ Hj))) as (s & E & F & K). rewrite E. exists s. split; [reflexivity|]. split.
    - intros j [->|Hj]; [|now apply F]. destruct (K j NI) as [-> ->]. cbn [fst snd]. now rewrite Nat.eqb_refl.
    - intros j Hj. destruct (K j) as [-> ->]; [intro; apply Hj; now right|]. cbn [fst snd]. destruct (Nat.eqb_spec j i) as [->|Nj]; [exfalso; apply Hj, in_eq|split; reflexivity]. }
  destruct (K _ Nd (fun i Hi => proj1 (In1 i) Hi) s0) as (s & E & F & _). exists s. split; [exact E|]. intros i Hi. now apply F, In1.
Qed.
Theorem inst_written sched NC temp inp out s0 U : any_order sched -> (0 < NC)%nat ->
  (forall i mu, (i < nsites ds)%nat -> (mu < length ds)%nat -> shaped NC (mx NC (U i mu))) -> mirrored lst ->
  exists res, cuts_spatial true sched ds NC lst temp inp out s0 U = Some res /\ length res = length lst /\
  forall i s q, nth_error lst i = Some (s, q ++ [0]) ->
    nth_error res i = Some (dsum (length sd) (fun mu => slices_sum NC (Z.to_nat L) sd (gauge_field NC U) q mu) * inst_norm NC i,
                            slices_sum NC (Z.to_nat L) sd (gauge_field NC U) q (length sd) * inst_norm NC i)%R.
Proof.
  intros Any HN Sh Mir.
  assert (Sh' : forall i mu, (i < fft_size sd * Z.to_nat L)%nat -> (mu < length ds)%nat -> shaped NC (mx NC (U i mu))).
  { intros i mu Hi. apply Sh. rewrite <- (volume_NT sd L Hok), (lvolume_prod _ Hok) in Hi. exact Hi. }
  destruct (mom_gauge_spatial_ok sched sd L NC Hok Any temp inp out U HN Sh') as (A & EA & FA).
  unfold cuts_spatial. rewrite EA. cbn [bindo]. replace (length ds - 1)%nat with (length sd) by (rewrite app_length; cbn; lia).
  destruct (correct_pspace_ok sched ds NC Hok Any (length sd) lst A) as (A' & EC & _).
  { intros idx k Hk. apply slist_range in Hk. rewrite <- (lvolume_prod _ Hok), (sl_volume sd L Hok). destruct (sl_pos sd L Hok). nia. }
  { exact slist_nodup. }
  rewrite EC. cbn [bindo].
  set (q := fun i => match nth_error lst i with Some (_, p) => removelast p | None => [] end).
  set (g := fun i => (dsum (length sd) (fun mu => slices_sum NC (Z.to_nat L) sd (gauge_field NC U) (q i) mu) * inst_norm NC i,
                      slices_sum NC (Z.to_nat L) sd (gauge_field NC U) (q i) (length sd) * inst_norm NC i)%R).
  assert (Gi : forall i, (i < length lst)%nat -> inst_prop ds NC A' lst i = Some (g i)).
  { intros i Hi. unfold inst_prop. destruct (nth_error lst i) as [[s p]|] eqn:Ei; [|apply nth_error_None in Ei; lia]. cbn [bindo].
    assert (Hj : (length lst - i - 1 < length lst)%nat) by lia.
    destruct (nth_error lst (length lst - i - 1)) as [[s' p']|] eqn:Ej; [|apply nth_error_None in Ej; lia]. cbn [bindo].
    assert (Ep : p' = map Z.opp p). { replace (length lst - i - 1)%nat with (length lst - 1 - i)%nat in Ej by lia. apply (Mir i (s, p) (s', p') Ei Ej). }
    subst p'. apply nth_error_In in Ej. pose proof (nth_error_In _ _ Ei) as Ii. pose proof Ii as Ii'. apply slist_in in Ii'. destruct Ii' as (q0 & _ & -> & _).
    rewrite (inst_sums_ok sched NC U A A' Any HN FA EC s s' q0 Ii Ej). cbn [bindo]. unfold g, q. rewrite Ei, removelast_last.
    unfold inst_norm. replace (length ds) with (S (length sd)) by (rewrite app_length; cbn; lia).
    replace (S (length sd) - 1)%nat with (length sd) by lia. replace (S (length sd) - 2)%nat with (length sd - 1)%nat by lia.
    assert (Hd : (0 < length sd)%nat) by (destruct sd; [contradiction|cbn; lia]).
    replace (Nat.ltb 2 (S (length sd))) with (Nat.ltb 1 (length sd)) by reflexivity. replace (Nat.ltb 1 (S (length sd))) with true by (symmetry; apply Nat.ltb_lt; lia).
    reflexivity. }
  destruct (write_all sched (length lst) _ g Any Gi s0) as (s & E & F). rewrite E. cbn [bindo]. eexists. split; [reflexivity|]. split; [now rewrite map_length, seq_length|].
  intros i s1 q1 Ei. assert (Hi : (i < length lst)%nat) by (apply nth_error_Some; congruence).
  rewrite nth_error_map, (nth_error_nth' _ 0%nat) by (now rewrite seq_length). rewrite seq_nth by assumption. cbn [option_map Nat.add].
  rewrite (F i Hi). unfold g, q. now rewrite Ei, removelast_last.
Qed.
End List.
