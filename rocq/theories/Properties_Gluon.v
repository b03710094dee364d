(** C63: the gluon propagator in momentum space.
    [safe_momenta ds sd ci (length ds)] is the cut; [mode ds (gauge_field NC U) k mu] the Fourier mode
    of the gauge field with momentum 2 pi k_mu / L_mu. *)
From Coq Require Import Permutation Sorted Psatz Ratan.
From Verif Require Import CInt GeomModel GeomSpec GeomProofs Cplx CMat Det Arr MatSpec ProjProofs FftModel FftProofs QtopModel QtopSpec QtopProofs QtopProofs2 HypProofs.
From Verif Require Import CutsModel CutsSpec CutsProofs CutsRModel CutsRSpec CutsRProofs Properties_Cuts SmearModel GluonModel GluonSpec GluonProofs GluonProofs2 GluonProofs3 GluonProofs4 GluonProofs5.
Local Open Scope Z_scope.

Definition links_ok (ds : list Z) (NC : nat) (U : field arr) : Prop := forall x mu, (x < nsites ds)%nat -> (mu < length ds)%nat -> SUn NC (mx NC (U x mu)).
(** the position in the lattice of the first half of the entries is an int *)
Definition int_sites (l : list veclist) : Prop := forall i s k, (i < length l / 2)%nat -> nth_error l i = Some (s, k) -> s < two31.
Definition kept (ds : list Z) (sd : nat) (ci : cut_info) (l : list veclist) : Prop := get_mom_veclist ds (length ds) (safe_momenta ds sd ci (length ds)) = Some l.
(** no momentum is on the edge of the zone *)
Definition all_inside (ds : list Z) (l : list veclist) : Prop := forall s k, In (s, k) l -> inside ds k.
Definition mom (b : mom_build) : list Z -> list Z -> nat -> R := match b with SinMom => khat | PsqMom => kcont end.

Lemma links_shaped ds NC U : links_ok ds NC U -> forall x mu, (x < nsites ds)%nat -> (mu < length ds)%nat -> shaped NC (mx NC (U x mu)).
Proof. intros H x mu Hx Hm. now apply shaped_SUn, H. Qed.
Lemma kept_mirrored ds sd ci l : lattice_ok ds -> kept ds sd ci l -> all_inside ds l -> mirrored l.
Proof.
  intros Hok E Hi. pose proof (C40_mirror ds [] sd ci l (lat_ok_lattice ds Hok)) as C. rewrite app_nil_r in C. apply C; [exact E|].
  intros s k Hk. apply inside_not_edge. now apply (Hi s).
Qed.
Lemma zeros_neq ds k : length k = length ds -> k <> zeros ds -> exists mu, (mu < length ds)%nat /\ nth mu k 0 <> 0.
Proof.
  revert k. induction ds as [|d ds IH]; intros [|q k] Hl Hne; try discriminate; [now contradict Hne|].
  destruct (Z.eq_dec q 0) as [->|N]; [|exists 0%nat; split; [cbn; lia|exact N]].
  destruct (IH k) as (mu & H1 & H2); [simpl in Hl; lia|intros ->; now apply Hne|]. exists (S mu). split; [cbn; lia|exact H2].
Qed.
Lemma mom_zeros b ds mu : mom_of b ds (zeros ds) mu = 0%R.
Proof.
  assert (E : nth mu (zeros ds) 0 = 0) by (unfold zeros; clear; revert mu; induction ds; intros [|mu]; cbn; auto).
  destruct b; unfold mom_of, khat, kcont; rewrite E; unfold Rdiv; [replace (PI * 0 * / IZR (nth mu ds 1%Z))%R with 0%R by ring; rewrite sin_0; ring|ring].
Qed.
Lemma along_0 n N p A : (forall mu, p mu = 0%R) -> along n N p A = 0%R.
Proof.
  intro H. rewrite along_sum. rewrite (dsum_ext _ _ (fun _ => 0 * 0)%R); [rewrite (dsum_mul _ 0 (fun _ => 0%R)); ring|]. intros mu _.
  rewrite (dsum_ext _ _ (fun _ => 0 * 0)%R); [rewrite (dsum_mul _ 0 (fun _ => 0%R)); ring|]. intros nu _. rewrite H. ring.
Qed.

(** One pair of numbers for every momentum of the list: the transverse part, averaged over the
    NC^2 - 1 colours and the ND - 1 polarisations, and the longitudinal part, both per volume.  At zero
    momentum all ND polarisations are averaged.  Whatever was in memory, whatever the order of the
    threads.  Missing for the full claim: momenta on the edge of the zone, volumes whose sites are
    not an int, extents above 10^6 (where p^2 may fall below the tolerance for zero). *)
Theorem C63_propagator_partial : forall b sched ds NC sd ci l temp inp out s0 U,
  lattice_ok ds -> Forall (fun L => L <= 10 ^ 6) ds -> (2 <= length ds)%nat -> (2 <= NC <= 100)%nat -> any_order sched -> links_ok ds NC U ->
  kept ds sd ci l -> all_inside ds l -> (exists s, In (s, zeros ds) l) -> int_sites l ->
  exists res, gluon_props b sched ds NC l temp inp out s0 U = Some res /\ length res = length l /\
  forall i s k, nth_error l i = Some (s, k) ->
    let A := mode ds (gauge_field NC U) k in
    let c := INR (NC * NC - 1) in
    let V := INR (nsites ds) in
    exists t lg, nth_error res i = Some (t, lg) /\
    (k = zeros ds -> t = 2 / (c * INR (length ds) * V) * all_pol NC (length ds) A /\ lg = 0)%R /\
    (k <> zeros ds -> t = 2 / (c * INR (length ds - 1) * V) * transverse NC (length ds) (mom b ds k) A /\
                      lg = 2 / (c * V) * longitudinal NC (length ds) (mom b ds k) A)%R.
Proof.
  intros b sched ds NC sd ci l temp inp out s0 U Hok HL Hd HN Any HU El Hin Hz Hint.
  assert (pos : Forall (fun L => 0 < L) ds) by (apply ok_pos, Hok).
  assert (HL' : Forall (fun L => 0 < L <= 10 ^ 6) ds) by (rewrite Forall_forall in *; intros L HLi; split; [now apply pos|now apply HL]).
  assert (Hne : l <> []) by (destruct Hz as [s Hz]; intros ->; destruct Hz).
  assert (Hm := kept_mirrored ds sd ci l Hok El Hin).
  destruct (gluon_written b sched ds NC (safe_momenta ds sd ci (length ds)) l temp inp out s0 U (fun k => k) Hok) as (res & E & Ln & F); try assumption; try lia.
  { now apply links_shaped. }
  { intros idx k Hk. apply (list_conv ds (safe_momenta ds sd ci (length ds)) l Hok El idx k Hk). apply inside_zone_ok. now apply (Hin idx). }
  exists res. split; [exact E|]. split; [exact Ln|]. intros i s k Hi A c V.
  assert (Hil : (i < length l)%nat) by (apply nth_error_Some; now rewrite Hi).
  (* the middle is the zero momentum, and it is nowhere else *)
  assert (Mid : exists sz, nth_error l ((length l - 1) / 2) = Some (sz, zeros ds)).
  { pose proof (C40_middle ds [] sd ci l (lat_ok_lattice ds Hok)) as C. rewrite app_nil_r in C. apply C; assumption. }
  destruct Mid as [sz Mid].
  set (n := length l) in *. assert (D1 := Nat.div_mod (n - 1) 2 ltac:(lia)). assert (D2 := Nat.mod_upper_bound (n - 1) 2 ltac:(lia)).
  assert (Dn := Nat.div_mod n 2 ltac:(lia)). assert (Dm := Nat.mod_upper_bound n 2 ltac:(lia)).
  assert (Uniq : forall j s', nth_error l j = Some (s', zeros ds) -> j = ((n - 1) / 2)%nat).
  { intros j s' Hj. destruct (list_in ds _ l Hok El) as [Hs Hi']. assert (s' = sz) by (apply nth_error_In in Hj, Mid; apply Hi' in Hj, Mid; destruct Hj as (_ & _ & ->), Mid as (_ & _ & ->); reflexivity).
    subst s'. apply (sorted_nth_inj _ (fun a => rlex_irr (snd a)) l Hs _ _ _ Hj Mid). }
  assert (Odd : ((n - 1) / 2 = n / 2)%nat).
  { destruct (nth_error l (n - 1 - (n - 1) / 2)) as [[sb kb]|] eqn:Eb; [|apply nth_error_None in Eb; fold n in Eb; lia].
    assert (Q := Hm _ _ _ Mid Eb). cbn [snd] in Q. assert (Hkb : kb = zeros ds) by (rewrite Q; unfold zeros; rewrite map_map; apply map_ext; reflexivity). rewrite Hkb in Eb. apply Uniq in Eb. clear -D1 D2 Dn Dm Eb Hil. lia. }
  set (j := source l i). assert (Hj : (j <= n / 2)%nat) by (unfold j, source; fold n; destruct (Nat.leb_spec i (n / 2)); lia).
  destruct (nth_error l j) as [[sj kj]|] eqn:Ej; [|apply nth_error_None in Ej; fold n in Ej; lia].
  assert (Sgn : kj = k \/ kj = map Z.opp k).
  { unfold j, source in Ej. fold n in Ej. destruct (Nat.leb_spec i (n / 2)) as [H1|H1].
    - left. rewrite Hi in Ej. now injection Ej as <- <-.
    - right. apply (Hm i _ _ Hi Ej). }
  specialize (F i sj kj Hil Ej). fold j in F. do 2 eexists. split; [exact F|].
  (* values of k and -k agree *)
  assert (Herm : forall x, forall mu, (x < nsites ds)%nat -> hermitian NC (gauge_field NC U x mu)) by (intros; apply gauge_field_hermitian; lia).
  assert (Val : t_val b ds NC (mode ds (gauge_field NC U)) (fun k => k) kj = t_val b ds NC (mode ds (gauge_field NC U)) (fun k => k) k /\
                l_val b ds NC (mode ds (gauge_field NC U)) (fun k => k) kj = l_val b ds NC (mode ds (gauge_field NC U)) (fun k => k) k).
  { destruct Sgn as [->| ->]; [split; reflexivity|]. unfold t_val, l_val. rewrite guarded_opp.
    destruct (pol_dag NC (length ds) (mom_of b ds k) (mom_of b ds (map Z.opp k)) (mode ds (gauge_field NC U) k) (mode ds (gauge_field NC U) (map Z.opp k))) as [-> ->].
    - intros mu _. apply mode_opp. intros x Hx. now apply Herm.
    - intros mu _. apply mom_opp.
    - split; reflexivity. }
  destruct Val as [-> ->].
  assert (HV : IZR (prodZ ds) = V) by (unfold V, nsites; rewrite INR_IZR_INZ, Z2Nat.id; [reflexivity|]; pose proof (prodZ_pos ds pos); lia).
  assert (Hk := list_entry ds _ l Hok El s k (nth_error_In _ _ Hi)). assert (Hzk : zone ds k) by (apply (list_in ds _ l Hok El) in Hi || (apply nth_error_In in Hi; apply (list_in ds _ l Hok El) in Hi); apply Hi).
  change (mom b) with (mom_of b). split; intro Hk0.
  - subst k. assert (Ej' : j = (n / 2)%nat).
    { assert (kj = zeros ds) by (destruct Sgn as [->| ->]; [reflexivity|unfold zeros; rewrite map_map; apply map_ext; reflexivity]). subst kj. rewrite <- Odd. now apply (Uniq j sj). }
    unfold t_val, l_val, g_norm, l_norm. rewrite along_0 by apply mom_zeros. fold n. rewrite Ej', Nat.ltb_irrefl. rewrite HV, mult_INR. fold A. fold c. unfold Rdiv. split; ring.
  - assert (Hjn : (j < n / 2)%nat).
    { destruct (Nat.eq_dec j (n / 2)) as [Ejz|]; [|lia]. exfalso. rewrite Ejz, <- Odd, Mid in Ej. injection Ej as _ <-. apply Hk0.
      destruct Sgn as [S|S]; [now symmetry|]. rewrite <- (vneg_invol k). unfold vneg. rewrite <- S. unfold zeros. rewrite map_map. apply map_ext. reflexivity. }
    destruct (square_large b ds NC k HL') as [S1 S2]; [lia|exact Hzk|now apply zeros_neq|].
    assert (G : guarded b ds NC k = square (length ds) (mom_of b ds k)) by (unfold guarded; destruct (Rlt_dec _ _); [lra|reflexivity]).
    unfold t_val, l_val, g_norm, l_norm. fold n. apply Nat.ltb_lt in Hjn as ->. rewrite HV, mult_INR, G. unfold transverse, longitudinal. fold A. fold c. split; ring.
Qed.
Print Assumptions C63_propagator_partial.

(** Both numbers are never negative *)
Theorem C63_positive : forall b sched ds NC sd ci l temp inp out s0 U,
  lattice_ok ds -> (2 <= length ds)%nat -> (2 <= NC <= 100)%nat -> any_order sched -> links_ok ds NC U ->
  kept ds sd ci l -> l <> [] -> (forall s k, In (s, k) l -> zone_ok ds k) -> int_sites l ->
  exists res, gluon_props b sched ds NC l temp inp out s0 U = Some res /\ length res = length l /\ forall t lg, In (t, lg) res -> (0 <= t /\ 0 <= lg)%R.
Proof.
  intros b sched ds NC sd ci l temp inp out s0 U Hok Hd HN Any HU El Hne Hin Hint.
  destruct (gluon_written b sched ds NC (safe_momenta ds sd ci (length ds)) l temp inp out s0 U (fun k => k) Hok) as (res & E & Ln & F); try assumption; try lia.
  { now apply links_shaped. }
  { intros idx k Hk. apply (list_conv ds (safe_momenta ds sd ci (length ds)) l Hok El idx k Hk). now apply (Hin idx). }
  exists res. split; [exact E|]. split; [exact Ln|]. intros t lg Hr. apply In_nth_error in Hr as [i Hi].
  assert (Hil : (i < length l)%nat) by (rewrite <- Ln; apply nth_error_Some; now rewrite Hi).
  assert (Hs : (source l i < length l)%nat) by (unfold source; destruct (Nat.leb_spec i (length l / 2)); lia).
  destruct (nth_error l (source l i)) as [[s k]|] eqn:Ek; [|apply nth_error_None in Ek; lia].
  rewrite (F i s k Hil Ek) in Hi. injection Hi as <- <-.
  destruct (vals_nonneg b ds NC k (mom_of b ds k) (mode ds (gauge_field NC U) k)) as [V1 V2]; [lia|reflexivity|].
  pose proof (prodZ_pos ds (ok_pos _ (proj1 (proj2 Hok)))) as VP. assert (HC : (0 < NC * NC - 1)%nat) by nia.
  assert (Q : (0 < g_norm ds NC l (source l i))%R) by (unfold g_norm; destruct (Nat.ltb _ _); apply t_norm_pos; try assumption; nia).
  split; apply Rmult_le_pos; try assumption; try lra. left. now apply t_norm_pos.
Qed.
Print Assumptions C63_positive.

(** If the field is in Landau gauge - the divergence of the gauge field vanishes at every site - all
    longitudinal numbers are zero, with the lattice momenta of SIN_MOM *)
Theorem C63_landau_partial : forall sched ds NC sd ci l temp inp out s0 U,
  lattice_ok ds -> (2 <= length ds)%nat -> (2 <= NC)%nat -> any_order sched -> links_ok ds NC U ->
  kept ds sd ci l -> l <> [] -> (forall s k, In (s, k) l -> zone_ok ds k) -> int_sites l ->
  landau NC (length ds) (nsites ds) (behind ds) (gauge_field NC U) ->
  exists res, gluon_props SinMom sched ds NC l temp inp out s0 U = Some res /\ length res = length l /\ forall t lg, In (t, lg) res -> lg = 0%R.
Proof.
  intros sched ds NC sd ci l temp inp out s0 U Hok Hd HN Any HU El Hne Hin Hint Hl.
  destruct (gluon_written SinMom sched ds NC (safe_momenta ds sd ci (length ds)) l temp inp out s0 U (fun k => k) Hok) as (res & E & Ln & F); try assumption; try lia.
  { now apply links_shaped. }
  { intros idx k Hk. apply (list_conv ds (safe_momenta ds sd ci (length ds)) l Hok El idx k Hk). now apply (Hin idx). }
  exists res. split; [exact E|]. split; [exact Ln|]. intros t lg Hr. apply In_nth_error in Hr as [i Hi].
  assert (Hil : (i < length l)%nat) by (rewrite <- Ln; apply nth_error_Some; now rewrite Hi).
  assert (Hs : (source l i < length l)%nat) by (unfold source; destruct (Nat.leb_spec i (length l / 2)); lia).
  destruct (nth_error l (source l i)) as [[s k]|] eqn:Ek; [|apply nth_error_None in Ek; lia].
  rewrite (F i s k Hil Ek) in Hi. injection Hi as <- <-. unfold l_val. change (mom_of SinMom) with khat.
  rewrite (landau_along NC ds (gauge_field NC U) k); [unfold Rdiv; ring|apply ok_pos, Hok| |assumption].
  apply (list_entry ds _ l Hok El s). now apply nth_error_In with (source l i).
Qed.
Print Assumptions C63_landau_partial.

(** A gauge transformation that is the same at all sites does not change what is written *)
Theorem C63_global_gauge : forall b sched sched' ds NC sd ci l temp inp out s0 temp' inp' out' s0' U U' g,
  lattice_ok ds -> (2 <= length ds)%nat -> (2 <= NC)%nat -> any_order sched -> any_order sched' -> links_ok ds NC U ->
  kept ds sd ci l -> l <> [] -> (forall s k, In (s, k) l -> zone_ok ds k) -> int_sites l ->
  SUn NC g -> (forall x mu, (x < nsites ds)%nat -> (mu < length ds)%nat -> meq NC (mx NC (U' x mu)) (mmul NC (mmul NC g (mx NC (U x mu))) (dag g))) ->
  exists res, gluon_props b sched ds NC l temp inp out s0 U = Some res /\ gluon_props b sched' ds NC l temp' inp' out' s0' U' = Some res.
Proof.
  intros b sched sched' ds NC sd ci l temp inp out s0 temp' inp' out' s0' U U' g Hok Hd HN Any Any' HU El Hne Hin Hint Hg HUU.
  assert (HU' : links_ok ds NC U').
  { intros x mu Hx Hm. eapply FieldProofs.SUn_ext; [symmetry; apply HUU; assumption|]. apply SUn_mmul; [apply SUn_mmul; [exact Hg|now apply HU]|now apply SUn_dag]. }
  assert (Cv : forall idx k, In (idx, k) l -> TwoPI_mpipi_momconv ds idx (length ds) = Some k) by (intros idx k Hk; apply (list_conv ds (safe_momenta ds sd ci (length ds)) l Hok El idx k Hk); now apply (Hin idx)).
  destruct (gluon_written b sched ds NC (safe_momenta ds sd ci (length ds)) l temp inp out s0 U (fun k => k) Hok) as (res & E & Ln & F); try assumption; try lia; [now apply links_shaped|].
  destruct (gluon_written b sched' ds NC (safe_momenta ds sd ci (length ds)) l temp' inp' out' s0' U' (fun k => k) Hok) as (res' & E' & Ln' & F'); try assumption; try lia; [now apply links_shaped|].
  exists res. split; [exact E|]. rewrite E'. f_equal. apply nth_ext with (d := (0, 0)%R) (d' := (0, 0)%R); [congruence|]. intros i Hi. rewrite Ln' in Hi.
  assert (Hs : (source l i < length l)%nat) by (unfold source; destruct (Nat.leb_spec i (length l / 2)); lia).
  destruct (nth_error l (source l i)) as [[s k]|] eqn:Ek; [|apply nth_error_None in Ek; lia].
  rewrite (nth_error_nth _ _ _ (F i s k Hi Ek)), (nth_error_nth _ _ _ (F' i s k Hi Ek)). unfold t_val, l_val.
  destruct (pol_rot NC g Hg (length ds) (mom_of b ds k) (mode ds (gauge_field NC U) k) (mode ds (gauge_field NC U') k)) as [-> ->]; [|reflexivity].
  intros mu Hm. apply mode_rot. intros x Hx. apply gauge_field_rot; [exact Hg|]. now apply HUU.
Qed.
Print Assumptions C63_global_gauge.
