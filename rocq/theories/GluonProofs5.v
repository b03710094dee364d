(** The list of momenta, everything together. *)
From Coq Require Import Permutation Sorted Psatz.
From Verif Require Import CInt GeomModel GeomSpec GeomProofs GeomProofs2 Cplx CMat Det Arr MatSpec MatModel MatProofs ProjModel ProjProofs FftModel FftProofs QtopModel QtopSpec QtopProofs QtopProofs2.
From Verif Require Import StaticProofs CutsModel CutsSpec CutsProofs SmearModel GluonModel GluonSpec GluonProofs GluonProofs2 GluonProofs3 GluonProofs4.
Local Open Scope Z_scope.

Lemma lat_ok_lattice ds : lattice_ok ds -> lat_ok ds [].
Proof. intro H. pose proof (ok_volume ds H). destruct H as (H1 & H2 & H3). split; [cbn; lia|]. split; [assumption|]. rewrite app_nil_r. split; [assumption|lia]. Qed.
Lemma zone_unique ds : Forall (fun L => 0 < L) ds -> forall p q, zone ds p -> zone ds q -> residues ds p = residues ds q -> p = q.
Proof.
  induction 1 as [|L ds HL H IH]; intros p q Hp Hq E; inversion Hp as [|? a ? p' Ha Hp']; inversion Hq as [|? b ? q' Hb Hq']; subst; [reflexivity|].
  unfold residues in E. cbn [combine map fst snd] in E. injection E as E1 E2. f_equal; [|now apply IH].
  pose proof (Z.div_mod a L) as D1. pose proof (Z.div_mod b L) as D2. rewrite E1 in D1.
  assert (a / L = b / L) by nia. nia.
Qed.
Lemma residues_rep ds : Forall (fun L => 0 < L) ds -> forall x p, in_box ds x -> length p = length ds ->
  Forall2 (fun L d => d mod L = 0) ds (map (fun q => fst q - snd q) (combine x p)) -> residues ds p = x.
Proof.
  induction 1 as [|L ds HL H IH]; intros x p Hx Hl Hc; inversion Hx as [|? c ? x' Hc0 Hx']; subst; [reflexivity|]. destruct p as [|q p]; [discriminate|].
  cbn [combine map fst snd] in Hc. inversion Hc as [|? ? ? ? H0 H1]; subst. unfold residues in *. cbn [combine map fst snd]. f_equal; [|apply IH; [assumption|simpl in Hl; lia|assumption]].
  apply Z.mod_divide in H0; [|lia]. destruct H0 as [m Em]. replace q with (c + (- m) * L) by lia. rewrite Z.mod_add by lia. now apply Z.mod_small.
Qed.
Lemma zone_ok_residues ds : Forall (fun L => 0 < L) ds -> forall k, zone ds k -> zone_ok ds k -> zone_ok ds (residues ds k).
Proof.
  induction 1 as [|L ds HL H IH]; intros k Hz Ho; inversion Hz as [|? q ? k' Hq Hz']; subst; inversion Ho as [|? ? ? ? O1 O2]; subst; unfold residues; cbn [combine map fst snd]; constructor.
  - destruct O1 as [O1|O1]; [now left|]. destruct (Z.even L) eqn:Ev; [now left|right]. intro E.
    assert (Hodd : L = 2 * (L / 2) + 1). { pose proof (Z.div_mod L 2). rewrite Zmod_even, Ev in H0. lia. }
    destruct (Z_lt_le_dec q 0) as [Neg|Pos]; [|rewrite Z.mod_small in E by lia; contradiction].
    replace q with (q + L + (-1) * L) in E by ring. rewrite Z.mod_add, Z.mod_small in E by lia. lia.
  - now apply IH.
Qed.
Section List.
Variables (ds : list Z) (safe : list Z -> bool) (lst : list veclist).
Hypothesis Hok : lattice_ok ds.
Hypothesis E : get_mom_veclist ds (length ds) safe = Some lst.
Let pos : Forall (fun L => 0 < L) ds. Proof. apply ok_pos. apply Hok. Qed.
Lemma list_in : increasing_by (fun a b => rlex (snd a) (snd b)) lst /\ forall s p, In (s, p) lst <-> zone ds p /\ safe p = true /\ s = index_of ds (residues ds p).
Proof.
  destruct (mom_veclist_ok ds [] safe (lat_ok_lattice ds Hok)) as (l & El & Hs & Hi). rewrite app_nil_r in El, Hi. rewrite E in El. injection El as <-. split; [assumption|].
  intros s p. rewrite Hi. cbn [zeros map]. split; [intros (q & Hz & -> & Hq & ->); rewrite !app_nil_r in *; auto|intros (Hz & Hq & ->); exists p; rewrite !app_nil_r; auto].
Qed.
Lemma list_entry idx k : In (idx, k) lst -> length k = length ds /\ idx = index_of ds (residues ds k).
Proof. intro H. apply list_in in H. destruct H as (Hz & _ & Hi). split; [now apply zone_length|assumption]. Qed.
Lemma list_nodup : NoDup (map fst lst).
Proof.
  destruct list_in as [Hs Hi]. apply NoDup_map_in.
  - intros [s p] [t q] H1 H2 Est. cbn [fst] in Est. subst t. f_equal. apply Hi in H1, H2. destruct H1 as (Z1 & _ & E1), H2 as (Z2 & _ & E2).
    apply (zone_unique ds pos); try assumption. rewrite E1 in E2.
    assert (B1 : in_box ds (residues ds p)) by (apply residues_box; [assumption|now apply zone_length]). assert (B2 : in_box ds (residues ds q)) by (apply residues_box; [assumption|now apply zone_length]).
    rewrite !index_of_horner in E2 by (now apply in_box_length). rewrite <- (digits_horner ds _ B1), <- (digits_horner ds _ B2). now rewrite E2.
  - clear -Hs. induction Hs as [|a l Hs IH Ha]; constructor; [|assumption]. intro H. rewrite Forall_forall in Ha. apply (rlex_irrefl (snd a)). now apply Ha.
Qed.
Lemma list_conv idx k : In (idx, k) lst -> zone_ok ds k -> 0 <= idx < prodZ ds /\ TwoPI_mpipi_momconv ds idx (length ds) = Some k.
Proof.
  intros H Ho. apply list_in in H. destruct H as (Hz & _ & Ei).
  assert (B : in_box ds (residues ds k)) by (apply residues_box; [assumption|now apply zone_length]).
  destruct (momconv_zone ds idx (residues ds k) Hok B (eq_sym Ei) (zone_ok_residues ds pos k Hz Ho)) as (p & Ep & (R1 & R2 & R3) & _).
  split; [rewrite Ei, index_of_horner by (now apply in_box_length); now apply horner_bound|]. rewrite Ep. f_equal.
  apply (zone_unique ds pos); try assumption. apply (residues_rep ds pos); assumption.
Qed.
End List.

(** what is written for any list; kc: the momentum the code computes from the site of an entry *)
Theorem gluon_written b sched ds NC safe lst temp inp out s0 U kc : lattice_ok ds -> (0 < NC)%nat -> any_order sched ->
  (forall x mu, (x < nsites ds)%nat -> (mu < length ds)%nat -> shaped NC (mx NC (U x mu))) ->
  get_mom_veclist ds (length ds) safe = Some lst -> lst <> [] ->
  (forall idx k, In (idx, k) lst -> TwoPI_mpipi_momconv ds idx (length ds) = Some (kc k)) ->
  (forall i idx k, (i < length lst / 2)%nat -> nth_error lst i = Some (idx, k) -> idx < two31) ->
  exists res, gluon_props b sched ds NC lst temp inp out s0 U = Some res /\ length res = length lst /\
  forall i idx k, (i < length lst)%nat -> nth_error lst (source lst i) = Some (idx, k) ->
    nth_error res i = Some (t_val b ds NC (mode ds (gauge_field NC U)) kc k * g_norm ds NC lst (source lst i),
                            l_val b ds NC (mode ds (gauge_field NC U)) kc k * l_norm ds NC)%R.
Proof.
  intros Hok HN Any Sh El Hne Hc Hi.
  assert (He := list_entry ds safe lst Hok El).
  destruct (fields_ok sched ds NC Hok Any temp inp out U lst HN Sh He (list_nodup ds safe lst Hok El)) as (A & A' & E1 & E2 & F).
  unfold gluon_props. rewrite E1. cbn [bindo]. rewrite E2. cbn [bindo].
  apply (compute_ok b sched ds NC A' lst (mode ds (gauge_field NC U)) kc Hok Any); try assumption.
  intros idx k Hin. split; [|now apply Hc].
  destruct (He idx k Hin) as [L1 L2]. assert (B : in_box ds (residues ds k)) by (apply residues_box; [apply ok_pos, Hok|assumption]).
  rewrite L2, index_of_horner by (now apply in_box_length). now apply horner_bound.
Qed.
(** if every entry is away from the edge of the zone the momentum is the one of the list *)
Definition inside (ds k : list Z) : Prop := Forall2 (fun L q => 2 * Z.abs q + 1 < L) ds k.
Lemma inside_zone_ok ds k : inside ds k -> zone_ok ds k.
Proof.
  induction 1 as [|L q ds k H0 H IH]; constructor; [|assumption]. destruct (Z.even L) eqn:Ev; [now left|right]. intros ->.
  pose proof (Z.div_mod L 2) as D. rewrite Zmod_even, Ev in D. lia.
Qed.
Lemma inside_not_edge ds k : inside ds k -> ~ edge ds k.
Proof.
  intros H (mu & L & H1 & H2 & H3). revert mu H1 H2. induction H as [|L' q ds k H0 H IH]; intros [|mu] H1 H2; try discriminate.
  - cbn in H1, H2. injection H1 as ->. injection H2 as ->. pose proof (Z.div_mod L 2). rewrite Zmod_even, H3 in H1. lia.
  - now apply (IH mu).
Qed.
Lemma t_norm_pos a V : (0 < a)%nat -> 0 < V -> (0 < 2 / (INR a * IZR V))%R.
Proof. intros Ha HV. apply Rdiv_lt_0_compat; [lra|]. apply Rmult_lt_0_compat; [now apply lt_0_INR|now apply IZR_lt]. Qed.
