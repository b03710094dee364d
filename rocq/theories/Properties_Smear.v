(** C34: the sliding-window sweeps equal the simultaneous update. *)
From Coq Require Import PeanoNat List Lia ZArith Permutation Reals.
From Verif Require Import Arr MmulModel FieldModel FieldProofs SmearModel SmearProofs SmearProofs2.
From Verif Require GeomSpec.
Import ListNotations.

(** nw and zn are the links and accumulators of the update of all links at once from lat and z *)
Definition simultaneous {L Z} (rule : field L -> nat -> nat -> Z -> option (Z * L)) (ND V : nat) (lat : field L) (z : field Z)
    (nw : field L) (zn : field Z) : Prop :=
  forall j mu, j < V -> mu < ND -> rule lat j mu (z j mu) = Some (zn j mu, nw j mu).
(** sites 0 .. LCU*T-1; slice of a site: its number divided by LCU; slices t and s at distance
    at most rad on the circle of T slices.  The rule reads links of such slices only. *)
Definition reads_within {L Z} (rule : field L -> nat -> nat -> Z -> option (Z * L)) (ND LCU T rad : nat) : Prop :=
  forall f f' j mu z, j < LCU * T -> mu < ND ->
  (forall k nu, k < LCU * T -> nu < ND ->
     (exists d, d <= rad /\ (k / LCU = (j / LCU + d) mod T \/ j / LCU = (k / LCU + d) mod T)) -> f k nu = f' k nu) ->
  rule f j mu z = rule f' j mu z.
(** every loop runs each of its iterations once, in any order *)
Definition orders (LCU T first : nat) (sc : sched) : Prop :=
  Permutation (o_first sc) (seq 0 first) /\ Permutation (o_last sc) (seq 0 LCU) /\
  forall t, t < T -> Permutation (o_slice sc t) (seq 0 LCU) /\ Permutation (o_swap sc t) (seq 0 LCU).
(** bk: one slice back in time from the first site of a slice *)
Definition time_back (LCU T : nat) (bk : nat -> nat) : Prop := forall t, t < T -> bk (LCU * t) = LCU * ((t + T - 1) mod T).

(** Any rule, any link and accumulator type, any number T >= 1 of time slices of any size, any
    schedule, any contents of the temporaries. *)
Theorem C34_window : forall L Z (rule : field L -> nat -> nat -> Z -> option (Z * L)) ND LCU T bk sc lat lat2 lat3 lat4 z nw zn,
  0 < LCU -> 0 < T -> time_back LCU T bk -> orders LCU T LCU sc -> reads_within rule ND LCU T 1 ->
  simultaneous rule ND (LCU * T) lat z nw zn ->
  exists lat' a2 a3 a4 z', sweep rule ND LCU T bk sc lat lat2 lat3 lat4 z = Some (lat', a2, a3, a4, z') /\
    (forall j mu, j < LCU * T -> mu < ND -> lat' j mu = nw j mu /\ z' j mu = zn j mu) /\
    (forall j mu, ~ (j < LCU * T /\ mu < ND) -> lat' j mu = lat j mu /\ z' j mu = z j mu).
Proof.
  intros L Z rule ND LCU T bk sc lat lat2 lat3 lat4 z nw zn HL HT Hb (P1 & P2 & P3) Lo Si.
  exact (sweep_ok rule ND LCU T bk HL Hb lat nw z zn Si sc lat2 lat3 lat4 HT Lo P1 P2 P3).
Qed.
Print Assumptions C34_window.
(** IMPROVED_SMEARING, Wilson flow: rules reading two slices away, T >= 2 *)
Theorem C34_window_improved_flow : forall L Z (rule : field L -> nat -> nat -> Z -> option (Z * L)) ND LCU T bk sc lat lat2 lat3 lat4 z nw zn,
  0 < LCU -> 2 <= T -> time_back LCU T bk -> orders LCU T (2 * LCU) sc -> reads_within rule ND LCU T 2 ->
  simultaneous rule ND (LCU * T) lat z nw zn ->
  exists lat' a2 a3 a4 z', sweep_improved LCU rule ND LCU T bk sc lat lat2 lat3 lat4 z = Some (lat', a2, a3, a4, z') /\
    (forall j mu, j < LCU * T -> mu < ND -> lat' j mu = nw j mu /\ z' j mu = zn j mu) /\
    (forall j mu, ~ (j < LCU * T /\ mu < ND) -> lat' j mu = lat j mu /\ z' j mu = z j mu).
Proof.
  intros L Z rule ND LCU T bk sc lat lat2 lat3 lat4 z nw zn HL HT Hb (P1 & P2 & P3) Lo Si.
  destruct (sweep_improved_ok rule ND LCU T bk HL Hb lat nw z zn Si LCU sc lat2 lat3 lat4 HT (or_intror eq_refl) Lo P1 P2 P3)
    as (lat' & a2 & a3 & a4 & z' & E & A & _ & B).
  exists lat', a2, a3, a4, z'. split; [exact E|]. split; [|exact B]. intros j mu Hj Hm. destruct (A j mu Hj Hm) as [A1 A2]. auto.
Qed.
Print Assumptions C34_window_improved_flow.
(** IMPROVED_SMEARING, smear4D: for every T >= 4 the links of slice T-3 are those computed for slice T-4 *)
Theorem C34_smear4D_improved_fails : forall L Z (rule : field L -> nat -> nat -> Z -> option (Z * L)) ND LCU T bk sc lat lat2 lat3 lat4 z nw zn,
  0 < LCU -> 4 <= T -> time_back LCU T bk -> orders LCU T (2 * LCU) sc -> reads_within rule ND LCU T 2 ->
  simultaneous rule ND (LCU * T) lat z nw zn ->
  exists lat' a2 a3 a4 z', sweep_improved 0 rule ND LCU T bk sc lat lat2 lat3 lat4 z = Some (lat', a2, a3, a4, z') /\
    forall i mu, i < LCU -> mu < ND -> lat' (LCU * (T - 3) + i) mu = nw (LCU * (T - 4) + i) mu.
Proof.
  intros L Z rule ND LCU T bk sc lat lat2 lat3 lat4 z nw zn HL HT Hb (P1 & P2 & P3) Lo Si.
  destruct (sweep_improved_ok rule ND LCU T bk HL Hb lat nw z zn Si 0 sc lat2 lat3 lat4 ltac:(lia) (or_introl eq_refl) Lo P1 P2 P3)
    as (lat' & a2 & a3 & a4 & z' & E & _ & A & _).
  exists lat', a2, a3, a4, z'. split; [exact E|]. auto.
Qed.
Print Assumptions C34_smear4D_improved_fails.
(** a field and rule for which this is not the simultaneous update: one site per slice, links
    are numbers, each becomes its own value plus those of its four time neighbours *)
Definition ex_T := 6.
Definition ex_rule (f : field nat) (j mu : nat) (z : unit) : option (unit * nat) :=
  Some (tt, f j mu + f ((j + 1) mod ex_T) mu + f ((j + 2) mod ex_T) mu + f ((j + ex_T - 1) mod ex_T) mu + f ((j + ex_T - 2) mod ex_T) mu).
Definition ex_sched (n first : nat) : sched := mkSched (rev (seq 0 first)) (fun _ => seq 0 n) (fun _ => seq 0 n) (seq 0 n).
Lemma ex_orders : forall n T first, orders n T first (ex_sched n first).
Proof. intros. split; [symmetry; apply Permutation_rev|]. split; [reflexivity|]. split; reflexivity. Qed.
Lemma ex_reads : reads_within ex_rule 1 1 ex_T 2.
Proof.
  intros f f' j mu z Hj Hm H. unfold ex_rule. unfold ex_T in *. rewrite Nat.mul_1_l in *. rewrite !Nat.div_1_r in H.
  assert (M : forall a, a mod 6 < 6) by (intro; apply Nat.mod_upper_bound; lia).
  assert (D : forall k, k < 6 -> k / 1 = k) by (intros; apply Nat.div_1_r).
  rewrite !H; try reflexivity; try apply M; try assumption; rewrite !Nat.div_1_r;
    [exists 2|exists 1|exists 2|exists 1|exists 0]; (split; [lia|]);
    do 6 (destruct j as [|j]; [cbn; lia|]); lia.
Qed.
Theorem C34_smear4D_improved_refuted : exists (rule : field nat -> nat -> nat -> unit -> option (unit * nat)) ND LCU T bk sc lat nw,
  0 < LCU /\ 2 <= T /\ time_back LCU T bk /\ orders LCU T (2 * LCU) sc /\ reads_within rule ND LCU T 2 /\
  simultaneous rule ND (LCU * T) lat (fun _ _ => tt) nw (fun _ _ => tt) /\
  forall lat2 lat3 lat4, exists lat' a2 a3 a4 z', sweep_improved 0 rule ND LCU T bk sc lat lat2 lat3 lat4 (fun _ _ => tt) = Some (lat', a2, a3, a4, z') /\
    exists j mu, j < LCU * T /\ mu < ND /\ lat' j mu <> nw j mu.
Proof.
  exists ex_rule, 1, 1, ex_T, (fun j => (j + 5) mod 6), (ex_sched 1 2), (fun j _ => j * j),
    (fun j mu => match ex_rule (fun j _ => j * j) j mu tt with Some (_, v) => v | None => 0 end).
  assert (B : time_back 1 ex_T (fun j => (j + 5) mod 6)).
  { intros t Ht. unfold ex_T in *. rewrite !Nat.mul_1_l. f_equal. lia. }
  assert (Si : simultaneous ex_rule 1 (1 * ex_T) (fun j _ => j * j) (fun _ _ => tt)
     (fun j mu => match ex_rule (fun j _ => j * j) j mu tt with Some (_, v) => v | None => 0 end) (fun _ _ => tt)) by (intros j mu _ _; reflexivity).
  split; [lia|]. split; [unfold ex_T; lia|]. split; [exact B|]. split; [apply ex_orders|]. split; [apply ex_reads|]. split; [exact Si|].
  intros lat2 lat3 lat4.
  destruct (C34_smear4D_improved_fails nat unit ex_rule 1 1 ex_T _ (ex_sched 1 2) _ lat2 lat3 lat4 _ _ _ ltac:(lia) ltac:(unfold ex_T; lia) B (ex_orders _ _ _) ex_reads Si)
    as (lat' & a2 & a3 & a4 & z' & E & A).
  exists lat', a2, a3, a4, z'. split; [exact E|]. exists 3, 0. split; [unfold ex_T; lia|]. split; [lia|].
  specialize (A 0 0 ltac:(lia) ltac:(lia)). change (1 * (ex_T - 3) + 0) with 3 in A. rewrite A. vm_compute. discriminate.
Qed.
Print Assumptions C34_smear4D_improved_refuted.
(** the hypotheses of C34_window_improved_flow are met by the same data (previous proof) *)
Example C34_ex : exists lat' a2 a3 a4 z',
  sweep_improved 1 ex_rule 1 1 ex_T (fun j => (j + 5) mod 6) (ex_sched 1 2) (fun j _ => j * j) (fun _ _ => 7) (fun _ _ => 8) (fun _ _ => 9) (fun _ _ => tt)
   = Some (lat', a2, a3, a4, z') /\ map (fun j => lat' j 0) (seq 0 6) = [0+1+4+25+16; 1+4+9+0+25; 4+9+16+1+0; 9+16+25+4+1; 16+25+0+9+4; 25+0+1+16+9].
Proof. do 5 eexists. split; [vm_compute; reflexivity|]. vm_compute. reflexivity. Qed.

(** ** smear4D with stout links and the Wilson-flow step on the lattice of init_navig, NC = 2, 3.
    j0 .. are the contents of uninitialised arrays. *)
Definition lval (o : option (unit * arr)) : arr := match o with Some (_, r) => r | None => fun _ => C0 end.
(** the simultaneous stout update of the links *)
Definition stout_all NC a b j0 j1 j2 j3 geo ND (F : field arr) : field arr :=
  fun i mu => lval (stout_rule NC a b j0 j1 j2 j3 geo ND F i mu tt).
Lemma stout_some : forall n a b j0 j1 j2 j3 geo ND f i mu z, n = 2 \/ n = 3 ->
  stout_rule n a b j0 j1 j2 j3 geo ND f i mu z = Some (tt, stout_all n a b j0 j1 j2 j3 geo ND f i mu).
Proof.
  intros n a b j0 j1 j2 j3 geo ND f i mu z Hn. destruct z. unfold stout_all.
  destruct (stout_defined n a b j0 j1 j2 j3 geo ND f i mu tt Hn) as [r E]. rewrite E. reflexivity.
Qed.
Theorem C34_smear4D : forall n a b j0 j1 j2 j3 ds geo scs smiters lat lat2 lat3 lat4, n = 2 \/ n = 3 ->
  GeomSpec.lattice_ok ds -> navig ds geo -> (forall k, orders (lcu ds) (ntime ds) (lcu ds) (scs k)) ->
  let ND := length ds in
  exists lat', smear4D_stout n a b j0 j1 j2 j3 geo ND (lcu ds) (ntime ds) scs smiters lat lat2 lat3 lat4 = Some lat' /\
    forall j mu, j < volume ds -> mu < ND ->
      lat' j mu = Nat.iter smiters (stout_all n a b j0 j1 j2 j3 geo ND) lat j mu.
Proof.
  intros n a b j0 j1 j2 j3 ds geo scs smiters lat lat2 lat3 lat4 Hn Hok Nav Ord ND. unfold smear4D_stout.
  destruct (lcu_pos ds Hok) as (HL & HT & HV).
  pose proof (stout_local ds geo Hok Nav n a b j0 j1 j2 j3) as Loc. fold ND in Loc.
  set (rule := stout_rule n a b j0 j1 j2 j3 geo ND) in *. set (bk := fun j => bck (geo j) (ND - 1)).
  enough (H : exists l a2 a3 a4 z, sweeps rule ND (lcu ds) (ntime ds) bk scs smiters (lat, lat2, lat3, lat4, fun _ _ => tt) = Some (l, a2, a3, a4, z) /\
     forall j mu, j < volume ds -> mu < ND -> l j mu = Nat.iter smiters (stout_all n a b j0 j1 j2 j3 geo ND) lat j mu).
  { destruct H as (l & a2 & a3 & a4 & z & E & H). rewrite E. eauto. }
  induction smiters as [|k IH].
  - do 5 eexists. split; reflexivity.
  - destruct IH as (l & a2 & a3 & a4 & z & E & H). cbn [sweeps]. rewrite E.
    destruct (C34_window arr unit rule ND (lcu ds) (ntime ds) bk (scs k) l a2 a3 a4 z (stout_all n a b j0 j1 j2 j3 geo ND l) (fun _ _ => tt))
      as (l' & b2 & b3 & b4 & z' & E' & A & _).
    + exact HL.
    + exact HT.
    + intros t Ht. now apply (nav_bk ds geo Hok Nav).
    + apply Ord.
    + exact Loc.
    + intros j mu _ _. now apply stout_some.
    + exists l', b2, b3, b4, z'. split; [exact E'|]. intros j mu Hj Hm. rewrite HV in Hj. rewrite (proj1 (A j mu Hj Hm)).
      match goal with |- _ = Nat.iter (S k) ?f ?x j mu => change (Nat.iter (S k) f x) with (f (Nat.iter k f x)) end.
      set (F := Nat.iter k _ _) in *. clearbody F. unfold stout_all. fold rule. f_equal. apply Loc; try assumption. intros q nu Hq Hnu _. rewrite <- HV in Hq. now apply H.
Qed.
Print Assumptions C34_smear4D.
(** RK3step_memcheap computes the links and accumulators of RK3step *)
Theorem C34_RK3step : forall n mult dt j1 j2 j3 j4 j5 j6 j7 j8 ds geo sc ord ord' lat lat2 lat3 lat4 z m2, n = 2 \/ n = 3 ->
  GeomSpec.lattice_ok ds -> navig ds geo -> orders (lcu ds) (ntime ds) (lcu ds) sc ->
  Permutation ord (seq 0 (volume ds)) -> Permutation ord' (seq 0 (volume ds)) ->
  let ND := length ds in let rule := flow_rule n mult dt j1 j2 j3 j4 j5 j6 j7 j8 geo ND in
  exists l a2 a3 a4 w l' a2' w',
    sweep rule ND (lcu ds) (ntime ds) (fun j => bck (geo j) (ND - 1)) sc lat lat2 lat3 lat4 z = Some (l, a2, a3, a4, w) /\
    RK3step_gen rule ND ord ord' lat m2 z = Some (l', a2', w') /\
    forall j mu, l j mu = l' j mu /\ w j mu = w' j mu.
Proof.
  intros n mult dt j1 j2 j3 j4 j5 j6 j7 j8 ds geo sc ord ord' lat lat2 lat3 lat4 z m2 Hn Hok Nav Ord P P' ND rule.
  destruct (lcu_pos ds Hok) as (HL & HT & HV).
  pose proof (flow_local ds geo Hok Nav n mult dt j1 j2 j3 j4 j5 j6 j7 j8) as Loc. fold ND rule in Loc.
  set (nw := fun j mu => match rule lat j mu (z j mu) with Some (_, r) => r | None => fun _ => C0 end).
  set (zn := fun j mu => match rule lat j mu (z j mu) with Some (v, _) => v | None => fun _ => C0 end).
  assert (Si : simultaneous rule ND (lcu ds * ntime ds) lat z nw zn).
  { intros j mu _ _. unfold nw, zn. destruct (flow_defined n mult dt j1 j2 j3 j4 j5 j6 j7 j8 geo ND lat j mu (z j mu) Hn) as (v & r & E).
    fold rule in E. rewrite E. reflexivity. }
  destruct (C34_window _ _ rule ND (lcu ds) (ntime ds) (fun j => bck (geo j) (ND - 1)) sc lat lat2 lat3 lat4 z nw zn HL HT) as (l & a2 & a3 & a4 & w & E & A & B).
  { intros t Ht. now apply (nav_bk ds geo Hok Nav). } { exact Ord. } { exact Loc. } { exact Si. }
  rewrite HV in P, P'.
  destruct (RK3step_ok rule ND (lcu ds) (ntime ds) HL lat nw z zn Si ord ord' m2 P P') as (l' & a2' & w' & E' & A' & B').
  exists l, a2, a3, a4, w, l', a2', w'. split; [exact E|]. split; [exact E'|].
  intros j mu. destruct (lt_dec j (lcu ds * ntime ds)) as [Hj|Hj], (lt_dec mu ND) as [Hm|Hm];
    try (destruct (A j mu Hj Hm), (A' j mu Hj Hm); split; congruence);
    (destruct (B j mu ltac:(tauto)), (B' j mu ltac:(tauto)); split; congruence).
Qed.
Print Assumptions C34_RK3step.
(** smear3D: slice by slice is also the simultaneous update, for rules that stay on the slice *)
Theorem C34_smear3D : forall L Z (rule : field L -> nat -> nat -> Z -> option (Z * L)) D LCU T ords ords' lat lat2 z nw zn,
  0 < LCU -> reads_within rule D LCU T 0 ->
  (forall t, t < T -> Permutation (ords t) (seq 0 LCU) /\ Permutation (ords' t) (seq 0 LCU)) ->
  simultaneous rule D (LCU * T) lat z nw zn ->
  exists lat' a2 z', sweep3D rule D LCU T ords ords' lat lat2 z = Some (lat', a2, z') /\
    (forall j mu, j < LCU * T -> mu < D -> lat' j mu = nw j mu /\ z' j mu = zn j mu) /\
    (forall j mu, ~ (j < LCU * T /\ mu < D) -> lat' j mu = lat j mu /\ z' j mu = z j mu).
Proof.
  intros L Z rule D LCU T ords ords' lat lat2 z nw zn HL Lo P Si.
  exact (sweep3D_ok rule D LCU T HL lat nw z zn Si ords ords' lat2 Lo P).
Qed.
Print Assumptions C34_smear3D.
