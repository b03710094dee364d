(** C63, continued: cases meeting the hypotheses, and where the claim fails. *)
From Coq Require Import Permutation Sorted Psatz Ratan.
From Verif Require Import CInt GeomModel GeomSpec GeomProofs Cplx CMat Det Arr MatSpec MatModel ProjModel ProjProofs FftModel FftProofs QtopModel QtopSpec QtopProofs QtopProofs2 HypProofs.
From Verif Require Import CutsModel CutsSpec CutsProofs CutsRModel CutsRSpec CutsRProofs Properties_Cuts SmearModel GluonModel GluonSpec GluonProofs GluonProofs2 GluonProofs3 GluonProofs4 GluonProofs5 Properties_Gluon.
Local Open Scope Z_scope.

(** * Lists that meet the hypotheses *)
Lemma ssum_nonneg n f : (forall i, (i < n)%nat -> 0 <= f i)%R -> (0 <= ssum n f)%R.
Proof. induction n as [|n IH]; intro H; cbn [ssum]; [lra|]. assert (0 <= ssum n f)%R by (apply IH; intros; apply H; lia). assert (0 <= f n)%R by (apply H; lia). lra. Qed.
Lemma ssum_term n f m : (forall i, (i < n)%nat -> 0 <= f i)%R -> (m < n)%nat -> (f m <= ssum n f)%R.
Proof.
  induction n as [|n IH]; intros H Hm; [lia|]. cbn [ssum]. destruct (Nat.eq_dec m n) as [->|D].
  - assert (0 <= ssum n f)%R by (apply ssum_nonneg; intros; apply H; lia). lra.
  - assert (f m <= ssum n f)%R by (apply IH; [intros; apply H; lia|lia]). assert (0 <= f n)%R by (apply H; lia). lra.
Qed.
Lemma ssum_le n f g : (forall i, (i < n)%nat -> f i <= g i)%R -> (ssum n f <= ssum n g)%R.
Proof. induction n as [|n IH]; intro H; cbn [ssum]; [lra|]. assert (ssum n f <= ssum n g)%R by (apply IH; intros; apply H; lia). assert (f n <= g n)%R by (apply H; lia). lra. Qed.
Lemma inside_nth ds : forall k, length k = length ds -> (forall mu, (mu < length ds)%nat -> 2 * Z.abs (nth mu k 0) + 1 < nth mu ds 0) -> inside ds k.
Proof.
  induction ds as [|L ds IH]; intros [|q k] Hl H; try discriminate; constructor; [apply (H 0%nat); cbn; lia|].
  apply IH; [simpl in Hl; lia|]. intros mu Hm. apply (H (S mu)). cbn. lia.
Qed.
Lemma zeros_zone ds : Forall (fun L => 0 < L) ds -> zone ds (zeros ds).
Proof. induction 1 as [|L ds H0 H IH]; constructor; [|exact IH]. pose proof (Z.div_mod L 2). pose proof (Z.mod_pos_bound L 2). lia. Qed.
(** a cut in p^2 at up to 1/16 of the square of the smallest extent m keeps the edge of the zone out *)
Lemma psq_inside ds mx ag w m : lattice_ok ds -> is_small ds (length ds) m -> 4 <= m -> 0 <= mx -> 16 * mx <= m * m ->
  exists l, kept ds (length ds) (cut PSQ_CUT mx ag w) l /\ all_inside ds l /\ (exists s, In (s, zeros ds) l).
Proof.
  intros Hok Hm H4 H0 H16. assert (pos : Forall (fun L => 0 < L) ds) by (apply ok_pos, Hok).
  destruct (mom_veclist_ok ds [] (safe_momenta ds (length ds) (cut PSQ_CUT mx ag w) (length ds)) (lat_ok_lattice ds Hok)) as (l & El & _).
  rewrite app_nil_r in El. exists l. split; [exact El|]. destruct (list_in ds _ l Hok El) as [_ Hin]. split.
  - intros s k Hk. apply Hin in Hk. destruct Hk as (Hz & Hs & _). apply (C39_psq_cut _ _ _ _ _ _ m) in Hs; [|assumption].
    apply inside_nth; [now apply zone_length|]. intros mu Hmu.
    assert (HL : m <= nth mu ds 0) by (destruct Hm as (_ & Hm); apply Hm; rewrite firstn_all; apply nth_In; assumption).
    assert (T : (frac ds k mu * frac ds k mu <= ssum (length ds) (fun mu => frac ds k mu * frac ds k mu))%R) by (apply (ssum_term (length ds) (fun mu => frac ds k mu * frac ds k mu)%R); [intros; nra|assumption]).
    unfold psq in Hs. unfold frac in T at 1 2. set (L := nth mu ds 0) in *. set (q := nth mu k 0) in *. set (S := ssum _ _) in *.
    assert (HL' : (0 < IZR L)%R) by (apply IZR_lt; lia). assert (Hm' : (0 < IZR m)%R) by (apply IZR_lt; lia).
    apply IZR_le in H16. rewrite !mult_IZR in H16.
    assert (S16 : (16 * S <= 1)%R). { apply (Rmult_le_reg_l (IZR m * IZR m)); [nra|]. lra. }
    assert (Q : (16 * (IZR q * IZR q) <= IZR L * IZR L)%R).
    { replace (IZR q * IZR q)%R with (IZR q / IZR L * (IZR q / IZR L) * (IZR L * IZR L))%R by (field; lra). assert (0 < IZR L * IZR L)%R by nra. nra. }
    assert (QZ : 16 * (q * q) <= L * L) by (apply le_IZR; rewrite !mult_IZR; lra). nia.
  - exists (index_of ds (residues ds (zeros ds))). apply Hin. split; [now apply zeros_zone|]. split; [|reflexivity].
    apply (C39_psq_cut _ _ _ _ _ _ m); [assumption|]. unfold psq.
    replace (ssum _ _) with 0%R; [rewrite Rmult_0_r; apply IZR_le; lia|].
    assert (Z0 : forall n, (0 = ssum n (fun mu => frac ds (zeros ds) mu * frac ds (zeros ds) mu))%R).
    { induction n as [|n IH]; cbn [ssum]; [reflexivity|]. rewrite <- IH. assert (E : nth n (zeros ds) 0 = 0) by (unfold zeros; clear; revert n; induction ds; intros [|n]; cbn; auto). unfold frac. rewrite E. unfold Rdiv. ring. }
    apply Z0.
Qed.
Theorem C63_psq_cut : forall ds mx ag w m, lattice_ok ds -> prodZ ds < two31 -> is_small ds (length ds) m -> 4 <= m -> 0 <= mx -> 16 * mx <= m * m ->
  exists l, kept ds (length ds) (cut PSQ_CUT mx ag w) l /\ all_inside ds l /\ (exists s, In (s, zeros ds) l) /\ int_sites l.
Proof.
  intros ds mx ag w m Hok HV Hm H4 H0 H16. assert (pos : Forall (fun L => 0 < L) ds) by (apply ok_pos, Hok).
  destruct (psq_inside ds mx ag w m Hok Hm H4 H0 H16) as (l & El & H1 & H2). exists l. split; [exact El|]. split; [exact H1|]. split; [exact H2|].
  intros i s k _ Hi. apply nth_error_In in Hi. destruct (list_entry ds _ l Hok El s k Hi) as [Lk ->].
    assert (B : in_box ds (residues ds k)) by (now apply residues_box). rewrite index_of_horner by (now apply in_box_length). pose proof (horner_bound _ _ B). lia.
Qed.
Print Assumptions C63_psq_cut.

(** * Fields *)
Definition is3 : arr := fun k => match k with 0%nat => Ci | 3%nat => (- Ci)%C | _ => C0 end.
Definition one : arr := fun k => match k with 0%nat => C1 | 3%nat => C1 | _ => C0 end.
Lemma is3_SU2 : SUn 2 (mx 2 is3).
Proof.
  apply SUn_2. split; [split; intros [|[|i]] [|[|j]] Hi Hj; try lia; unfold mmul, dag, mx, mid, is3; cbn [csum Nat.mul Nat.add Nat.eqb]; apply C_eq; cunfold; ring|].
  unfold det2, mx, is3. cbn [Nat.mul Nat.add]. apply C_eq; cunfold; ring.
Qed.
Lemma one_SU2 : SUn 2 (mx 2 one).
Proof.
  apply SUn_2. split; [split; intros [|[|i]] [|[|j]] Hi Hj; try lia; unfold mmul, dag, mx, mid, one; cbn [csum Nat.mul Nat.add Nat.eqb]; apply C_eq; cunfold; ring|].
  unfold det2, mx, one. cbn [Nat.mul Nat.add]. apply C_eq; cunfold; ring.
Qed.
(** the field with i sigma_3 on the links chosen by f *)
Definition some_links (f : nat -> nat -> bool) : field arr := fun x mu => if f x mu then is3 else one.
Lemma some_links_ok ds f : links_ok ds 2 (some_links f).
Proof. intros x mu _ _. unfold some_links. destruct (f x mu); [apply is3_SU2|apply one_SU2]. Qed.
Definition s3 : mat := fun a b => match a, b with 0%nat, 0%nat => C1 | 1%nat, 1%nat => (- C1)%C | _, _ => C0 end.
Lemma some_gauge f x mu : meq 2 (gauge_field 2 (some_links f) x mu) (if f x mu then s3 else mzero).
Proof.
  unfold gauge_field, some_links. destruct (f x mu); intros [|[|i]] [|[|j]] Hi Hj; try lia;
  unfold trf, herm, aherm, mscale, msub, dag, mtr, mx, mid, mzero, s3, is3, one; cbn [csum Nat.mul Nat.add Nat.eqb INR]; unfold Cdiv, Cinv, Cplx.norm2; apply C_eq; cunfold; field; lra.
Qed.
Lemma mode_ext n ds A B k mu : (forall x, (x < nsites ds)%nat -> meq n (A x mu) (B x mu)) -> meq n (mode ds A k mu) (mode ds B k mu).
Proof. intros H a b Ha Hb. apply csum_ext. intros x Hx. now rewrite (H x Hx a b Ha Hb). Qed.
Example C63_propagator_ex : let ds := [4; 4; 4; 8] in let U := some_links (fun x mu => Nat.eqb x 5) in exists l, lattice_ok ds /\ Forall (fun L => L <= 10 ^ 6) ds /\ links_ok ds 2 U /\
  kept ds 4 (cut PSQ_CUT 1 0 0%R) l /\ all_inside ds l /\ (exists s, In (s, zeros ds) l) /\ int_sites l /\ (exists mu, ~ meq 2 (mode ds (gauge_field 2 U) (zeros ds) mu) mzero).
Proof.
  intros ds U. assert (Hok : lattice_ok ds) by (split; [discriminate|]; split; [repeat (constructor; [unfold two31; lia|]); constructor|reflexivity]).
  destruct (C63_psq_cut ds 1 0 0%R 4 Hok) as (l & H1 & H2 & H3 & H4); [reflexivity| |lia|lia|lia|].
  { split; [now left|]. intros L HL. cbn in HL. lia. }
  exists l. split; [exact Hok|]. split; [repeat (constructor; [lia|]); constructor|]. split; [apply some_links_ok|].
  split; [exact H1|]. split; [exact H2|]. split; [exact H3|]. split; [exact H4|]. exists 0%nat. intro Z.
  assert (Z' : mode ds (fun x mu => if Nat.eqb x 5 then s3 else mzero) (zeros ds) 0 0%nat 0%nat = C0).
  { change C0 with (mzero 0%nat 0%nat). rewrite <- (Z 0%nat 0%nat) by lia. symmetry. apply (mode_ext 2); [intros x Hx; exact (some_gauge (fun x _ => Nat.eqb x 5) x 0%nat)|lia|lia]. }
  unfold mode in Z'. rewrite (csum_ext _ _ (fun x => mid 5%nat x * C1)%C) in Z'.
  - rewrite csum_delta_l in Z' by (vm_compute; lia). apply (f_equal re) in Z'. unfold C1, C0, re in Z'. cbn in Z'. lra.
  - intros x Hx. rewrite dot_phase. unfold mid. rewrite (Nat.eqb_sym 5 x). destruct (Nat.eqb_spec x 5) as [->|N]; [|unfold mzero; ring].
    rewrite coords_digits by (repeat (constructor; [lia|]); constructor). cbn [s3]. unfold half. cbn [zeros ds map nth]. cbn -[cis].
    replace (2 * PI * _)%R with 0%R by field. rewrite cis_0. ring.
Qed.

(** * An odd extent *)
Lemma keep_all ds safe : lattice_ok ds -> (forall k, zone ds k -> safe k = true) -> get_mom_veclist ds (length ds) safe = get_mom_veclist ds (length ds) (fun _ => true).
Proof.
  intros Hok H. pose proof (mom_veclist_eq ds [] safe (lat_ok_lattice ds Hok)) as E1. pose proof (mom_veclist_eq ds [] (fun _ => true) (lat_ok_lattice ds Hok)) as E2.
  rewrite app_nil_r in E1, E2. rewrite E1, E2. f_equal. f_equal. apply filter_ext. intro i. rewrite app_nil_r. apply H, pp_zone, ok_pos, Hok.
Qed.
Definition box3 : list Z := [3; 3; 3; 3].
Definition box2 : list Z := [2; 2; 2; 2].
Definition all_momenta (ds : list Z) : list veclist := match get_mom_veclist ds (length ds) (fun _ => true) with Some l => l | None => [] end.
Lemma box3_kept : kept box3 4 (cut PSQ_CUT 4 0 0%R) (all_momenta box3).
Proof.
  unfold kept. rewrite keep_all.
  - vm_compute. reflexivity.
  - split; [discriminate|]; split; [repeat (constructor; [unfold two31; lia|]); constructor|reflexivity].
  - intros k Hk. apply (C39_psq_cut _ _ _ _ _ _ 3); [split; [now left|]; intros L HL; cbn in HL; lia|].
    do 4 (inversion Hk as [|? ? ? ? ?H Hk']; subst; clear Hk; rename Hk' into Hk). inversion Hk; subst.
    unfold psq, frac, ssum, box3. cbn [length nth]. change (3 / 2) with 1 in *.
    assert (B : forall q, -(1) <= q < 3 - 1 -> (IZR q * IZR q <= 1)%R) by (intros q Hq; assert (q * q <= 1) by nia; rewrite <- mult_IZR; now apply IZR_le).
    apply B in H, H0, H1, H2. lra.
Qed.
Lemma box2_kept : kept box2 4 (cut PSQ_CUT 4 0 0%R) (all_momenta box2).
Proof.
  unfold kept. rewrite keep_all.
  - vm_compute. reflexivity.
  - split; [discriminate|]; split; [repeat (constructor; [unfold two31; lia|]); constructor|reflexivity].
  - intros k Hk. apply (C39_psq_cut _ _ _ _ _ _ 2); [split; [now left|]; intros L HL; cbn in HL; lia|].
    do 4 (inversion Hk as [|? ? ? ? ?H Hk']; subst; clear Hk; rename Hk' into Hk). inversion Hk; subst.
    unfold psq, frac, ssum, box2. cbn [length nth]. change (2 / 2) with 1 in *.
    assert (B : forall q, -(1) <= q < 2 - 1 -> (IZR q * IZR q <= 1)%R) by (intros q Hq; assert (q * q <= 1) by nia; rewrite <- mult_IZR; now apply IZR_le).
    apply B in H, H0, H1, H2. lra.
Qed.
Lemma norm2_meq n A B : meq n A B -> norm2 n A = norm2 n B.
Proof. intro H. rewrite !norm2_sum. apply dsum_ext. intros a Ha. apply dsum_ext. intros b Hb. now rewrite (H a b Ha Hb). Qed.
Lemma along_meq n N p A B : (forall mu, (mu < N)%nat -> meq n (A mu) (B mu)) -> along n N p A = along n N p B.
Proof. intro H. apply norm2_meq. intros a b Ha Hb. apply csum_ext. intros mu Hm. unfold mscale. now rewrite (H mu Hm a b Ha Hb). Qed.
Lemma norm2_s3 c : norm2 2 (mscale (RtoC c) s3) = (2 * (c * c))%R.
Proof. rewrite norm2_sum. unfold dsum, mscale, s3. cbn [seq fold_right]. cunfold. ring. Qed.
Definition count (n : nat) (f : nat -> bool) : nat := length (filter f (seq 0 n)).
Lemma csum_count n (f : nat -> bool) : csum n (fun x => if f x then C1 else C0) = RtoC (INR (count n f)).
Proof.
  unfold count. rewrite csum_list. induction (seq 0 n) as [|x l IH]; [reflexivity|]. cbn [fold_right filter]. rewrite IH.
  destruct (f x); cbn [length]; [rewrite S_INR|]; apply C_eq; cunfold; ring.
Qed.
(** the modes of a field of i sigma_3 at sites that all have the same phase 1 *)
Lemma mode_some ds f k mu : Forall (fun L => 0 < L) ds -> (forall x, (x < nsites ds)%nat -> f x mu = true -> cis (2 * PI * (dot ds k (coords ds x) + half ds k mu)) = C1) ->
  meq 2 (mode ds (gauge_field 2 (some_links f)) k mu) (mscale (RtoC (INR (count (nsites ds) (fun x => f x mu)))) s3).
Proof.
  intros pos H a b Ha Hb. unfold mode, mscale. rewrite <- csum_count, <- csum_mul_r. apply csum_ext. intros x Hx.
  rewrite (some_gauge f x mu a b Ha Hb). destruct (f x mu) eqn:E; [now rewrite H|unfold mzero; ring].
Qed.
Definition stripe (x mu : nat) : bool := (mu =? 1)%nat && ((x mod 3 =? 0)%nat && (x / 27 =? 0)%nat).
Lemma stripe_landau : landau 2 4 (nsites box3) (behind box3) (gauge_field 2 (some_links stripe)).
Proof.
  assert (B : forallb (fun x => forallb (fun mu => Bool.eqb (stripe x mu) (stripe (behind box3 x mu) mu)) (seq 0 4)) (seq 0 (nsites box3)) = true) by (vm_compute; reflexivity).
  rewrite forallb_forall in B. intros x Hx a b Ha Hb. unfold msums, mzero. rewrite <- (csum_0 4). apply csum_ext. intros mu Hm. unfold msub.
  rewrite (some_gauge stripe x mu a b Ha Hb), (some_gauge stripe _ mu a b Ha Hb).
  assert (E := B x ltac:(apply in_seq; lia)). rewrite forallb_forall in E. specialize (E mu ltac:(apply in_seq; lia)). apply Bool.eqb_prop in E. rewrite <- E. ring.
Qed.
Lemma stripe_mode mu : (mu < 4)%nat -> meq 2 (mode box3 (gauge_field 2 (some_links stripe)) [1; 0; 0; -1] mu) (mscale (RtoC (if (mu =? 1)%nat then 9 else 0)) s3).
Proof.
  intro Hm. rewrite (mode_some box3 stripe).
  - replace (INR (count (nsites box3) (fun x => stripe x mu))) with (if (mu =? 1)%nat then 9 else 0)%R; [reflexivity|].
    do 4 (destruct mu as [|mu]; [vm_compute count; cbn; ring|]). lia.
  - repeat (constructor; [lia|]); constructor.
  - assert (B : forallb (fun x => negb (stripe x mu) || ((mu =? 1)%nat && match coords box3 x with [a; b; c; d] => (a =? 0) && (d =? 0) | _ => false end)) (seq 0 (nsites box3)) = true)
      by (do 4 (destruct mu as [|mu]; [vm_compute; reflexivity|]); lia).
    rewrite forallb_forall in B. intros x Hx E. specialize (B x ltac:(apply in_seq; lia)). rewrite E in B. cbn [negb orb] in B. apply andb_prop in B. destruct B as [B1 B].
    apply Nat.eqb_eq in B1. subst mu. destruct (coords box3 x) as [|p [|q [|r [|t [|]]]]]; try discriminate B. apply andb_prop in B. destruct B as [B1 B2].
    apply Z.eqb_eq in B1, B2. subst p t. unfold dot, half, box3. cbn [combine map fold_right fst snd nth].
    replace (2 * PI * _)%R with 0%R by field. apply cis_0.
Qed.
Definition conv (ds k : list Z) : list Z := match TwoPI_mpipi_momconv ds (index_of ds (residues ds k)) (length ds) with Some q => q | None => [] end.
Definition oddq : list Z := [1; -1; 0; -1].
(** 3^4: in Landau gauge the longitudinal number at (1,0,0,-1) is not zero (the code takes the
    momentum for (1,-1,0,-1)) *)
Theorem C63_odd_refuted : exists ds ci l U i s k, lattice_ok ds /\ links_ok ds 2 U /\ kept ds (length ds) ci l /\ int_sites l /\ (exists s, In (s, zeros ds) l) /\
  landau 2 (length ds) (nsites ds) (behind ds) (gauge_field 2 U) /\ nth_error l i = Some (s, k) /\ k <> zeros ds /\
  longitudinal 2 (length ds) (khat ds k) (mode ds (gauge_field 2 U) k) = 0%R /\
  forall sched temp inp out s0, any_order sched -> exists res t lg, gluon_props SinMom sched ds 2 l temp inp out s0 U = Some res /\
    nth_error res i = Some (t, lg) /\ (0 < lg)%R.
Proof.
  assert (Hok : lattice_ok box3) by (split; [discriminate|]; split; [repeat (constructor; [unfold two31; lia|]); constructor|reflexivity]).
  exists box3, (cut PSQ_CUT 4 0 0%R), (all_momenta box3), (some_links stripe), 14%nat, 55, [1; 0; 0; -1].
  assert (I : forallb (fun p => (fst p <? two31) && match TwoPI_mpipi_momconv box3 (fst p) 4 with Some _ => true | None => false end) (all_momenta box3) = true) by (vm_compute; reflexivity).
  rewrite forallb_forall in I.
  assert (Hint : int_sites (all_momenta box3)).
  { intros i s k _ Hi. apply nth_error_In, I in Hi. apply andb_prop in Hi. destruct Hi as [Hi _]. now apply Z.ltb_lt in Hi. }
  assert (E14 : nth_error (all_momenta box3) 14 = Some (55, [1; 0; 0; -1])) by (vm_compute; reflexivity).
  split; [exact Hok|]. split; [apply some_links_ok|]. split; [exact box3_kept|]. split; [exact Hint|].
  split; [exists 0; apply (nth_error_In _ 40); vm_compute; reflexivity|]. split; [exact stripe_landau|]. split; [exact E14|]. split; [discriminate|].
  assert (A : forall p, along 2 4 p (mode box3 (gauge_field 2 (some_links stripe)) [1; 0; 0; -1]) = (162 * (p 1%nat * p 1%nat))%R).
  { intro p. rewrite (along_meq 2 4 p _ (fun mu => mscale (RtoC (if (mu =? 1)%nat then 9 else 0)) s3)) by (intros; now apply stripe_mode).
    unfold along. rewrite (norm2_meq 2 _ (mscale (RtoC (9 * p 1%nat)) s3)); [rewrite norm2_s3; ring|].
    intros a b Ha Hb. unfold msums, mscale. cbn [csum Nat.eqb]. generalize (s3 a b). intro z. destruct z. apply C_eq; cunfold; ring. }
  split.
  - unfold longitudinal. change (length box3) with 4%nat. rewrite A. unfold khat, box3. cbn [nth]. replace (PI * 0 / 3)%R with 0%R by field. rewrite sin_0. unfold Rdiv. ring.
  - intros sched temp inp out s0 Any.
    destruct (gluon_written SinMom sched box3 2 _ (all_momenta box3) temp inp out s0 (some_links stripe) (conv box3) Hok ltac:(lia) Any (links_shaped box3 2 _ (some_links_ok box3 stripe)) box3_kept) as (res & E1 & E2 & F).
    + intro E. rewrite E in E14. discriminate E14.
    + intros idx k Hin. destruct (list_entry box3 _ _ Hok box3_kept idx k Hin) as [_ ->]. apply I in Hin. cbn [fst] in Hin. unfold conv. change (length box3) with 4%nat in *.
      destruct (TwoPI_mpipi_momconv box3 (index_of box3 (residues box3 k)) 4); [reflexivity|]. rewrite andb_false_r in Hin. discriminate Hin.
    + exact Hint.
    + assert (Hs : source (all_momenta box3) 14 = 14%nat) by (vm_compute; reflexivity).
      specialize (F 14%nat 55 [1; 0; 0; -1] ltac:(vm_compute; lia)). rewrite Hs in F. specialize (F E14).
      eexists res, _, _. split; [exact E1|]. split; [exact F|].
      apply Rmult_lt_0_compat.
      * unfold l_val. replace (conv box3 [1; 0; 0; -1]) with oddq by (vm_compute; reflexivity). change (length box3) with 4%nat. rewrite A.
        assert (S : (0 < khat box3 oddq 1 * khat box3 oddq 1)%R).
        { unfold khat, box3, oddq. cbn [nth]. replace (PI * -1 / 3)%R with (- (PI / 3))%R by field. rewrite sin_neg. assert (0 < sin (PI / 3))%R by (apply sin_gt_0; pose proof PI_RGT_0; lra). nra. }
        apply Rdiv_lt_0_compat; [cbn [mom_of]; lra|]. unfold guarded. destruct (Rlt_dec _ _); [lra|].
        apply (Rlt_le_trans _ (khat box3 oddq 1 * khat box3 oddq 1)); [exact S|]. cbn [mom_of]. unfold square.
        apply (dsum_term 4 (fun mu => khat box3 oddq mu * khat box3 oddq mu)%R); [intros; nra|lia].
      * apply (t_norm_pos (2 * 2 - 1) (prodZ box3)); [lia|reflexivity].
Qed.
Print Assumptions C63_odd_refuted.

(** * The edge of the zone *)
Lemma const_mode ds k mu : Forall (fun L => 0 < L) ds -> length k = length ds -> periods ds k = false ->
  meq 2 (mode ds (gauge_field 2 (some_links (fun _ _ => true))) k mu) mzero.
Proof.
  intros pos Lk P a b Ha Hb. unfold mode. rewrite (csum_ext _ _ (fun x => cis (2 * PI * phase ds (digits ds (Z.of_nat x)) k) * (cis (2 * PI * half ds k mu) * s3 a b))%C).
  - rewrite csum_mul_r. replace (nsites ds) with (fft_size ds) by reflexivity. rewrite ortho, P by assumption. unfold mzero. ring.
  - intros x Hx. rewrite (some_gauge _ x mu a b Ha Hb), dot_phase, coords_digits by assumption. rewrite phase_sym.
    rewrite Rmult_plus_distr_l, cis_add. ring.
Qed.
(** 2^4, all momenta kept, all links i sigma_3: the number for zero momentum is 0, the zero mode is not *)
Theorem C63_edge_refuted : exists ds ci l U i s, lattice_ok ds /\ links_ok ds 2 U /\ kept ds (length ds) ci l /\ int_sites l /\
  nth_error l i = Some (s, zeros ds) /\ (0 < all_pol 2 (length ds) (mode ds (gauge_field 2 U) (zeros ds)))%R /\
  forall sched temp inp out s0, any_order sched -> exists res lg, gluon_props SinMom sched ds 2 l temp inp out s0 U = Some res /\
    nth_error res i = Some (0%R, lg).
Proof.
  assert (Hok : lattice_ok box2) by (split; [discriminate|]; split; [repeat (constructor; [unfold two31; lia|]); constructor|reflexivity]).
  assert (pos : Forall (fun L => 0 < L) box2) by (apply ok_pos, Hok).
  exists box2, (cut PSQ_CUT 4 0 0%R), (all_momenta box2), (some_links (fun _ _ => true)), 15%nat, 0.
  assert (I : forallb (fun p => (fst p <? two31) && match TwoPI_mpipi_momconv box2 (fst p) 4 with Some _ => true | None => false end) (all_momenta box2) = true) by (vm_compute; reflexivity).
  rewrite forallb_forall in I.
  assert (Hint : int_sites (all_momenta box2)).
  { intros i s k _ Hi. apply nth_error_In, I in Hi. apply andb_prop in Hi. destruct Hi as [Hi _]. now apply Z.ltb_lt in Hi. }
  assert (E0 : nth_error (all_momenta box2) 0 = Some (15, [-1; -1; -1; -1])) by (vm_compute; reflexivity).
  split; [exact Hok|]. split; [apply some_links_ok|]. split; [exact box2_kept|]. split; [exact Hint|]. split; [vm_compute; reflexivity|]. split.
  - assert (Z : forall mu, (mu < 4)%nat -> meq 2 (mode box2 (gauge_field 2 (some_links (fun _ _ => true))) (zeros box2) mu) (mscale (RtoC 16) s3)).
    { intros mu Hm. rewrite (mode_some box2 (fun _ _ => true)); [replace (INR (count (nsites box2) (fun _ => true))) with 16%R by (vm_compute count; cbn; ring); reflexivity|exact pos|].
      intros x Hx _. rewrite <- cis_0. f_equal. replace (dot _ _ _) with 0%R; [replace (half _ _ _) with 0%R; [ring|]|].
      - unfold half, zeros, box2. do 4 (destruct mu as [|mu]; [cbn; field|]). lia.
      - rewrite coords_digits by assumption. unfold dot, zeros, box2. cbn [digits combine map fold_right fst snd]. field. }
    unfold all_pol. rewrite (dsum_ext _ _ (fun _ => 512)%R); [|intros mu Hm; rewrite (norm2_meq 2 _ _ (Z mu Hm)), norm2_s3; ring].
    unfold dsum. cbn. lra.
  - intros sched temp inp out s0 Any.
    destruct (gluon_written SinMom sched box2 2 _ (all_momenta box2) temp inp out s0 (some_links (fun _ _ => true)) (conv box2) Hok ltac:(lia) Any (links_shaped box2 2 _ (some_links_ok box2 _)) box2_kept) as (res & E1 & E2 & F).
    + intro E. rewrite E in E0. discriminate E0.
    + intros idx k Hin. destruct (list_entry box2 _ _ Hok box2_kept idx k Hin) as [_ ->]. apply I in Hin. cbn [fst] in Hin. unfold conv. change (length box2) with 4%nat in *.
      destruct (TwoPI_mpipi_momconv box2 (index_of box2 (residues box2 k)) 4); [reflexivity|]. rewrite andb_false_r in Hin. discriminate Hin.
    + exact Hint.
    + assert (Hs : source (all_momenta box2) 15 = 0%nat) by (vm_compute; reflexivity).
      specialize (F 15%nat 15 [-1; -1; -1; -1] ltac:(vm_compute; lia)). rewrite Hs in F. specialize (F E0).
      assert (Z : forall mu, meq 2 (mode box2 (gauge_field 2 (some_links (fun _ _ => true))) [-1; -1; -1; -1] mu) mzero) by (intro mu; apply const_mode; [exact pos|reflexivity|reflexivity]).
      eexists res, _. split; [exact E1|]. rewrite F. f_equal. f_equal. unfold t_val.
      replace (all_pol _ _ _) with 0%R.
      * rewrite (along_meq 2 (length box2) _ _ (fun _ => mzero)) by (intros; apply Z). replace (along _ _ _ _) with 0%R; [unfold Rdiv; ring|].
        symmetry. apply norm2_zero. intros a b _ _. unfold msums, mscale, mzero. transitivity (csum (length box2) (fun _ => C0)); [apply csum_ext; intros; ring|apply csum_0].
      * unfold all_pol. rewrite (dsum_ext _ _ (fun _ => 0)%R); [unfold dsum; cbn; ring|]. intros mu _. apply norm2_zero, Z.
Qed.
Print Assumptions C63_edge_refuted.

(** * More than 2^31 sites *)
Lemma mfor_none {A S} (f : A -> S -> option S) i : (forall s, f i s = None) -> forall l s, In i l -> mfor l f s = None.
Proof. intros H l. induction l as [|a l IH]; intros s []; cbn [mfor]; [subst; now rewrite H|]. destruct (f a s); [now apply IH|reflexivity]. Qed.
Lemma sorted_before {A} (R : A -> A -> Prop) : (forall a, ~ R a a) -> (forall a b, R a b -> ~ R b a) -> forall l, StronglySorted R l ->
  forall i j a b, nth_error l i = Some a -> nth_error l j = Some b -> R a b -> (i < j)%nat.
Proof.
  intros Irr Asym. induction 1 as [|x l S IH F]; intros i j a b Hi Hj Hab; [destruct i; discriminate|]. rewrite Forall_forall in F.
  destruct i as [|i], j as [|j]; cbn [nth_error] in Hi, Hj; try lia.
  - injection Hi as ->. injection Hj as ->. now apply Irr in Hab.
  - injection Hj as ->. apply nth_error_In, F in Hi. now apply Asym in Hab.
  - apply (IH i j a b Hi Hj) in Hab. lia.
Qed.
Lemma rlex_asym : forall p q, rlex p q -> ~ rlex q p.
Proof.
  induction p as [|a p IH]; intros [|b q]; cbn; auto. intros [H|(E & H)] [H'|(E' & H')]; subst; try lia; try (now apply rlex_irr in H); try (now apply rlex_irr in H').
  now apply (IH _ H).
Qed.
Definition tall : list Z := [64; 64; 64; 2 ^ 14].
(** 64^3 x 16384, momenta of p^2 <= 1: the routine indexes far outside the field, whatever is in it *)
Theorem C63_large_refuted : exists ds ci l, lattice_ok ds /\ kept ds (length ds) ci l /\ all_inside ds l /\ (exists s, In (s, zeros ds) l) /\
  forall b sched NC temp inp out s0 U, any_order sched -> gluon_props b sched ds NC l temp inp out s0 U = None.
Proof.
  assert (Hok : lattice_ok tall) by (split; [discriminate|]; split; [repeat (constructor; [unfold two31; lia|]); constructor|reflexivity]).
  assert (pos : Forall (fun L => 0 < L) tall) by (apply ok_pos, Hok).
  assert (Sm : is_small tall 4 64) by (split; [now left|]; intros L HL; cbn in HL; lia).
  destruct (psq_inside tall 1 0 0%R 64 Hok Sm) as (l & El & Hin & Hz); [lia|lia|lia|].
  exists tall, (cut PSQ_CUT 1 0 0%R), l. split; [exact Hok|]. split; [exact El|]. split; [exact Hin|]. split; [exact Hz|].
  destruct (list_in tall _ l Hok El) as [Srt Mem].
  assert (M : In (2 ^ 32 - 2 ^ 18, [0; 0; 0; -1]) l).
  { apply Mem. split; [repeat (constructor; [vm_compute; split; [discriminate|reflexivity]|]); constructor|]. split; [|vm_compute; reflexivity].
    apply (C39_psq_cut _ _ _ _ _ _ 64); [exact Sm|]. unfold psq, frac, ssum, tall. cbn [length nth]. change (2 ^ 14) with 16384. lra. }
  apply In_nth_error in M. destruct M as [i Hi].
  pose proof (kept_mirrored tall _ _ l Hok El Hin) as Mir.
  assert (Mid : exists s, nth_error l ((length l - 1) / 2) = Some (s, zeros tall)).
  { pose proof (C40_middle tall [] 4 (cut PSQ_CUT 1 0 0%R) l (lat_ok_lattice tall Hok)) as Q. rewrite app_nil_r in Q. now apply Q. }
  destruct Mid as [s Hm].
  assert (Hi2 : (i < length l / 2)%nat).
  { apply (Nat.lt_le_trans _ ((length l - 1) / 2)); [|apply Nat.div_le_mono; lia].
    apply (sorted_before (fun a b : veclist => rlex (snd a) (snd b)) (fun a => rlex_irr (snd a)) (fun a b => rlex_asym (snd a) (snd b)) l Srt i _ _ _ Hi Hm). cbn. left. left. left. right. split; [reflexivity|lia]. }
  intros b sched NC temp inp out s0 U Any. unfold gluon_props.
  destruct (mom_gauge sched tall NC temp inp out U) as [A|]; [|reflexivity]. cbn [bindo].
  destruct (correct_pspace_landau sched tall NC (length tall) l A) as [A'|]; [|reflexivity]. cbn [bindo].
  unfold compute_gluon_prop. destruct (nth_error l (length l / 2)) as [[zm zk]|]; [|reflexivity]. cbn [bindo].
  rewrite (mfor_none _ i); [reflexivity| |].
  - intro st. rewrite Hi. cbn [bindo]. unfold normed, project_trans_long.
    destruct (psq_calc b tall NC _) as [[mm q]|]; [|reflexivity]. cbn [bindo].
    replace (u64 (i32 (2 ^ 32 - 2 ^ 18)) <? lvolume tall) with false by (vm_compute; reflexivity). rewrite andb_false_r. reflexivity.
  - apply (Permutation_in i (Permutation_sym (Any [4] (length l / 2)%nat))). apply in_seq. lia.
Qed.
Print Assumptions C63_large_refuted.
