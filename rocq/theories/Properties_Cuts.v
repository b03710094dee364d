(** C39: momentum lists.  C40: their reflection symmetry.  C41: the cache after a crash.
    C42: triplets.  C43: binary output. *)
From Coq Require Import ZArith Reals List PeanoNat Lia Lra Permutation Sorted Bool FunctionalExtensionality.
From Verif Require Import CInt Lib GeomSpec ByteModel ByteSpec CutsModel CutsSpec CutsProofs CutsProofs2 CutsRModel CutsRSpec CutsRProofs TripModel TripProofs.
Import ListNotations.
Local Open Scope Z_scope.

(** * C39 *)
(** [ds]: the extents the list runs over (DIMS of them), [ts]: at most one further direction, held at
    zero.  The list holds exactly the momenta of the symmetric zone that pass the cut, in increasing
    order, each once, and the stored site is the one congruent to the momentum. *)
Theorem C39_list : forall ds ts safe, lat_ok ds ts ->
  exists l, get_mom_veclist (ds ++ ts) (length ds) safe = Some l /\
    increasing_by (fun a b => rlex (snd a) (snd b)) l /\
    (forall s p, In (s, p) l <->
       exists q, zone ds q /\ p = q ++ zeros ts /\ safe p = true /\
                 s = index_of (ds ++ ts) (residues ds q ++ zeros ts)).
Proof. exact mom_veclist_ok. Qed.
Print Assumptions C39_list.
Example C39_list_lattice : lat_ok [4; 3; 2] [8].
Proof. unfold lat_ok. repeat split; try (cbn; lia); try discriminate. repeat constructor; lia. Qed.
Example C39_list_two : get_mom_veclist [4; 3; 8] 2 (fun p => Z.abs (nth 0 p 0) + Z.abs (nth 1 p 0) <=? 1) =
  Some [(8, [0; -1; 0]); (3, [-1; 0; 0]); (0, [0; 0; 0]); (1, [1; 0; 0]); (4, [0; 1; 0])].
Proof. vm_compute. reflexivity. Qed.
Example C39_list_one : get_mom_veclist [4; 2] 1 (fun p => Z.abs (nth 0 p 0) <=? 1) =
  Some [(3, [-1; 0]); (0, [0; 0]); (1, [1; 0])].
Proof. vm_compute. reflexivity. Qed.

(** configuration space: sites by their shortest vector to the origin.  The partial products of the
    extents are 32 bit in the code. *)
Theorem C39_config : forall ds ts safe, lat_ok ds ts -> prodZ (removelast ds) < two31 ->
  exists l, get_veclist (ds ++ ts) (length ds) safe = Some l /\
    increasing_by (fun a b => fst a < fst b) l /\
    (forall s p, In (s, p) l <->
       exists x v, in_box ds x /\ shortest ds x v /\ s = index_of ds x /\ p = v ++ zeros ts /\ safe p = true).
Proof. exact veclist_ok. Qed.
Print Assumptions C39_config.
Example C39_config_one : get_veclist [4; 2] 1 (fun p => Z.abs (nth 0 p 0) <=? 1) =
  Some [(0, [0; 0]); (1, [1; 0]); (3, [-1; 0])].
Proof. vm_compute. reflexivity. Qed.

(** the cuts; m is the smallest extent *)
Section Cuts.
Local Open Scope R_scope.
Definition cut (t : cut_type) (mx ag : Z) (w : R) : cut_info := {| ctype := t; max_mom := mx; angle := ag; cyl_width := w |}.
(* sum of squares of the momenta in units of the smallest one *)
Definition psq (dims k : list Z) (D : nat) (m : Z) : R := IZR m * IZR m * ssum D (fun mu => frac dims k mu * frac dims k mu).

Lemma small_is dims D m : is_small dims D m -> small dims D = m.
Proof.
  intros H. apply (is_small_unique dims D); [|assumption]. apply small_min.
  - intros ->. destruct H as (H & _). rewrite firstn_nil in H. destruct H.
  - destruct D; [|apply Nat.lt_0_succ]. destruct H as (H & _). destruct H.
Qed.
Lemma psq_is dims D m sd k : is_small dims sd m -> gen_calc_psq (rats dims sd) k D = psq dims k D m.
Proof. intros H. rewrite psq_spec, (small_is _ _ _ H). reflexivity. Qed.
Lemma Rleb_iff a b : Rleb a b = true <-> a <= b.
Proof. unfold Rleb. destruct (Rle_dec a b); split; intros; try assumption; try reflexivity; try discriminate; contradiction. Qed.

Theorem C39_psq_cut : forall dims sd D mx ag w m k, is_small dims sd m ->
  (safe_momenta dims sd (cut PSQ_CUT mx ag w) D k = true <-> psq dims k D m <= IZR mx).
Proof. intros dims sd D mx ag w m k H. unfold safe_momenta, cut. cbn [ctype max_mom]. rewrite (psq_is _ _ m) by assumption. apply Rleb_iff. Qed.
Print Assumptions C39_psq_cut.
Theorem C39_hypercubic_cut : forall dims sd D mx ag w m k, is_small dims sd m -> (0 < m)%Z ->
  (safe_momenta dims sd (cut HYPERCUBIC_CUT mx ag w) D k = true <->
   forall mu, (mu < D)%nat -> IZR m * Rabs (frac dims k mu) <= sqrt (IZR mx)).
Proof.
  intros dims sd D mx ag w m k H Hm. unfold safe_momenta, cut. cbn [ctype max_mom].
  rewrite hyp_spec by (rewrite (small_is _ _ _ H); assumption). rewrite (small_is _ _ _ H). reflexivity.
Qed.
Print Assumptions C39_hypercubic_cut.
(** in four dimensions the cylinder is the set within the given width of a body diagonal *)
Theorem C39_cylinder_cut_partial : forall dims sd mx ag w m k, (4 <= length dims)%nat -> is_small dims sd m ->
  (safe_momenta dims sd (cut CYLINDER_CUT mx ag w) 4 k = true <->
   psq dims k 4 m <= IZR mx /\ exists s, body_diagonal 4 s /\ near_line 4 (lat_mom dims k) s (2 * PI * w / IZR m)).
Proof.
  intros dims sd mx ag w m k Hl H. unfold safe_momenta, cut. cbn [ctype max_mom cyl_width]. rewrite (psq_is _ _ m) by assumption.
  rewrite (small_is _ _ _ H).
  assert (K : cylinder_DF (length dims) 4 (compute_p dims k 4) (2 * PI * w / IZR m) = true <->
              exists s, body_diagonal 4 s /\ near_line 4 (lat_mom dims k) s (2 * PI * w / IZR m)).
  { rewrite DF_spec; [|assumption|intros mu Hmu; now apply compute_p_beyond].
    split; intros (s & Hs & Hn); exists s; (split; [assumption|]); revert Hn; apply near_line_ext; intros mu Hmu; [|symmetry]; now apply compute_p_spec. }
  destruct (Rleb (psq dims k 4 m) (IZR mx)) eqn:E.
  - rewrite K. apply Rleb_iff in E. tauto.
  - split; [discriminate|]. intros (Hp & _). apply Rleb_iff in Hp. congruence.
Qed.
Print Assumptions C39_cylinder_cut_partial.
Theorem C39_conical_cut : forall dims sd D mx ag w m k, (0 < D <= length dims)%nat -> is_small dims sd m ->
  0 <= ang ag <= PI ->
  (safe_momenta dims sd (cut CYLINDER_AND_CONICAL_CUT mx ag w) D k = true <->
   psq dims k D m <= IZR mx /\
   (norm2v D (lat_mom dims k) < 3 / 100000000000000 \/
    exists s, body_diagonal D s /\ near_line D (lat_mom dims k) s (2 * PI * w / IZR m) /\ angle_within D (lat_mom dims k) s (ang ag))).
Proof.
  intros dims sd D mx ag w m k HD H Ha. unfold safe_momenta, cut. cbn [ctype max_mom cyl_width angle]. rewrite (psq_is _ _ m) by assumption.
  rewrite (small_is _ _ _ H).
  assert (En : norm2v D (compute_p dims k D) = norm2v D (lat_mom dims k)).
  { unfold norm2v. assert (G : forall n, (n <= D)%nat -> ssum n (fun mu => compute_p dims k D mu * compute_p dims k D mu) = ssum n (fun mu => lat_mom dims k mu * lat_mom dims k mu)).
    { induction n as [|n IH]; intros Hn; [reflexivity|]. cbn [ssum]. rewrite IH by lia. rewrite compute_p_spec by lia. reflexivity. }
    now apply G. }
  assert (K : cylinder_CJD (length dims) D (compute_p dims k D) (2 * PI * w / IZR m) ag = true <->
     (norm2v D (lat_mom dims k) < PREC_TOL \/
    exists s, body_diagonal D s /\ near_line D (lat_mom dims k) s (2 * PI * w / IZR m) /\ angle_within D (lat_mom dims k) s (ang ag))).
  { rewrite CJD_spec by assumption. rewrite En. split; (intros [Hs|(s & Hs & Hn & Hw)]; [now left|right]);
      exists s; (split; [assumption|]); (split; [revert Hn; apply near_line_ext|revert Hw; apply angle_ext]); intros mu Hmu; try (symmetry; now apply compute_p_spec); now apply compute_p_spec. }
  destruct (Rleb (psq dims k D m) (IZR mx)) eqn:E.
  - rewrite K. apply Rleb_iff in E. unfold PREC_TOL. tauto.
  - split; [discriminate|]. intros (Hp & _). apply Rleb_iff in Hp. congruence.
Qed.
Print Assumptions C39_conical_cut.
Example C39_cut_lattice : is_small [6; 6; 6; 12]%Z 4 6%Z.
Proof. split; [now left|]. intros L HL. cbn in HL. lia. Qed.

(** with three of four directions (spatial correlators) the cylinder loses momenta that lie exactly
    on the diagonal: (1,1,1,0) on 6^4 with width 0.1 *)
Theorem C39_cylinder_refuted : exists dims D mx w m k, is_small dims D m /\ 0 < w /\
  psq dims k D m <= IZR mx /\
  (exists s, body_diagonal D s /\ near_line D (lat_mom dims k) s 0) /\
  safe_momenta dims D (cut CYLINDER_CUT mx 0 w) D k = false.
Proof.
  exists [6; 6; 6; 6]%Z, 3%nat, 3%Z, (1 / 10), 6%Z, [1; 1; 1; 0]%Z.
  assert (Hs : is_small [6; 6; 6; 6]%Z 3 6%Z) by (split; [now left|intros L HL; cbn in HL; lia]).
  assert (Hp : psq [6; 6; 6; 6]%Z [1; 1; 1; 0]%Z 3 6 <= IZR 3).
  { unfold psq, frac. cbn [ssum nth]. lra. }
  assert (Hq : forall mu, (mu < 3)%nat -> lat_mom [6; 6; 6; 6]%Z [1; 1; 1; 0]%Z mu = 1).
  { intros mu Hmu. unfold lat_mom. replace (PI * frac [6; 6; 6; 6]%Z [1; 1; 1; 0]%Z mu) with (PI / 6).
    - rewrite sin_PI6. lra.
    - unfold frac. destruct mu as [|[|[|]]]; cbn [nth]; try lia; field. }
  split; [assumption|]. split; [lra|]. split; [assumption|]. split.
  - exists (fun _ => 1). split; [intros mu _; now left|]. split; [lra|]. exists 1.
    unfold norm2v. cbn [ssum]. rewrite !Hq by lia. lra.
  - unfold safe_momenta, cut. cbn [ctype max_mom cyl_width]. rewrite (psq_is _ _ 6%Z) by assumption.
    rewrite (proj2 (Rleb_iff _ _) Hp). rewrite (small_is _ _ _ Hs).
    replace (compute_p [6; 6; 6; 6]%Z [1; 1; 1; 0]%Z 3) with (fun mu : nat => if (mu <? 3)%nat then 1 else 0).
    + apply DF_three; [cbn; lia|lra|]. pose proof PI_4. lra.
    + apply functional_extensionality. intros mu. destruct (Nat.ltb_spec mu 3) as [Hm|Hm].
      * rewrite compute_p_spec by assumption. symmetry. now apply Hq.
      * rewrite compute_p_beyond by assumption. reflexivity.
Qed.
Print Assumptions C39_cylinder_refuted.
End Cuts.

(** repeating the call, on a little-endian host: the first call writes the cache, every later one
    finds the same list in it, whatever it would itself have computed *)
Theorem C39_repeat : forall nd kept, Forall (vec_ok nd) kept -> 0 < Z.of_nat (length kept) < two32 ->
  exists f, compute_veclist false nd true None kept = (VList (Z.of_nat (length kept)) (map Some kept), Some f) /\
    forall b kept', compute_veclist false nd b (Some f) kept' = (VList (Z.of_nat (length kept)) (map Some kept), Some f).
Proof. intros nd kept H1 H2. exists (write_cache false kept). split; [now apply first_call|]. intros. now apply later_call. Qed.
Print Assumptions C39_repeat.
Example C39_repeat_ex : Forall (vec_ok 2) [(3, [-1; 0]); (0, [0; 0]); (1, [1; 0])].
Proof. repeat constructor; cbn; lia. Qed.
(** on a big-endian host the count goes through the wrong half of a 64 bit word: the second call
    returns one momentum of three *)
Theorem C39_big_endian_refuted : exists nd kept f, Forall (vec_ok nd) kept /\ length kept = 3%nat /\
  compute_veclist true nd true None kept = (VList 3 (map Some kept), Some f) /\
  compute_veclist true nd true (Some f) kept = (VList 1 (map Some (firstn 1 kept)), Some f).
Proof.
  exists 2%nat, [(3, [-1; 0]); (0, [0; 0]); (1, [1; 0])], (write_cache true [(3, [-1; 0]); (0, [0; 0]); (1, [1; 0])]).
  split; [exact C39_repeat_ex|]. split; [reflexivity|]. split; vm_compute; reflexivity.
Qed.
Print Assumptions C39_big_endian_refuted.

(** * C40 *)
Definition mirrored (l : list veclist) : Prop := forall i a b,
  nth_error l i = Some a -> nth_error l (length l - 1 - i) = Some b -> snd b = map Z.opp (snd a).
Lemma vneg_is p : vneg p = map Z.opp p.
Proof. reflexivity. Qed.

(** for all cuts of the code: entry i and entry n-1-i are negatives of each other exactly if no kept
    momentum has a component -L/2 with L even *)
Theorem C40_mirror : forall ds ts sd ci l, lat_ok ds ts ->
  get_mom_veclist (ds ++ ts) (length ds) (safe_momenta (ds ++ ts) sd ci (length ds)) = Some l ->
  ((forall s p, In (s, p) l -> ~ edge ds p) <-> mirrored l).
Proof.
  intros ds ts sd ci l Hok E. apply (mom_veclist_mirror ds ts (safe_momenta (ds ++ ts) sd ci (length ds)) l Hok); [|assumption].
  intros p. apply safe_neg. rewrite app_length. lia.
Qed.
Print Assumptions C40_mirror.
Theorem C40_any_cut : forall ds ts safe l, lat_ok ds ts -> (forall p, safe (map Z.opp p) = safe p) ->
  get_mom_veclist (ds ++ ts) (length ds) safe = Some l ->
  ((forall s p, In (s, p) l -> ~ edge ds p) <-> mirrored l).
Proof. exact mom_veclist_mirror. Qed.
Print Assumptions C40_any_cut.
Theorem C40_odd : forall ds ts sd ci l, lat_ok ds ts -> Forall (fun L => Z.even L = false) ds ->
  get_mom_veclist (ds ++ ts) (length ds) (safe_momenta (ds ++ ts) sd ci (length ds)) = Some l -> mirrored l.
Proof. intros ds ts sd ci l Hok Ho E. apply (C40_mirror ds ts sd ci l Hok E). intros s p _. now apply odd_no_edge. Qed.
Print Assumptions C40_odd.
Lemma rlex_irr p : ~ rlex p p.
Proof. induction p as [|a p IH]; cbn; [auto|]. intros [H|(_ & H)]; [now apply IH|lia]. Qed.
Lemma sorted_nth_inj {A} (R : A -> A -> Prop) : (forall a, ~ R a a) -> forall l, StronglySorted R l ->
  forall i j a, nth_error l i = Some a -> nth_error l j = Some a -> i = j.
Proof.
  intros Hr l H. induction H as [|b l H IH Hb]; intros i j a Hi Hj; [destruct i; discriminate|].
  rewrite Forall_forall in Hb.
  destruct i as [|i], j as [|j]; cbn in Hi, Hj; [reflexivity| | |f_equal; now apply (IH i j a)].
  - injection Hi as ->. apply nth_error_In in Hj. exfalso. apply (Hr a). now apply Hb.
  - injection Hj as ->. apply nth_error_In in Hi. exfalso. apply (Hr a). now apply Hb.
Qed.
(** when the list is mirrored and contains the zero momentum, this is its entry (n-1)/2 *)
Theorem C40_middle : forall ds ts sd ci l, lat_ok ds ts ->
  get_mom_veclist (ds ++ ts) (length ds) (safe_momenta (ds ++ ts) sd ci (length ds)) = Some l ->
  mirrored l -> (exists s, In (s, zeros (ds ++ ts)) l) ->
  exists s, nth_error l ((length l - 1) / 2) = Some (s, zeros (ds ++ ts)).
Proof.
  intros ds ts sd ci l Hok E Hm (s & Hi).
  destruct (mom_veclist_ok ds ts (safe_momenta (ds ++ ts) sd ci (length ds)) Hok) as (l' & E' & Hs & Hin).
  assert (l' = l) by congruence. subst l'.
  apply In_nth_error in Hi. destruct Hi as (i & Hi). assert (Hl := nth_error_Some l i). rewrite Hi in Hl.
  assert (L : (i < length l)%nat) by (apply Hl; discriminate).
  destruct (nth_error l (length l - 1 - i)) as [b|] eqn:Eb; [|apply nth_error_None in Eb; lia].
  pose proof (Hm i _ b Hi Eb) as Hb. cbn [snd] in Hb.
  assert (Ez : map Z.opp (zeros (ds ++ ts)) = zeros (ds ++ ts)) by (unfold zeros; rewrite map_map; apply map_ext; reflexivity).
  rewrite Ez in Hb. destruct b as [s' p']. cbn [snd] in Hb. subst p'.
  assert (s' = s).
  { apply nth_error_In in Hi, Eb. apply Hin in Hi, Eb. destruct Hi as (q & _ & Eq & _ & ->), Eb as (q' & _ & Eq' & _ & ->).
    rewrite Eq in Eq'. apply app_inv_tail in Eq'. now subst. }
  subst s'. assert (i = length l - 1 - i)%nat by (apply (sorted_nth_inj (fun a b => rlex (snd a) (snd b)) (fun a => rlex_irr (snd a)) l Hs i _ _ Hi Eb)).
  exists s. replace ((length l - 1) / 2)%nat with i; [assumption|].
  replace (length l - 1)%nat with (i * 2)%nat by lia. symmetry. apply Nat.div_mul. lia.
Qed.
Print Assumptions C40_middle.
Example C40_odd_ex : lat_ok [5; 5; 5; 3] [] /\ Forall (fun L => Z.even L = false) [5; 5; 5; 3].
Proof. unfold lat_ok. repeat split; try (cbn; lia); try discriminate; repeat constructor; lia. Qed.
(** 4^4 with p^2 <= 4 keeps (-2,0,0,0): the list is not mirrored *)
Theorem C40_even_refuted : exists ds ci l, lat_ok ds [] /\
  get_mom_veclist (ds ++ []) (length ds) (safe_momenta (ds ++ []) (length ds) ci (length ds)) = Some l /\ ~ mirrored l.
Proof.
  set (ds := [4; 4; 4; 4]). set (ci := cut PSQ_CUT 4 0 0%R).
  assert (Hok : lat_ok ds []) by (unfold lat_ok; repeat split; try (cbn; lia); try discriminate; repeat constructor; lia).
  destruct (mom_veclist_ok ds [] (safe_momenta (ds ++ []) 4 ci 4) Hok) as (l & E & _ & Hin).
  exists ds, ci, l. split; [assumption|]. split; [exact E|].
  rewrite <- (C40_mirror ds [] 4 ci l Hok E). intros H.
  apply (H (index_of (ds ++ []) (residues ds [-2; 0; 0; 0] ++ zeros [])) [-2; 0; 0; 0]).
  - apply Hin. exists [-2; 0; 0; 0]. split; [repeat constructor; cbn; lia|]. split; [reflexivity|]. split; [|reflexivity].
    apply (C39_psq_cut _ _ _ _ _ _ 4).
    + split; [now left|intros L HL; cbn in HL; lia].
    + unfold psq, frac, ds. cbn [ssum nth app]. lra.
  - exists 0%nat, 4. repeat split.
Qed.
Print Assumptions C40_even_refuted.

(** * C41 *)
(** the state after a crash that left the first k bytes of the cache file, on a little-endian host: no
    later run recomputes.  It gets NULL when no whole record survived, otherwise the full count with
    only the surviving m entries; the remaining cells are uninitialised memory. *)
Theorem C41_after_crash : forall nd kept k b kept', Forall (vec_ok nd) kept -> 0 < Z.of_nat (length kept) < two32 ->
  (k <= length (write_cache false kept))%nat ->
  let f := firstn k (write_cache false kept) in
  let m := ((k - 4) / vec_size nd)%nat in
  compute_veclist false nd b (Some f) kept' =
  (if (m =? 0)%nat then Null
   else VList (Z.of_nat (length kept)) (map Some (firstn m kept) ++ repeat None (length kept - m)), Some f).
Proof.
  intros nd kept k b kept' H1 H2 Hk f m. unfold compute_veclist. f_equal. unfold f.
  rewrite (read_prefix nd kept H1 H2 k 1 None Hk) by (unfold two32; lia). reflexivity.
Qed.
Print Assumptions C41_after_crash.
(** so the claim holds exactly for files missing no record *)
Theorem C41_complete_partial : forall nd kept k b kept', Forall (vec_ok nd) kept -> 0 < Z.of_nat (length kept) < two32 ->
  (k <= length (write_cache false kept))%nat ->
  (fst (compute_veclist false nd b (Some (firstn k (write_cache false kept))) kept') =
     VList (Z.of_nat (length kept)) (map Some kept) <-> k = length (write_cache false kept)).
Proof.
  intros nd kept k b kept' H1 H2 Hk. rewrite (C41_after_crash nd kept k b kept' H1 H2 Hk). cbn [fst].
  rewrite (file_len nd kept H1) in *.
  assert (Hs : (0 < vec_size nd)%nat) by (unfold vec_size; lia).
  set (n := length kept) in *. set (m := ((k - 4) / vec_size nd)%nat).
  assert (Hm : (m <= n)%nat).
  { unfold m. transitivity ((vec_size nd * n) / vec_size nd)%nat; [apply Nat.div_le_mono; lia|]. rewrite Nat.mul_comm, Nat.div_mul by lia. lia. }
  split.
  - intros E. destruct (Nat.eqb_spec m 0) as [_|Hm0]; [discriminate|]. injection E as E.
    destruct (Nat.eq_dec m n) as [Hmn|Hmn].
    + assert (vec_size nd * m <= k - 4)%nat by (unfold m; apply Nat.mul_div_le; lia). rewrite Hmn in *. nia.
    + exfalso. assert (F : In None (map Some kept)).
      { rewrite <- E. apply in_or_app. right. destruct (n - m)%nat as [|j] eqn:Ej; [lia|]. now left. }
      apply in_map_iff in F. destruct F as (? & ? & _). discriminate.
  - intros ->. assert (Em : m = n) by (unfold m; replace (4 + vec_size nd * n - 4)%nat with (n * vec_size nd)%nat by lia; apply Nat.div_mul; lia).
    rewrite Em. destruct (Nat.eqb_spec n 0); [lia|]. rewrite Nat.sub_diag. cbn [repeat]. rewrite app_nil_r. unfold n. now rewrite firstn_all.
Qed.
Print Assumptions C41_complete_partial.
Example C41_ex : length (write_cache false [(3, [-1; 0]); (0, [0; 0]); (1, [1; 0])]) = 52%nat.
Proof. reflexivity. Qed.
(** after a crash having written 30 of 52 bytes, every later run uses one correct and two
    uninitialised entries *)
Theorem C41_refuted : exists nd kept k, Forall (vec_ok nd) kept /\ (k < length (write_cache false kept))%nat /\
  compute_veclist false nd true (Some (firstn k (write_cache false kept))) kept =
  (VList 3 [Some (3, [-1; 0]); None; None], Some (firstn k (write_cache false kept))).
Proof.
  exists 2%nat, [(3, [-1; 0]); (0, [0; 0]); (1, [1; 0])], 30%nat. split; [exact C39_repeat_ex|].
  split; [rewrite C41_ex; lia|]. vm_compute. reflexivity.
Qed.
Print Assumptions C41_refuted.
(** a run that keeps no momentum leaves an empty file; later calls return NULL with size 0, which is
    also the right answer for an empty list *)
Theorem C41_empty : forall be nd b kept', exists f, compute_veclist be nd true None [] = (Null, Some f) /\
  compute_veclist be nd b (Some f) kept' = (Null, Some f).
Proof. intros be nd b kept'. exists []. split; reflexivity. Qed.
Print Assumptions C41_empty.

(** * C42 *)
(** specification *)
Fixpoint sumsq (p : list Z) : Z := match p with [] => 0 | c :: r => c * c + sumsq r end.
Fixpoint plus (p q : list Z) : list Z := match p, q with a :: p', b :: q' => a + b :: plus p' q' | _, _ => [] end.
(* p in units of the smallest extent s *)
Fixpoint scaled (s : Z) (dims p : list Z) : list Z := match dims, p with L :: d, c :: q => L / s * c :: scaled s d q | _, _ => [] end.
(* s is the smallest extent and all extents are multiples of it *)
Definition unit_extent (dims : list Z) (s : Z) : Prop := In s dims /\ forall L, In L dims -> s <= L /\ L mod s = 0.
Lemma sumsq_sq p : sq p = sumsq p.
Proof. induction p as [|c p IH]; [reflexivity|]. rewrite sq_cons, IH. reflexivity. Qed.
Lemma plus_vadd p : forall q, vadd p q = plus p q.
Proof. induction p as [|a p IH]; intros [|b q]; try reflexivity. cbn. f_equal. apply IH. Qed.
Lemma scaled_vscale dims s : smallest dims = s -> forall p, vscale (int_rats dims) p = scaled s dims p.
Proof.
  intros Hs. unfold int_rats, vscale. rewrite Hs. clear Hs. induction dims as [|L d IH]; intros [|c p]; try reflexivity. cbn. f_equal. apply IH.
Qed.
Lemma smallest_is dims s : unit_extent dims s -> smallest dims = s.
Proof.
  intros (Hi & Hm). destruct dims as [|d r]; [destruct Hi|]. cbn [smallest].
  assert (G : forall r d, let x := fold_left (fun s d => if d <? s then d else s) r d in In x (d :: r) /\ forall L, In L (d :: r) -> x <= L).
  { clear. induction r as [|e r IH]; intros d; cbn [fold_left]; [split; [now left|]; intros L [->|[]]; lia|].
    specialize (IH (if e <? d then e else d)). cbn zeta in IH. destruct IH as (I1 & I2). split.
    - destruct I1 as [I1|I1]; [|right; now right]. rewrite <- I1. destruct (e <? d); [right; now left|now left].
    - intros L HL. destruct (Z.ltb_spec e d).
      + assert (I3 := I2 e (or_introl eq_refl)). destruct HL as [<-|[<-|HL]]; [lia|lia|]. apply I2. now right.
      + assert (I3 := I2 d (or_introl eq_refl)). destruct HL as [<-|[<-|HL]]; [lia|lia|]. apply I2. now right. }
  destruct (G r d) as (G1 & G2). specialize (G2 s Hi). destruct (Hm _ G1) as (G3 & _). lia.
Qed.
Lemma sumsq_opp p : sumsq (map Z.opp p) = sumsq p.
Proof. induction p as [|c p IH]; [reflexivity|]. cbn [map sumsq]. rewrite IH. ring. Qed.
Lemma scaled_opp s dims : forall p, scaled s dims (map Z.opp p) = map Z.opp (scaled s dims p).
Proof. induction dims as [|L d IH]; intros [|c p]; try reflexivity. cbn. f_equal; [ring|apply IH]. Qed.
Lemma plus_length p : forall q, length p = length q -> length (plus p q) = length p.
Proof. induction p as [|a p IH]; intros [|b q] H; try discriminate; [reflexivity|]. cbn in *. f_equal. apply IH. lia. Qed.

(** For extents that are multiples of the smallest one and an even bound: both passes stay in their
    arrays; the list of pairs is free of repetitions, ordered by momentum and contains exactly the
    pairs with p1^2 = p2^2 = (p1+p2)^2 < nnmax; trip[n/2] is the number of them with square n; entry j
    holds the positions of p1, p2 and -(p1+p2) in the momentum list.  One cell more than counted is
    allocated and never written. *)
Theorem C42_triplets_partial : forall dims s mom nnmax, unit_extent dims s -> 0 <= nnmax -> Z.even nnmax = true ->
  (forall p, length p = length dims -> sumsq p < nnmax -> In (scaled s dims p) mom) ->
  exists pairs trip t, generate dims mom nnmax = Some (trip, t ++ [None]) /\
    NoDup pairs /\ StronglySorted (fun a b => sumsq (fst a) <= sumsq (fst b)) pairs /\
    (forall p1 p2, In (p1, p2) pairs <->
       length p1 = length dims /\ length p2 = length dims /\
       sumsq p1 < nnmax /\ sumsq p2 = sumsq p1 /\ sumsq (plus p1 p2) = sumsq p1) /\
    length trip = Z.to_nat (nnmax / 2) /\
    (forall k, (k < Z.to_nat (nnmax / 2))%nat ->
       nth_error trip k = Some (Z.of_nat (length (filter (fun p => sumsq (fst p) =? 2 * Z.of_nat k) pairs)))) /\
    length t = length pairs /\
    (forall j p1 p2, nth_error pairs j = Some (p1, p2) ->
       exists i1 i2 i3, nth_error t j = Some (Some [Z.of_nat i1; Z.of_nat i2; Z.of_nat i3]) /\
         nth_error mom i1 = Some (scaled s dims p1) /\ nth_error mom i2 = Some (scaled s dims p2) /\
         nth_error mom i3 = Some (scaled s dims (map Z.opp (plus p1 p2)))).
Proof.
  intros dims s mom nnmax Hu Hn He Hmom. pose proof (smallest_is _ _ Hu) as Hs.
  assert (Hc : commensurate dims) by (unfold commensurate; rewrite Hs; apply Forall_forall; intros L HL; now apply Hu).
  destruct (generate_ok dims mom nnmax Hc Hn He) as (pairs & trip & t & E & H1 & H2 & H3 & _ & H5 & H6 & H7).
  exists pairs, trip, (map (fun p => Some (entry (int_rats dims) mom (fst p) (snd p))) pairs).
  assert (H3' : forall p1 p2, In (p1, p2) pairs <->
       length p1 = length dims /\ length p2 = length dims /\
       sumsq p1 < nnmax /\ sumsq p2 = sumsq p1 /\ sumsq (plus p1 p2) = sumsq p1).
  { intros p1 p2. rewrite H3. rewrite !sumsq_sq, plus_vadd. split.
    - intros (A & B & n & C & D & F & G). repeat split; congruence || assumption || lia.
    - intros (A & B & C & D & F). repeat split; try assumption. exists (sumsq p1). auto. }
  split; [now rewrite E, H7|]. split; [assumption|]. split.
  { clear -H2. induction H2 as [|a l H IH Ha]; constructor; [assumption|]. revert Ha. apply Forall_impl. intros b. now rewrite !sumsq_sq. }
  split; [exact H3'|]. split; [assumption|]. split.
  { intros k Hk. rewrite H6 by assumption. do 3 f_equal. apply filter_ext. intros p. unfold level. now rewrite sumsq_sq. }
  split; [apply map_length|].
  intros j p1 p2 Hj. pose proof (nth_error_In _ _ Hj) as Hin. apply H3' in Hin. destruct Hin as (L1 & L2 & Hlt & E2 & E3).
  assert (Lr : length (int_rats dims) = length dims) by apply map_length.
  destruct (entry_ok (int_rats dims) mom p1 p2) as (i1 & i2 & i3 & Een & N1 & N2 & N3 & _); try congruence.
  - rewrite (scaled_vscale _ s Hs). apply Hmom; assumption.
  - rewrite (scaled_vscale _ s Hs). apply Hmom; [assumption|lia].
  - rewrite (scaled_vscale _ s Hs), plus_vadd, <- scaled_opp. apply Hmom.
    + rewrite map_length, plus_length; congruence.
    + rewrite sumsq_opp. lia.
  - exists i1, i2, i3. rewrite (scaled_vscale _ s Hs) in N1, N2, N3. rewrite plus_vadd, <- scaled_opp in N3.
    split; [|auto]. rewrite nth_error_map, Hj. cbn [option_map fst snd]. now rewrite Een.
Qed.
Print Assumptions C42_triplets_partial.
(** the triplets conserve momentum *)
Theorem C42_conserve : forall dims s p1 p2, length p1 = length dims -> length p2 = length dims ->
  plus (plus (scaled s dims p1) (scaled s dims p2)) (scaled s dims (map Z.opp (plus p1 p2))) = map (fun _ => 0) dims.
Proof.
  intros dims s. induction dims as [|L d IH]; intros [|a p1] [|b p2] H1 H2; try discriminate; [reflexivity|].
  cbn [plus scaled map]. f_equal; [ring|]. apply IH; cbn in *; lia.
Qed.
Print Assumptions C42_conserve.
(** no odd square is possible, so going through the even ones loses nothing *)
Theorem C42_even_squares : forall p q n, length p = length q ->
  sumsq p = n -> sumsq q = n -> sumsq (plus p q) = n -> Z.even n = true.
Proof.
  intros p q n Hl H1 H2 H3. destruct (sq_vadd_parity p q Hl) as (m & E). rewrite !sumsq_sq, plus_vadd, H1, H2, H3 in E.
  replace n with (2 * - m) by lia. rewrite Z.even_mul. reflexivity.
Qed.
Print Assumptions C42_even_squares.
Example C42_ex : generate [2; 4] [[0; 0]] 2 = Some ([1], [Some [0; 0; 0]; None]).
Proof. vm_compute. reflexivity. Qed.
Example C42_ex_unit : unit_extent [2; 4] 2.
Proof. split; [now left|]. intros L HL. cbn in HL. destruct HL as [<-|[<-|[]]]; split; (lia || reflexivity). Qed.
Example C42_ex_three : get_trip [2; 2; 2] 4 [0; 0] = Some [1; 48].
Proof. vm_compute. reflexivity. Qed.

(** the counter handed on is one too large: the array has a last cell that is never written, and every
    later pass over all its entries (projector, output) reads it *)
Theorem C42_extra_cell : forall dims s mom nnmax, unit_extent dims s -> 0 <= nnmax -> Z.even nnmax = true ->
  exists trip t, generate dims mom nnmax = Some (trip, t) /\ Z.of_nat (length t) = fold_right Z.add 0 trip + 1 /\
    nth_error t (length t - 1) = Some None /\ kall mom t = None.
Proof.
  intros dims s mom nnmax Hu Hn He. pose proof (smallest_is _ _ Hu) as Hs.
  assert (Hc : commensurate dims) by (unfold commensurate; rewrite Hs; apply Forall_forall; intros L HL; now apply Hu).
  destruct (generate_ok dims mom nnmax Hc Hn He) as (pairs & trip & t & E & _ & _ & _ & H4 & _ & _ & H7).
  exists trip, t. split; [assumption|].
  assert (Ef : fold_right Z.add 0 trip = fold_left Z.add trip 0) by (symmetry; apply fold_symmetric; intros; lia).
  split; [rewrite Ef, H4, H7, app_length, map_length; cbn [length]; lia|]. rewrite H7. split; [|apply kall_none].
  rewrite app_length, map_length. cbn [length]. rewrite nth_error_app2 by (rewrite map_length; lia).
  rewrite map_length. replace (length pairs + 1 - 1 - length pairs)%nat with 0%nat by lia. reflexivity.
Qed.
Print Assumptions C42_extra_cell.
Theorem C42_count_refuted : exists dims mom nnmax trip t, unit_extent dims 2 /\ generate dims mom nnmax = Some (trip, t) /\
  trip = [1; 48] /\ length t = 50%nat /\ nth_error t 49 = Some None /\ kall mom t = None.
Proof.
  exists [2; 2; 2], (map (fun i => [i / 9 - 1; i / 3 mod 3 - 1; i mod 3 - 1]) [0;1;2;3;4;5;6;7;8;9;10;11;12;13;14;15;16;17;18;19;20;21;22;23;24;25;26]), 4.
  eexists. eexists. split; [split; [now left|intros L HL; cbn in HL; destruct HL as [<-|[<-|[<-|[]]]]; split; (lia || reflexivity)]|].
  split; [vm_compute; reflexivity|]. repeat split.
Qed.
Print Assumptions C42_count_refuted.
(** an odd bound: the counting pass stores outside the array of nnmax/2 counts *)
Theorem C42_odd_refuted : exists dims mom nnmax, unit_extent dims 2 /\ 0 < nnmax /\ generate dims mom nnmax = None.
Proof.
  exists [2; 2], [[0; 0]], 3. split; [split; [now left|intros L HL; cbn in HL; destruct HL as [<-|[<-|[]]]; split; (lia || reflexivity)]|].
  split; [lia|]. vm_compute. reflexivity.
Qed.
Print Assumptions C42_odd_refuted.
(** extents 3 x 2 x 2: the direction that is no multiple of the smallest extent starts at 0 for p1, so
    32 of the 48 pairs with square 2 are counted *)
Theorem C42_extents_refuted : exists dims p1 p2, length p1 = length dims /\ length p2 = length dims /\
  sumsq p1 = 2 /\ sumsq p2 = 2 /\ sumsq (plus p1 p2) = 2 /\
  get_trip dims 4 [0; 0] = Some [1; 32] /\ get_trip (map (fun _ => 2) dims) 4 [0; 0] = Some [1; 48].
Proof.
  exists [3; 2; 2], [-1; 1; 0], [1; 0; 1]. repeat split; vm_compute; reflexivity.
Qed.
Print Assumptions C42_extents_refuted.
(** a momentum that the cut has removed is stored as position -1 *)
Theorem C42_missing : forall rat mom p1 p2, ~ In (vscale rat p1) mom ->
  nth_error (entry rat mom p1 p2) 0 = Some (-1).
Proof. intros rat mom p1 p2 H. unfold entry. cbn [nth_error]. now rewrite get_posit_lost. Qed.
Print Assumptions C42_missing.

(** * C43 *)
(** any schedule of the two byte swaps, both host byte orders *)
Theorem C43_big_endian_output : forall be o1 o2 arr size stride,
  Permutation o1 (seq 0 stride) -> Permutation o2 (seq 0 stride) -> (stride <= length arr)%nat ->
  (size = 4%nat /\ Forall (fun x => 0 <= x < two32) arr) \/ (size = 8%nat /\ Forall (fun x => 0 <= x < two64) arr) ->
  FWRITE be o1 o2 arr size stride = Some (0, concat (map (fun x => rev (le_bytes size x)) (firstn stride arr)), arr).
Proof. exact FWRITE_ok. Qed.
Print Assumptions C43_big_endian_output.
Example C43_ex : FWRITE false [1; 0]%nat [0; 1]%nat [258; 65535] 4 2 =
  Some (0, [0; 0; 1; 2; 0; 0; 255; 255], [258; 65535]) /\
  FWRITE true [0; 1]%nat [0; 1]%nat [258; 65535] 4 2 = Some (0, [0; 0; 1; 2; 0; 0; 255; 255], [258; 65535]).
Proof. split; vm_compute; reflexivity. Qed.
(** other element sizes write nothing and report failure *)
Theorem C43_other_sizes : forall be o1 o2 arr size stride, size <> 4%nat -> size <> 8%nat ->
  FWRITE be o1 o2 arr size stride = Some (-1, [], arr).
Proof. intros be o1 o2 arr size stride H4 H8. unfold FWRITE. apply Nat.eqb_neq in H4, H8. now rewrite H4, H8. Qed.
Print Assumptions C43_other_sizes.
