(** The plaquette averages: normalisation and range. *)
From Coq Require Import PeanoNat Lia List ZArith Reals Lra Permutation Setoid.
From Verif Require Import CMat Det Arr MatSpec MmulModel MmulProofs MatModel MatProofs MatProofs2 Su2Model Su2Proofs
  FieldModel FieldProofs FieldProofs2.
Import ListNotations.
Local Open Scope R_scope.

(** sum and mean of a list *)
Fixpoint lsum (l : list R) : R := match l with [] => 0 | x :: l => x + lsum l end.
Definition mean (l : list R) : R := lsum l / INR (length l).
(** the planes of a D-dimensional lattice *)
Definition planes (D : nat) : list (nat * nat) := flat_map (fun mu => map (fun nu => (mu, nu)) (seq 0 mu)) (seq 0 D).

Lemma lsum_app : forall a b, lsum (a ++ b) = lsum a + lsum b.
Proof. induction a as [|x a IH]; intro b; cbn; [lra|rewrite IH; lra]. Qed.
Lemma for_lsum : forall n (f : nat -> R) s, for_ n (fun k p => p + f k) s = s + lsum (map f (seq 0 n)).
Proof.
  induction n as [|n IH]; intros f s; [cbn; lra|]. cbn [for_]. rewrite IH, seq_S, map_app, lsum_app. cbn. lra.
Qed.
Lemma planes_S : forall D, planes (S D) = planes D ++ map (fun nu => (D, nu)) (seq 0 D).
Proof. intro D. unfold planes. rewrite seq_S, flat_map_app. cbn. now rewrite app_nil_r. Qed.
Lemma for_planes : forall D (f : nat -> nat -> R) s,
  for_ D (fun mu p => for_ mu (fun nu p => p + f mu nu) p) s = s + lsum (map (fun q => f (fst q) (snd q)) (planes D)).
Proof.
  induction D as [|D IH]; intros f s; [cbn; lra|]. cbn [for_]. rewrite IH, for_lsum, planes_S, map_app, lsum_app, map_map.
  cbn [fst snd]. rewrite Rplus_assoc. reflexivity.
Qed.
Lemma planes_len : forall D, (2 * length (planes D) = D * (D - 1))%nat.
Proof. induction D as [|D IH]; [reflexivity|]. rewrite planes_S, app_length, map_length, seq_length. nia. Qed.
Lemma planes_in : forall D mu nu, In (mu, nu) (planes D) <-> (nu < mu < D)%nat.
Proof.
  intros D mu nu. unfold planes. rewrite in_flat_map. split.
  - intros (m & Hm & H). apply in_map_iff in H. destruct H as (k & E & Hk). injection E as -> ->. apply in_seq in Hm. apply in_seq in Hk. lia.
  - intro H. exists mu. split; [apply in_seq; lia|]. apply in_map_iff. exists nu. split; [reflexivity|apply in_seq; lia].
Qed.
Lemma NoDup_app' : forall {A} (a b : list A), NoDup a -> NoDup b -> (forall x, In x a -> ~ In x b) -> NoDup (a ++ b).
Proof.
  induction a as [|x a IH]; intros b Ha Hb H; [assumption|]. inversion_clear Ha. cbn. constructor.
  - rewrite in_app_iff. intros [K|K]; [tauto|]. apply (H x); [now left|assumption].
  - apply IH; auto. intros y Hy. apply H. now right.
Qed.
Lemma planes_nodup : forall D, NoDup (planes D).
Proof.
  induction D as [|D IH]; [constructor|]. rewrite planes_S. apply NoDup_app'; [assumption| |].
  - apply FinFun.Injective_map_NoDup; [intros a b E; now injection E|apply seq_NoDup].
  - intros [mu nu] H K. apply planes_in in H. apply in_map_iff in K. destruct K as (k & E & _). injection E as -> _. lia.
Qed.

(** sums over sites of sums over a list *)
Lemma lsum_flat : forall {A} (l : list A) (h : A -> list R), lsum (flat_map h l) = lsum (map (fun x => lsum (h x)) l).
Proof. induction l as [|x l IH]; intro h; [reflexivity|]. cbn. now rewrite lsum_app, IH. Qed.
Lemma flat_const : forall {A B} (l : list A) (h : A -> list B) k, (forall x, In x l -> length (h x) = k) -> length (flat_map h l) = (length l * k)%nat.
Proof.
  induction l as [|x l IH]; intros h k H; [reflexivity|]. cbn [flat_map length]. rewrite app_length, (H x) by now left.
  rewrite (IH h k); [lia|]. intros y Hy. apply H. now right.
Qed.
Lemma lsum_scale : forall c l, lsum (map (fun x => c * x) l) = c * lsum l.
Proof. induction l as [|x l IH]; cbn; [lra|rewrite IH; lra]. Qed.

(** the values (1/n) Re tr P over the given planes at all sites *)
Definition plaq_values (n V : nat) (lat : lattice) (ps : list (nat * nat)) : list R :=
  flat_map (fun i => map (fun q => re (mtr n (plaquette n (mx n (O (lat i) (fst q))) (mx n (O (lat (nbr (lat i) (fst q))) (snd q)))
     (mx n (O (lat (nbr (lat i) (snd q))) (fst q))) (mx n (O (lat i) (snd q))))) / INR n) ps) (seq 0 V).
Lemma plaq_values_len : forall n V lat ps, length (plaq_values n V lat ps) = (V * length ps)%nat.
Proof. intros. unfold plaq_values. rewrite (flat_const _ _ (length ps)), seq_length; [reflexivity|]. intros. apply map_length. Qed.
Lemma plaq_values_sum : forall n V lat ps tmp, lsum (plaq_values n V lat ps) =
  / INR n * lsum (map (fun i => lsum (map (fun q => face n tmp lat i (fst q) (snd q)) ps)) (seq 0 V)).
Proof.
  intros. unfold plaq_values. rewrite lsum_flat, <- lsum_scale, map_map. f_equal. apply map_ext. intro i.
  rewrite <- lsum_scale, map_map. f_equal. apply map_ext. intro q. unfold face. rewrite complete_plaquette_ok. unfold Rdiv. apply Rmult_comm.
Qed.
Lemma norm_half : forall S n V l N, (2 * l = N)%nat -> (0 < n)%nat -> (0 < V)%nat -> (0 < l)%nat ->
  2 * S / (INR (N * n * V)) = / INR n * S / INR (V * l).
Proof.
  intros S n V l N <- Hn HV Hl. rewrite !mult_INR. change (INR 2) with 2.
  apply lt_INR in Hn, HV, Hl. cbn in Hn, HV, Hl. field. repeat split; lra.
Qed.
Theorem av_plaquette_mean : forall n ND V tmp lat, (0 < n)%nat -> (2 <= ND)%nat -> (0 < V)%nat ->
  av_plaquette n ND V tmp lat = mean (plaq_values n V lat (planes ND)).
Proof.
  intros n ND V tmp lat Hn HD HV. unfold av_plaquette, mean. rewrite plaq_values_len, (plaq_values_sum _ _ _ _ tmp), for_lsum.
  replace (n * ND * (ND - 1) * V)%nat with (ND * (ND - 1) * n * V)%nat by lia. pose proof (planes_len ND).
  rewrite (norm_half _ n V (length (planes ND))) by (try assumption; nia). f_equal. f_equal. rewrite Rplus_0_l. f_equal. apply map_ext. intro i.
  now rewrite for_planes, Rplus_0_l.
Qed.
Theorem s_plaq_mean : forall n ND V tmp lat, (0 < n)%nat -> (3 <= ND)%nat -> (0 < V)%nat ->
  s_plaq n ND V tmp lat = mean (plaq_values n V lat (planes (ND - 1))).
Proof.
  intros n ND V tmp lat Hn HD HV. unfold s_plaq, mean. rewrite plaq_values_len, (plaq_values_sum _ _ _ _ tmp), for_lsum.
  pose proof (planes_len (ND - 1)) as L. replace (ND - 1 - 1)%nat with (ND - 2)%nat in L by lia.
  rewrite (norm_half _ n V (length (planes (ND-1)))) by (try assumption; nia). f_equal. f_equal. rewrite Rplus_0_l. f_equal. apply map_ext. intro i.
  now rewrite for_planes, Rplus_0_l.
Qed.
Definition time_planes (ND : nat) : list (nat * nat) := map (fun nu => (ND - 1, nu)%nat) (seq 0 (ND - 1)).
(** the normalisation is off by 2/(ND-2) *)
Theorem t_plaq_mean : forall n ND V tmp lat, (0 < n)%nat -> (3 <= ND)%nat -> (0 < V)%nat ->
  t_plaq n ND V tmp lat = 2 / INR (ND - 2) * mean (plaq_values n V lat (time_planes ND)).
Proof.
  intros n ND V tmp lat Hn HD HV. unfold t_plaq, mean. rewrite plaq_values_len, (plaq_values_sum _ _ _ _ tmp), for_lsum.
  unfold time_planes at 2. rewrite map_length, seq_length, Rplus_0_l.
  replace (map (fun i => lsum (map (fun q => face n tmp lat i (fst q) (snd q)) (time_planes ND))) (seq 0 V))
    with (map (fun i => for_ (ND - 1) (fun nu p => p + face n tmp lat i (ND - 1) nu) 0) (seq 0 V)).
  - rewrite !mult_INR. assert (0 < INR (ND - 1)) by (apply (lt_INR 0); lia). assert (0 < INR (ND - 2)) by (apply (lt_INR 0); lia).
    apply lt_INR in Hn, HV. cbn in Hn, HV. field. repeat split; lra.
  - apply map_ext. intro i. rewrite for_lsum, Rplus_0_l. unfold time_planes. now rewrite map_map.
Qed.
Theorem all_plaquettes_parts : forall n ND V tmp lat,
  all_plaquettes n ND V tmp lat = (s_plaq n ND V tmp lat, t_plaq n ND V tmp lat, 1/2 * (s_plaq n ND V tmp lat + t_plaq n ND V tmp lat)).
Proof.
  intros n ND V tmp lat. unfold all_plaquettes, s_plaq, t_plaq.
  match goal with |- (let '(a, b) := for_ V ?f ?x in _) = _ =>
    assert (E : for_ V f x = (for_ V (fun i plaq => plaq + for_ (ND-1) (fun mu p => for_ mu (fun nu p => p + face n tmp lat i mu nu) p) 0) 0,
                 for_ V (fun i plaq => plaq + for_ (ND-1) (fun nu p => p + face n tmp lat i (ND-1) nu) 0) 0)) end.
  { induction V as [|k IH]; [reflexivity|]. cbn [for_]. rewrite IH. reflexivity. }
  rewrite E. reflexivity.
Qed.

(** range *)
Lemma lsum_bound : forall l b, (forall x, In x l -> Rabs x <= b) -> Rabs (lsum l) <= INR (length l) * b.
Proof.
  induction l as [|x l IH]; intros b H; [cbn; rewrite Rabs_R0; lra|]. cbn [lsum length]. rewrite S_INR.
  eapply Rle_trans; [apply Rabs_triang|]. specialize (IH b (fun y Hy => H y (or_intror Hy))). specialize (H x (or_introl eq_refl)). lra.
Qed.
Lemma mean_bound : forall l b, l <> [] -> (forall x, In x l -> Rabs x <= b) -> Rabs (mean l) <= b.
Proof.
  intros l b Hl H. unfold mean. assert (0 < INR (length l)) by (apply (lt_INR 0); destruct l; [congruence|cbn; lia]).
  unfold Rdiv. rewrite Rabs_mult, Rabs_inv, (Rabs_pos_eq (INR _)) by lra.
  apply (Rmult_le_reg_r (INR (length l))); [assumption|]. rewrite Rmult_assoc, Rinv_l, Rmult_1_r by lra.
  rewrite Rmult_comm. now apply lsum_bound.
Qed.
Lemma mean_const : forall l c, l <> [] -> (forall x, In x l -> x = c) -> mean l = c.
Proof.
  intros l c Hl H. unfold mean. assert (0 < INR (length l)) by (apply (lt_INR 0); destruct l; [congruence|cbn; lia]).
  assert (E : lsum l = INR (length l) * c).
  { clear Hl H0. induction l as [|x l IH]; [cbn; lra|]. cbn [lsum length]. rewrite S_INR.
    rewrite IH by (intros; apply H; now right). rewrite (H x) by now left. lra. }
  rewrite E. field. lra.
Qed.

Lemma re_abs_pos : forall z, re z * re z <= re (z * conj z)%C.
Proof. intros [a b]. cbn. nra. Qed.
Lemma unitary_entry : forall n U i, unitary n U -> (i < n)%nat -> Rabs (re (U i i)) <= 1.
Proof.
  intros n U i [H _] Hi. specialize (H i i Hi Hi). unfold mmul, dag, mid in H. rewrite Nat.eqb_refl in H.
  apply (f_equal re) in H. change (re C1) with 1 in H.
  assert (N : forall m, 0 <= re (csum m (fun k => U i k * conj (U i k))%C)).
  { induction m as [|m IH]; cbn [csum]; [cbn; lra|]. rewrite re_add. pose proof (re_abs_pos (U i m)). nra. }
  assert (S : forall m, (i < m)%nat -> re (U i i) * re (U i i) <= re (csum m (fun k => U i k * conj (U i k))%C)).
  { induction m as [|m IH]; intro Hm; [lia|]. cbn [csum]. rewrite re_add. pose proof (re_abs_pos (U i m)).
    destruct (Nat.eq_dec i m) as [->|Hne].
    - specialize (N m). lra.
    - specialize (IH ltac:(lia)). nra. }
  specialize (S n Hi). rewrite H in S. apply Rabs_le. nra.
Qed.
Lemma re_mtr_bound : forall n U, unitary n U -> Rabs (re (mtr n U)) <= INR n.
Proof.
  intros n U HU. unfold mtr.
  assert (S : forall m, (m <= n)%nat -> Rabs (re (csum m (fun i => U i i))) <= INR m).
  { induction m as [|m IH]; intro Hm; [cbn; rewrite Rabs_R0; lra|]. cbn [csum]. rewrite re_add, S_INR.
    eapply Rle_trans; [apply Rabs_triang|]. specialize (IH ltac:(lia)). pose proof (unitary_entry n U m HU ltac:(lia)). lra. }
  now apply S.
Qed.
