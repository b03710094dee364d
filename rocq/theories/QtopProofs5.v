(** Qcorr.c, Qmoments.c and the race of Qslab.c: the final statements. *)
From Coq Require Import Permutation Setoid.
From Verif Require Import CInt GeomModel GeomSpec GeomProofs GeomProofs2 Cplx CMat Arr FftModel FftProofs QtopModel QtopSpec QtopProofs QtopProofs2 QtopProofs3 QtopProofs4.
Local Open Scope Z_scope.

(** * compute_Qcorr *)
Theorem Qcorr_fftw sched ds q p out l : lattice_ok ds -> density ds q p -> any_order sched -> (forall i, In i l -> (i < nsites ds)%nat) ->
  compute_Qcorr WithFFTW sched ds q out (map Z.of_nat l) =
  Some (map (fun r => NORMSQ * correlation ds p r)%R l,
        map (fun t => (NORMSQ * sum_over (correlation ds p) (slice ds (length ds - 1) (Z.of_nat t)))%R) (seq 0 (Z.to_nat (last ds 0)))).
Proof.
  intros Hok Hq Any Hl. unfold compute_Qcorr. rewrite lvolume_nsites, lvolume_prod by assumption. pose proof (prodZ_pos ds (ok_pos' ds Hok)) as V.
  unfold plan_dims. rewrite firstn_all. set (F := fftw_execute FORWARD (rev ds) q out). set (m := (NORMSQ / IZR (prodZ ds))%R).
  destruct (fill_range (sched [0] (nsites ds)) (nsites ds) (fun i => Some (F i * (conj (F i) * RtoC m))%C) (fun i => F i * (conj (F i) * RtoC m))%C (Any _ _)
    (fun i _ => eq_refl) F) as (b & -> & B & _). cbn [bindo].
  assert (D : density ds (fftw_execute BACKWARD (rev ds) b q) (fun r => NORMSQ * correlation ds p r)%R).
  { intros r Hr. rewrite (transform_back ds q p b out q m r Hok Hq Hr); [f_equal; unfold m; field; apply IZR_neq; lia|].
    intros k Hk. rewrite B by assumption. unfold F. ring. }
  rewrite (list_reads ds _ _ l Hok D Hl). cbn [bindo]. rewrite (temporal_ok ds _ _ Hok D). cbn [bindo].
  do 2 f_equal. apply map_ext. intro t. apply sum_over_mul.
Qed.
Theorem Qcorr_direct sched ds q p out l : lattice_ok ds -> moderate ds -> density ds q p ->
  compute_Qcorr NoFFTW sched ds q out (map Z.of_nat l) =
  Some (map (fun r => NORMSQ * correlation ds p r)%R l,
        map (fun t => sum_over p (slice ds (length ds - 1) (Z.of_nat t))) (seq 0 (Z.to_nat (last ds 0)))).
Proof.
  intros Hok M Hq. unfold compute_Qcorr. rewrite lvolume_nsites by assumption.
  assert (G : fold_right (fun i r =>
        do separation <- get_mom_2piBZ ds i (length ds);
        do s <- total (nsites ds) (fun source =>
          do sink <- compute_spacing ds separation (Z.of_nat source) (length ds);
          do v <- rd ds q sink;
          Some (re (q source * v)%C));
        do r <- r; Some ((s * NORMSQ)%R :: r)) (Some []) (map Z.of_nat l) = Some (map (fun r => NORMSQ * correlation ds p r)%R l)).
  { induction l as [|r l IH]; [reflexivity|]. cbn [map fold_right]. rewrite IH. rewrite get_mom_r by assumption. cbn [bindo].
    rewrite (for_some _ _ (fun x => (p x * p (plus_site ds x r))%R)).
    - cbn [bindo]. do 2 f_equal. unfold correlation, sites. ring.
    - intros x Hx. rewrite compute_spacing_shift by assumption. cbn [bindo]. pose proof (plus_site_lt ds x r (ok_pos' ds Hok)).
      rewrite rd_ok by assumption. cbn [bindo]. rewrite !Hq by assumption. f_equal. cunfold. unfold re. cbn. ring. }
  rewrite G. cbn [bindo]. rewrite (temporal_ok ds q p Hok Hq). reflexivity.
Qed.
Lemma Qcorr_print_ok ds q p : lattice_ok ds -> density ds q p ->
  Qcorr_print ds q = Some ((NORM * sum_over p (sites ds))%R, ((NORM * sum_over p (sites ds)) * (NORM * sum_over p (sites ds)))%R, (NORMSQ * correlation ds p 0)%R).
Proof.
  intros Hok Hq. unfold Qcorr_print. rewrite lvolume_nsites by assumption.
  rewrite (for_some _ _ p) by (intros i Hi; now rewrite Hq). cbn [bindo].
  rewrite (for_some _ _ (fun i => (p i * p i)%R)) by (intros i Hi; rewrite Hq by assumption; f_equal; cunfold; unfold re; cbn; ring). cbn [bindo].
  fold (sites ds). do 2 f_equal; [f_equal; [ring|unfold NORMSQ; ring]|]. rewrite Rmult_comm. f_equal. apply sum_over_ext. intros x Hx. f_equal. f_equal.
  pose proof (ok_pos' ds Hok) as P. rewrite plus_site_shift by assumption. apply in_seq in Hx. unfold nsites in Hx. cbn [Nat.add] in Hx.
  unfold shift. assert (E : translate ds (digits ds (Z.of_nat x)) (digits ds (Z.of_nat 0)) = digits ds (Z.of_nat x)).
  { apply nth_ext with (d := 0) (d' := 0).
    - rewrite (in_box_length ds); [now rewrite digits_length|]. apply translate_box; auto using digits_in_box, digits_length.
    - intros n Hn. rewrite (in_box_length ds) in Hn by (apply translate_box; auto using digits_in_box, digits_length).
      rewrite nth_translate by (rewrite ?digits_length; auto). rewrite !nth_digits by (assumption || lia). cbn [Z.of_nat]. rewrite Z.div_0_l.
      + rewrite Z.mod_0_l, Z.add_0_r.
        * apply Z.mod_mod. rewrite Forall_forall in P. enough (0 < nth n ds 1) by lia. apply P. now apply nth_In.
        * rewrite Forall_forall in P. enough (0 < nth n ds 1) by lia. apply P. now apply nth_In.
      + enough (0 < prodZ (firstn n ds)) by lia. apply prodZ_pos. apply Forall_forall. intros y Hy. rewrite Forall_forall in P. apply P.
        rewrite <- (firstn_skipn n ds). apply in_or_app. now left. }
  rewrite E. rewrite horner_digits by (assumption || lia). symmetry. apply Nat2Z.id.
Qed.

(** * compute_Qmoments *)
(** the moment n of slice sums S, as the code takes it *)
Definition moment (L : Z) (S : Z -> R) (n : nat) : R :=
  (unit_sign n * (sum_times (fun t => IZR (t ^ Z.of_nat n) * S (t mod L)%Z) (near_times L) / IZR (nth n fac 1%Z)))%R.
Lemma moments_fold (f : nat -> option (list R)) (v : nat -> list R) l : (forall k, In k l -> f k = Some (v k)) ->
  fold_right (fun k r => do c <- f k; do r <- r; Some (c :: r)) (Some []) l = Some (map v l).
Proof.
  intro H. induction l as [|k l IH]; [reflexivity|]. cbn [fold_right map]. rewrite IH by (intros; apply H; now right).
  rewrite H by apply in_eq. reflexivity.
Qed.
Lemma moments_none (f : nat -> option (list R)) l k : In k l -> f k = None ->
  fold_right (fun k r => do c <- f k; do r <- r; Some (c :: r)) (Some []) l = None.
Proof.
  induction l as [|j l IH]; intros Hk E; [destruct Hk|]. cbn [fold_right]. destruct Hk as [->|Hk]; [now rewrite E|].
  rewrite IH by assumption. destruct (f j); reflexivity.
Qed.
Lemma sum_times_ext f g l : (forall t, f t = g t) -> sum_times f l = sum_times g l.
Proof. intro H. induction l as [|t l IH]; [reflexivity|]. change (f t + sum_times f l = g t + sum_times g l)%R. now rewrite IH, H. Qed.
Theorem Qmoments_ok b sched tsched ds q p out Qt : lattice_ok ds -> density ds q p -> any_order sched -> (forall mu, any_order (tsched mu)) ->
  Forall (fun L => L < 14) ds ->
  compute_Qmoments b sched tsched ds q out Qt =
  Some (map (fun mu => map (moment (nth mu ds 1) (fun t => NORM * sum_over p (slice ds mu t))%R) (seq 0 NQMOMENTS)) (seq 0 (length ds)),
        map (fun mu => map (moment (nth mu ds 1) (fun t => NORMSQ * sum_over (correlation ds p) (slice ds mu t))%R) (seq 0 NQMOMENTS)) (seq 0 (length ds))).
Proof.
  intros Hok Hq Any Any' HL. unfold compute_Qmoments.
  assert (B : forall mu, In mu (seq 0 (length ds)) -> (mu < length ds)%nat /\ nth mu ds 1 < 14).
  { intros mu Hm. apply in_seq in Hm. split; [lia|]. rewrite Forall_forall in HL. apply HL, nth_In. lia. }
  rewrite (moments_fold _ (fun mu => map (moment (nth mu ds 1) (fun t => NORM * sum_over p (slice ds mu t))%R) (seq 0 NQMOMENTS))).
  2: { intros mu Hm. destruct (B mu Hm). now rewrite (Time_Moments_ok _ ds q p). }
  cbn [bindo]. destruct (Q2_array_ok b sched ds q p out Hok Hq Any) as (a & c & -> & Hc & Ha).
  { intros _. unfold moderate. eapply Forall_impl; [|exact HL]. intros L H. change (2 ^ 30) with 1073741824. cbv beta in H. lia. }
  cbn [bindo].
  rewrite (moments_fold _ (fun mu => map (moment (nth mu ds 1) (fun t => NORMSQ * sum_over (correlation ds p) (slice ds mu t))%R) (seq 0 NQMOMENTS))); [reflexivity|].
  intros mu Hm. destruct (B mu Hm). rewrite (Time_Moments_ok _ ds a _ _ _ _ Hok Ha) by auto. f_equal. apply map_ext. intro n. unfold moment. do 2 f_equal.
  apply sum_times_ext. intro t. rewrite sum_over_mul. f_equal. field. exact Hc.
Qed.
Theorem Qmoments_undefined b sched tsched ds q p out Qt mu : lattice_ok ds -> density ds q p -> (forall mu, any_order (tsched mu)) ->
  (mu < length ds)%nat -> 14 <= nth mu ds 1 -> compute_Qmoments b sched tsched ds q out Qt = None.
Proof.
  intros Hok Hq Any' Hm HL. unfold compute_Qmoments.
  rewrite (moments_none _ _ mu); [reflexivity|apply in_seq; lia|]. now apply (Time_Moments_overflow _ ds q p).
Qed.
(** the table of factorials *)
Lemma fac_factorial n : (n < 12)%nat -> nth n fac 1 = if Nat.eqb n 10 then 362800 else factorial n.
Proof. intro H. do 12 (destruct n as [|n]; [reflexivity|]). lia. Qed.
(** the times -L/2 < t < L/2 leave out the slice L/2; for odd L also -(L-1)/2 *)
Lemma near_times_mod L t : 2 <= L -> 0 <= t < L -> (exists u, In u (near_times L) /\ u mod L = t) <-> (t < L / 2 \/ L - L / 2 < t).
Proof.
  intros HL Ht. pose proof (Z.div_mod L 2 ltac:(lia)). pose proof (Z.mod_pos_bound L 2 ltac:(lia)). split.
  - intros (u & Hu & E). apply near_in in Hu. destruct (Z_lt_le_dec u 0).
    + rewrite <- (Z.mod_add u 1), Z.mod_small in E by lia. lia.
    + rewrite Z.mod_small in E by lia. lia.
  - intros [K|K].
    + exists t. split; [apply near_in; lia|apply Z.mod_small; lia].
    + exists (t - L). split; [apply near_in; lia|]. rewrite <- (Z.mod_add (t - L) 1), Z.mod_small by lia. lia.
Qed.

(** * The sum without protection *)
Fixpoint lsumR (l : list R) : R := match l with [] => 0%R | v :: l => (v + lsumR l)%R end.
Definition pending (t : adder) : list R := match t with Adding vs => vs | Writing _ vs => vs end.
Lemma single_step m t m' ts : race_step (m, [t]) (m', ts) -> exists t', ts = [t'] /\
  (match t' with Adding vs => m' + lsumR vs | Writing r vs => r + lsumR vs end = match t with Adding vs => m + lsumR vs | Writing r vs => r + lsumR vs end)%R.
Proof.
  remember (m, [t]) as s eqn:Es. remember (m', ts) as s' eqn:Es'. intro H. destruct H as [m0 a b v vs|m0 a b r vs].
  - injection Es as -> E. injection Es' as -> <-. destruct a as [|x a]; [|injection E as _ E; destruct a; discriminate].
    injection E as <- ->. eexists. split; [reflexivity|]. cbn. ring.
  - injection Es as -> E. injection Es' as -> <-. destruct a as [|x a]; [|injection E as _ E; destruct a; discriminate].
    injection E as <- ->. eexists. split; [reflexivity|]. cbn. ring.
Qed.
Lemma single_thread vs m : race [vs] m -> m = lsumR vs.
Proof.
  intros (ts & S & F). cbn [map] in S.
  assert (G : forall s s', race_steps s s' -> forall m t, s = (m, [t]) -> exists m' t', s' = (m', [t']) /\
    (match t' with Adding vs => m' + lsumR vs | Writing r vs => r + lsumR vs end = match t with Adding vs => m + lsumR vs | Writing r vs => r + lsumR vs end)%R).
  { induction 1 as [s|s s1 s2 H1 _ IH]; intros m0 t ->; [exists m0, t; auto|]. destruct s1 as [m1 ts1].
    destruct (single_step _ _ _ _ H1) as (t1 & -> & E1). destruct (IH m1 t1 eq_refl) as (m2 & t2 & -> & E2). exists m2, t2. split; [reflexivity|]. now rewrite E2. }
  destruct (G _ _ S 0%R (Adding vs) eq_refl) as (m' & t' & E & Q). injection E as -> ->. inversion_clear F. subst t'. cbn in Q. lra.
Qed.
Lemma steps_trans a b c : race_steps a b -> race_steps b c -> race_steps a c.
Proof. induction 1; [auto|]. intro. eapply rs_step; [eassumption|auto]. Qed.
Lemma drain pre post : forall vs m, race_steps (m, pre ++ Adding vs :: post) ((m + lsumR vs)%R, pre ++ Adding [] :: post).
Proof.
  induction vs as [|v vs IH]; intro m; [cbn; rewrite Rplus_0_r; apply rs_refl|].
  eapply rs_step; [apply r_read|]. eapply rs_step; [apply r_write|]. cbn [lsumR]. rewrite <- Rplus_assoc. apply IH.
Qed.
Lemma race_loses v vs w ws : race [v :: vs; w :: ws] (lsumR (v :: vs) + lsumR (w :: ws) - v).
Proof.
  exists [Adding []; Adding []]. split; [|repeat constructor]. cbn [map].
  eapply rs_step; [apply (r_read _ [] [_])|]. cbn [app]. eapply rs_step; [apply (r_read _ [_] [])|]. cbn [app].
  eapply rs_step; [apply (r_write _ [] [_])|]. cbn [app]. eapply rs_step; [apply (r_write _ [_] [])|]. cbn [app].
  eapply steps_trans; [apply (drain [] [_])|]. cbn [app]. replace (lsumR (v :: vs) + lsumR (w :: ws) - v)%R with (0 + w + lsumR vs + lsumR ws)%R by (cbn [lsumR]; ring).
  apply (drain [Adding []] []).
Qed.
(** what the iterations of the outer loop add *)
Lemma slab_addends_ok ds q p dir T1 T0 is : lattice_ok ds -> density ds q p -> (dir < length ds)%nat -> 1 <= T1 <= nth dir ds 1 -> 0 <= T0 < nth dir ds 1 ->
  slab_addends ds q dir T1 T0 is = Some (flat_map (fun i => map (fun j => p (slab_site ds dir T0 T1 i) * p (slab_site ds dir T0 T1 j))%R (seq 0 (nsites (put ds dir T1)))) is).
Proof.
  intros Hok Hq Hd HT H0. unfold slab_addends. rewrite slab_dims_0. rewrite lvolume_nsites by (now apply lattice_ok_put).
  induction is as [|i is IH]; [reflexivity|]. cbn [fold_right flat_map]. rewrite IH. generalize (flat_map (fun i => map (fun j => p (slab_site ds dir T0 T1 i) * p (slab_site ds dir T0 T1 j))%R (seq 0 (nsites (put ds dir T1)))) is) as rest. intro rest. clear IH.
  induction (seq 0 (nsites (put ds dir T1))) as [|j js IHj]; [reflexivity|]. cbn [fold_right map app]. rewrite IHj.
  rewrite !(slab_read ds q p dir T1) by assumption. cbn [bindo]. do 2 f_equal. cunfold. unfold re. cbn. ring.
Qed.
