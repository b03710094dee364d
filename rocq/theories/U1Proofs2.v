(** The U(1) fields. *)
From Coq Require Import Permutation Psatz.
From Verif Require Import CInt GeomModel GeomSpec GeomProofs GeomProofs2 Cplx CMat Arr MatModel FftModel FftProofs QtopModel QtopSpec QtopProofs QtopProofs2 QtopProofs4.
From Verif Require Import SmearModel StaticModel StaticProofs GluonModel GluonSpec GluonProofs GluonProofs2 GluonProofs3 GluonProofs4 InstProofs InstProofs2 CfgProofs SmearProofs U1Model U1Spec U1Proofs.
Local Open Scope Z_scope.

(** * The weights *)
Lemma mfor_write n (f : nat -> option R) (g : nat -> R) : (forall i, (i < n)%nat -> f i = Some (g i)) -> forall p : nat -> R,
  exists p', mfor (seq 0 n) (fun i (p : nat -> R) => do v <- f i; Some (fun k => if Nat.eqb k i then v else p k)) p = Some p' /\ forall i, (i < n)%nat -> p' i = g i.
Proof.
  intros H p.
  assert (K : forall m k p, (forall i, (i < k + m)%nat -> f i = Some (g i)) -> (forall i, (i < k)%nat -> p i = g i) -> exists p', mfor (seq k m) (fun i (p : nat -> R) => do v <- f i; Some (fun k => if Nat.eqb k i then v else p k)) p = Some p' /\ forall i, (i < k + m)%nat -> p' i = g i).
  { induction m as [|m IH]; intros k q Hf Hq; [exists q; split; [reflexivity|]; intros; apply Hq; lia|]. cbn [seq mfor]. rewrite Hf by lia. cbn [bindo].
    destruct (IH (S k) (fun j => if Nat.eqb j k then g k else q j)) as (p' & E & F).
    - intros i Hi. apply Hf. lia.
    - intros i Hi. destruct (Nat.eqb_spec i k) as [->|N]; [reflexivity|]. apply Hq. lia.
    - exists p'. split; [exact E|]. intros i Hi. apply F. lia. }
  apply (K n 0%nat p); [intros; apply H; lia|lia].
Qed.
Lemma one_minus_cos x : (2 * (1 - cos (2 * x)) = (2 * sin x) * (2 * sin x))%R.
Proof. rewrite cos_2a. pose proof (sin2_cos2 x) as E. unfold Rsqr in E. nra. Qed.
Lemma sin_site c L : 0 < c < L -> (0 < sin (PI * IZR c / IZR L))%R.
Proof.
  intro H. pose proof PI_RGT_0. assert (0 < IZR c)%R by (apply IZR_lt; lia). assert (IZR c < IZR L)%R by (apply IZR_lt; lia).
  assert (0 < / IZR L)%R by (apply Rinv_0_lt_compat; lra). assert (E : (IZR L * / IZR L = 1)%R) by (apply Rinv_r; lra).
  apply sin_gt_0; unfold Rdiv; [apply Rmult_lt_0_compat; [nra|assumption]|]. apply (Rmult_lt_reg_r (IZR L)); [lra|]. rewrite Rmult_assoc, (Rmult_comm (/ IZR L)), E. nra.
Qed.
Section Weights.
Variable ds : list Z.
Hypothesis Hok : lattice_ok ds.
Let pos : Forall (fun L => 0 < L) ds. Proof. apply ok_pos, Hok. Qed.
Lemma phat2_pos i : spatially_zero ds i = false -> (0 < phat2 ds i)%R.
Proof.
  intro S0. unfold spatially_zero in S0. destruct (existsb (fun mu => negb (coord ds mu i =? 0)) (seq 0 ((length ds) - 1))) eqn:E.
    - apply existsb_exists in E as (mu & Hmu & H). apply in_seq in Hmu. apply Bool.negb_true_iff, Z.eqb_neq in H.
      unfold phat2. eapply Rlt_le_trans; [|apply (dsum_term (length ds) _ mu); [intros j Hj; cbv zeta; pose proof (Rle_0_sqr (2 * sin (PI * IZR (coord ds j i) / IZR (nth j ds 1%Z)))) as Q; exact Q|lia]]. cbv zeta.
      assert (B : 0 <= coord ds mu i < nth mu ds 1). { unfold coord. apply Z.mod_pos_bound. assert (In (nth mu ds 1) ds) by (apply nth_In; lia). rewrite Forall_forall in pos. now apply pos. }
      pose proof (sin_site (coord ds mu i) (nth mu ds 1) ltac:(lia)). nra.
    - exfalso. assert (T : forallb (fun mu => coord ds mu i =? 0) (seq 0 (length ds - 1)) = true); [|congruence].
      apply forallb_forall. intros mu Hm. destruct (coord ds mu i =? 0) eqn:Z0; [reflexivity|]. assert (X : existsb (fun mu => negb (coord ds mu i =? 0)) (seq 0 ((length ds) - 1)) = true) by (apply existsb_exists; exists mu; split; [exact Hm|now rewrite Z0]). congruence.
Qed.
Lemma feyn_ok i : (i < nsites ds)%nat -> exists p2, gen_p_sq_feyn ds (Z.of_nat i) = Some (p2, if spatially_zero ds i then 1 else 0) /\ (spatially_zero ds i = false -> p2 = phat2 ds i).
Proof.
  intro Hi. unfold gen_p_sq_feyn. rewrite get_mom_digits by (assumption || lia). cbn [bindo]. set (n := digits ds (Z.of_nat i)). set (ND := length ds).
  assert (HN : (0 < ND)%nat) by (unfold ND; destruct Hok as (H & _); destruct ds; [contradiction|cbn; lia]).
  assert (Cn : forall mu, (mu < ND)%nat -> nth mu n 0 = coord ds mu i) by (intros mu Hm; unfold n; now rewrite coord_digits).
  set (body := fun mu '(kcos, flag) => _).
  assert (K : forall m, (m <= ND)%nat -> for_ m body (0%R, 1) = (dsum m (fun mu => cos (IZR (coord ds mu i) * twiddle ds mu)), if forallb (fun mu => coord ds mu i =? 0) (seq 0 (min m (ND - 1))) then 1 else 0)).
  { induction m as [|m IH]; intro Hm; [reflexivity|]. cbn [for_]. rewrite IH by lia. unfold body. rewrite Cn by lia. rewrite dsum_S. f_equal.
    destruct (Nat.ltb_spec m (ND - 1)) as [Lt|Ge].
    - rewrite !Nat.min_l by lia. rewrite seq_S, forallb_app. cbn [forallb Nat.add]. destruct (forallb _ (seq 0 m)); cbn [negb Z.eqb andb]; [|reflexivity].
      rewrite Bool.andb_true_r. destruct (Z.eqb_spec (coord ds m i) 0) as [->|N]; [reflexivity|]. replace (Z.abs (coord ds m i) >? 0) with true by lia. reflexivity.
    - replace (min (S m) (ND - 1)) with (ND - 1)%nat by lia. replace (min m (ND - 1)) with (ND - 1)%nat by lia. now rewrite Bool.andb_false_r. }
  rewrite K by lia. rewrite Nat.min_r by lia. fold (spatially_zero ds i). eexists. split; [reflexivity|]. intro S0.
  assert (P : (phat2 ds i = 2 * (INR ND - dsum ND (fun mu => cos (IZR (coord ds mu i) * twiddle ds mu))))%R).
  { unfold phat2. fold ND. generalize ND. intro q. induction q as [|m IH]; [rewrite !dsum_0; cbn; lra|]. rewrite !dsum_S, IH, S_INR. cbv zeta. rewrite <- one_minus_cos.
    replace (IZR (coord ds m i) * twiddle ds m)%R with (2 * (PI * IZR (coord ds m i) / IZR (nth m ds 1%Z)))%R by (unfold twiddle, Rdiv; ring). lra. }
  pose proof (phat2_pos i S0) as Pp.
  destruct (Req_EM_T _ _) as [E|E]; [rewrite P, E in Pp; lra|]. now rewrite P.
Qed.
Lemma psq_ok i : (i < nsites ds)%nat -> psq_entry ds i = Some (weight ds i).
Proof.
  intro Hi. unfold psq_entry. destruct (feyn_ok i Hi) as (p2 & E & F). rewrite E. cbn [bindo]. unfold weight. destruct (spatially_zero ds i); [reflexivity|]. cbn. now rewrite F.
Qed.
End Weights.

(** * The modes given to FFTW *)
Lemma draw_ok sched ds psq noise inp mu k : any_order sched -> lattice_ok ds -> (mu < length ds)%nat -> (k < nsites ds)%nat -> draw sched ds psq noise inp mu k = (RtoC (psq k) * noise mu k)%C.
Proof.
  intros Any Hok Hm Hk. unfold draw. rewrite lvolume_prod by assumption. fold (nsites ds). destruct (perm_order _ _ (Any [0] (nsites ds))) as [_ I]. apply I in Hk. revert inp Hk. generalize (sched [0] (nsites ds)). clear I.
  assert (K : forall l inp, ((RtoC (psq k) * noise mu k)%C = inp mu k) \/ In k l -> fold_left (fun inp i mu k => if (Nat.eqb k i && Nat.ltb mu (length ds))%bool then (RtoC (psq i) * noise mu i)%C else inp mu k) l inp mu k = (RtoC (psq k) * noise mu k)%C).
  { induction l as [|i l IH]; intros inp [H|H]; try contradiction; cbn [fold_left]; [now symmetry| |].
    - apply IH. left. destruct (Nat.eqb_spec k i) as [->|N]; cbn [andb]; [|exact H]. now replace (Nat.ltb mu (length ds)) with true by (symmetry; now apply Nat.ltb_lt).
    - destruct H as [->|H]; [|apply IH; now right]. apply IH. left. rewrite Nat.eqb_refl. now replace (Nat.ltb mu (length ds)) with true by (symmetry; now apply Nat.ltb_lt). }
  intros l inp H. apply K. now right.
Qed.
Section Sym.
Variable ds : list Z.
Hypothesis Hok : lattice_ok ds.
Hypothesis Hev : Forall (fun L => Z.even L = true) ds.
Let pos : Forall (fun L => 0 < L) ds. Proof. apply ok_pos, Hok. Qed.
(** after the iterations below n *)
Definition upto (n : nat) (h : nat -> C) (k : nat) : C :=
  if Nat.eqb k (mirror ds k) then (if Nat.ltb k n then RtoC (re (h k)) else h k)
  else if Nat.ltb k (mirror ds k) then h k else if Nat.ltb (mirror ds k) n then conj (h (mirror ds k)) else h k.
Lemma symmetrise_ok n : (n <= nsites ds)%nat -> forall inp, exists inp', mfor (seq 0 n) (symmetrise ds) inp = Some inp' /\ forall mu k, (mu < length ds)%nat -> (k < nsites ds)%nat -> inp' mu k = upto n (inp mu) k.
Proof.
  induction n as [|n IH]; intros Hn inp.
  - exists inp. split; [reflexivity|]. intros mu k _ _. unfold upto. replace (Nat.ltb k 0) with false by (symmetry; apply Nat.ltb_ge; lia). replace (Nat.ltb (mirror ds k) 0) with false by (symmetry; apply Nat.ltb_ge; lia). now destruct (Nat.eqb k (mirror ds k)), (Nat.ltb k (mirror ds k)).
  - destruct (IH ltac:(lia) inp) as (h & E & F). rewrite seq_S. rewrite (mfor_app (seq 0 n)), E. cbn [bindo mfor Nat.add].
    unfold symmetrise. rewrite lvolume_prod by assumption. replace (Z.of_nat n <? prodZ ds) with true by (unfold nsites in Hn; lia). rewrite (conjugate_ok ds Hok Hev) by lia. cbn [bindo].
    pose proof (mirror_lt ds pos n) as Ml. pose proof (mirror_invol ds pos n ltac:(lia)) as Mi.
    destruct (Z.eqb_spec (Z.of_nat n) (Z.of_nat (mirror ds n))) as [En|Nn].
    + eexists. split; [reflexivity|]. intros mu k Hm Hk. cbv beta. replace (Nat.ltb mu (length ds)) with true by (symmetry; now apply Nat.ltb_lt). rewrite Bool.andb_true_r. destruct (Nat.eqb_spec k n) as [->|Nk].
      * rewrite F by (assumption || lia). unfold upto. assert (En' : n = mirror ds n) by lia. rewrite <- En', Nat.eqb_refl. replace (Nat.ltb n n) with false by (symmetry; apply Nat.ltb_ge; lia). replace (Nat.ltb n (S n)) with true by (symmetry; apply Nat.ltb_lt; lia). reflexivity.
      * rewrite F by (assumption || lia). unfold upto. destruct (Nat.eqb_spec k (mirror ds k)) as [Ek|Nk'].
        -- destruct (Nat.ltb_spec k n), (Nat.ltb_spec k (S n)); try reflexivity; lia.
        -- destruct (Nat.ltb k (mirror ds k)); [reflexivity|]. destruct (Nat.ltb_spec (mirror ds k) n), (Nat.ltb_spec (mirror ds k) (S n)); try reflexivity; try lia.
           exfalso. assert (Mk : mirror ds k = n) by lia. apply Nk. rewrite <- (mirror_invol ds pos k Hk), Mk. lia.
    + destruct (Z.ltb_spec (Z.of_nat (mirror ds n)) (Z.of_nat n)) as [Lt|Ge].
      * eexists. split; [reflexivity|]. intros mu k Hm Hk. rewrite F by assumption. unfold upto. destruct (Nat.eqb_spec k (mirror ds k)) as [Ek|Nk'].
        -- destruct (Nat.ltb_spec k n), (Nat.ltb_spec k (S n)); try reflexivity; try lia. assert (k = n) by lia. subst k. lia.
        -- destruct (Nat.ltb_spec k (mirror ds k)) as [|Gk]; [reflexivity|]. destruct (Nat.ltb_spec (mirror ds k) n), (Nat.ltb_spec (mirror ds k) (S n)); try reflexivity; try lia.
           exfalso. assert (Mk : mirror ds k = n) by lia. assert (k = mirror ds n) by (rewrite <- Mk; symmetry; now apply mirror_invol). lia.
      * replace (Z.of_nat (mirror ds n) <? prodZ ds) with true by (unfold nsites in Ml; lia). eexists. split; [reflexivity|]. intros mu k Hm Hk. rewrite Nat2Z.id. replace (Nat.ltb mu (length ds)) with true by (symmetry; now apply Nat.ltb_lt). rewrite Bool.andb_true_r.
        destruct (Nat.eqb_spec k (mirror ds n)) as [->|Nk].
        -- rewrite F by (assumption || lia). unfold upto. rewrite Mi. replace (Nat.eqb n (mirror ds n)) with false by (symmetry; apply Nat.eqb_neq; lia). replace (Nat.eqb (mirror ds n) n) with false by (symmetry; apply Nat.eqb_neq; lia).
           replace (Nat.ltb n (mirror ds n)) with true by (symmetry; apply Nat.ltb_lt; lia). replace (Nat.ltb (mirror ds n) n) with false by (symmetry; apply Nat.ltb_ge; lia). replace (Nat.ltb n (S n)) with true by (symmetry; apply Nat.ltb_lt; lia). reflexivity.
        -- rewrite F by assumption. unfold upto. destruct (Nat.eqb_spec k (mirror ds k)) as [Ek|Nk'].
           ++ destruct (Nat.ltb_spec k n), (Nat.ltb_spec k (S n)); try reflexivity; try lia. assert (k = n) by lia. subst k. lia.
           ++ destruct (Nat.ltb_spec k (mirror ds k)) as [|Gk]; [reflexivity|]. destruct (Nat.ltb_spec (mirror ds k) n), (Nat.ltb_spec (mirror ds k) (S n)); try reflexivity; try lia.
              exfalso. assert (Mk : mirror ds k = n) by lia. apply Nk. rewrite <- Mk. symmetry. now apply mirror_invol.
Qed.
End Sym.
