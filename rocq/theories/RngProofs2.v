From Coq Require Import String Permutation.
From Verif Require Import CInt Lib ByteModel ByteSpec ByteProofs TextModel HdrModel TextProofs RngModel RngProofs.
Open Scope Z_scope.

(* ---------- ranges ---------- *)
Lemma lxor_range : forall n a b, 0 <= n -> 0 <= a < 2 ^ n -> 0 <= b < 2 ^ n -> 0 <= Z.lxor a b < 2 ^ n.
Proof.
  intros n a b Hn Ha Hb. assert (0 <= Z.lxor a b) by (apply Z.lxor_nonneg; lia). split; [assumption|].
  destruct (Z.eq_dec (Z.lxor a b) 0) as [->|N]; [lia|].
  apply Z.log2_lt_pow2; [lia|]. pose proof (Z.log2_lxor a b ltac:(lia) ltac:(lia)).
  assert (forall x, 0 <= x < 2 ^ n -> x = 0 \/ Z.log2 x < n) as L.
  { intros x Hx. destruct (Z.eq_dec x 0); [auto|right]. apply Z.log2_lt_pow2; lia. }
  destruct (Z.eq_dec n 0) as [->|]; [change (2 ^ 0) with 1 in *; assert (a = 0) by lia; assert (b = 0) by lia; subst; cbn in N; lia|].
  destruct (L a Ha) as [->|], (L b Hb) as [->|]; cbn in *; try lia.
Qed.
Lemma u32_range z : 0 <= u32 z < 2 ^ 32. Proof. unfold u32. apply Z.mod_pos_bound. reflexivity. Qed.
Lemma u64_range z : 0 <= u64 z < 2 ^ 64. Proof. unfold u64. apply Z.mod_pos_bound. reflexivity. Qed.
Lemma shiftr_range : forall n k a, 0 <= k -> 0 <= a < 2 ^ n -> 0 <= Z.shiftr a k < 2 ^ n.
Proof.
  intros n k a Hk H. rewrite Z.shiftr_div_pow2 by assumption. assert (0 < 2 ^ k) by (apply Z.pow_pos_nonneg; lia).
  split; [apply Z.div_pos; lia|]. apply Z.div_lt_upper_bound; [assumption|]. nia.
Qed.
Lemma land_ones_range : forall k a, 0 <= k -> 0 <= Z.land a (2 ^ k - 1) < 2 ^ k.
Proof.
  intros k a Hk. replace (2 ^ k - 1) with (Z.ones k) by (rewrite Z.ones_equiv; lia). rewrite Z.land_ones by assumption.
  apply Z.mod_pos_bound. apply Z.pow_pos_nonneg; lia.
Qed.
Lemma land15 a : 0 <= Z.land a 15 <= 15. Proof. pose proof (land_ones_range 4 a ltac:(lia)) as H. change (2 ^ 4 - 1) with 15 in H. change (2 ^ 4) with 16 in H. lia. Qed.
Lemma land4095 a : 0 <= Z.land a 4095 <= 4095. Proof. pose proof (land_ones_range 12 a ltac:(lia)) as H. change (2 ^ 12 - 1) with 4095 in H. change (2 ^ 12) with 4096 in H. lia. Qed.
Lemma land31 a : 0 <= Z.land a 2147483647 < 2 ^ 32. Proof. pose proof (land_ones_range 31 a ltac:(lia)) as H. change (2 ^ 31 - 1) with 2147483647 in H. change (2 ^ 31) with 2147483648 in H. change (2 ^ 32) with 4294967296. lia. Qed.
Lemma land_range : forall n a b, 0 <= n -> 0 <= a < 2 ^ n -> 0 <= b -> 0 <= Z.land a b < 2 ^ n.
Proof.
  intros n a b Hn Ha Hb. assert (0 <= Z.land a b) by (apply Z.land_nonneg; lia). split; [assumption|].
  destruct (Z.eq_dec (Z.land a b) 0) as [->|N]; [lia|].
  apply Z.log2_lt_pow2; [lia|]. pose proof (Z.log2_land a b ltac:(lia) ltac:(lia)).
  destruct (Z.eq_dec a 0) as [->|]; [cbn in N; lia|].
  assert (Z.log2 a < n) by (apply Z.log2_lt_pow2; lia). lia.
Qed.

(* ---------- well formed states ---------- *)
Definition tabok (g : gen) (t : list Z) : Prop := List.length t = tbl g /\ Forall (fun w => 0 <= w < 2 ^ bits g) t.
Definition wfb (g : gen) (N : nat) (s : rng) : Prop :=
  List.length (tab s) = N /\ Forall (tabok g) (tab s) /\
  (if has_idx g then List.length (idx s) = N else idx s = []) /\ Forall (fun w => 0 <= w < 2 ^ 32) (idx s) /\
  (if has_car g then List.length (car s) = N else car s = []) /\ Forall (fun w => 0 <= w < 2 ^ 32) (car s).
Definition idxrange (g : gen) (i : Z) : Prop :=
  match g with MWC_1038 => 1 <= i <= 1037 | MWC_4096 => 0 <= i <= 4095 | _ => 0 <= i <= 15 end.
Definition idxok (g : gen) (s : rng) : Prop := forall j i, getI s j = Some i -> idxrange g i.

Definition osat {A} (P : A -> Prop) (o : option A) : Prop := exists a, o = Some a /\ P a.
Lemma osat_bind : forall {A B} (P : A -> Prop) (Q : B -> Prop) o f,
  osat P o -> (forall a, P a -> osat Q (f a)) -> osat Q (bindo o f).
Proof. intros A B P Q o f (a & -> & H) K. cbn. auto. Qed.
Lemma osat_ret : forall {A} (P : A -> Prop) a, P a -> osat P (Some a).
Proof. intros A P a H. exists a. auto. Qed.

Lemma Forall_nth' : forall {A} (P : A -> Prop) l k a, Forall P l -> nth_error l k = Some a -> P a.
Proof. intros A P l k a F E. rewrite Forall_forall in F. apply F. eapply nth_error_In; eauto. Qed.
Lemma set_sat : forall {A} (P : A -> Prop) l k v, (k < List.length l)%nat -> Forall P l -> P v ->
  osat (fun l' => List.length l' = List.length l /\ Forall P l' /\ nth_error l' k = Some v /\
                  (forall j, j <> k -> nth_error l' j = nth_error l j)) (set_nth l k v).
Proof.
  intros A P l k v L F Hv. destruct (setn_spec l k v L) as (l' & E & L' & N). exists l'. split; [assumption|].
  repeat split; auto.
  - apply Forall_forall. intros x Hx. apply In_nth_error in Hx. destruct Hx as [j Hj]. rewrite N in Hj.
    destruct (Nat.eqb_spec j k); [congruence|]. eapply Forall_nth'; eauto.
  - rewrite N, Nat.eqb_refl. reflexivity.
  - intros j Hj. rewrite N. destruct (Nat.eqb_spec j k); [contradiction|reflexivity].
Qed.

Section Sat.
Variable g : gen.
Variable N : nat.
Variable th : nat.
Hypothesis Hth : (th < N)%nat.
Variable s : rng.
Hypothesis W : wfb g N s.

Lemma getT_sat k : 0 <= k < RNG_TABLE g -> osat (fun v => 0 <= v < 2 ^ bits g) (getT s th k).
Proof.
  intros Hk. destruct W as (L & F & _). unfold getT. destruct (nth_error_lt (tab s) th) as [t Et]; [lia|]. rewrite Et. cbn [bindo].
  destruct (Forall_nth' _ _ _ _ F Et) as [Lt Ft]. unfold zn. destruct (Z.ltb_spec k 0); [lia|].
  destruct (nth_error_lt t (Z.to_nat k)) as [v Ev]; [unfold tbl in Lt; lia|]. rewrite Ev. apply osat_ret. apply (Forall_nth' _ _ _ _ Ft Ev).
Qed.
Lemma setT_sat k v : 0 <= k < RNG_TABLE g -> 0 <= v < 2 ^ bits g ->
  osat (fun s' => wfb g N s' /\ idx s' = idx s /\ car s' = car s) (setT s th k v).
Proof.
  intros Hk Hv. destruct W as (L & F & R). unfold setT. destruct (nth_error_lt (tab s) th) as [t Et]; [lia|]. rewrite Et. cbn [bindo].
  pose proof (Forall_nth' _ _ _ _ F Et) as [Lt Ft]. unfold zset. destruct (Z.ltb_spec k 0); [lia|].
  eapply osat_bind; [apply (set_sat (fun w => 0 <= w < 2 ^ bits g) t (Z.to_nat k) v); [unfold tbl in Lt; lia|exact Ft|exact Hv]|].
  cbn beta. intros t' (L1 & F1 & _). eapply osat_bind; [apply (set_sat (tabok g)); [lia|exact F|split; [lia|assumption]]|].
  cbn beta. intros T (L2 & F2 & _). apply osat_ret. repeat split; cbn; try tauto. lia.
Qed.
Lemma getI_sat : has_idx g = true -> osat (fun v => 0 <= v < 2 ^ 32 /\ getI s th = Some v) (getI s th).
Proof.
  intros Hg. destruct W as (_ & _ & L & F & _). rewrite Hg in L. unfold getI. destruct (nth_error_lt (idx s) th) as [v Ev]; [lia|].
  rewrite Ev. apply osat_ret. split; [|reflexivity]. apply (Forall_nth' _ _ _ _ F Ev).
Qed.
Lemma setI_sat v : has_idx g = true -> 0 <= v < 2 ^ 32 ->
  osat (fun s' => wfb g N s' /\ car s' = car s /\ getI s' th = Some v /\ (forall j, j <> th -> getI s' j = getI s j)) (setI s th v).
Proof.
  intros Hg Hv. destruct W as (L & F & L1 & F1 & R). rewrite Hg in L1. unfold setI.
  eapply osat_bind; [apply (set_sat (fun w => 0 <= w < 2 ^ 32) (idx s) th v); [lia|exact F1|exact Hv]|].
  cbn beta. intros T (L2 & F2 & E & K). apply osat_ret. repeat split; cbn; try tauto. rewrite Hg. lia.
Qed.
Lemma getC_sat : has_car g = true -> osat (fun v => 0 <= v < 2 ^ 32) (getC s th).
Proof.
  intros Hg. destruct W as (_ & _ & _ & _ & L & F). rewrite Hg in L. unfold getC. destruct (nth_error_lt (car s) th) as [v Ev]; [lia|].
  rewrite Ev. apply osat_ret. apply (Forall_nth' _ _ _ _ F Ev).
Qed.
Lemma setC_sat v : has_car g = true -> 0 <= v < 2 ^ 32 ->
  osat (fun s' => wfb g N s' /\ idx s' = idx s) (setC s th v).
Proof.
  intros Hg Hv. destruct W as (L & F & L1 & F1 & L2 & F2). rewrite Hg in L2. unfold setC.
  eapply osat_bind; [apply (set_sat (fun w => 0 <= w < 2 ^ 32) (car s) th v); [lia|exact F2|exact Hv]|].
  cbn beta. intros T (L3 & F3 & _). apply osat_ret. repeat split; cbn; try tauto. rewrite Hg. lia.
Qed.
End Sat.

Lemma idx_getI : forall s s' j, idx s' = idx s -> getI s' j = getI s j.
Proof. intros s s' j E. unfold getI. rewrite E. reflexivity. Qed.

Definition drawn (g : gen) (N : nat) (p : Z * rng) : Prop :=
  0 <= fst p < 2 ^ bits g /\ wfb g N (snd p) /\ idxok g (snd p).

Ltac rng_range :=
  repeat first [ assumption | apply u32_range | apply u64_range | apply land31
               | apply lxor_range; [lia| |] | apply shiftr_range; [lia|] ].
Ltac gT k := eapply osat_bind; [apply (getT_sat _ _ _ ltac:(eassumption) _ ltac:(eassumption)) | intros ? k; cbv beta zeta].

Lemma draw_KISS_ok : forall N th s, (th < N)%nat -> wfb KISS N s -> idxok KISS s -> osat (drawn KISS N) (draw KISS th s).
Proof.
  intros N th s Hth W X. cbn [draw]. unfold JKISS32.
  assert (T : forall s k, wfb KISS N s -> 0 <= k < 5 -> osat (fun v => 0 <= v < 2 ^ 32) (getT s th k)).
  { intros. apply (getT_sat KISS N th Hth); assumption. }
  assert (S : forall s k v, wfb KISS N s -> 0 <= k < 5 -> 0 <= v < 2 ^ 32 -> osat (wfb KISS N) (setT s th k v)).
  { intros s' k v W' Hk Hv. destruct (setT_sat KISS N th Hth s' W' k v Hk Hv) as (a & E & Ha & _). exists a. auto. }
  clear X.
  repeat (eapply osat_bind; [apply T; [eassumption|lia]|intros ? ?; cbv beta zeta; eapply osat_bind; [apply S; [eassumption|lia|rng_range]|intros ? ?]]).
  do 3 (eapply osat_bind; [apply T; [eassumption|lia]|intros ? ?]).
  cbv zeta.
  eapply osat_bind; [apply T; [eassumption|lia]|intros ? ?].
  eapply osat_bind; [apply S; [eassumption|lia|rng_range]|intros ? ?].
  eapply osat_bind; [apply S; [eassumption|lia|destruct (_ <? 0); [change (2^32) with two32; unfold two32; lia|lia]]|intros ? ?].
  eapply osat_bind; [apply S; [eassumption|lia|apply land31]|intros ? ?].
  eapply osat_bind; [apply T; [eassumption|lia]|intros ? ?].
  eapply osat_bind; [apply S; [eassumption|lia|rng_range]|intros s9 W9].
  do 3 (eapply osat_bind; [apply T; [eassumption|lia]|intros ? ?]).
  apply osat_ret. split; [apply u32_range|split; [assumption|]].
  intros j i E. cbn [snd] in E. destruct W9 as (_ & _ & W9 & _). cbn in W9. unfold getI in E. rewrite W9 in E. destruct j; discriminate.
Qed.

Lemma draw_1038_ok : forall N th s, (th < N)%nat -> wfb MWC_1038 N s -> idxok MWC_1038 s -> osat (drawn MWC_1038 N) (draw MWC_1038 th s).
Proof.
  intros N th s Hth W X. cbn [draw]. unfold draw_MWC_1038.
  eapply osat_bind; [apply (getI_sat MWC_1038 N th Hth s W eq_refl)|]. intros i [Ri Ei]. pose proof (X _ _ Ei) as Xi. cbn in Xi.
  eapply osat_bind; [apply (getT_sat MWC_1038 N th Hth s W); change (RNG_TABLE MWC_1038) with 1038; lia|]. intros q Rq.
  eapply osat_bind; [apply (getC_sat MWC_1038 N th Hth s W eq_refl)|]. intros c Rc. cbv zeta.
  eapply osat_bind; [apply (setC_sat MWC_1038 N th Hth s W); [reflexivity|apply u32_range]|]. intros s1 [W1 I1].
  assert (E1 : getI s1 th = Some i) by (rewrite (idx_getI s) by assumption; exact Ei). rewrite E1. cbn [bindo].
  eapply osat_bind; [apply (setI_sat MWC_1038 N th Hth s1 W1); [reflexivity|apply u32_range]|]. intros s2 (W2 & _ & I2 & J2).
  rewrite I2. cbn [bindo].
  assert (U : u32 (i - 1) = i - 1) by (unfold u32; apply Z.mod_small; unfold two32; lia). rewrite U in *.
  destruct (Z.eqb_spec (i - 1) 0); cbn [negb].
  - eapply osat_bind; [apply (setI_sat MWC_1038 N th Hth s2 W2); [reflexivity|cbn; lia]|]. intros s3 (W3 & _ & I3 & J3).
    eapply osat_bind; [apply (setT_sat MWC_1038 N th Hth s3 W3); [cbn; lia|apply u32_range]|]. intros s4 (W4 & I4 & _).
    apply osat_ret. split; [apply u32_range|split; [assumption|]]. cbn [snd]. intros j k E. rewrite (idx_getI s3) in E by assumption.
    destruct (Nat.eq_dec j th) as [->|Hj].
    + rewrite I3 in E. injection E as <-. cbn. lia.
    + rewrite J3, J2 in E by assumption. rewrite (idx_getI s) in E by assumption. apply (X j). exact E.
  - eapply osat_bind; [apply (setT_sat MWC_1038 N th Hth s2 W2); [change (RNG_TABLE MWC_1038) with 1038; lia|apply u32_range]|]. intros s4 (W4 & I4 & _).
    apply osat_ret. split; [apply u32_range|split; [assumption|]]. cbn [snd]. intros j k E. rewrite (idx_getI s2) in E by assumption.
    destruct (Nat.eq_dec j th) as [->|Hj].
    + rewrite I2 in E. injection E as <-. cbn. lia.
    + rewrite J2 in E by assumption. rewrite (idx_getI s) in E by assumption. apply (X j). exact E.
Qed.

Lemma draw_4096_ok : forall N th s, (th < N)%nat -> wfb MWC_4096 N s -> idxok MWC_4096 s -> osat (drawn MWC_4096 N) (draw MWC_4096 th s).
Proof.
  intros N th s Hth W X. cbn [draw]. unfold draw_MWC_4096.
  eapply osat_bind; [apply (setI_sat MWC_4096 N th Hth s W); [reflexivity|cbn; lia]|]. intros s1 (W1 & _ & I1 & J1).
  rewrite I1. cbn [bindo].
  eapply osat_bind; [apply (setI_sat MWC_4096 N th Hth s1 W1); [reflexivity|cbn; lia]|]. intros s2 (W2 & _ & I2 & J2).
  change (Z.land (u32 (4095 + 1)) 4095) with 0 in I2. rewrite I2. cbn [bindo].
  eapply osat_bind; [apply (getT_sat MWC_4096 N th Hth s2 W2); cbn; lia|]. intros q Rq.
  eapply osat_bind; [apply (getC_sat MWC_4096 N th Hth s2 W2 eq_refl)|]. intros c Rc. cbv zeta.
  eapply osat_bind; [apply (setC_sat MWC_4096 N th Hth s2 W2); [reflexivity|apply u32_range]|]. intros s3 [W3 I3].
  eapply osat_bind; [apply (getC_sat MWC_4096 N th Hth s3 W3 eq_refl)|]. intros c1 Rc1.
  eapply osat_bind; [apply (getC_sat MWC_4096 N th Hth s3 W3 eq_refl)|]. intros c2 Rc2.
  eapply osat_bind with (P := fun p : Z * rng => wfb MWC_4096 N (snd p) /\ idx (snd p) = idx s2).
  - destruct (_ <? _).
    + eapply osat_bind; [apply (setC_sat MWC_4096 N th Hth s3 W3); [reflexivity|apply u32_range]|]. intros s4 [W4 I4].
      apply osat_ret. cbn [snd]. split; [assumption|congruence].
    + apply osat_ret. cbn [snd]. auto.
  - intros [x s5] [W5 I5]. cbn [snd] in *. rewrite (idx_getI s2) by assumption. rewrite I2. cbn [bindo].
    eapply osat_bind; [apply (setT_sat MWC_4096 N th Hth s5 W5); [cbn; lia|apply u32_range]|]. intros s6 (W6 & I6 & _).
    apply osat_ret. split; [apply u32_range|split; [assumption|]]. cbn [snd]. intros j k E. rewrite (idx_getI s2) in E by congruence.
    destruct (Nat.eq_dec j th) as [->|Hj].
    + rewrite I2 in E. injection E as <-. cbn. lia.
    + rewrite J2, J1 in E by assumption. apply (X j). exact E.
Qed.

Lemma draw_WELL_ok : forall N th s, (th < N)%nat -> wfb WELL_512 N s -> idxok WELL_512 s -> osat (drawn WELL_512 N) (draw WELL_512 th s).
Proof.
  intros N th s Hth W X. cbn [draw]. unfold draw_WELL_512.
  assert (T : forall s k, wfb WELL_512 N s -> 0 <= k <= 15 -> osat (fun v => 0 <= v < 2 ^ 32) (getT s th k)).
  { intros. apply (getT_sat WELL_512 N th Hth); [assumption|cbn; lia]. }
  eapply osat_bind; [apply (getI_sat WELL_512 N th Hth s W eq_refl)|]. intros i [Ri Ei]. pose proof (X _ _ Ei) as Xi. cbn in Xi.
  eapply osat_bind; [apply T; [assumption|lia]|]. intros a Ra.
  eapply osat_bind; [apply T; [assumption|apply land15]|]. intros c Rc. cbv zeta.
  eapply osat_bind; [apply T; [assumption|apply land15]|]. intros c' Rc'.
  eapply osat_bind; [apply (setT_sat WELL_512 N th Hth s W); [cbn; lia|change (bits WELL_512) with 32; rng_range]|]. intros s1 (W1 & I1 & _).
  eapply osat_bind; [apply (setI_sat WELL_512 N th Hth s1 W1); [reflexivity|]|].
  { pose proof (land15 (u32 (i + 15))). change (2 ^ 32) with 4294967296. lia. }
  intros s2 (W2 & _ & I2 & J2). rewrite I2. cbn [bindo].
  eapply osat_bind; [apply T; [assumption|apply land15]|]. intros a' Ra'.
  match goal with |- osat _ (do _ <- setT _ _ _ ?v; _) => assert (V : 0 <= v < 2 ^ 32) end.
  { rng_range. apply land_range; [lia|apply u32_range|lia]. }
  eapply osat_bind; [apply (setT_sat WELL_512 N th Hth s2 W2); [pose proof (land15 (u32 (i + 15))); cbn [RNG_TABLE]; lia|exact V]|]. intros s3 (W3 & I3 & _).
  apply osat_ret. split; [exact V|split; [assumption|]]. cbn [snd]. intros j k E. rewrite (idx_getI s2) in E by assumption.
  destruct (Nat.eq_dec j th) as [->|Hj].
  + rewrite I2 in E. injection E as <-. apply land15.
  + rewrite J2 in E by assumption. rewrite (idx_getI s) in E by assumption. apply (X j). exact E.
Qed.

Lemma draw_XOR_ok : forall N th s, (th < N)%nat -> wfb XOR_1024 N s -> idxok XOR_1024 s -> osat (drawn XOR_1024 N) (draw XOR_1024 th s).
Proof.
  intros N th s Hth W X. cbn [draw]. unfold draw_XOR_1024.
  assert (T : forall s k, wfb XOR_1024 N s -> 0 <= k <= 15 -> osat (fun v => 0 <= v < 2 ^ 64) (getT s th k)).
  { intros. apply (getT_sat XOR_1024 N th Hth); [assumption|cbn; lia]. }
  eapply osat_bind; [apply (getI_sat XOR_1024 N th Hth s W eq_refl)|]. intros i [Ri Ei]. pose proof (X _ _ Ei) as Xi. cbn in Xi.
  eapply osat_bind; [apply T; [assumption|lia]|]. intros a Ra.
  eapply osat_bind; [apply (setI_sat XOR_1024 N th Hth s W); [reflexivity|]|].
  { pose proof (land15 (u32 (i + 1))). change (2 ^ 32) with 4294967296. lia. }
  intros s1 (W1 & _ & I1 & J1). rewrite I1. cbn [bindo].
  eapply osat_bind; [apply T; [assumption|apply land15]|]. intros b Rb. cbv zeta.
  eapply osat_bind; [apply (setT_sat XOR_1024 N th Hth s1 W1); [pose proof (land15 (u32 (i + 1))); cbn [RNG_TABLE]; lia|change (bits XOR_1024) with 64; rng_range]|].
  intros s3 (W3 & I3 & _).
  apply osat_ret. split; [apply u64_range|split; [assumption|]]. cbn [snd]. intros j k E. rewrite (idx_getI s1) in E by assumption.
  destruct (Nat.eq_dec j th) as [->|Hj].
  + rewrite I1 in E. injection E as <-. apply land15.
  + rewrite J1 in E by assumption. apply (X j). exact E.
Qed.

Theorem draw_ok : forall g N th s, (th < N)%nat -> wfb g N s -> idxok g s -> osat (drawn g N) (draw g th s).
Proof.
  intros [] N th s H W X; [apply draw_KISS_ok|apply draw_1038_ok|apply draw_4096_ok|apply draw_WELL_ok|apply draw_XOR_ok]; assumption.
Qed.
Theorem draws_ok : forall g N order s, Forall (fun th => (th < N)%nat) order -> wfb g N s -> idxok g s ->
  osat (fun p => List.length (fst p) = List.length order /\ Forall (fun w => 0 <= w < 2 ^ bits g) (fst p) /\ wfb g N (snd p) /\ idxok g (snd p)) (draws g order s).
Proof.
  intros g N order s H. revert s. induction H as [|th order H1 H IH]; intros s W X; cbn [draws].
  - apply osat_ret. cbn. auto.
  - eapply osat_bind; [apply (draw_ok g N th s H1 W X)|]. intros [w s1] (R & W1 & X1). cbn [fst snd] in *.
    eapply osat_bind; [apply (IH s1 W1 X1)|]. intros [ws s2] (L & F & W2 & X2). cbn [fst snd] in *.
    apply osat_ret. cbn [fst snd List.length]. split; [lia|split; [constructor; assumption|split; assumption]].
Qed.

(* ---------- seeded states are well formed ---------- *)
Lemma lcg_fill_ok : forall n p j, List.length (lcg_fill n p j) = n /\ Forall (fun w => 0 <= w < 2 ^ 32) (lcg_fill n p j).
Proof.
  induction n as [|n IH]; intros p j; cbn [lcg_fill List.length]; [split; [reflexivity|constructor]|].
  destruct (IH (LCONG p j) (j + 1)) as [L F]. cbv zeta. split; [cbn; lia|constructor; [apply u32_range|assumption]].
Qed.
Lemma pun_range : forall be a b, 0 <= a < 2 ^ 32 -> 0 <= b < 2 ^ 32 -> 0 <= pun be a b < 2 ^ 64.
Proof.
  intros be a b Ha Hb. unfold pun. change two32 with (2 ^ 32). change (2 ^ 64) with (2 ^ 32 * 2 ^ 32).
  generalize dependent (2 ^ 32). intros P Ha Hb. destruct be; nia.
Qed.
Lemma xor_fill_ok : forall be n i1 j, List.length (xor_fill be n i1 j) = n /\ Forall (fun w => 0 <= w < 2 ^ 64) (xor_fill be n i1 j).
Proof.
  induction n as [|n IH]; intros i1 j; cbn [xor_fill List.length]; [split; [reflexivity|constructor]|].
  cbv zeta. destruct (IH (LCONG (LCONG i1 (2 * j)) (2 * j + 1)) (j + 1)) as [L F].
  split; [rewrite L; reflexivity|constructor; [apply pun_range; apply u32_range|assumption]].
Qed.
Lemma table_ok : forall g be seed, 0 <= seed < 2 ^ 32 ->
  tabok g (match g with XOR_1024 => xor_table be seed | _ => lcg_table g seed end).
Proof.
  intros g be seed H.
  assert (K : forall g', bits g' = 32 -> 1 <= RNG_TABLE g' -> tabok g' (lcg_table g' seed)).
  { intros g' B R. destruct (lcg_fill_ok (Z.to_nat (RNG_TABLE g' - 1)) seed 1) as [L F]. unfold tabok. rewrite B. unfold lcg_table, tbl.
    split; [cbn [List.length]; rewrite L; lia|]. constructor; assumption. }
  destruct g; try (apply K; [reflexivity|cbn; lia]).
  destruct (xor_fill_ok be (Z.to_nat (RNG_TABLE XOR_1024 - 1)) (LCONG seed 1) 1) as [L F]. unfold tabok, xor_table, tbl. cbv zeta.
  split; [cbn [List.length]; rewrite L; reflexivity|]. constructor; [apply pun_range; [assumption|apply u32_range]|assumption].
Qed.
Theorem seeded_ok : forall g be seeds s, Forall (fun x => 0 <= x < 2 ^ 32) seeds -> set_table g be seeds = Some s ->
  wfb g (List.length seeds) s /\ idxok g s.
Proof.
  intros g be seeds s H E.
  set (T := map (match g with XOR_1024 => xor_table be | _ => lcg_table g end) seeds) in *.
  assert (LT : List.length T = List.length seeds) by (unfold T; apply map_length).
  assert (FT : Forall (tabok g) T).
  { unfold T. apply Forall_forall. intros t Ht. apply in_map_iff in Ht. destruct Ht as (x & <- & Hx).
    rewrite Forall_forall in H. pose proof (table_ok g be x (H x Hx)). destruct g; assumption. }
  assert (FC : forall m, 0 < m < 2 ^ 32 -> Forall (fun w => 0 <= w < 2 ^ 32) (map (fun t => last t 0 mod m) T)).
  { intros m Hm. apply Forall_forall. intros t Ht. apply in_map_iff in Ht. destruct Ht as (x & <- & Hx).
    pose proof (Z.mod_pos_bound (last x 0) m). lia. }
  assert (RI : forall (P : Z -> Prop) v n, P v -> Forall P (repeat v n)).
  { intros P v n Hv. induction n; cbn; constructor; auto. }
  assert (XI : forall (Q : Z -> Prop) v n j i, Q v -> nth_error (repeat v n) j = Some i -> Q i).
  { intros Q v n j i Hv Hn. apply nth_error_In in Hn. apply repeat_spec in Hn. subst. assumption. }
  destruct g; cbn [set_table] in E; fold T in E; injection E as <-; unfold wfb, idxok, getI; cbn [tab idx car has_idx has_car]; (split; [repeat split|]); auto;
    try (rewrite repeat_length; reflexivity); try (rewrite map_length; assumption);
    try (apply RI; cbn; lia); try (apply FC; cbn; lia);
    try (intros j i Hn; eapply XI; [|exact Hn]; cbn; lia);
    intros [|j] i Hn; discriminate.
Qed.
