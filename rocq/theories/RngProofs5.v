From Coq Require Import String Permutation.
From Verif Require Import CInt Lib RngModel RngProofs RngProofs2 RngProofs4.
Open Scope Z_scope.

(* XOR_1024: sixteen draws determine the whole table *)
Definition xs1 (b : Z) : Z := Z.lxor b (u64 (Z.shiftl b 31)).
Definition xs2 (b : Z) : Z := Z.lxor b (Z.shiftr b 11).
Definition xmix (a b : Z) : Z := Z.lxor (Z.lxor a (Z.shiftr a 30)) (xs2 (xs1 b)).
Definition xnext (i : Z) : Z := (i + 1) mod 16.

Lemma lxor_move : forall a b c d, Z.lxor a b = Z.lxor c d -> Z.lxor a c = Z.lxor b d.
Proof.
  intros a b c d H. apply Z.bits_inj'. intros n Hn. apply (f_equal (fun z => Z.testbit z n)) in H.
  rewrite !Z.lxor_spec in *. destruct (Z.testbit a n), (Z.testbit b n), (Z.testbit c n), (Z.testbit d n); cbn in *; congruence.
Qed.
Lemma xs2_inj : forall a b, 0 <= a -> 0 <= b -> xs2 a = xs2 b -> a = b.
Proof.
  intros a b Ha Hb H. unfold xs2 in H. apply lxor_move in H. rewrite <- Z.shiftr_lxor in H.
  assert (N : 0 <= Z.lxor a b) by (apply Z.lxor_nonneg; lia). set (d := Z.lxor a b) in *.
  apply Z.lxor_eq. fold d. rewrite Z.shiftr_div_pow2 in H by lia. change (2 ^ 11) with 2048 in H.
  destruct (Z.eq_dec d 0); [assumption|]. pose proof (Z.div_lt d 2048). lia.
Qed.
Lemma u64_land z : u64 z = Z.land z (Z.ones 64). Proof. rewrite Z.land_ones by lia. reflexivity. Qed.
Lemma u64_lxor : forall a b, Z.lxor (u64 a) (u64 b) = u64 (Z.lxor a b).
Proof.
  intros a b. rewrite !u64_land. apply Z.bits_inj'. intros n Hn. rewrite !Z.lxor_spec, !Z.land_spec, !Z.lxor_spec.
  destruct (Z.testbit a n), (Z.testbit b n), (Z.testbit (Z.ones 64) n); reflexivity.
Qed.
Lemma xs1_inj : forall a b, 0 <= a < 2 ^ 64 -> 0 <= b < 2 ^ 64 -> xs1 a = xs1 b -> a = b.
Proof.
  intros a b Ha Hb H. unfold xs1 in H. apply lxor_move in H. rewrite u64_lxor, <- Z.shiftl_lxor in H.
  apply Z.lxor_eq. set (d := Z.lxor a b) in *. rewrite Z.shiftl_mul_pow2 in H by lia.
  assert (E : d = u64 (d * 2 ^ 93)).
  { rewrite H at 1. unfold u64. rewrite H at 1. unfold u64. rewrite H at 1. unfold u64.
    rewrite Zmult_mod_idemp_l. rewrite <- (Z.mul_assoc _ (2 ^ 31) (2 ^ 31)), Zmult_mod_idemp_l. f_equal. rewrite <- Z.mul_assoc. f_equal. }
  rewrite E. unfold u64. replace (d * 2 ^ 93) with (d * 2 ^ 29 * two64) by (unfold two64; rewrite <- Z.mul_assoc; f_equal).
  apply Z.mod_mul. discriminate.
Qed.

Definition xinv : Z := 13515856136758413469.
Lemma xmul_inj : forall a b, 0 <= a < 2 ^ 64 -> 0 <= b < 2 ^ 64 ->
  u64 (a * 1181783497276652981) = u64 (b * 1181783497276652981) -> a = b.
Proof.
  assert (K : forall a, 0 <= a < 2 ^ 64 -> u64 (u64 (a * 1181783497276652981) * xinv) = a).
  { intros a Ha. unfold u64. rewrite Zmult_mod_idemp_l. rewrite <- Z.mul_assoc. rewrite <- Zmult_mod_idemp_r.
    change ((1181783497276652981 * xinv) mod two64) with 1. rewrite Z.mul_1_r. apply Z.mod_small. exact Ha. }
  intros a b Ha Hb H. rewrite <- (K a Ha), <- (K b Hb), H. reflexivity.
Qed.

Lemma next_land : forall i, 0 <= i <= 15 -> Z.land (u32 (i + 1)) 15 = xnext i.
Proof.
  intros i H. change 15 with (Z.ones 4). rewrite Z.land_ones by lia. unfold xnext, u32. rewrite (Z.mod_small (i + 1)) by (unfold two32; lia). reflexivity.
Qed.
Lemma step_XOR : forall th s w s' i a b, draw XOR_1024 th s = Some (w, s') -> getI s th = Some i -> 0 <= i <= 15 ->
  getT s th i = Some a -> getT s th (xnext i) = Some b ->
  getI s' th = Some (xnext i) /\ getT s' th (xnext i) = Some (xmix a b) /\ w = u64 (xmix a b * 1181783497276652981) /\
  (forall k, 0 <= k -> k <> xnext i -> getT s' th k = getT s th k).
Proof.
  intros th s w s' i a b E G Hi A B. cbn [draw] in E. unfold draw_XOR_1024 in E. rewrite G in E. cbn [bindo] in E. rewrite A in E. cbn [bindo] in E.
  rewrite next_land in E by assumption.
  destruct (setI s th (xnext i)) as [s1|] eqn:E1; [|discriminate]. cbn [bindo] in E. apply setI_get in E1. destruct E1 as (I1 & C1 & T1).
  rewrite I1 in E. cbn [bindo] in E. rewrite (tab_getT s) in E by assumption. rewrite B in E. cbn [bindo] in E. cbv zeta in E.
  match type of E with context [setT s1 th (xnext i) ?v] => change v with (xmix a b) in E end.
  destruct (setT s1 th (xnext i) (xmix a b)) as [s2|] eqn:E2; [|discriminate]. cbn [bindo] in E.
  apply some_pair in E. destruct E as [-> ->]. apply setT_get in E2. destruct E2 as (G2 & N2 & I2 & C2).
  split; [rewrite (idx_getI s1) by assumption; exact I1|]. split; [exact G2|]. split; [reflexivity|].
  intros k Hk Hn. rewrite N2 by assumption. apply tab_getT. assumption.
Qed.
Lemma mix_range : forall a b, 0 <= a < 2 ^ 64 -> 0 <= b < 2 ^ 64 -> 0 <= xmix a b < 2 ^ 64.
Proof. intros a b Ha Hb. unfold xmix, xs2, xs1. rng_range. Qed.
Lemma xs_range : forall b, 0 <= b < 2 ^ 64 -> 0 <= xs1 b < 2 ^ 64.
Proof. intros b Hb. unfold xs1. rng_range. Qed.

Lemma xor_inj : forall N th, (th < N)%nat -> forall n s1 s2 i (D : Z -> Prop),
  wfb XOR_1024 N s1 -> idxok XOR_1024 s1 -> wfb XOR_1024 N s2 -> idxok XOR_1024 s2 ->
  getI s1 th = Some i -> getI s2 th = Some i ->
  (forall p, 0 <= p <= 15 -> D p -> getT s1 th p = getT s2 th p) ->
  option_map fst (draws XOR_1024 (repeat th n) s1) = option_map fst (draws XOR_1024 (repeat th n) s2) ->
  (forall p, 0 <= p <= 15 -> D p \/ exists j, 1 <= j <= Z.of_nat n /\ p = (i + j) mod 16) ->
  forall p, 0 <= p <= 15 -> getT s1 th p = getT s2 th p.
Proof.
  intros N th H n. induction n as [|n IH]; intros s1 s2 i D W1 X1 W2 X2 I1 I2 A E C p Hp.
  - destruct (C p Hp) as [K|(j & Hj & _)]; [auto|lia].
  - assert (Hi : 0 <= i <= 15) by (apply (X1 _ _ I1)).
    assert (Hn : 0 <= xnext i <= 15) by (unfold xnext; pose proof (Z.mod_pos_bound (i + 1) 16); lia).
    assert (Hne : xnext i <> i).
    { unfold xnext. intro K. destruct (Z.eq_dec i 15) as [->|]; [discriminate|]. rewrite Z.mod_small in K; lia. }
    destruct (draw_ok XOR_1024 N th s1 H W1 X1) as ([w1 t1] & E1 & _ & W1' & X1').
    destruct (draw_ok XOR_1024 N th s2 H W2 X2) as ([w2 t2] & E2 & _ & W2' & X2'). cbn [snd] in *.
    cbn [repeat draws] in E. rewrite E1, E2 in E. cbn [bindo] in E.
    assert (Ew : w1 = w2 /\ option_map fst (draws XOR_1024 (repeat th n) t1) = option_map fst (draws XOR_1024 (repeat th n) t2)).
    { assert (FO : Forall (fun t => (t < N)%nat) (repeat th n)) by (apply Forall_forall; intros x Hx; apply repeat_spec in Hx; subst; assumption).
      destruct (draws_ok XOR_1024 N (repeat th n) t1 FO W1' X1') as ([ws1 u1] & Q1 & _).
      destruct (draws_ok XOR_1024 N (repeat th n) t2 FO W2' X2') as ([ws2 u2] & Q2 & _).
      rewrite Q1, Q2 in *. cbn in E |- *. injection E as -> ->. auto. }
    destruct Ew as [Ew Er]. subst w2.
    destruct (getT_sat XOR_1024 N th H s1 W1 i) as (a1 & A1 & R1); [cbn [RNG_TABLE]; lia|].
    destruct (getT_sat XOR_1024 N th H s1 W1 (xnext i)) as (b1 & B1 & S1); [cbn [RNG_TABLE]; lia|].
    destruct (getT_sat XOR_1024 N th H s2 W2 i) as (a2 & A2 & R2); [cbn [RNG_TABLE]; lia|].
    destruct (getT_sat XOR_1024 N th H s2 W2 (xnext i)) as (b2 & B2 & S2); [cbn [RNG_TABLE]; lia|].
    change (bits XOR_1024) with 64 in *.
    destruct (step_XOR th s1 w1 t1 i a1 b1 E1 I1 Hi A1 B1) as (J1 & G1 & V1 & F1).
    destruct (step_XOR th s2 w1 t2 i a2 b2 E2 I2 Hi A2 B2) as (J2 & G2 & V2 & F2).
    assert (M : xmix a1 b1 = xmix a2 b2) by (apply xmul_inj; [apply mix_range; assumption|apply mix_range; assumption|congruence]).
    assert (All : forall p, 0 <= p <= 15 -> getT t1 th p = getT t2 th p).
    { apply (IH t1 t2 (xnext i) (fun p => D p \/ p = xnext i)); auto.
      - intros q Hq Hd. destruct (Z.eq_dec q (xnext i)) as [->|Nq]; [congruence|].
        rewrite F1, F2 by lia. apply A; [assumption|]. destruct Hd; [assumption|contradiction].
      - intros q Hq. destruct (C q Hq) as [K|(j & Hj & Eq)]; [auto|].
        destruct (Z.eq_dec j 1) as [->|Nj]; [left; right; exact Eq|].
        right. exists (j - 1). split; [lia|]. unfold xnext. rewrite Zplus_mod_idemp_l. rewrite Eq. f_equal. lia. }
    assert (Ea : a1 = a2).
    { specialize (All i Hi). rewrite F1, F2 in All by lia. congruence. }
    assert (Eb : b1 = b2).
    { subst a2. unfold xmix in M. apply lxor_move in M. rewrite Z.lxor_nilpotent in M. symmetry in M. apply Z.lxor_eq in M.
      apply xs2_inj in M; [|apply xs_range; assumption|apply xs_range; assumption]. apply xs1_inj in M; assumption. }
    destruct (Z.eq_dec p (xnext i)) as [->|Np]; [congruence|].
    specialize (All p Hp). rewrite F1, F2 in All by lia. exact All.
Qed.
Theorem xor_table_used : forall N th s1 s2, (th < N)%nat ->
  wfb XOR_1024 N s1 -> idxok XOR_1024 s1 -> wfb XOR_1024 N s2 -> idxok XOR_1024 s2 ->
  getI s1 th = getI s2 th ->
  option_map fst (draws XOR_1024 (repeat th 16) s1) = option_map fst (draws XOR_1024 (repeat th 16) s2) ->
  nth_error (tab s1) th = nth_error (tab s2) th.
Proof.
  intros N th s1 s2 H W1 X1 W2 X2 I E.
  destruct (getI_sat XOR_1024 N th H s1 W1 eq_refl) as (i & I1 & _). assert (Hi : 0 <= i <= 15) by (apply (X1 _ _ I1)).
  assert (All : forall p, 0 <= p <= 15 -> getT s1 th p = getT s2 th p).
  { apply (xor_inj N th H 16 s1 s2 i (fun _ => False)); auto; try congruence.
    - intros; contradiction.
    - intros p Hp. right. destruct (Z_le_dec p i) as [L|L].
      + exists (16 + p - i). split; [lia|]. replace (i + (16 + p - i)) with (p + 1 * 16) by lia. rewrite Z.mod_add by lia. rewrite Z.mod_small; lia.
      + exists (p - i). split; [lia|]. rewrite Z.mod_small; lia. }
  destruct W1 as (L1 & F1 & _), W2 as (L2 & F2 & _).
  destruct (nth_error_lt (tab s1) th) as [t1 T1]; [lia|]. destruct (nth_error_lt (tab s2) th) as [t2 T2]; [lia|].
  destruct (Forall_nth' _ _ _ _ F1 T1) as [Lt1 _]. destruct (Forall_nth' _ _ _ _ F2 T2) as [Lt2 _].
  rewrite T1, T2. f_equal. apply list_ext. intros k. destruct (Nat.lt_ge_cases k 16) as [Hk|Hk].
  - specialize (All (Z.of_nat k) ltac:(lia)). unfold getT in All. rewrite T1, T2 in All. cbn [bindo] in All. unfold zn in All.
    destruct (Z.ltb_spec (Z.of_nat k) 0); [lia|]. rewrite !Nat2Z.id in All. exact All.
  - change (tbl XOR_1024) with 16%nat in *. rewrite (proj2 (nth_error_None t1 k)), (proj2 (nth_error_None t2 k)) by lia. reflexivity.
Qed.
