(* Proofs for CrcModel.v *)
From Verif Require Import CInt Lib CrcModel CrcSpec.

Lemma i32_land : forall x, Z.land (i32 x) 255 = Z.land x 255.
Proof.
  intros x. change 255 with (Z.ones 8). rewrite !Z.land_ones by lia.
  unfold i32, two32, two31. change (2 ^ 8) with 256.
  rewrite <- Z.add_opp_r, <- Z.add_mod_idemp_l by lia.
  change 4294967296 with (256 * 16777216). rewrite (Z.rem_mul_r _ 256 16777216) by lia.
  rewrite (Z.mul_comm 256 (_ mod _)), Z_mod_plus_full, Z.mod_mod by lia.
  rewrite Z.add_mod_idemp_l by lia. f_equal. lia.
Qed.

Lemma land_lxor_r : forall a b m, Z.land (Z.lxor a b) m = Z.lxor (Z.land a m) (Z.land b m).
Proof.
  intros. apply Z.bits_inj'. intros n Hn. rewrite !Z.land_spec, !Z.lxor_spec, !Z.land_spec.
  destruct (Z.testbit a n), (Z.testbit b n), (Z.testbit m n); reflexivity.
Qed.

Definition P : Z := 0xEDB88320.
Definition st (x : Z) : Z := Z.lxor (Z.shiftr x 1) (if Z.testbit x 0 then P else 0).

Lemma crc_bit_st : forall x, crc_bit x = st x.
Proof.
  intros x. unfold crc_bit, st. rewrite <- Z.bit0_odd, Z.shiftr_div_pow2 by lia. change (2 ^ 1) with 2.
  destruct (Z.testbit x 0); [reflexivity|]. now rewrite Z.lxor_0_r.
Qed.

Lemma xor4 : forall a b c d, Z.lxor (Z.lxor a b) (Z.lxor c d) = Z.lxor (Z.lxor a c) (Z.lxor b d).
Proof.
  intros. rewrite !Z.lxor_assoc. f_equal. rewrite <- !Z.lxor_assoc. f_equal. apply Z.lxor_comm.
Qed.

Lemma st_lin : forall a b, st (Z.lxor a b) = Z.lxor (st a) (st b).
Proof.
  intros. unfold st. rewrite Z.shiftr_lxor, Z.lxor_spec, xor4. f_equal.
  destruct (Z.testbit a 0), (Z.testbit b 0); cbn [xorb]; try reflexivity.
Qed.

Lemma rep_lin : forall n (f : Z -> Z), (forall a b, f (Z.lxor a b) = Z.lxor (f a) (f b)) ->
  forall a b, repeat_f n f (Z.lxor a b) = Z.lxor (repeat_f n f a) (repeat_f n f b).
Proof. induction n; intros f H a b; cbn; [reflexivity|]. rewrite H. now apply IHn. Qed.

Lemma rep_ext : forall n (f g : Z -> Z) x, (forall y, f y = g y) -> repeat_f n f x = repeat_f n g x.
Proof. induction n; intros f g x H; cbn; [reflexivity|]. rewrite H. now apply IHn. Qed.

Lemma rep_st_shift : forall n h, repeat_f n st (Z.shiftl h (Z.of_nat n)) = h.
Proof.
  induction n; intros h; [apply Z.shiftl_0_r|].
  cbn [repeat_f]. assert (st (Z.shiftl h (Z.of_nat (S n))) = Z.shiftl h (Z.of_nat n)) as ->; [|apply IHn].
  unfold st. rewrite Z.shiftl_spec by lia.
  replace (Z.testbit h (0 - Z.of_nat (S n))) with false by (symmetry; apply Z.testbit_neg_r; lia).
  rewrite Z.lxor_0_r, Z.shiftr_shiftl_l by lia. f_equal. lia.
Qed.

(* low byte and the rest *)
Lemma split_byte : forall x, x = Z.lxor (Z.land x 255) (Z.shiftl (Z.shiftr x 8) 8).
Proof.
  intros x. apply Z.bits_inj'. intros n Hn. change 255 with (Z.ones 8).
  rewrite Z.lxor_spec, Z.land_spec, Z.shiftl_spec by lia.
  destruct (Z.ltb_spec n 8).
  - rewrite Z.ones_spec_low, (Z.testbit_neg_r _ (n - 8)) by lia. now rewrite andb_true_r, xorb_false_r.
  - rewrite Z.ones_spec_high, Z.shiftr_spec by lia. rewrite andb_false_r, xorb_false_l. f_equal. lia.
Qed.

Lemma table_ok : forall k, (k < 256)%nat -> nth_error crc_table k = Some (repeat_f 8 st (Z.of_nat k)).
Proof.
  intros k Hk.
  assert (match nth_error crc_table k with Some v => v =? repeat_f 8 st (Z.of_nat k) | None => false end = true) as H.
  { revert k Hk. apply forallb_range. vm_compute. reflexivity. }
  destruct (nth_error crc_table k); [|discriminate]. apply Z.eqb_eq in H. now rewrite H.
Qed.

Lemma land255_range : forall x, 0 <= Z.land x 255 < 256.
Proof. intros. change 255 with (Z.ones 8). rewrite Z.land_ones by lia. apply Z.mod_pos_bound. reflexivity. Qed.

Lemma word_bits : forall x, is_word32 x <-> 0 <= x /\ forall n, 32 <= n -> Z.testbit x n = false.
Proof.
  intros x. unfold is_word32, two32. change 4294967296 with (2 ^ 32). split.
  - intros H. split; [lia|]. intros n Hn. rewrite <- (Z.mod_small x (2 ^ 32)) by lia. apply Z.mod_pow2_bits_high. lia.
  - intros [H0 H]. split; [assumption|]. replace x with (x mod 2 ^ 32); [apply Z.mod_pos_bound; lia|].
    apply Z.bits_inj'. intros n Hn. destruct (Z.ltb_spec n 32).
    + apply Z.mod_pow2_bits_low. lia.
    + rewrite Z.mod_pow2_bits_high by lia. symmetry. apply H. lia.
Qed.

Lemma lxor_word : forall a b, is_word32 a -> is_word32 b -> is_word32 (Z.lxor a b).
Proof.
  intros a b Ha Hb. apply word_bits in Ha, Hb. destruct Ha as [A0 A], Hb as [B0 B].
  apply word_bits. split; [apply Z.lxor_nonneg; tauto|]. intros n Hn. rewrite Z.lxor_spec, A, B by lia. reflexivity.
Qed.

Lemma byte_word : forall b, is_byte b -> is_word32 b.
Proof. unfold is_byte, is_word32, two32. lia. Qed.

Lemma shiftr_word : forall x k, 0 <= k -> is_word32 x -> is_word32 (Z.shiftr x k).
Proof.
  intros x k Hk H. apply word_bits in H. destruct H as [H0 H]. apply word_bits.
  split; [now apply Z.shiftr_nonneg|]. intros n Hn. rewrite Z.shiftr_spec by lia. apply H. lia.
Qed.

Lemma st_word : forall x, is_word32 x -> is_word32 (st x).
Proof.
  intros x H. unfold st. apply lxor_word; [apply shiftr_word; [lia|assumption]|].
  destruct (Z.testbit x 0); unfold is_word32, P, two32; lia.
Qed.
Lemma rep_word : forall n f x, (forall y, is_word32 y -> is_word32 (f y)) -> is_word32 x -> is_word32 (repeat_f n f x).
Proof. induction n; intros; cbn; auto. Qed.

Lemma crc_byte_st : forall x b, crc_byte x b = repeat_f 8 st (Z.lxor x b).
Proof. intros. unfold crc_byte. apply rep_ext, crc_bit_st. Qed.

Lemma crc_byte_word : forall x b, is_word32 x -> is_byte b -> is_word32 (crc_byte x b).
Proof. intros. rewrite crc_byte_st. apply rep_word; [apply st_word|]. apply lxor_word; auto using byte_word. Qed.

Lemma DO1_ok : forall crc b, is_word32 crc -> is_byte b -> DO1 crc b = Some (crc_byte crc b).
Proof.
  intros crc b Hc Hb. unfold DO1.
  assert (Z.land (Z.lxor (i32 crc) b) 0xff = Z.land (Z.lxor crc b) 255) as ->
    by (rewrite !land_lxor_r, i32_land; reflexivity).
  pose proof (land255_range (Z.lxor crc b)) as R.
  rewrite table_ok by lia. cbn [bindo]. rewrite Z2Nat.id by lia. f_equal.
  assert (Z.lxor (repeat_f 8 st (Z.land (Z.lxor crc b) 255)) (Z.shiftr crc 8) = crc_byte crc b) as ->.
  { rewrite crc_byte_st. rewrite (split_byte (Z.lxor crc b)) at 2.
    rewrite (rep_lin 8 st st_lin). f_equal.
    change 8 with (Z.of_nat 8) at 3. rewrite rep_st_shift. rewrite Z.shiftr_lxor.
    assert (Z.shiftr b 8 = 0) as ->; [|now rewrite Z.lxor_0_r].
    unfold is_byte in Hb. rewrite Z.shiftr_div_pow2 by lia. now apply Z.div_small. }
  apply Z.mod_small. now apply crc_byte_word.
Qed.

Lemma DOn_ok : forall n crc buf, is_word32 crc -> Forall is_byte buf -> (n <= length buf)%nat ->
  DOn n crc buf = Some (fold_left crc_byte (firstn n buf) crc, skipn n buf).
Proof.
  induction n; intros crc buf Hc Hb L; [reflexivity|].
  destruct buf as [|b buf]; [cbn in L; lia|]. inversion Hb; subst. cbn [DOn].
  rewrite DO1_ok by assumption. cbn [bindo]. rewrite IHn; [reflexivity| | |]; auto using crc_byte_word. cbn in L; lia.
Qed.

Lemma fold_word : forall buf crc, is_word32 crc -> Forall is_byte buf -> is_word32 (fold_left crc_byte buf crc).
Proof. induction buf; intros; cbn [fold_left]; auto. inversion H0; subst. apply IHbuf; auto using crc_byte_word. Qed.

Lemma loop8_ok : forall fuel len crc buf, is_word32 crc -> Forall is_byte buf -> 0 <= len < Z.of_nat fuel ->
  len <= Z.of_nat (length buf) ->
  exists rest, 0 <= rest <= len /\ rest < 8 /\
    let done := Z.to_nat (len - rest) in
    loop8 fuel len crc buf = Some (rest, fold_left crc_byte (firstn done buf) crc, skipn done buf).
Proof.
  induction fuel; intros len crc buf Hc Hb Hf HL; [lia|].
  cbn [loop8]. destruct (Z.leb_spec 8 len).
  - rewrite DOn_ok by (try assumption; lia). cbn [bindo].
    assert (Forall is_byte (firstn 8 buf)) by (rewrite <- (firstn_skipn 8 buf) in Hb; apply Forall_app in Hb; tauto).
    assert (Forall is_byte (skipn 8 buf)) by (rewrite <- (firstn_skipn 8 buf) in Hb; apply Forall_app in Hb; tauto).
    destruct (IHfuel (len - 8) (fold_left crc_byte (firstn 8 buf) crc) (skipn 8 buf)) as (rest & R1 & R2 & E);
      [apply fold_word; assumption|assumption|lia|rewrite skipn_length; lia|].
    + exists rest. split; [lia|]. split; [lia|]. cbn zeta in E |- *. rewrite E. 
      replace (Z.to_nat (len - rest)) with (8 + Z.to_nat (len - 8 - rest))%nat by lia.
      set (m := Z.to_nat (len - 8 - rest)).
      f_equal. f_equal; [f_equal|].
      * rewrite <- fold_left_app. f_equal. rewrite <- (firstn_skipn 8 buf) at 3.
        rewrite firstn_app. rewrite firstn_length_le by lia.
        rewrite (firstn_all2 (n := 8 + m)) by (rewrite firstn_length; lia). do 2 f_equal. lia.
      * rewrite <- (firstn_skipn 8 buf) at 2. rewrite skipn_app. rewrite firstn_length_le by lia.
        rewrite (skipn_all2 (firstn 8 buf)) by (rewrite firstn_length; lia). cbn [app]. f_equal. lia.
  - exists len. repeat split; try lia. cbn zeta. rewrite Z.sub_diag. reflexivity.
Qed.

Lemma loop1_ok : forall fuel len crc buf, is_word32 crc -> Forall is_byte buf -> 0 < len < Z.of_nat fuel ->
  len <= Z.of_nat (length buf) ->
  loop1 fuel len crc buf = Some (fold_left crc_byte (firstn (Z.to_nat len) buf) crc, skipn (Z.to_nat len) buf).
Proof.
  induction fuel; intros len crc buf Hc Hb Hf HL; [lia|].
  cbn [loop1]. rewrite DOn_ok by (try assumption; lia). cbn [bindo].
  destruct buf as [|b buf]; [cbn in HL; lia|]. inversion Hb; subst.
  change (firstn 1 (b :: buf)) with [b]. change (skipn 1 (b :: buf)) with buf. cbn [fold_left].
  destruct (Z.eqb_spec (len - 1) 0).
  - replace (Z.to_nat len) with 1%nat by lia. reflexivity.
  - rewrite IHfuel by (auto using crc_byte_word; cbn in HL; lia).
    replace (Z.to_nat len) with (S (Z.to_nat (len - 1))) by lia. reflexivity.
Qed.

Lemma ff_word : is_word32 0xffffffff. Proof. unfold is_word32, two32; lia. Qed.

Lemma crc32_ok : forall start buf tail, is_word32 start -> Forall is_byte (buf ++ tail) ->
  crc32 start (Some (buf ++ tail)) (Z.of_nat (length buf)) = Some (crc32_spec start buf).
Proof.
  intros start buf tail Hs HB. unfold crc32, crc32_spec.
  assert (is_word32 (Z.lxor start 0xffffffff)) as Hc by (apply lxor_word; [assumption|apply ff_word]).
  set (c0 := Z.lxor start 0xffffffff) in *. set (len := Z.of_nat (length buf)).
  destruct (loop8_ok (S (Z.to_nat len)) len c0 (buf ++ tail)) as (rest & R1 & R2 & E); try assumption; try (unfold len; lia).
  { rewrite app_length; unfold len; lia. }
  cbn zeta in E. rewrite E. cbn [bindo]. clear E. set (m := Z.to_nat (len - rest)).
  assert (Forall is_byte (firstn m (buf ++ tail)) /\ Forall is_byte (skipn m (buf ++ tail))) as [F1 F2].
  { rewrite <- (firstn_skipn m (buf ++ tail)) in HB. apply Forall_app in HB. tauto. }
  destruct (Z.eqb_spec rest 0).
  - cbn [bindo]. do 3 f_equal. subst rest. unfold m, len. rewrite Z.sub_0_r, Nat2Z.id.
    rewrite firstn_app, Nat.sub_diag, firstn_all. cbn. now rewrite app_nil_r.
  - rewrite loop1_ok; [|apply fold_word; assumption|assumption|lia|].
    2:{ rewrite skipn_length, app_length. unfold m, len in *. lia. }
    cbn [bindo]. do 2 f_equal. rewrite <- fold_left_app. f_equal.
    assert (length buf = (m + Z.to_nat rest)%nat) as L by (unfold m, len in *; lia).
    rewrite firstn_app. replace (m - length buf)%nat with 0%nat by lia. cbn [firstn]. rewrite app_nil_r.
    rewrite skipn_app. replace (m - length buf)%nat with 0%nat by lia. cbn [skipn].
    rewrite firstn_app. rewrite skipn_length. replace (Z.to_nat rest - (length buf - m))%nat with 0%nat by lia.
    cbn [firstn]. rewrite app_nil_r. rewrite (firstn_all2 (skipn m buf)) by (rewrite skipn_length; lia).
    apply firstn_skipn.
Qed.

Lemma crc32_split_spec : forall start a b, is_word32 start -> Forall is_byte a ->
  crc32_spec (crc32_spec start a) b = crc32_spec start (a ++ b).
Proof.
  intros start a b H Ha. unfold crc32_spec. rewrite Z.lxor_assoc, Z.lxor_nilpotent, Z.lxor_0_r.
  now rewrite fold_left_app.
Qed.

Lemma crc32_spec_word : forall start a, is_word32 start -> Forall is_byte a -> is_word32 (crc32_spec start a).
Proof. intros. unfold crc32_spec. apply lxor_word; [|apply ff_word]. apply fold_word; auto. apply lxor_word; [assumption|apply ff_word]. Qed.

Lemma crc32_pieces : forall start a b, is_word32 start -> Forall is_byte a -> Forall is_byte b ->
  (do c <- crc32 start (Some a) (Z.of_nat (length a)); crc32 c (Some b) (Z.of_nat (length b)))
  = crc32 start (Some (a ++ b)) (Z.of_nat (length (a ++ b))).
Proof.
  intros start a b H Ha Hb.
  pose proof (crc32_ok start a [] H) as E1. rewrite app_nil_r in E1. rewrite E1 by assumption. cbn [bindo].
  pose proof (crc32_ok (crc32_spec start a) b []) as E2. rewrite app_nil_r in E2.
  rewrite E2 by (try assumption; now apply crc32_spec_word).
  pose proof (crc32_ok start (a ++ b) [] H) as E3. rewrite app_nil_r in E3. rewrite E3 by (apply Forall_app; auto).
  f_equal. now apply crc32_split_spec.
Qed.

(* --------------------------- cksum --------------------------- *)
Definition Q : Z := 0x04C11DB7.
Definition ct (x : Z) : Z := Z.lxor (Z.shiftl x 1) (if Z.testbit x 31 then 0x104C11DB7 else 0).

Lemma bit31 : forall x, is_word32 x -> Z.testbit x 31 = (two31 <=? x).
Proof.
  intros x H. unfold is_word32, two32 in H. rewrite Z.testbit_eqb by lia. change (2 ^ 31) with two31.
  unfold two31. destruct (Z.leb_spec 2147483648 x).
  - replace (x / 2147483648) with 1 by (apply Z.div_unique with (x - 2147483648); lia). reflexivity.
  - rewrite Z.div_small by lia. reflexivity.
Qed.

Lemma ct_lin : forall a b, ct (Z.lxor a b) = Z.lxor (ct a) (ct b).
Proof.
  intros. unfold ct. rewrite Z.shiftl_lxor, Z.lxor_spec, xor4. f_equal.
  destruct (Z.testbit a 31), (Z.testbit b 31); reflexivity.
Qed.

Lemma cks_bit_ct : forall x, is_word32 x -> cks_bit x = ct x.
Proof.
  intros x H. unfold cks_bit, ct. rewrite bit31 by assumption.
  rewrite Z.shiftl_mul_pow2 by lia. change (2 ^ 1) with 2. rewrite (Z.mul_comm x 2).
  destruct (Z.leb_spec two31 x); [|now rewrite Z.lxor_0_r].
  change 0x104C11DB7 with (Z.lxor two32 0x04C11DB7). rewrite <- Z.lxor_assoc. f_equal.
  unfold is_word32 in H.
  (* 2x has bit 32 set and nothing above *)
  assert (2 * x = Z.lxor (2 * x - two32) two32) as E.
  { rewrite <- Z.add_nocarry_lxor; [lia|].
    apply Z.bits_inj'. intros n Hn. rewrite Z.land_spec, Z.bits_0.
    change two32 with (2 ^ 32) at 2. rewrite Z.pow2_bits_eqb by lia.
    destruct (Z.eqb_spec 32 n); [|apply andb_false_r]. subst n. rewrite andb_true_r.
    rewrite <- (Z.mod_small (2 * x - two32) (2 ^ 32)) by (change (2 ^ 32) with two32; unfold two31, two32 in *; lia).
    apply Z.mod_pow2_bits_high. lia. }
  rewrite E at 2. rewrite Z.lxor_assoc, Z.lxor_nilpotent, Z.lxor_0_r. reflexivity.
Qed.

Lemma ct_word : forall x, is_word32 x -> is_word32 (ct x).
Proof.
  intros x H. rewrite <- cks_bit_ct by assumption. unfold cks_bit. unfold is_word32 in H.
  destruct (Z.leb_spec two31 x); [|unfold is_word32, two31, two32 in *; lia].
  apply lxor_word; unfold is_word32, two31, two32 in *; lia.
Qed.

Lemma rep_cks : forall n x, is_word32 x -> repeat_f n cks_bit x = repeat_f n ct x.
Proof. induction n; intros x H; cbn; [reflexivity|]. rewrite cks_bit_ct by assumption. apply IHn. now apply ct_word. Qed.

Lemma rep_ct_small : forall n x, (n <= 8)%nat -> 0 <= x < 2 ^ (32 - Z.of_nat n) -> repeat_f n ct x = Z.shiftl x (Z.of_nat n).
Proof.
  induction n; intros x L H; [symmetry; apply Z.shiftl_0_r|].
  cbn [repeat_f].
  assert (2 ^ (32 - Z.of_nat n) = 2 * 2 ^ (32 - Z.of_nat (S n))) as Hp.
  { rewrite <- Z.pow_succ_r by lia. f_equal. lia. }
  assert (2 ^ (32 - Z.of_nat (S n)) <= 2 ^ 31) as Hq by (apply Z.pow_le_mono_r; lia).
  change (2 ^ 31) with 2147483648 in Hq.
  assert (ct x = 2 * x) as E.
  { unfold ct. rewrite bit31 by (unfold is_word32, two32; lia).
    destruct (Z.leb_spec two31 x); [unfold two31 in *; lia|]. rewrite Z.lxor_0_r, Z.shiftl_mul_pow2 by lia. lia. }
  rewrite E, IHn by lia. rewrite !Z.shiftl_mul_pow2 by lia.
  rewrite Nat2Z.inj_succ, Z.pow_succ_r by lia. lia.
Qed.

Lemma tab_ok : forall k, (k < 256)%nat -> nth_error crctab k = Some (repeat_f 8 ct (Z.shiftl (Z.of_nat k) 24)).
Proof.
  intros k Hk.
  assert (match nth_error crctab k with Some v => v =? repeat_f 8 ct (Z.shiftl (Z.of_nat k) 24) | None => false end = true) as H.
  { revert k Hk. apply forallb_range. vm_compute. reflexivity. }
  destruct (nth_error crctab k); [|discriminate]. apply Z.eqb_eq in H. now rewrite H.
Qed.

Lemma shiftr24_byte : forall c, is_word32 c -> 0 <= Z.shiftr c 24 < 256.
Proof.
  unfold is_word32, two32. intros c H. rewrite Z.shiftr_div_pow2 by lia. change (2 ^ 24) with 16777216.
  split; [apply Z.div_pos; lia|apply Z.div_lt_upper_bound; lia].
Qed.

Lemma land_byte : forall b, 0 <= b < 256 -> Z.land b 255 = b.
Proof. intros. change 255 with (Z.ones 8). rewrite Z.land_ones by lia. now apply Z.mod_small. Qed.

Lemma lxor_byte : forall a b, 0 <= a < 256 -> 0 <= b < 256 -> 0 <= Z.lxor a b < 256.
Proof.
  intros. rewrite <- (land_byte a), <- (land_byte b), <- land_lxor_r by assumption. apply land255_range.
Qed.

Lemma split_top : forall c b, is_word32 c -> is_byte b ->
  Z.lxor c (b * 16777216) = Z.lxor (Z.shiftl (Z.lxor (Z.shiftr c 24) b) 24) (c mod 16777216).
Proof.
  intros c b Hc Hb. apply Z.bits_inj'. intros n Hn.
  change 16777216 with (2 ^ 24). rewrite !Z.lxor_spec, Z.shiftl_spec, Z.lxor_spec, Z.mul_pow2_bits by lia.
  destruct (Z.ltb_spec n 24).
  - rewrite Z.mod_pow2_bits_low, !(Z.testbit_neg_r _ (n - 24)) by lia. 
    rewrite xorb_false_r, xorb_false_l. reflexivity.
  - rewrite Z.mod_pow2_bits_high, Z.shiftr_spec by lia. rewrite xorb_false_r. do 2 f_equal. lia.
Qed.

Lemma cksum_step_ok : forall c b, is_word32 c -> is_byte b -> cksum_step c b = Some (cks_byte c b).
Proof.
  intros c b Hc Hb. unfold cksum_step.
  pose proof (shiftr24_byte c Hc) as R.
  rewrite (land_byte (Z.lxor _ _)) by (apply lxor_byte; auto).
  pose proof (lxor_byte _ _ R Hb) as R2.
  rewrite tab_ok by lia. cbn [bindo]. rewrite Z2Nat.id by lia. f_equal.
  unfold cks_byte. rewrite rep_cks.
  2:{ apply lxor_word; [assumption|]. unfold is_byte in Hb. unfold is_word32, two32. lia. }
  rewrite split_top by assumption. rewrite (rep_lin 8 ct ct_lin). rewrite Z.lxor_comm. f_equal.
  rewrite rep_ct_small by (try lia; apply Z.mod_pos_bound; reflexivity).
  change (Z.of_nat 8) with 8. rewrite !Z.shiftl_mul_pow2 by lia. unfold u32, two32.
  change 4294967296 with (16777216 * 2 ^ 8). rewrite Z.mul_mod_distr_r by lia. reflexivity.
Qed.

Lemma cks_byte_word : forall c b, is_word32 c -> is_byte b -> is_word32 (cks_byte c b).
Proof.
  intros c b Hc Hb. assert (is_word32 (Z.lxor c (b * 16777216))) as H
    by (apply lxor_word; [assumption|]; unfold is_byte in Hb; unfold is_word32, two32; lia).
  unfold cks_byte. rewrite rep_cks by assumption. apply rep_word; [apply ct_word|assumption].
Qed.

Lemma cks_fold_word : forall l c, is_word32 c -> Forall is_byte l -> is_word32 (fold_left cks_byte l c).
Proof. induction l; intros; cbn [fold_left]; auto. inversion H0; subst. apply IHl; auto using cks_byte_word. Qed.

Lemma cksum_loop_ok : forall l c, is_word32 c -> Forall is_byte l -> cksum_loop c l = Some (fold_left cks_byte l c).
Proof.
  induction l; intros c Hc Hl; cbn [cksum_loop fold_left]; [reflexivity|]. inversion Hl; subst.
  rewrite cksum_step_ok by assumption. cbn [bindo]. apply IHl; auto using cks_byte_word.
Qed.

(* the state after any history of CKSUM_ADD calls *)
Definition st_of (hist : list Z) : cksum_state :=
  {| the_crc := fold_left cks_byte hist 0 ; the_bytes := Z.of_nat (length hist) mod two32 |}.

Lemma zero_word : is_word32 0. Proof. unfold is_word32, two32; lia. Qed.

Lemma add_ok : forall hist block, Forall is_byte hist -> Forall is_byte block ->
  CKSUM_ADD (st_of hist) block = Some (st_of (hist ++ block)).
Proof.
  intros hist block Hh Hb. unfold CKSUM_ADD, st_of. cbn [the_crc the_bytes].
  rewrite cksum_loop_ok by (first [assumption | apply cks_fold_word; [apply zero_word|assumption]]). cbn [bindo].
  rewrite fold_left_app, app_length, Nat2Z.inj_add. unfold u32.
  rewrite Z.add_mod_idemp_l by (unfold two32; lia). reflexivity.
Qed.

Lemma add_all_ok : forall blocks hist, Forall is_byte hist -> Forall (Forall is_byte) blocks ->
  cksum_add_all (st_of hist) blocks = Some (st_of (hist ++ concat blocks)).
Proof.
  induction blocks as [|b r IH]; intros hist Hh Hb; cbn [cksum_add_all concat].
  - now rewrite app_nil_r.
  - inversion Hb; subst. rewrite add_ok by assumption. cbn [bindo]. rewrite IH by (try apply Forall_app; auto).
    now rewrite app_assoc.
Qed.

Lemma cksum_step_mod : forall c i, cksum_step c i = cksum_step c (i mod 256).
Proof.
  intros c i. unfold cksum_step. 
  assert (Z.land (Z.lxor (Z.shiftr c 24) i) 255 = Z.land (Z.lxor (Z.shiftr c 24) (i mod 256)) 255) as ->; [|reflexivity].
  rewrite !land_lxor_r. f_equal. change 255 with (Z.ones 8). rewrite !Z.land_ones by lia.
  change (2 ^ 8) with 256. now rewrite Z.mod_mod.
Qed.

Lemma cksum_len_ok : forall f c i, is_word32 c -> 0 <= i -> i < 256 ^ Z.of_nat f ->
  cksum_len (S f) c i = Some (fold_left cks_byte (length_bytes (S f) i) c).
Proof.
  induction f; intros c i Hc H0 Hi.
  - cbn in Hi. assert (i = 0) by lia. subst i. reflexivity.
  - cbn [cksum_len length_bytes] in *. destruct (Z.ltb_spec 0 i), (Z.eqb_spec i 0); try lia; [|reflexivity].
    assert (is_byte (i mod 256)) as HB by (apply Z.mod_pos_bound; lia).
    rewrite cksum_step_mod, cksum_step_ok by assumption. cbn [bindo fold_left].
    rewrite Nat2Z.inj_succ, Z.pow_succ_r in Hi by lia.
    assert (Z.shiftr i 8 = i / 256) as -> by (rewrite Z.shiftr_div_pow2 by lia; reflexivity).
    apply IHf; auto using cks_byte_word.
    + apply Z.div_pos; lia.
    + apply Z.div_lt_upper_bound; lia.
Qed.

Lemma length_bytes_enough : forall f g i, 0 <= i < 256 ^ Z.of_nat f -> (f <= g)%nat -> length_bytes g i = length_bytes f i.
Proof.
  induction f; intros g i Hi L.
  - cbn in Hi. assert (i = 0) by lia. subst. destruct g; reflexivity.
  - destruct g; [lia|]. cbn [length_bytes]. destruct (Z.eqb_spec i 0); [reflexivity|]. f_equal. apply IHf; [|lia].
    rewrite Nat2Z.inj_succ, Z.pow_succ_r in Hi by lia. split; [apply Z.div_pos; lia|apply Z.div_lt_upper_bound; lia].
Qed.

Lemma get_ok : forall hist, Forall is_byte hist -> Z.of_nat (length hist) < two32 ->
  CKSUM_GET (st_of hist) = Some (posix_cksum hist, Z.of_nat (length hist)).
Proof.
  intros hist Hh HL. unfold CKSUM_GET, st_of. cbn [the_crc the_bytes].
  rewrite (Z.mod_small (Z.of_nat (length hist))) by lia.
  assert (is_word32 (fold_left cks_byte hist 0)) as Hw by (apply cks_fold_word; [apply zero_word|assumption]).
  rewrite (cksum_len_ok 4); [|assumption|lia|exact HL]. cbn [bindo]. f_equal. f_equal.
  unfold posix_cksum. rewrite fold_left_app.
  rewrite (length_bytes_enough 4 8), (length_bytes_enough 4 5) by first [lia | split; [lia|exact HL]].
  assert (is_word32 (fold_left cks_byte (length_bytes 4 (Z.of_nat (length hist))) (fold_left cks_byte hist 0))) as Hr.
  { apply cks_fold_word; [assumption|].
    clear. generalize (Z.of_nat (length hist)). generalize 4%nat. induction n; intros z; cbn [length_bytes]; [constructor|].
    destruct (z =? 0); constructor; auto. apply Z.mod_pos_bound. lia. }
  set (r := fold_left _ _ (fold_left _ _ _)) in *. unfold is_word32 in Hr.
  change 0xFFFFFFFF with (Z.ones 32). rewrite Z.land_ones by lia. change (2 ^ 32) with two32.
  unfold u32. rewrite Z.mod_mod by (unfold two32; lia).
  rewrite <- (Z_mod_plus_full _ 1). rewrite Z.mod_small; unfold Z.lnot; lia.
Qed.

Lemma cksum_init_st : cksum_init = st_of [].
Proof. reflexivity. Qed.

Lemma cksum_stream : forall blocks, Forall (Forall is_byte) blocks -> Z.of_nat (length (concat blocks)) < two32 ->
  (do s <- cksum_add_all cksum_init blocks; CKSUM_GET s)
  = Some (posix_cksum (concat blocks), Z.of_nat (length (concat blocks))).
Proof.
  intros blocks Hb HL. rewrite cksum_init_st, add_all_ok by auto. cbn [bindo app].
  apply get_ok; [|assumption]. clear HL. induction Hb; cbn; [constructor|]. now apply Forall_app.
Qed.
