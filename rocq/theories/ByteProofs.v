(* Proofs for ByteModel.v *)
From Coq Require Import Permutation.
From Verif Require Import CInt ByteModel ByteSpec Lib.

Lemma le_val_bytes : forall k x, 0 <= x < 256 ^ Z.of_nat k -> le_val (le_bytes k x) = x.
Proof.
  induction k; intros x H; [cbn in *; lia|].
  rewrite Nat2Z.inj_succ, Z.pow_succ_r in H by lia.
  cbn [le_bytes le_val]. rewrite IHk.
  - pose proof (Z.div_mod x 256). lia.
  - split; [apply Z.div_pos; lia|]. apply Z.div_lt_upper_bound; lia.
Qed.

Lemma le_bytes_val : forall l, Forall (fun b => 0 <= b < 256) l -> le_bytes (length l) (le_val l) = l.
Proof.
  induction l as [|b l IH]; intros H; [reflexivity|].
  inversion H; subst. cbn [length le_bytes le_val]. f_equal.
  - rewrite (Z.mul_comm 256), Z_mod_plus_full. now rewrite Z.mod_small.
  - rewrite (Z.mul_comm 256), Z.div_add by lia. rewrite Z.div_small, Z.add_0_l by lia. auto.
Qed.

Lemma le_val_range : forall l, Forall (fun b => 0 <= b < 256) l -> 0 <= le_val l < 256 ^ Z.of_nat (length l).
Proof.
  induction l as [|b l IH]; intros H; [cbn; lia|].
  inversion H; subst. specialize (IH H3). cbn [length le_val].
  rewrite Nat2Z.inj_succ, Z.pow_succ_r by lia. lia.
Qed.

Lemma le_bytes_length : forall k x, length (le_bytes k x) = k.
Proof. induction k; intros; cbn; auto. Qed.

Lemma le_bytes_byte : forall k x, Forall (fun b => 0 <= b < 256) (le_bytes k x).
Proof. induction k; intros; cbn; constructor; auto. apply Z.mod_pos_bound; lia. Qed.

Lemma land_mask : forall v k, 0 <= k -> Z.land v (255 * 2 ^ k) = ((v / 2 ^ k) mod 256) * 2 ^ k.
Proof.
  intros v k Hk. apply Z.bits_inj'. intros n Hn.
  rewrite Z.land_spec. rewrite !Z.mul_pow2_bits by lia.
  destruct (Z.ltb_spec (n - k) 0).
  - rewrite !(Z.testbit_neg_r _ (n - k)) by lia. now rewrite andb_false_r.
  - change 256 with (2 ^ 8). change 255 with (Z.ones 8).
    destruct (Z.ltb_spec (n - k) 8).
    + rewrite Z.ones_spec_low by lia. rewrite Z.mod_pow2_bits_low by lia.
      rewrite Z.div_pow2_bits by lia. rewrite andb_true_r. f_equal. lia.
    + rewrite Z.ones_spec_high by lia. rewrite Z.mod_pow2_bits_high by lia. apply andb_false_r.
Qed.

Lemma lor_add : forall a b k, 0 <= k -> 0 <= b < 2 ^ k -> Z.lor (a * 2 ^ k) b = a * 2 ^ k + b.
Proof.
  intros a b k Hk Hb.
  assert (Z.land (a * 2 ^ k) b = 0) as H0.
  { apply Z.bits_inj'. intros n Hn. rewrite Z.land_spec, Z.bits_0.
    destruct (Z.ltb_spec n k).
    - rewrite Z.mul_pow2_bits_low by lia. reflexivity.
    - rewrite <- (Z.mod_small b (2 ^ k)) by lia. rewrite Z.mod_pow2_bits_high by lia. apply andb_false_r. }
  rewrite <- Z.lxor_lor by exact H0. symmetry. now apply Z.add_nocarry_lxor.
Qed.

Lemma byte_div : forall x k, 0 <= (x / k) mod 256 < 256.
Proof. intros. apply Z.mod_pos_bound. lia. Qed.

(* the four bytes of a 32 bit word *)
Lemma swap32_eq : forall v, 0 <= v < two32 ->
  SwapByteOrder_32 v = ((v / 1) mod 256) * 16777216 + ((v / 256) mod 256) * 65536
                       + ((v / 65536) mod 256) * 256 + (v / 16777216) mod 256.
Proof.
  intros v Hv. unfold SwapByteOrder_32.
  pose proof (land_mask v 0 ltac:(lia)) as E0. pose proof (land_mask v 8 ltac:(lia)) as E1.
  pose proof (land_mask v 16 ltac:(lia)) as E2. pose proof (land_mask v 24 ltac:(lia)) as E3.
  change (255 * 2 ^ 0) with 0xFF in E0. change (255 * 2 ^ 8) with 0xFF00 in E1.
  change (255 * 2 ^ 16) with 0xFF0000 in E2. change (255 * 2 ^ 24) with 0xFF000000 in E3.
  rewrite E0, E1, E2, E3. clear E0 E1 E2 E3.
  change (2 ^ 0) with 1. change (2 ^ 8) with 256. change (2 ^ 16) with 65536. change (2 ^ 24) with 16777216.
  pose proof (byte_div v 1). pose proof (byte_div v 256). pose proof (byte_div v 65536). pose proof (byte_div v 16777216).
  set (b0 := (v / 1) mod 256) in *. set (b1 := (v / 256) mod 256) in *.
  set (b2 := (v / 65536) mod 256) in *. set (b3 := (v / 16777216) mod 256) in *.
  rewrite !Z.shiftl_mul_pow2, !Z.shiftr_div_pow2 by lia.
  change (2 ^ 24) with 16777216. change (2 ^ 8) with 256.
  unfold u32, two32. rewrite !Z.mod_small by lia.
  replace (b2 * 65536 / 256) with (b2 * 256) by (apply Z.div_unique with 0; lia).
  replace (b3 * 16777216 / 16777216) with b3 by (apply Z.div_unique with 0; lia).
  replace (b0 * 1 * 16777216) with (b0 * 2 ^ 24) by (change (2 ^ 24) with 16777216; lia).
  rewrite (lor_add b0 (b1 * 256 * 256) 24) by (change (2 ^ 24) with 16777216; lia).
  replace (b0 * 2 ^ 24 + b1 * 256 * 256) with ((b0 * 256 + b1) * 2 ^ 16)
    by (change (2 ^ 24) with 16777216; change (2 ^ 16) with 65536; lia).
  rewrite (lor_add _ (b2 * 256) 16) by (change (2 ^ 16) with 65536; lia).
  replace ((b0 * 256 + b1) * 2 ^ 16 + b2 * 256) with ((b0 * 65536 + b1 * 256 + b2) * 2 ^ 8)
    by (change (2 ^ 16) with 65536; change (2 ^ 8) with 256; lia).
  rewrite (lor_add _ b3 8) by (change (2 ^ 8) with 256; lia).
  change (2 ^ 8) with 256. lia.
Qed.

Lemma le_bytes4 : forall v, le_bytes 4 v =
  [(v / 1) mod 256; (v / 256) mod 256; (v / 65536) mod 256; (v / 16777216) mod 256].
Proof.
  intros. cbn [le_bytes]. rewrite Z.div_1_r, !Z.div_div by lia. reflexivity.
Qed.

Lemma swap32_rev : forall v, 0 <= v < two32 ->
  0 <= SwapByteOrder_32 v < two32 /\ le_bytes 4 (SwapByteOrder_32 v) = rev (le_bytes 4 v).
Proof.
  intros v Hv.
  assert (SwapByteOrder_32 v = le_val (rev (le_bytes 4 v))) as E.
  { rewrite swap32_eq, le_bytes4 by assumption. cbn [rev app le_val]. lia. }
  assert (Forall (fun b => 0 <= b < 256) (rev (le_bytes 4 v))) as F.
  { apply Forall_rev, le_bytes_byte. }
  assert (length (rev (le_bytes 4 v)) = 4%nat) as L by (rewrite rev_length; apply le_bytes_length).
  rewrite E. split.
  - pose proof (le_val_range _ F) as R. rewrite L in R. exact R.
  - rewrite <- L at 1. now apply le_bytes_val.
Qed.

Lemma le_bytes_inj : forall k x y, 0 <= x < 256 ^ Z.of_nat k -> 0 <= y < 256 ^ Z.of_nat k ->
  le_bytes k x = le_bytes k y -> x = y.
Proof. intros k x y Hx Hy E. rewrite <- (le_val_bytes k x), <- (le_val_bytes k y), E by assumption. reflexivity. Qed.

Lemma swap32_invol : forall v, 0 <= v < two32 -> SwapByteOrder_32 (SwapByteOrder_32 v) = v.
Proof.
  intros v Hv. destruct (swap32_rev v Hv) as [R E]. destruct (swap32_rev _ R) as [R2 E2].
  apply (le_bytes_inj 4); try assumption. rewrite E2, E, rev_involutive. reflexivity.
Qed.

Lemma swap16_rev : forall v, 0 <= v < 65536 ->
  0 <= SwapByteOrder_16 v < 65536 /\ le_bytes 2 (SwapByteOrder_16 v) = rev (le_bytes 2 v).
Proof.
  intros v Hv.
  assert (SwapByteOrder_16 v = le_val (rev (le_bytes 2 v))) as E.
  { unfold SwapByteOrder_16. rewrite Z.shiftl_mul_pow2, Z.shiftr_div_pow2 by lia.
    change (2 ^ 8) with 256. change 65536 with (256 * 256). rewrite Z.mul_mod_distr_r by lia.
    pose proof (Z.mod_pos_bound v 256 ltac:(lia)).
    assert (0 <= v / 256 < 256) by (split; [apply Z.div_pos; lia|apply Z.div_lt_upper_bound; lia]).
    change 256 with (2 ^ 8) at 2. rewrite lor_add by (change (2 ^ 8) with 256; lia).
    cbn [le_bytes rev app le_val]. rewrite (Z.mod_small (v / 256)) by lia. change (2 ^ 8) with 256. lia. }
  assert (Forall (fun b => 0 <= b < 256) (rev (le_bytes 2 v))) as F by apply Forall_rev, le_bytes_byte.
  assert (length (rev (le_bytes 2 v)) = 2%nat) as L by (rewrite rev_length; apply le_bytes_length).
  rewrite E. split.
  - pose proof (le_val_range _ F) as R. rewrite L in R. exact R.
  - rewrite <- L at 1. now apply le_bytes_val.
Qed.

Lemma le_bytes_app : forall j k x, le_bytes (j + k) x = le_bytes j x ++ le_bytes k (x / 256 ^ Z.of_nat j).
Proof.
  induction j; intros k x.
  - cbn [Nat.add le_bytes app]. change (256 ^ Z.of_nat 0) with 1. now rewrite Z.div_1_r.
  - cbn [Nat.add le_bytes app]. f_equal. rewrite IHj, Z.div_div by (try apply Z.pow_pos_nonneg; lia).
    rewrite Nat2Z.inj_succ, Z.pow_succ_r by lia. reflexivity.
Qed.

Lemma le_bytes_mod : forall k x, le_bytes k (x mod 256 ^ Z.of_nat k) = le_bytes k x.
Proof.
  induction k; intros x; [reflexivity|].
  rewrite Nat2Z.inj_succ, Z.pow_succ_r by lia. cbn [le_bytes].
  pose proof (Z.pow_pos_nonneg 256 (Z.of_nat k)).
  rewrite Z.rem_mul_r by lia. f_equal.
  - rewrite Z.mul_comm, Z_mod_plus_full. apply Z.mod_mod. lia.
  - rewrite (Z.mul_comm 256), Z.div_add by lia. rewrite (Z.div_small (x mod 256)) by (apply Z.mod_pos_bound; lia).
    rewrite Z.add_0_l. apply IHk.
Qed.

Lemma swap64_rev : forall v, 0 <= v < two64 ->
  0 <= SwapByteOrder_64 v < two64 /\ le_bytes 8 (SwapByteOrder_64 v) = rev (le_bytes 8 v).
Proof.
  intros v Hv. unfold SwapByteOrder_64.
  rewrite Z.shiftl_mul_pow2, Z.shiftr_div_pow2 by lia.
  change (2 ^ 32) with two32.
  assert (0 <= v / two32 < two32) as Hh by (unfold two32, two64 in *; split; [apply Z.div_pos; lia|apply Z.div_lt_upper_bound; lia]).
  assert (0 <= u32 v < two32) as Hl by (apply Z.mod_pos_bound; unfold two32; lia).
  assert (u32 (v / two32) = v / two32) as Eu by (unfold u32; now apply Z.mod_small). rewrite Eu.
  destruct (swap32_rev _ Hl) as [R0 E0]. destruct (swap32_rev _ Hh) as [R1 E1].
  set (h := SwapByteOrder_32 (u32 v)) in *. set (l := SwapByteOrder_32 (v / two32)) in *.
  unfold u64. rewrite Z.mod_small by (unfold two32, two64 in *; lia).
  assert (Z.lor (h * two32) l = h * two32 + l) as El.
  { change two32 with (2 ^ 32). apply lor_add; [lia|exact R1]. }
  rewrite El. split; [unfold two32, two64 in *; lia|].
  change 8%nat with (4 + 4)%nat. rewrite !le_bytes_app. change (256 ^ Z.of_nat 4) with two32.
  rewrite rev_app_distr. f_equal.
  - rewrite <- E1. rewrite <- le_bytes_mod. change (256 ^ Z.of_nat 4) with two32.
    rewrite Z.add_comm, Z_mod_plus_full, Z.mod_small by assumption. reflexivity.
  - rewrite Z.add_comm, Z.div_add by (unfold two32; lia). rewrite Z.div_small, Z.add_0_l by assumption.
    rewrite E0. unfold u32. change two32 with (256 ^ Z.of_nat 4). now rewrite le_bytes_mod.
Qed.

Lemma swap16_invol : forall v, 0 <= v < 65536 -> SwapByteOrder_16 (SwapByteOrder_16 v) = v.
Proof.
  intros v Hv. destruct (swap16_rev v Hv) as [R E]. destruct (swap16_rev _ R) as [R2 E2].
  apply (le_bytes_inj 2); try assumption. rewrite E2, E, rev_involutive. reflexivity.
Qed.
Lemma swap64_invol : forall v, 0 <= v < two64 -> SwapByteOrder_64 (SwapByteOrder_64 v) = v.
Proof.
  intros v Hv. destruct (swap64_rev v Hv) as [R E]. destruct (swap64_rev _ R) as [R2 E2].
  apply (le_bytes_inj 8); try assumption. rewrite E2, E, rev_involutive. reflexivity.
Qed.

(* the array loop, in any order *)
Lemma bswap_iters_eq : forall f order T, NoDup order -> Forall (fun i => (i < length T)%nat) order ->
  exists T', bswap_iters f order T = Some T' /\ length T' = length T /\
    forall k, nth_error T' k = if in_dec Nat.eq_dec k order then option_map f (nth_error T k) else nth_error T k.
Proof.
  induction order as [|i r IH]; intros T ND F; cbn [bswap_iters].
  - exists T. repeat split; auto.
  - inversion ND; subst. inversion F; subst.
    destruct (nth_error T i) as [v|] eqn:Ev; [|apply nth_error_None in Ev; lia].
    cbn [bindo]. destruct (setn_spec T i (f v)) as (T1 & E1 & L1 & N1); [assumption|].
    rewrite E1. cbn [bindo].
    destruct (IH T1) as (T' & E' & L' & N'); [assumption| |].
    { eapply Forall_impl; [|eassumption]. intros a Ha. now rewrite L1. }
    exists T'. split; [exact E'|]. split; [congruence|].
    intros k. rewrite N', N1.
    destruct (Nat.eq_dec k i) as [->|NE].
    + destruct (in_dec Nat.eq_dec i r); [contradiction|].
      destruct (in_dec Nat.eq_dec i (i :: r)) as [|n0]; [|exfalso; apply n0; now left].
      rewrite Nat.eqb_refl, Ev. reflexivity.
    + destruct (Nat.eqb_spec k i); [contradiction|].
      destruct (in_dec Nat.eq_dec k r), (in_dec Nat.eq_dec k (i :: r)) as [Hin|Hin]; try reflexivity.
      * exfalso; apply Hin; now right.
      * destruct Hin; [congruence|contradiction].
Qed.

Lemma bswap_map : forall f n order T, Permutation order (seq 0 n) -> (n <= length T)%nat ->
  bswap_iters f order T = Some (map f (firstn n T) ++ skipn n T).
Proof.
  intros f n order T P L.
  assert (NoDup order) as ND by (eapply Permutation_NoDup; [apply Permutation_sym, P|apply seq_NoDup]).
  destruct (bswap_iters_eq f order T ND) as (T' & E & L' & N').
  { apply Forall_forall. intros i Hi. eapply Permutation_in in Hi; [|exact P]. apply in_seq in Hi. lia. }
  rewrite E. f_equal. apply list_ext. intros k. rewrite N'.
  assert (In k order <-> (k < n)%nat) as HI.
  { split; intros H; [eapply Permutation_in in H; [|exact P]; apply in_seq in H; lia|].
    eapply Permutation_in; [apply Permutation_sym, P|]. apply in_seq. lia. }
  assert (length (map f (firstn n T)) = n) as Lm by (rewrite map_length, firstn_length; lia).
  destruct (in_dec Nat.eq_dec k order) as [Hin|Hin].
  - apply HI in Hin. rewrite nth_error_app1 by lia. rewrite nth_error_map, nth_firstn.
    destruct (Nat.ltb_spec k n); [reflexivity|lia].
  - assert (n <= k)%nat by (destruct (Nat.lt_ge_cases k n); auto; exfalso; apply Hin, HI; assumption).
    rewrite nth_error_app2 by lia. rewrite Lm.
    rewrite <- (firstn_skipn n T) at 1. rewrite nth_error_app2; rewrite firstn_length_le by assumption; [reflexivity|lia].
Qed.

Lemma map_invol : forall (f : Z -> Z) B l, (forall x, 0 <= x < B -> f (f x) = x) ->
  Forall (fun x => 0 <= x < B) l -> map f (map f l) = l.
Proof. intros f B l H F. rewrite map_map. induction F; cbn; f_equal; auto. Qed.

Lemma bswap_twice : forall f B n o1 o2 T, (forall x, 0 <= x < B -> f (f x) = x) ->
  Permutation o1 (seq 0 n) -> Permutation o2 (seq 0 n) -> (n <= length T)%nat ->
  Forall (fun x => 0 <= x < B) T ->
  (do T1 <- bswap_iters f o1 T; bswap_iters f o2 T1) = Some T.
Proof.
  intros f B n o1 o2 T H P1 P2 L F.
  rewrite (bswap_map f n o1 T P1 L). cbn [bindo].
  assert (length (map f (firstn n T)) = n) as Lm by (rewrite map_length, firstn_length; lia).
  rewrite (bswap_map f n o2) by (try assumption; rewrite app_length; lia).
  f_equal. rewrite firstn_app, skipn_app, Lm, Nat.sub_diag. rewrite <- Lm at 1. rewrite firstn_all.
  cbn [firstn skipn]. rewrite app_nil_r. rewrite <- Lm at 2. rewrite skipn_all. cbn [app].
  rewrite (map_invol f B); auto.
  - apply firstn_skipn.
  - apply Forall_forall. intros x Hx. rewrite Forall_forall in F. apply F.
    rewrite <- (firstn_skipn n T). apply in_or_app. now left.
Qed.
