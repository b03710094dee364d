(* Proofs for IOModel.v *)
From Coq Require Import Permutation.
From Verif Require Import CInt Lib ByteModel ByteSpec ByteProofs CrcModel CrcSpec CrcProofs OmpModel OmpProofs IOModel IOSpec.

(* ---------- rotation ---------- *)
Lemma rot_ok : forall c x r, sane_shift c -> is_word32 x -> 0 <= r < 32 -> rot c x r = Some (rotl x r).
Proof.
  intros c x r (f & Hf & Hs) Hx Hr. unfold rot, shr32, rotl.
  rewrite Z.shiftl_mul_pow2 by lia.
  destruct (Z.ltb_spec (32 - r) 32).
  - cbn [bindo]. f_equal. rewrite Z.shiftr_div_pow2 by lia. unfold u32.
    change two32 with (2 ^ 32). assert (2 ^ 32 = 2 ^ (32 - r) * 2 ^ r) as E.
    { rewrite <- Z.pow_add_r by lia. f_equal. lia. }
    pose proof (Z.pow_pos_nonneg 2 r ltac:(lia) ltac:(lia)).
    pose proof (Z.pow_pos_nonneg 2 (32 - r) ltac:(lia) ltac:(lia)).
    rewrite E, Z.mul_mod_distr_r by lia. apply lor_add; [lia|].
    unfold is_word32 in Hx. change two32 with (2 ^ 32) in Hx. rewrite E in Hx. split; [apply Z.div_pos; lia|].
    apply Z.div_lt_upper_bound; lia.
  - assert (r = 0) by lia. subst r. rewrite Hf. cbn [bindo]. f_equal.
    change (2 ^ 0) with 1. rewrite Z.mul_1_r. change (2 ^ (32 - 0)) with two32.
    unfold is_word32 in Hx. rewrite (Z.div_small x) by assumption. unfold u32. rewrite (Z.mod_small x) by assumption.
    rewrite Z.add_0_r. destruct (Hs x Hx) as [->| ->].
    + rewrite Z.mod_small by assumption. apply Z.lor_diag.
    + cbn. apply Z.lor_0_r.
Qed.

Lemma rot_None : forall c x, sh32 c = None -> rot c x 0 = None.
Proof. intros c x H. unfold rot, shr32. cbn. now rewrite H. Qed.

Lemma next_rank_mod : forall m g, 1 < m -> 0 <= g -> next_rank (m - 1) (g mod m) = (g + 1) mod m.
Proof.
  intros m g Hm Hg. unfold next_rank. pose proof (Z.mod_pos_bound g m ltac:(lia)).
  rewrite <- Z.add_mod_idemp_l by lia.
  destruct (Z.ltb_spec (g mod m) (m - 1)).
  - symmetry. apply Z.mod_small. lia.
  - replace (g mod m + 1) with m by lia. symmetry. apply Z.mod_same. lia.
Qed.

Definition sum_list (l : list Z) : Z := fold_right Z.add 0 l.
Fixpoint milc_words (m g : Z) (ws : list Z) : Z :=
  match ws with [] => 0 | w :: r => Z.lxor (rotl w (g mod m)) (milc_words m (g + 1) r) end.

Lemma word_loop_ok : forall c ws k s29 s31 g, sane_shift c -> Forall is_word32 ws -> 0 <= g ->
  word_loop c ws (u32 k) s29 s31 (g mod 29) (g mod 31)
  = Some (u32 (k + sum_list ws), Z.lxor s29 (milc_words 29 g ws), Z.lxor s31 (milc_words 31 g ws)).
Proof.
  induction ws as [|w ws IH]; intros k s29 s31 g Hs Hw Hg.
  - cbn. now rewrite Z.add_0_r, !Z.lxor_0_r.
  - inversion Hw; subst. cbn [word_loop].
    rewrite !rot_ok by (auto; pose proof (Z.mod_pos_bound g 29); pose proof (Z.mod_pos_bound g 31); lia).
    cbn [bindo].
    change 28 with (29 - 1). change 30 with (31 - 1). rewrite !next_rank_mod by lia.
    assert (u32 (u32 k + w) = u32 (k + w)) as -> by (unfold u32; apply Z.add_mod_idemp_l; unfold two32; lia).
    rewrite IH by (auto; lia). cbn [sum_list fold_right milc_words]. rewrite !Z.lxor_assoc, Z.add_assoc. reflexivity.
Qed.

Lemma word_loop_strict : forall c w ws k s29 s31 r31, sh32 c = None -> word_loop c (w :: ws) k s29 s31 0 r31 = None.
Proof. intros. cbn [word_loop]. now rewrite rot_None. Qed.

Lemma checksum_word_halves : forall w, checksum_word w = halves w.
Proof.
  intros w. unfold checksum_word, halves, u32. rewrite Z.shiftr_div_pow2 by lia. change (2 ^ 32) with two32.
  rewrite Z.add_mod_idemp_r by (unfold two32; lia). reflexivity.
Qed.
Lemma halves_word : forall w, is_word32 (halves w).
Proof. intros. apply Z.mod_pos_bound. reflexivity. Qed.

Lemma milc_words_sum : forall m ws g, milc_words m g (map checksum_word ws) = milc_sum m g ws.
Proof. induction ws; intros; cbn; [reflexivity|]. now rewrite IHws, checksum_word_halves. Qed.

Lemma sum_list_nersc : forall ws, u32 (sum_list (map checksum_word ws)) = nersc_sum ws.
Proof.
  intros ws. unfold nersc_sum, sum_list.
  induction ws as [|w ws IH]; [reflexivity|]. cbn [map fold_right].
  unfold u32 in *. rewrite <- Z.add_mod_idemp_r, IH, Z.add_mod_idemp_r by (unfold two32; lia).
  rewrite checksum_word_halves. unfold halves. apply Z.add_mod_idemp_l. unfold two32; lia.
Qed.

Lemma nersc_app : forall a b, nersc_sum (a ++ b) = u32 (nersc_sum a + nersc_sum b).
Proof.
  intros a b. unfold nersc_sum, u32. rewrite <- Z.add_mod by (unfold two32; lia). f_equal.
  rewrite map_app. induction a; cbn; [reflexivity|]. rewrite IHa. lia.
Qed.

Lemma milc_app : forall m a b g, milc_sum m g (a ++ b) = Z.lxor (milc_sum m g a) (milc_sum m (g + Z.of_nat (length a)) b).
Proof.
  induction a as [|w a IH]; intros b g; [cbn; now rewrite Z.add_0_r|].
  cbn [app milc_sum length]. rewrite IH, Z.lxor_assoc. do 3 f_equal. lia.
Qed.

(* ---------- bytes and words ---------- *)
Lemma host_bytes_length : forall c nb w, length (host_bytes c nb w) = nb.
Proof. intros. unfold host_bytes. destruct (words_be c); rewrite ?rev_length; apply le_bytes_length. Qed.

Lemma host_bytes_byte : forall c nb w, Forall is_byte (host_bytes c nb w).
Proof. intros. unfold host_bytes, is_byte. destruct (words_be c); [apply Forall_rev|]; apply le_bytes_byte. Qed.

Lemma flat_map_length_const : forall {A B} (f : A -> list B) n l, (forall a, length (f a) = n) -> length (flat_map f l) = (n * length l)%nat.
Proof. induction l; intros; cbn; [lia|]. rewrite app_length, H, IHl by assumption. lia. Qed.

Lemma swap_out_bytes : forall c u, Forall is_word64 u ->
  flat_map (host_bytes c 8) (swap_for_output c u) = flat_map (file_bytes (out_big c)) u.
Proof.
  intros c u H. unfold swap_for_output. induction H as [|w u Hw Hu IH].
  - destruct (Bool.eqb _ _); reflexivity.
  - destruct (Bool.eqb_spec (out_big c) (words_be c)) as [E|E].
    + cbn [flat_map]. rewrite IH. f_equal. unfold host_bytes, file_bytes. now rewrite E.
    + cbn [map flat_map]. rewrite IH. f_equal. unfold host_bytes, file_bytes.
      destruct (swap64_rev w Hw) as [_ Er]. rewrite Er, rev_involutive.
      destruct (out_big c), (words_be c); try reflexivity; congruence.
Qed.

Lemma host_word_bytes : forall c nb w, 0 <= w < 256 ^ Z.of_nat nb -> host_word c (host_bytes c nb w) = w.
Proof. intros c nb w H. unfold host_word, host_bytes. destruct (words_be c); rewrite ?rev_involutive; now apply le_val_bytes. Qed.

Lemma words_of_bytes : forall c nb u tail, Forall (fun w => 0 <= w < 256 ^ Z.of_nat nb) u ->
  words_of c nb (length u) (flat_map (host_bytes c nb) u ++ tail) = u.
Proof.
  intros c nb u tail H. induction H as [|w u Hw Hu IH]; [reflexivity|].
  cbn [length words_of flat_map]. rewrite <- app_assoc.
  rewrite firstn_app, skipn_app, host_bytes_length, Nat.sub_diag. cbn [firstn skipn].
  rewrite firstn_all2 by (rewrite host_bytes_length; lia). rewrite skipn_all2 by (rewrite host_bytes_length; lia).
  rewrite app_nil_r. cbn [app]. rewrite IH. f_equal. now apply host_word_bytes.
Qed.

Lemma swap_out_word : forall c u, Forall is_word64 u -> Forall is_word64 (swap_for_output c u).
Proof.
  intros c u H. unfold swap_for_output. destruct (Bool.eqb _ _); [assumption|].
  induction H; constructor; auto. now apply swap64_rev.
Qed.

Lemma swap_out_length : forall c u, length (swap_for_output c u) = length u.
Proof. intros. unfold swap_for_output. destruct (Bool.eqb _ _); [reflexivity|apply map_length]. Qed.

Lemma swap_in_out : forall c h u, h_double h = true -> h_big h = out_big c -> Forall is_word64 u ->
  swap_in c h (swap_for_output c u) = u.
Proof.
  intros c h u Hd Hb H. unfold swap_in, swap_for_output. rewrite Hd, Hb.
  destruct (Bool.eqb (out_big c) (words_be c)); [reflexivity|].
  apply (map_invol _ two64); [apply swap64_invol|assumption].
Qed.

Lemma file_words_read : forall c h u tail, h_double h = true -> h_big h = out_big c -> Forall is_word64 u ->
  swap_in c h (words_of c 8 (length u) (flat_map (file_bytes (out_big c)) u ++ tail)) = u.
Proof.
  intros c h u tail Hd Hb H. rewrite <- swap_out_bytes by assumption.
  rewrite <- (swap_out_length c u). rewrite words_of_bytes by (apply swap_out_word; assumption).
  now apply swap_in_out.
Qed.

(* ---------- the data of a site ---------- *)
Lemma even_half : forall n, (2 * ((2 * n) / 2))%nat = (2 * n)%nat.
Proof. intros. rewrite (Nat.mul_comm 2 n), Nat.div_mul by lia. lia. Qed.

Lemma link_words_ok : forall c l u, shorten_ok c l -> is_link (NC c) u ->
  grab_link c l u = Some (link_words c l u) /\ length (link_words c l u) = loop_var c l /\ Forall is_word64 (link_words c l u).
Proof.
  intros c l u Hs [Hl Hw]. unfold grab_link, ofirstn. destruct l; cbn [loop_var link_words].
  - destruct (Hs eq_refl u (conj Hl Hw)) as [L1 W1]. rewrite L1.
    rewrite Nat.ltb_irrefl. rewrite firstn_all2 by lia. auto.
  - rewrite <- Nat.mul_assoc, even_half.
    assert (2 * ((NC c - 1) * NC c) <= length u)%nat by (rewrite Hl; apply Nat.mul_le_mono_l, Nat.mul_le_mono_r; lia).
    destruct (Nat.ltb_spec (length u) (2 * ((NC c - 1) * NC c))); [lia|].
    split; [reflexivity|]. split; [apply firstn_length_le; lia|].
    rewrite <- (firstn_skipn (2 * ((NC c - 1) * NC c)) u) in Hw. apply Forall_app in Hw. tauto.
  - rewrite even_half. rewrite Hl, Nat.ltb_irrefl. rewrite firstn_all2 by lia. auto.
Qed.

Lemma omap_eq : forall {A B} (f : A -> option B) g l, Forall (fun a => f a = Some (g a)) l -> omap f l = Some (map g l).
Proof. induction 1; cbn; [reflexivity|]. rewrite H. cbn [bindo]. now rewrite IHForall. Qed.

Lemma site_words_ok : forall c l s, shorten_ok c l -> length s = ND c -> Forall (is_link (NC c)) s ->
  grab_sitedata c l s = Some (site_words c l s) /\
  length (site_words c l s) = (ND c * loop_var c l)%nat /\ Forall is_word64 (site_words c l s).
Proof.
  intros c l s Hs Hl Hf. unfold grab_sitedata, ofirstn. rewrite Hl, Nat.ltb_irrefl. cbn [bindo].
  rewrite firstn_all2 by lia.
  rewrite (omap_eq (grab_link c l) (link_words c l)).
  2:{ eapply Forall_impl; [|exact Hf]. intros u Hu. now apply link_words_ok. }
  cbn [bindo]. unfold site_words. rewrite flat_map_concat_map. split; [reflexivity|].
  rewrite <- Hl, <- flat_map_concat_map. clear Hl. split.
  - induction Hf; cbn [flat_map length Nat.mul]; [reflexivity|]. rewrite app_length, IHHf. f_equal. now apply link_words_ok.
  - induction Hf; cbn [flat_map]; [constructor|]. apply Forall_app. split; [now apply link_words_ok|assumption].
Qed.

(* ---------- per-site specification of the sums ---------- *)
Definition spec_sums (c : cfg) (i : Z) (n : Z) (ws : list Z) : sums :=
  {| s_k := nersc_sum ws ; s_29 := milc_sum 29 (n * i) ws ; s_31 := milc_sum 31 (n * i) ws ;
     s_c29 := rotl (crc32_spec 0 (flat_map (file_bytes (out_big c)) ws)) (i mod 29) ;
     s_c31 := rotl (crc32_spec 0 (flat_map (file_bytes (out_big c)) ws)) (i mod 31) |}.

Lemma file_bytes_byte : forall b w, Forall is_byte (file_bytes b w).
Proof. intros. unfold file_bytes, is_byte. destruct b; [apply Forall_rev|]; apply le_bytes_byte. Qed.
Lemma file_bytes_length : forall b w, length (file_bytes b w) = 8%nat.
Proof. intros. unfold file_bytes. destruct b; rewrite ?rev_length; apply le_bytes_length. Qed.
Lemma flat_map_Forall : forall {A B} (P : B -> Prop) (f : A -> list B) l, (forall a, Forall P (f a)) -> Forall P (flat_map f l).
Proof. induction l; intros; cbn; [constructor|]. apply Forall_app. auto. Qed.

Lemma crc_site_ok : forall c i bytes, sane_shift c -> Forall is_byte bytes ->
  crc_site c i bytes = Some (rotl (crc32_spec 0 bytes) (Z.of_nat i mod 29), rotl (crc32_spec 0 bytes) (Z.of_nat i mod 31)).
Proof.
  intros c i bytes Hs Hb. unfold crc_site.
  pose proof (crc32_ok 0 bytes [] zero_word) as E. rewrite app_nil_r in E. rewrite E by assumption. cbn [bindo].
  pose proof (crc32_spec_word 0 bytes zero_word Hb).
  rewrite !rot_ok by (auto; pose proof (Z.mod_pos_bound (Z.of_nat i) 29); pose proof (Z.mod_pos_bound (Z.of_nat i) 31); lia).
  reflexivity.
Qed.

Lemma map_word32 : forall ws, Forall is_word32 (map checksum_word ws).
Proof. induction ws; cbn; constructor; auto. rewrite checksum_word_halves. apply halves_word. Qed.

Lemma checksum_site_ok : forall c l lat i st, sane_shift c -> shorten_ok c l ->
  nth_error lat i = Some st -> length st = ND c -> Forall (is_link (NC c)) st ->
  checksum_site c l lat i = Some (spec_sums c (Z.of_nat i) (Z.of_nat (ND c * loop_var c l)) (site_words c l st)).
Proof.
  intros c l lat i st Hs Hsh Hn Hl Hf. unfold checksum_site. rewrite Hn. cbn [bindo].
  destruct (site_words_ok c l st Hsh Hl Hf) as (E & L & W). rewrite E. cbn [bindo].
  change 0 with (u32 0) at 1. rewrite word_loop_ok by (auto using map_word32; lia). cbn [bindo].
  rewrite swap_out_bytes by assumption. rewrite crc_site_ok by (auto; apply flat_map_Forall, file_bytes_byte).
  cbn [bindo]. f_equal. unfold spec_sums. rewrite Z.add_0_l, sum_list_nersc, !Z.lxor_0_l, !milc_words_sum.
  replace (Z.of_nat (i * ND c * loop_var c l)) with (Z.of_nat (ND c * loop_var c l) * Z.of_nat i) by lia.
  reflexivity.
Qed.

Lemma add_sums_assoc : forall a b d, add_sums a (add_sums b d) = add_sums (add_sums a b) d.
Proof.
  intros. unfold add_sums; cbn. f_equal; try (symmetry; apply Z.lxor_assoc).
  unfold u32. rewrite Z.add_mod_idemp_r, Z.add_mod_idemp_l by (unfold two32; lia). f_equal. lia.
Qed.
Lemma add_sums_comm : forall a b, add_sums a b = add_sums b a.
Proof. intros. unfold add_sums. f_equal; try apply Z.lxor_comm. f_equal. lia. Qed.

(* reductions whose neutral element is only neutral on reduced values *)
Definition norm (a : sums) : Prop := s_k a = u32 (s_k a).

(* fold over consecutive sites *)
Fixpoint fold_sites {A} (F : nat -> A -> sums) (i : nat) (l : list A) (x : sums) : sums :=
  match l with [] => x | a :: r => fold_sites F (S i) r (add_sums x (F i a)) end.

Lemma ofold_sites : forall A (body : nat -> option sums) (F : nat -> A -> sums) l i x,
  (forall j a, nth_error l j = Some a -> body (i + j)%nat = Some (F (i + j)%nat a)) ->
  ofold add_sums body (Some x) (seq i (length l)) = Some (fold_sites F i l x).
Proof.
  intros A body F. induction l as [|a l IH]; intros i x H; [reflexivity|].
  cbn [length seq]. unfold ofold. cbn [fold_left bindo].
  pose proof (H 0%nat a eq_refl) as H0. rewrite Nat.add_0_r in H0. rewrite H0. cbn [bindo fold_sites].
  apply IH. intros j b Hj. specialize (H (S j) b Hj). now rewrite Nat.add_succ_r in H.
Qed.

Lemma add_sums_norm : forall a b, norm (add_sums a b).
Proof. intros. unfold norm, add_sums, u32; cbn. symmetry. apply Z.mod_mod. unfold two32; lia. Qed.
Lemma add_sums_zero : forall a, norm a -> add_sums a zero_sums = a.
Proof.
  intros [k a b d e] H. unfold norm, add_sums, zero_sums in *; cbn in *.
  rewrite Z.add_0_r, <- H, !Z.lxor_0_r. reflexivity.
Qed.
Lemma zero_norm : norm zero_sums. Proof. reflexivity. Qed.

Lemma reduce_sums : forall body n s, is_schedule n s ->
  omp_reduce add_sums zero_sums body zero_sums s = ofold add_sums body (Some zero_sums) (seq 0 n).
Proof.
  intros body n s Hs.
  exact (reduce_schedule add_sums zero_sums body add_sums_assoc add_sums_comm norm add_sums_zero add_sums_norm
           n s zero_sums zero_norm Hs).
Qed.

Lemma reduce_sums_sites : forall A body (F : nat -> A -> sums) l s, is_schedule (length l) s ->
  (forall j a, nth_error l j = Some a -> body j = Some (F j a)) ->
  omp_reduce add_sums zero_sums body zero_sums s = Some (fold_sites F 0 l zero_sums).
Proof. intros A body F l s Hs H. rewrite (reduce_sums _ _ _ Hs). now apply ofold_sites. Qed.

Lemma fold_sites_acc : forall A (F : nat -> A -> sums) l i x, norm x ->
  fold_sites F i l x = add_sums x (fold_sites F i l zero_sums).
Proof.
  induction l as [|a l IH]; intros i x Hx; cbn [fold_sites]; [symmetry; now apply add_sums_zero|].
  rewrite IH by apply add_sums_norm. rewrite (IH _ (add_sums zero_sums (F i a))) by apply add_sums_norm.
  rewrite !add_sums_assoc. f_equal. now rewrite (add_sums_zero x).
Qed.

Lemma nersc_norm : forall ws, nersc_sum ws = u32 (nersc_sum ws).
Proof. intros. unfold nersc_sum, u32. symmetry. apply Z.mod_mod. unfold two32; lia. Qed.

Lemma fold_field : forall c l n lat i, n = Z.of_nat (ND c * loop_var c l) ->
  (forall st, In st lat -> length (site_words c l st) = (ND c * loop_var c l)%nat) ->
  fold_sites (fun i st => spec_sums c (Z.of_nat i) n (site_words c l st)) i lat zero_sums =
  let ws := field_words c l lat in
  let sb := map (fun s => flat_map (file_bytes (out_big c)) (site_words c l s)) lat in
  {| s_k := nersc_sum ws ; s_29 := milc_sum 29 (n * Z.of_nat i) ws ; s_31 := milc_sum 31 (n * Z.of_nat i) ws ;
     s_c29 := scidac_sum 29 (Z.of_nat i) sb ; s_c31 := scidac_sum 31 (Z.of_nat i) sb |}.
Proof.
  intros c l n lat. induction lat as [|st lat IH]; intros i Hn HL; [reflexivity|].
  cbn [fold_sites]. rewrite fold_sites_acc by apply add_sums_norm.
  rewrite IH by (try assumption; intros; apply HL; now right). cbn zeta.
  unfold field_words. cbn [flat_map map scidac_sum].
  unfold add_sums, spec_sums, zero_sums; cbn [s_k s_29 s_31 s_c29 s_c31].
  rewrite !Z.lxor_0_l, nersc_app, !milc_app, (HL st) by now left.
  rewrite Z.add_0_l, <- nersc_norm, Hn.
  replace (Z.of_nat (ND c * loop_var c l) * Z.of_nat i + Z.of_nat (ND c * loop_var c l))
     with (Z.of_nat (ND c * loop_var c l) * Z.of_nat (S i)) by lia.
  replace (Z.of_nat i + 1) with (Z.of_nat (S i)) by lia. reflexivity.
Qed.

Lemma field_In : forall nd nc vol lat st, is_field nd nc vol lat -> In st lat -> length st = nd /\ Forall (is_link nc) st.
Proof. intros nd nc vol lat st [_ H] Hi. rewrite Forall_forall in H. now apply H. Qed.

Theorem compute_checksum_ok : forall c l lat vol s, sane_shift c -> shorten_ok c l ->
  is_field (ND c) (NC c) vol lat -> is_schedule vol s ->
  compute_checksum c l lat s = Some (field_sums c l lat).
Proof.
  intros c l lat vol s Hs Hsh HF HS. unfold compute_checksum.
  assert (length lat = vol) as HL by apply HF. rewrite <- HL in HS.
  rewrite (reduce_sums_sites _ _ (fun i st => spec_sums c (Z.of_nat i) (Z.of_nat (ND c * loop_var c l)) (site_words c l st)) lat s HS).
  - f_equal. rewrite (fold_field c l _ lat 0 eq_refl); [unfold field_sums; cbn zeta; now rewrite Z.mul_0_r|].
    intros st Hi. destruct (field_In _ _ _ _ _ HF Hi). now apply site_words_ok.
  - intros j st Hj. destruct (field_In _ _ _ _ _ HF (nth_error_In _ _ Hj)). now apply checksum_site_ok.
Qed.

(* strict C: the very first rotation shifts by 32 *)
Theorem compute_checksum_strict : forall c l lat vol s, sh32 c = None -> shorten_ok c l ->
  is_field (ND c) (NC c) vol lat -> (0 < vol)%nat -> (0 < ND c * loop_var c l)%nat -> is_schedule vol s ->
  compute_checksum c l lat s = None.
Proof.
  intros c l lat vol s Hn Hsh HF Hv Hw HS. unfold compute_checksum. rewrite (reduce_sums _ _ _ HS).
  destruct vol as [|vol]; [lia|]. cbn [seq]. unfold ofold. cbn [fold_left bindo].
  assert (checksum_site c l lat 0 = None) as E.
  { unfold checksum_site. destruct HF as [HL HFa]. destruct lat as [|st lat]; [discriminate|]. cbn [nth_error bindo].
    inversion HFa as [|? ? [H1 H2] H3]; subst. destruct (site_words_ok c l st Hsh H1 H2) as (E & L & W).
    rewrite E. cbn [bindo]. destruct (site_words c l st) as [|w ws]; [cbn in L; lia|].
    cbn [map]. change (Z.of_nat (0 * ND c * loop_var c l) mod 29) with 0. now rewrite word_loop_strict. }
  rewrite E. cbn [bindo]. apply ofold_None.
Qed.

(* any behaviour of the over-wide shift: the result does not depend on the schedule *)
Theorem compute_checksum_schedule : forall c l lat vol s1 s2, is_schedule vol s1 -> is_schedule vol s2 ->
  compute_checksum c l lat s1 = compute_checksum c l lat s2.
Proof. intros c l lat vol s1 s2 H1 H2. unfold compute_checksum. now rewrite (reduce_sums _ _ _ H1), (reduce_sums _ _ _ H2). Qed.

(* ---------- writing ---------- *)
Lemma store_at_ok : forall ws uout off, (off + length ws <= length uout)%nat ->
  store_at uout off ws = Some (firstn off uout ++ ws ++ skipn (off + length ws) uout).
Proof.
  induction ws as [|w ws IH]; intros uout off H.
  - cbn [store_at length app]. rewrite Nat.add_0_r. now rewrite firstn_skipn.
  - cbn [length] in H. cbn [store_at].
    destruct (setn_spec uout off w) as (u & E & L & N); [lia|]. rewrite E. cbn [bindo].
    rewrite IH by (rewrite L; lia). f_equal. apply list_ext. intros k.
    assert (length (firstn off uout) = off) by (apply firstn_length_le; lia).
    assert (length (firstn (S off) u) = S off) by (apply firstn_length_le; rewrite L; lia).
    destruct (Nat.lt_ge_cases k off).
    + rewrite !nth_error_app1 by lia. rewrite !nth_firstn, N.
      destruct (Nat.ltb_spec k (S off)), (Nat.ltb_spec k off), (Nat.eqb_spec k off); try lia. reflexivity.
    + destruct (Nat.eq_dec k off) as [->|].
      * rewrite nth_error_app1 by lia. rewrite nth_firstn, N, Nat.eqb_refl.
        destruct (Nat.ltb_spec off (S off)); [|lia]. rewrite nth_error_app2 by lia. 
        replace (off - length (firstn off uout))%nat with 0%nat by lia. reflexivity.
      * rewrite (nth_error_app2 (firstn off uout)), (nth_error_app2 (firstn (S off) u)) by lia.
        replace (k - length (firstn off uout))%nat with (S (k - S off)) by lia.
        cbn [app nth_error]. replace (k - length (firstn (S off) u))%nat with (k - S off)%nat by lia.
        destruct (Nat.lt_ge_cases (k - S off) (length ws)).
        -- rewrite !nth_error_app1 by lia. reflexivity.
        -- rewrite !nth_error_app2 by lia. rewrite !nth_skipn, N.
           cbn [length]. destruct (Nat.eqb_spec (S off + length ws + (k - S off - length ws)) off); [lia|].
           f_equal. lia.
Qed.

Lemma store_at_len : forall ws uout off u, store_at uout off ws = Some u -> length u = length uout.
Proof.
  induction ws; intros uout off u H; cbn in H; [now inversion H|].
  destruct (set_nth uout off a) as [v|] eqn:E; [|discriminate]. cbn in H. apply IHws in H. rewrite H.
  assert (off < length uout)%nat as HL.
  { destruct (Nat.lt_ge_cases off (length uout)); [assumption|]. rewrite setn_None in E by assumption. discriminate. }
  destruct (setn_spec uout off a HL) as (v' & E' & L' & _). congruence.
Qed.

Lemma slice_length : forall {A} (l : list A) off len, (off + len <= length l)%nat -> length (slice off len l) = len.
Proof. intros. unfold slice. apply firstn_length_le. rewrite skipn_length. lia. Qed.

Lemma nth_slice : forall {A} (l : list A) off len k, nth_error (slice off len l) k = if Nat.ltb k len then nth_error l (off + k)%nat else None.
Proof. intros. unfold slice. now rewrite nth_firstn, nth_skipn. Qed.

(* after copying the sites of [order], block i of the buffer holds site i for i in order, the rest is unchanged *)
Lemma copy_data_ok : forall c l lat n order uout, n = (ND c * loop_var c l)%nat ->
  shorten_ok c l -> (forall st, In st lat -> length st = ND c /\ Forall (is_link (NC c)) st) ->
  NoDup order -> Forall (fun i => (i < length lat)%nat /\ (n * (i + 1) <= length uout)%nat) order ->
  exists u, copy_data c l lat order uout = Some u /\ length u = length uout /\
    (forall i st, nth_error lat i = Some st -> In i order -> slice (n * i) n u = site_words c l st) /\
    (forall i, ~ In i order -> slice (n * i) n u = slice (n * i) n uout).
Proof.
  intros c l lat n order. induction order as [|i r IH]; intros uout Hn Hsh HF ND HO.
  - exists uout. cbn. repeat split; auto. intros ? ? ? [].
  - inversion ND as [|? ? Hnot ND']; subst x l0. inversion HO as [|? ? [Hi Hlen] HO']; subst x l0.
    cbn [copy_data]. destruct (nth_error_lt lat i Hi) as [st Est]. rewrite Est. cbn [bindo].
    destruct (HF st (nth_error_In _ _ Est)) as [H1 H2].
    destruct (site_words_ok c l st Hsh H1 H2) as (E & L & W). rewrite E. cbn [bindo].
    assert (loop_var c l * (i * IOModel.ND c) = n * i)%nat as Eo by (subst n; lia). rewrite Eo.
    rewrite store_at_ok by (rewrite L, <- Hn; lia). cbn [bindo].
    set (u1 := firstn (n * i) uout ++ site_words c l st ++ skipn (n * i + length (site_words c l st)) uout).
    assert (length u1 = length uout) as Lu.
    { unfold u1. rewrite !app_length, firstn_length_le, skipn_length by lia. rewrite L, <- Hn. lia. }
    destruct (IH u1 Hn Hsh HF ND') as (u & Eu & Lu2 & A & B).
    { eapply Forall_impl; [|exact HO']. intros a [Ha Hb]. now rewrite Lu. }
    exists u. split; [exact Eu|]. split; [congruence|].
    assert (forall k, nth_error u1 k = if (Nat.leb (n * i) k && Nat.ltb k (n * i + n))%bool then nth_error (site_words c l st) (k - n * i) else nth_error uout k) as N1.
    { intros k. unfold u1. assert (length (firstn (n * i) uout) = n * i)%nat as Lf by (apply firstn_length_le; lia).
      destruct (Nat.leb_spec (n * i) k).
      - rewrite nth_error_app2 by lia. rewrite Lf.
        destruct (Nat.ltb_spec k (n * i + n)); cbn [andb].
        + rewrite nth_error_app1 by lia. reflexivity.
        + rewrite nth_error_app2 by lia. rewrite nth_skipn. f_equal. lia.
      - cbn [andb]. rewrite nth_error_app1 by lia. rewrite nth_firstn. destruct (Nat.ltb_spec k (n * i)); [reflexivity|lia]. }
    split.
    + intros j sj Hj [<-|Hin].
      * rewrite B by assumption. rewrite Est in Hj. injection Hj as <-. apply list_ext. intros k.
        rewrite nth_slice, N1. destruct (Nat.ltb_spec k n).
        -- destruct (Nat.leb_spec (n * i) (n * i + k)); [|lia]. destruct (Nat.ltb_spec (n * i + k) (n * i + n)); [|lia].
           cbn [andb]. f_equal. lia.
        -- symmetry. apply nth_error_None. lia.
      * now apply A.
    + intros j Hj. rewrite B by (intros Hin; apply Hj; now right). apply list_ext. intros k. rewrite !nth_slice, N1.
      destruct (Nat.ltb_spec k n); [|reflexivity].
      assert (i <> j) by (intros ->; apply Hj; now left).
      destruct (Nat.leb_spec (n * i) (n * j + k)), (Nat.ltb_spec (n * j + k) (n * i + n)); cbn [andb]; try reflexivity.
      exfalso. assert (i < j \/ j < i)%nat as [?|?] by lia; nia.
Qed.

Lemma blocks_concat : forall {A B} (f : B -> list A) n (lat : list B) u,
  (forall b, In b lat -> length (f b) = n) -> length u = (n * length lat)%nat ->
  (forall i b, nth_error lat i = Some b -> slice (n * i) n u = f b) -> u = flat_map f lat.
Proof.
  intros A B f n lat. induction lat as [|b lat IH]; intros u HL Lu HS.
  - cbn in Lu. rewrite Nat.mul_0_r in Lu. apply length_zero_iff_nil in Lu. now subst.
  - cbn [flat_map]. rewrite <- (firstn_skipn n u). cbn [length] in Lu. f_equal.
    + pose proof (HS 0%nat b eq_refl) as H. unfold slice in H. rewrite Nat.mul_0_r in H. exact H.
    + apply IH.
      * intros x Hx. apply HL. now right.
      * rewrite skipn_length. lia.
      * intros i x Hi. specialize (HS (S i) x Hi). unfold slice in *. rewrite skipn_skipn'. rewrite <- HS. do 2 f_equal. lia.
Qed.

Lemma concat_blocks : forall {A B} (f : B -> list A) n (lat : list B) tail i b,
  (forall b, In b lat -> length (f b) = n) -> nth_error lat i = Some b ->
  slice (n * i) n (flat_map f lat ++ tail) = f b.
Proof.
  intros A B f n lat tail. induction lat as [|a lat IH]; intros i b HL Hi; [destruct i; discriminate|].
  assert (length (f a) = n) as La by (apply HL; now left).
  destruct i as [|i].
  - injection Hi as ->. unfold slice. rewrite Nat.mul_0_r. cbn [flat_map skipn]. rewrite <- app_assoc, firstn_app, La, Nat.sub_diag.
    cbn [firstn]. rewrite app_nil_r. apply firstn_all2. lia.
  - cbn [nth_error] in Hi. rewrite <- (IH i b) by (try assumption; intros; apply HL; now right).
    unfold slice. cbn [flat_map]. rewrite <- app_assoc, (skipn_app (n * S i)), skipn_all2 by lia. cbn [app].
    do 2 f_equal. rewrite La. lia.
Qed.

Lemma field_words_length : forall c l lat vol, shorten_ok c l -> is_field (ND c) (NC c) vol lat ->
  length (field_words c l lat) = (ND c * loop_var c l * vol)%nat /\ Forall is_word64 (field_words c l lat).
Proof.
  intros c l lat vol Hsh [HL HF]. subst vol. unfold field_words. induction HF as [|st lat [H1 H2] HF IH].
  - cbn. split; [lia|constructor].
  - destruct IH as [I1 I2]. destruct (site_words_ok c l st Hsh H1 H2) as (_ & L & W). cbn [flat_map length].
    rewrite app_length, L, I1. split; [lia|apply Forall_app; auto].
Qed.

Theorem write_binary_ok : forall c l lat vol mem order, shorten_ok c l -> is_field (ND c) (NC c) vol lat ->
  Permutation order (seq 0 vol) -> length mem = (ND c * loop_var c l * vol)%nat ->
  write_binary_data c l lat mem order = Some (flat_map (file_bytes (out_big c)) (field_words c l lat)).
Proof.
  intros c l lat vol mem order Hsh HF HP HM.
  pose proof (fun st => field_In _ _ _ _ st HF) as HIn. assert (length lat = vol) as HL by apply HF.
  assert (forall k, In k order <-> (k < vol)%nat) as HI.
  { intros k. split; intros H; [eapply Permutation_in in H; [|exact HP]; apply in_seq in H; lia|].
    eapply Permutation_in; [apply Permutation_sym, HP|]. apply in_seq. lia. }
  unfold write_binary_data.
  destruct (copy_data_ok c l lat _ order mem eq_refl Hsh HIn) as (u & E & Lu & A & B).
  - eapply Permutation_NoDup; [apply Permutation_sym, HP|apply seq_NoDup].
  - apply Forall_forall. intros i Hi. apply HI in Hi. rewrite HL, HM. split; [assumption|]. apply Nat.mul_le_mono_l. lia.
  - rewrite E. cbn [bindo]. f_equal.
    assert (u = field_words c l lat) as ->.
    { apply (blocks_concat _ (ND c * loop_var c l)).
      - intros b Hb. destruct (HIn b Hb). now apply site_words_ok.
      - now rewrite Lu, HM, HL.
      - intros i b Hi. apply A; [assumption|]. apply HI. rewrite <- HL. apply nth_error_Some. congruence. }
    apply swap_out_bytes. now apply (field_words_length c l lat vol).
Qed.

(* the slice by slice writer overruns its buffer as soon as there are two time slices *)
Theorem write_slices_ub : forall c l lat lcu lt mem orders, shorten_ok c l ->
  is_field (ND c) (NC c) (lcu * lt) lat -> (0 < lcu)%nat -> (2 <= lt)%nat -> (0 < ND c * loop_var c l)%nat ->
  length mem = (ND c * loop_var c l * lcu)%nat -> length orders = lt ->
  (forall t, (t < lt)%nat -> exists o, nth_error orders t = Some o /\ Permutation o (seq (lcu * t) lcu)) ->
  write_slices c l lat mem orders = None.
Proof.
  intros c l lat lcu lt mem orders Hsh HF Hc Ht Hn Hm HO HP.
  pose proof (fun st => field_In _ _ _ _ st HF) as HIn. assert (length lat = lcu * lt)%nat as HL by apply HF.
  destruct (HP 0%nat ltac:(lia)) as (o0 & E0 & P0). destruct (HP 1%nat ltac:(lia)) as (o1 & E1 & P1).
  destruct orders as [|a [|b r]]; try discriminate. cbn in E0, E1. injection E0 as ->. injection E1 as ->.
  cbn [write_slices].
  destruct (copy_data_ok c l lat _ o0 mem eq_refl Hsh HIn) as (u & E & Lu & _ & _).
  - eapply Permutation_NoDup; [apply Permutation_sym, P0|apply seq_NoDup].
  - apply Forall_forall. intros i Hi. eapply Permutation_in in Hi; [|exact P0]. apply in_seq in Hi.
    split; [rewrite HL; nia|]. rewrite Hm. apply Nat.mul_le_mono_l. lia.
  - rewrite E. cbn [bindo].
    assert (copy_data c l lat o1 (swap_for_output c u) = None) as E1.
    { assert (length (swap_for_output c u) = (ND c * loop_var c l * lcu)%nat) as Ls by (rewrite swap_out_length; congruence).
      destruct o1 as [|i o1]; [apply Permutation_length in P1; rewrite seq_length in P1; cbn in P1; lia|].
      assert (lcu <= i < lcu * lt)%nat as Hi.
      { assert (In i (seq (lcu * 1) lcu)) as Hin by (eapply Permutation_in; [exact P1|now left]). apply in_seq in Hin. nia. }
      cbn [copy_data]. destruct (nth_error_lt lat i ltac:(lia)) as [st Est]. rewrite Est. cbn [bindo].
      destruct (HIn st (nth_error_In _ _ Est)) as [H1 H2]. destruct (site_words_ok c l st Hsh H1 H2) as (Es & L & W).
      rewrite Es. cbn [bindo]. destruct (site_words c l st) as [|w ws]; [cbn in L; lia|].
      cbn [store_at]. rewrite setn_None; [reflexivity|]. rewrite Ls. nia. }
    rewrite E1. reflexivity.
Qed.

(* ---------- reading ---------- *)
Definition reread (c : cfg) (l : layout) (u : list Z) : list Z := rebuild_lat c l (link_words c l u).

Lemma site_links_ok : forall c h st, h_double h = true -> shorten_ok c (h_type h) -> Forall (is_link (NC c)) st ->
  site_links c h (length st) (site_words c (h_type h) st) = map (reread c (h_type h)) st.
Proof.
  intros c h st Hd Hsh HF. induction HF as [|u st Hu HF IH]; [reflexivity|].
  destruct (link_words_ok c (h_type h) u Hsh Hu) as (_ & L & W).
  cbn [length site_links map]. unfold site_words. cbn [flat_map]. fold (site_words c (h_type h) st).
  rewrite firstn_app, skipn_app, L, Nat.sub_diag. cbn [firstn skipn]. rewrite app_nil_r.
  rewrite firstn_all2, skipn_all2 by lia. cbn [app]. rewrite IH. f_equal. unfold reread. f_equal.
  unfold val_word. rewrite Hd. clear. induction (link_words c (h_type h) u); cbn; congruence.
Qed.

Lemma res_words : forall h ws, h_double h = true -> map (res_word h) ws = map checksum_word ws.
Proof. intros h ws Hd. unfold res_word. rewrite Hd. reflexivity. Qed.

Definition head_value (h : header) (s : sums) : Z := reader_result h s 0.

Lemma skipn_flat_map : forall {A B} (f : A -> list B) k n l, (forall a, length (f a) = k) ->
  skipn (k * n) (flat_map f l) = flat_map f (skipn n l).
Proof.
  intros A B f k n. induction n; intros l H; [now rewrite Nat.mul_0_r|].
  destruct l as [|a l]; [cbn; now rewrite skipn_nil|]. cbn [flat_map skipn].
  replace (k * S n)%nat with (k + k * n)%nat by lia.
  rewrite <- (Nat.add_comm (k * n)), <- skipn_skipn', skipn_app, H, Nat.sub_diag. rewrite (skipn_all2 (f a)) by (rewrite H; lia).
  cbn [skipn app]. now apply IHn.
Qed.
