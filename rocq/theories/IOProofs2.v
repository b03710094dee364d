(* Reading back what was written. *)
From Coq Require Import Permutation.
From Verif Require Import CInt Lib ByteModel ByteSpec ByteProofs CrcModel CrcSpec CrcProofs OmpModel OmpProofs IOModel IOSpec IOProofs.

Definition zc (s : sums) : sums := {| s_k := s_k s ; s_29 := s_29 s ; s_31 := s_31 s ; s_c29 := 0 ; s_c31 := 0 |}.
Definition cc (s : sums) : sums := {| s_k := 0 ; s_29 := 0 ; s_31 := 0 ; s_c29 := s_c29 s ; s_c31 := s_c31 s |}.

Lemma fold_zc : forall A (F : nat -> A -> sums) l i x, fold_sites (fun i a => zc (F i a)) i l (zc x) = zc (fold_sites F i l x).
Proof. intros A F. induction l; intros; cbn [fold_sites]; [reflexivity|]. rewrite <- IHl. reflexivity. Qed.
Lemma fold_cc : forall A (F : nat -> A -> sums) l i x, fold_sites (fun i a => cc (F i a)) i l (cc x) = cc (fold_sites F i l x).
Proof. intros A F. induction l; intros; cbn [fold_sites]; [reflexivity|]. rewrite <- IHl. reflexivity. Qed.
Lemma cc_zc : forall s, norm s -> add_sums (cc s) (zc s) = s.
Proof.
  intros [k a b d e] H. unfold norm, add_sums, cc, zc in *; cbn in *. now rewrite <- H, !Z.lxor_0_r.
Qed.
Lemma zero_zc : forall s, norm s -> add_sums zero_sums (zc s) = zc s.
Proof.
  intros [k a b d e] H. unfold norm, add_sums, zero_sums, zc in *; cbn in *. now rewrite <- H.
Qed.

Lemma flat_map_assoc : forall {A B D} (f : B -> list D) (g : A -> list B) l, flat_map f (flat_map g l) = flat_map (fun a => flat_map f (g a)) l.
Proof. induction l; cbn; [reflexivity|]. now rewrite flat_map_app, IHl. Qed.

Lemma flat_map_firstn_exact : forall {A} (l tail : list A) n, length l = n -> firstn n (l ++ tail) = l.
Proof. intros A l tail n H. rewrite firstn_app, H, Nat.sub_diag. cbn. rewrite app_nil_r. apply firstn_all2. lia. Qed.

Section Read.
Variables (c : cfg) (h : header) (lat : list (list (list Z))) (vol : nat).
Hypothesis Hs : sane_shift c.
Hypothesis Hsh : shorten_ok c (h_type h).
Hypothesis HF : is_field (ND c) (NC c) vol lat.
Hypothesis Hd : h_double h = true.
Hypothesis Hb : h_big h = out_big c.
Let l := h_type h.
Let n := (ND c * loop_var c l)%nat.
Let F := fun (i : nat) st => spec_sums c (Z.of_nat i) (Z.of_nat n) (site_words c l st).

Lemma read_In : forall st, In st lat -> length st = ND c /\ Forall (is_link (NC c)) st.
Proof. intros st. apply (field_In _ _ _ _ st HF). Qed.
Lemma read_len : forall st, In st lat -> length (site_words c l st) = n.
Proof. intros st H. destruct (read_In st H). now apply site_words_ok. Qed.
Lemma read_w64 : forall st, In st lat -> Forall is_word64 (site_words c l st).
Proof. intros st H. destruct (read_In st H). now apply site_words_ok. Qed.

Lemma fold_F : fold_sites F 0 lat zero_sums = field_sums c l lat.
Proof.
  unfold F, n. rewrite (fold_field c l _ lat 0 eq_refl); [unfold field_sums; cbn zeta; now rewrite Z.mul_0_r|].
  apply read_len.
Qed.

Lemma site_sums_ok : forall ws i, 
  (do ' (k, a, b) <- word_loop c (map (res_word h) ws) 0 0 0 (Z.of_nat (n * i) mod 29) (Z.of_nat (n * i) mod 31);
   Some {| s_k := k ; s_29 := a ; s_31 := b ; s_c29 := 0 ; s_c31 := 0 |})
  = Some (zc (spec_sums c (Z.of_nat i) (Z.of_nat n) ws)).
Proof.
  intros ws i. rewrite res_words by assumption. change 0 with (u32 0) at 1.
  rewrite word_loop_ok by (auto using map_word32; lia). cbn [bindo]. f_equal. unfold zc, spec_sums. cbn [s_k s_29 s_31].
  rewrite Z.add_0_l, sum_list_nersc, !Z.lxor_0_l, !milc_words_sum, Nat2Z.inj_mul. reflexivity.
Qed.

Theorem lattice_reader_ok : forall reunit cks s1 s2 order lat0 tail,
  h_head h <> ILDG_BQCD -> is_schedule vol s1 -> is_schedule vol s2 -> Permutation order (seq 0 vol) -> length lat0 = vol ->
  lattice_reader c reunit h vol (flat_map (file_bytes (out_big c)) (field_words c l lat) ++ tail) cks s1 s2 order lat0
  = Some (head_value h (field_sums c l lat), map (map (reread c l)) lat, cks).
Proof.
  intros reunit cks s1 s2 order lat0 tail Hh S1 S2 P0 L0. unfold lattice_reader. fold l. fold n.
  destruct (field_words_length c l lat vol Hsh HF) as [FL FW]. fold n in FL.
  assert (length lat = vol) as HL by apply HF.
  assert (prec_bytes h = 8%nat) as EP by (unfold prec_bytes; now rewrite Hd). rewrite EP.
  assert (length (flat_map (file_bytes (out_big c)) (field_words c l lat)) = (n * vol * 8)%nat) as BL.
  { rewrite (flat_map_length_const _ 8) by apply file_bytes_length. rewrite FL. lia. }
  destruct (Nat.ltb_spec (length (flat_map (file_bytes (out_big c)) (field_words c l lat) ++ tail)) (n * vol * 8)) as [C|_];
    [rewrite app_length in C; lia|].
  rewrite (flat_map_firstn_exact _ _ _ BL). set (raw := flat_map (file_bytes (out_big c)) (field_words c l lat)) in *.
  assert (swap_in c h (words_of c 8 (n * vol) raw) = field_words c l lat) as EW.
  { rewrite <- FL. unfold raw. rewrite <- (app_nil_r (flat_map _ _)). now apply file_words_read. }
  rewrite EW.
  (* main loop *)
  assert (omp_reduce add_sums zero_sums (read_site_sums c h (field_words c l lat)) zero_sums s2 = Some (zc (field_sums c l lat))) as EM.
  { rewrite <- HL in S2. rewrite (reduce_sums_sites _ _ (fun i a => zc (F i a)) lat s2 S2).
    - rewrite <- fold_F. f_equal. change zero_sums with (zc zero_sums) at 1. apply fold_zc.
    - intros j st Hj. unfold read_site_sums. fold l. fold n.
      assert (slice (n * j) n (field_words c l lat) = site_words c l st) as ->.
      { unfold field_words. rewrite <- (app_nil_r (flat_map _ lat)). apply concat_blocks; [apply read_len|assumption]. }
      apply site_sums_ok. }
  (* links *)
  assert (omp_fill (fun i => Some (site_links c h (ND c) (slice (n * i) n (field_words c l lat)))) order lat0
          = Some (map (map (reread c l)) lat)) as EL.
  { rewrite (fill_all _ _ (fun i => site_links c h (ND c) (slice (n * i) n (field_words c l lat))) vol order lat0 P0 L0)
      by (intros; reflexivity).
    f_equal. apply list_ext. intros k. rewrite !nth_error_map.
    destruct (Nat.lt_ge_cases k vol) as [Hk|Hk].
    - rewrite (nth_error_nth' (seq 0 vol) 0%nat) by (rewrite seq_length; lia). rewrite seq_nth by lia.
      destruct (nth_error_lt lat k ltac:(lia)) as [st Est]. rewrite Est. cbn [option_map Nat.add]. f_equal.
      assert (slice (n * k) n (field_words c l lat) = site_words c l st) as ->.
      { unfold field_words. rewrite <- (app_nil_r (flat_map _ lat)). apply concat_blocks; [apply read_len|assumption]. }
      destruct (read_In st (nth_error_In _ _ Est)) as [H1 H2]. rewrite <- H1. now apply site_links_ok.
    - rewrite (proj2 (nth_error_None (seq 0 vol) k)) by (rewrite seq_length; lia).
      rewrite (proj2 (nth_error_None lat k)) by lia. reflexivity. }
  assert (norm (field_sums c l lat)) as HN by (unfold norm, field_sums; cbn [s_k]; apply nersc_norm).
  (* CRC loop *)
  assert (omp_reduce add_sums zero_sums (read_site_crc c h raw) zero_sums s1 = Some (cc (field_sums c l lat))) as EC.
  { rewrite <- HL in S1. rewrite (reduce_sums_sites _ _ (fun i a => cc (F i a)) lat s1 S1).
    - rewrite <- fold_F. f_equal. change zero_sums with (cc zero_sums) at 1. apply fold_cc.
    - intros j st Hj. unfold read_site_crc. fold l. fold n. rewrite EP.
      assert (slice (n * 8 * j) (n * 8) raw = flat_map (file_bytes (out_big c)) (site_words c l st)) as ->.
      { unfold raw, field_words. rewrite flat_map_assoc. rewrite <- (app_nil_r (flat_map _ lat)).
        apply (concat_blocks (fun a => flat_map (file_bytes (out_big c)) (site_words c l a))); [|assumption].
        intros b Hin. rewrite (flat_map_length_const _ 8) by apply file_bytes_length. rewrite read_len by assumption. lia. }
      rewrite crc_site_ok by (auto; apply flat_map_Forall, file_bytes_byte). reflexivity. }
  rewrite EM, EL, EC. unfold head_value, reader_result.
  destruct (h_head h); try congruence; cbn [bindo]; rewrite ?Hd, ?(cc_zc _ HN), ?(zero_zc _ HN); reflexivity.
Qed.

Lemma reread_fill : forall rest done old st, length old = length (st :: rest) ->
  set_nth (done ++ old) (length done) (map (reread c l) st) = Some ((done ++ [map (reread c l) st]) ++ skipn 1 old).
Proof.
  intros rest done old st HL. destruct old as [|o old]; [discriminate|]. cbn [skipn].
  induction done; cbn; [reflexivity|]. rewrite IHdone. reflexivity.
Qed.

Lemma cheaper_loop_ok : forall rest done old hist s tail, (forall st, In st rest -> In st lat) ->
  length old = length rest -> Forall is_byte hist ->
  let bytes := flat_map (file_bytes (out_big c)) (flat_map (site_words c l) rest) in
  let st' := st_of (hist ++ bytes) in
  let lat' := done ++ map (map (reread c l)) rest in
  cheaper_loop c h (length rest) (length done) (bytes ++ tail) s (st_of hist) (done ++ old)
  = Some (Some (fold_sites F (length done) rest s, st', lat'), st', lat').
Proof.
  induction rest as [|st rest IH]; intros done old hist s tail Hin HO HH.
  - destruct old; [|discriminate]. cbn. now rewrite !app_nil_r.
  - cbn zeta. cbn [length cheaper_loop]. fold l. fold n.
    assert (In st lat) as Hst by (apply Hin; now left).
    set (sb := flat_map (file_bytes (out_big c)) (site_words c l st)).
    set (rb := flat_map (file_bytes (out_big c)) (flat_map (site_words c l) rest)).
    assert (flat_map (file_bytes (out_big c)) (flat_map (site_words c l) (st :: rest)) = sb ++ rb) as EB.
    { unfold sb, rb. cbn [flat_map]. apply flat_map_app. }
    rewrite EB. assert (prec_bytes h = 8%nat) as EP by (unfold prec_bytes; now rewrite Hd). rewrite EP.
    assert (length sb = (n * 8)%nat) as BL.
    { unfold sb. rewrite (flat_map_length_const _ 8) by apply file_bytes_length. rewrite read_len by assumption. lia. }
    destruct (Nat.ltb_spec (length ((sb ++ rb) ++ tail)) (n * 8)) as [C|_]; [rewrite !app_length in C; lia|].
    rewrite <- app_assoc. rewrite (flat_map_firstn_exact _ _ _ BL).
    assert (Forall is_byte sb) as HBy by (apply flat_map_Forall, file_bytes_byte).
    rewrite crc_site_ok by assumption. cbn [bindo]. rewrite add_ok by assumption. cbn [bindo].
    assert (swap_in c h (words_of c 8 n sb) = site_words c l st) as ->.
    { rewrite <- (read_len st Hst). unfold sb. rewrite <- (app_nil_r (flat_map _ _)). apply file_words_read; auto. now apply read_w64. }
    pose proof (site_sums_ok (site_words c l st) (length done)) as EW.
    destruct (word_loop c (map (res_word h) (site_words c l st)) 0 0 0 (Z.of_nat (n * length done) mod 29) (Z.of_nat (n * length done) mod 31))
      as [[[k a] b]|]; [|discriminate]. cbn [bindo] in EW |- *. 
    destruct (read_In st Hst) as [H1 H2]. 
    assert (site_links c h (ND c) (site_words c l st) = map (reread c l) st) as -> by (rewrite <- H1; now apply site_links_ok).
    rewrite (reread_fill rest) by assumption. cbn [bindo].
    rewrite (skipn_app (n * 8)), BL, Nat.sub_diag, (skipn_all2 (n := n * 8) sb) by lia. cbn [app]. change (skipn 0 (rb ++ tail)) with (rb ++ tail).
    specialize (IH (done ++ [map (reread c l) st]) (skipn 1 old) (hist ++ sb)
       (add_sums s (F (length done) st)) tail).
    rewrite app_length, Nat.add_1_r in IH. cbn zeta in IH.
    assert ({| s_k := k; s_29 := a; s_31 := b;
               s_c29 := rotl (crc32_spec 0 sb) (Z.of_nat (length done) mod 29);
               s_c31 := rotl (crc32_spec 0 sb) (Z.of_nat (length done) mod 31) |} = F (length done) st) as ->.
    { unfold F, spec_sums, zc in *. cbn in EW. injection EW as -> -> ->. reflexivity. }
    subst rb. rewrite IH.
    + cbn [fold_sites map]. rewrite <- !app_assoc. reflexivity.
    + intros x Hx. apply Hin. now right.
    + destruct old; [discriminate|]. cbn in *. lia.
    + now apply Forall_app.
Qed.

Lemma get_total : forall hist, Forall is_byte hist -> exists v m, CKSUM_GET (st_of hist) = Some (v, m).
Proof.
  intros hist HH. unfold CKSUM_GET, st_of. cbn [the_crc the_bytes].
  pose proof (Z.mod_pos_bound (Z.of_nat (length hist)) two32 ltac:(unfold two32; lia)) as R.
  rewrite (cksum_len_ok 4); [|apply cks_fold_word; [apply zero_word|assumption]|lia|apply R]. cbn [bindo]. eauto.
Qed.

Theorem cheaper_ok : forall reunit hist lat0 tail,
  h_head h <> ILDG_BQCD -> length lat0 = vol -> Forall is_byte hist ->
  let bytes := flat_map (file_bytes (out_big c)) (field_words c l lat) in
  lattice_reader_cheaper c reunit h vol (bytes ++ tail) (st_of hist) lat0
  = Some (head_value h (field_sums c l lat), map (map (reread c l)) lat, st_of (hist ++ bytes)).
Proof.
  intros reunit hist lat0 tail Hh L0 HH bytes. unfold lattice_reader_cheaper.
  assert (length lat = vol) as HL by apply HF.
  pose proof (cheaper_loop_ok lat [] lat0 hist zero_sums tail (fun _ H => H) ltac:(congruence) HH) as E.
  cbn zeta in E. cbn [app length] in E. rewrite HL in E. unfold bytes, field_words. rewrite E. cbn [bindo].
  destruct (get_total (hist ++ flat_map (file_bytes (out_big c)) (flat_map (site_words c l) lat))) as (v & m & EG).
  { apply Forall_app. split; [assumption|]. apply flat_map_Forall, file_bytes_byte. }
  rewrite EG. cbn [bindo]. rewrite Hd, fold_F. do 3 f_equal. unfold head_value, reader_result.
  destruct (h_head h); congruence.
Qed.
End Read.

(* too short a file is reported by the value (uint32_t)GLU_FAILURE, nothing else is changed *)
Theorem reader_short : forall c reunit h vol file cks s1 s2 order lat0,
  (length file < ND c * loop_var c (h_type h) * vol * prec_bytes h)%nat ->
  lattice_reader c reunit h vol file cks s1 s2 order lat0 = Some (two32 - 1, lat0, cks).
Proof.
  intros. unfold lattice_reader.
  destruct (Nat.ltb_spec (length file) (ND c * loop_var c (h_type h) * vol * prec_bytes h)); [reflexivity|lia].
Qed.

Lemma reread_restored : forall c l u, is_link (NC c) u -> reread c l u = restored c l u.
Proof.
  intros c l u [HL _]. unfold reread. destruct l; cbn [link_words rebuild_lat restored]; [reflexivity| |apply firstn_all2; lia].
  assert (2 * (NC c * NC c - NC c) = 2 * (NC c - 1) * NC c)%nat as E by nia. rewrite E.
  set (m := (2 * (NC c - 1) * NC c)%nat) in *.
  now rewrite (firstn_all2 (firstn m u)) by (rewrite firstn_length; lia).
Qed.

Lemma reread_field : forall c l vol lat, is_field (ND c) (NC c) vol lat ->
  map (map (reread c l)) lat = map (map (restored c l)) lat.
Proof.
  intros c l vol lat [_ H]. induction H as [|s lat [_ H1] H2 IH]; [reflexivity|]. cbn [map]. rewrite IH. f_equal.
  induction H1; [reflexivity|]. cbn [map]. rewrite IHForall. f_equal. now apply reread_restored.
Qed.

Lemma head_value_spec : forall h s, head_value h s = header_checksum (h_head h) s.
Proof. intros h s. unfold head_value, reader_result, header_checksum. destruct (h_head h); reflexivity. Qed.

(* writing and reading back *)
Theorem write_read : forall c l lat vol mem worder, sane_shift c -> shorten_ok c l -> is_field (ND c) (NC c) vol lat ->
  Permutation worder (seq 0 vol) -> length mem = (ND c * loop_var c l * vol)%nat ->
  exists bytes, write_binary_data c l lat mem worder = Some bytes /\
  forall h s1 s2 s3 order reunit hist lat0 tail,
    h_type h = l -> h_double h = true -> h_big h = out_big c -> h_head h <> ILDG_BQCD ->
    is_schedule vol s1 -> is_schedule vol s2 -> is_schedule vol s3 -> Permutation order (seq 0 vol) -> length lat0 = vol ->
    Forall is_byte hist ->
    exists wsum, compute_checksum c l lat s3 = Some wsum /\
    lattice_reader c reunit h vol (bytes ++ tail) (st_of hist) s1 s2 order lat0
      = Some (header_checksum (h_head h) wsum, map (map (restored c l)) lat, st_of hist) /\
    lattice_reader_cheaper c reunit h vol (bytes ++ tail) (st_of hist) lat0
      = Some (header_checksum (h_head h) wsum, map (map (restored c l)) lat, st_of (hist ++ bytes)).
Proof.
  intros c l lat vol mem worder Hs Hsh HF HP HM.
  exists (flat_map (file_bytes (out_big c)) (field_words c l lat)). split; [now apply (write_binary_ok c l lat vol)|].
  intros h s1 s2 s3 order reunit hist lat0 tail Hl Hd Hb Hh S1 S2 S3 PO L0 HH. subst l.
  exists (field_sums c (h_type h) lat). split; [now apply (compute_checksum_ok c (h_type h) lat vol)|].
  rewrite <- head_value_spec, <- (reread_field c (h_type h) vol lat HF). split.
  - now apply lattice_reader_ok.
  - now apply (cheaper_ok c h lat vol).
Qed.
