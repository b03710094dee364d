(* Properties C07 - C11: byte order, checksums, binary data. *)
From Coq Require Import Permutation.
From Verif Require Import CInt Lib ByteModel ByteSpec ByteProofs CrcModel CrcSpec CrcProofs OmpModel IOModel IOSpec IOProofs IOProofs2.

(* ---------------- C07 ---------------- *)
Theorem C07_swap16_reverses : forall v, 0 <= v < 65536 ->
  0 <= SwapByteOrder_16 v < 65536 /\ le_bytes 2 (SwapByteOrder_16 v) = rev (le_bytes 2 v).
Proof. exact swap16_rev. Qed.
Print Assumptions C07_swap16_reverses.
Theorem C07_swap32_reverses : forall v, 0 <= v < two32 ->
  0 <= SwapByteOrder_32 v < two32 /\ le_bytes 4 (SwapByteOrder_32 v) = rev (le_bytes 4 v).
Proof. exact swap32_rev. Qed.
Print Assumptions C07_swap32_reverses.
Theorem C07_swap64_reverses : forall v, 0 <= v < two64 ->
  0 <= SwapByteOrder_64 v < two64 /\ le_bytes 8 (SwapByteOrder_64 v) = rev (le_bytes 8 v).
Proof. exact swap64_rev. Qed.
Print Assumptions C07_swap64_reverses.
Example C07_swap_ex : SwapByteOrder_64 0x0102030405060708 = 0x0807060504030201 /\
  SwapByteOrder_32 0xdeadbeef = 0xefbeadde /\ SwapByteOrder_16 0x1234 = 0x3412.
Proof. vm_compute. auto. Qed.

(* the first n elements are swapped, the others untouched, whatever the order of the iterations *)
Theorem C07_arrays : forall n order T, Permutation order (seq 0 n) -> (n <= length T)%nat ->
  bswap_16 order T = Some (map SwapByteOrder_16 (firstn n T) ++ skipn n T) /\
  bswap_32 order T = Some (map SwapByteOrder_32 (firstn n T) ++ skipn n T) /\
  bswap_64 order T = Some (map SwapByteOrder_64 (firstn n T) ++ skipn n T).
Proof. intros n order T HP HL. repeat split; now apply bswap_map. Qed.
Print Assumptions C07_arrays.

Theorem C07_involution : forall n o1 o2 T, Permutation o1 (seq 0 n) -> Permutation o2 (seq 0 n) -> (n <= length T)%nat ->
  (Forall (fun x => 0 <= x < 65536) T -> (do T1 <- bswap_16 o1 T; bswap_16 o2 T1) = Some T) /\
  (Forall (fun x => 0 <= x < two32) T -> (do T1 <- bswap_32 o1 T; bswap_32 o2 T1) = Some T) /\
  (Forall (fun x => 0 <= x < two64) T -> (do T1 <- bswap_64 o1 T; bswap_64 o2 T1) = Some T).
Proof.
  intros n o1 o2 T P1 P2 HL. repeat split; intros HF.
  - now apply (bswap_twice _ 65536 n); [apply swap16_invol| | | |].
  - now apply (bswap_twice _ two32 n); [apply swap32_invol| | | |].
  - now apply (bswap_twice _ two64 n); [apply swap64_invol| | | |].
Qed.
Print Assumptions C07_involution.
Example C07_array_ex : Permutation [2%nat; 0%nat; 1%nat] (seq 0 3) /\
  bswap_32 [2%nat; 0%nat; 1%nat] [1; 2; 0xff000000; 5] = Some [0x01000000; 0x02000000; 0xff; 5].
Proof. split; [|reflexivity]. cbn. apply perm_trans with [0%nat; 2%nat; 1%nat]; repeat constructor. Qed.

(* ---------------- C08 ---------------- *)
Theorem C08_crc32 : forall start buf tail, is_word32 start -> Forall is_byte (buf ++ tail) ->
  crc32 start (Some (buf ++ tail)) (Z.of_nat (length buf)) = Some (crc32_spec start buf).
Proof. exact crc32_ok. Qed.
Print Assumptions C08_crc32.
Theorem C08_pieces : forall start a b, is_word32 start -> Forall is_byte a -> Forall is_byte b ->
  (do c <- crc32 start (Some a) (Z.of_nat (length a)); crc32 c (Some b) (Z.of_nat (length b)))
  = crc32 start (Some (a ++ b)) (Z.of_nat (length (a ++ b))).
Proof. exact crc32_pieces. Qed.
Print Assumptions C08_pieces.
(* check value of CRC-32: "123456789" gives cbf43926 *)
Example C08_ex : crc32 0 (Some [0x31;0x32;0x33;0x34;0x35;0x36;0x37;0x38;0x39]) 9 = Some 0xcbf43926 /\
  crc32_spec 0 [0x31;0x32;0x33;0x34;0x35;0x36;0x37;0x38;0x39] = 0xcbf43926.
Proof. vm_compute. auto. Qed.

(* ---------------- C09 ---------------- *)
Theorem C09_stream_partial : forall blocks, Forall (Forall is_byte) blocks -> Z.of_nat (length (concat blocks)) < two32 ->
  (do s <- cksum_add_all cksum_init blocks; CKSUM_GET s)
  = Some (posix_cksum (concat blocks), Z.of_nat (length (concat blocks))).
Proof. exact cksum_stream. Qed.
Print Assumptions C09_stream_partial.
(* POSIX: cksum of "123456789" is 930766865 *)
Example C09_ex : (do s <- cksum_add_all cksum_init [[0x31;0x32;0x33;0x34]; []; [0x35;0x36;0x37;0x38;0x39]]; CKSUM_GET s)
  = Some (930766865, 9) /\ posix_cksum [0x31;0x32;0x33;0x34;0x35;0x36;0x37;0x38;0x39] = 930766865.
Proof. vm_compute. auto. Qed.

(* the state is never reset: what is returned is the cksum of everything added since the program started *)
Theorem C09_history : forall earlier blocks, Forall (Forall is_byte) earlier -> Forall (Forall is_byte) blocks ->
  Z.of_nat (length (concat earlier ++ concat blocks)) < two32 ->
  (do s0 <- cksum_add_all cksum_init earlier; do s <- cksum_add_all s0 blocks; CKSUM_GET s)
  = Some (posix_cksum (concat earlier ++ concat blocks), Z.of_nat (length (concat earlier ++ concat blocks))).
Proof.
  intros e b He Hb HL. rewrite cksum_init_st, add_all_ok by auto. cbn [bindo app].
  assert (forall l : list (list Z), Forall (Forall is_byte) l -> Forall is_byte (concat l)) as HC.
  { induction 1; cbn; [constructor|]. now apply Forall_app. }
  rewrite add_all_ok by auto. cbn [bindo]. apply get_ok; [apply Forall_app; auto|assumption].
Qed.
Print Assumptions C09_history.

(* a second file in the same process gets a wrong checksum *)
Theorem C09_second_file_refuted : exists earlier blocks, Forall (Forall is_byte) earlier /\ Forall (Forall is_byte) blocks /\
  exists v n, (do s0 <- cksum_add_all cksum_init earlier; do s <- cksum_add_all s0 blocks; CKSUM_GET s) = Some (v, n) /\
  v <> posix_cksum (concat blocks).
Proof.
  exists [[1;2;3]], [[4;5]]. split; [repeat constructor; unfold is_byte; lia|]. split; [repeat constructor; unfold is_byte; lia|].
  eexists _, _. split; [vm_compute; reflexivity|]. vm_compute. discriminate.
Qed.
Print Assumptions C09_second_file_refuted.

(* 2^32 bytes and more: the byte counter wraps around *)
Theorem C09_large_file_refuted : exists msg, Forall is_byte msg /\
  exists v n, (do s <- CKSUM_ADD cksum_init msg; CKSUM_GET s) = Some (v, n) /\ v <> posix_cksum msg.
Proof.
  exists (repeat 0 (Z.to_nat two32)).
  assert (forall n, Forall is_byte (repeat 0 n)) as HB by (induction n; cbn; constructor; auto; unfold is_byte; lia).
  split; [apply HB|].
  assert (forall n, fold_left cks_byte (repeat 0 n) 0 = 0) as H0 by (induction n; [reflexivity|exact IHn]).
  assert (st_of (repeat 0 (Z.to_nat two32)) = cksum_init) as ES.
  { unfold st_of, cksum_init. rewrite H0, repeat_length, Z2Nat.id, Z.mod_same by (unfold two32; lia). reflexivity. }
  exists 0xFFFFFFFF, 0. split.
  - rewrite cksum_init_st, add_ok by auto. cbn [app bindo]. rewrite ES. vm_compute. reflexivity.
  - unfold posix_cksum. rewrite fold_left_app, H0, repeat_length, Z2Nat.id by (unfold two32; lia). vm_compute. discriminate.
Qed.
Print Assumptions C09_large_file_refuted.

(* ---------------- C10 / C11 ---------------- *)
(* A small machine: 2 links per site, 2x2 matrices, little endian host, files written big endian,
   x >> 32 gives x *)
Definition cfg_ex : cfg := {| ND := 2 ; NC := 2 ; words_be := false ; out_big := true ; sh32 := Some (fun x => x) ;
  shorten := fun u => firstn 3 u ; last_row := fun u => firstn 4 u ; exhume := fun u => u ; widen := fun x => x |}.
Definition link_ex (a : Z) : list Z := [a; 2; 3; two64 - 1; 5; 6; 7; a + 4].
Definition field_ex : list (list (list Z)) := [[link_ex 10; link_ex 11]; [link_ex 12; link_ex 13]; [link_ex 14; link_ex 15]].
Example cfg_ex_ok : sane_shift cfg_ex /\ (forall l, shorten_ok cfg_ex l) /\ is_field 2 2 3 field_ex /\
  is_schedule 3 [[2%nat]; [0%nat; 1%nat]].
Proof.
  split; [exists (fun x => x); split; [reflexivity|auto]|].
  split.
  { intros l _ u [HL HW]. cbn in *. do 3 (destruct u as [|? u]; [discriminate|]). split; [reflexivity|].
    inversion HW; subst. inversion H2; subst. inversion H4; subst. repeat (constructor; [assumption|]). constructor. }
  split.
  { split; [reflexivity|]. unfold field_ex. 
    repeat (constructor; [split; [reflexivity|]; repeat (constructor; [split; [reflexivity|]; repeat (constructor; [unfold two64; lia|]); constructor|]); constructor|]).
    constructor. }
  unfold is_schedule. cbn. apply (Permutation_cons_app [0;1]%nat []). reflexivity.
Qed.

(* On machines where an over-wide shift gives x or 0, the checksums are the format's checksums, whatever the
   distribution of the sites over threads and the order of combination. *)
Theorem C10_writer_checksums : forall c l lat vol s, sane_shift c -> shorten_ok c l ->
  is_field (ND c) (NC c) vol lat -> is_schedule vol s ->
  compute_checksum c l lat s = Some (field_sums c l lat).
Proof. exact compute_checksum_ok. Qed.
Print Assumptions C10_writer_checksums.
Theorem C10_schedule_independent : forall c l lat vol s1 s2, is_schedule vol s1 -> is_schedule vol s2 ->
  compute_checksum c l lat s1 = compute_checksum c l lat s2.
Proof. exact compute_checksum_schedule. Qed.
Print Assumptions C10_schedule_independent.
Theorem C10_reader_checksums : forall c h lat vol, sane_shift c -> shorten_ok c (h_type h) ->
  is_field (ND c) (NC c) vol lat -> h_double h = true -> h_big h = out_big c ->
  forall reunit cks s1 s2 order lat0 tail,
  h_head h <> ILDG_BQCD -> is_schedule vol s1 -> is_schedule vol s2 -> Permutation order (seq 0 vol) -> length lat0 = vol ->
  exists lat', lattice_reader c reunit h vol (flat_map (file_bytes (out_big c)) (field_words c (h_type h) lat) ++ tail) cks s1 s2 order lat0
  = Some (header_checksum (h_head h) (field_sums c (h_type h) lat), lat', cks).
Proof.
  intros c h lat vol Hs Hsh HF Hd Hb reunit cks s1 s2 order lat0 tail Hh S1 S2 PO L0.
  eexists. rewrite <- head_value_spec. now apply lattice_reader_ok.
Qed.
Print Assumptions C10_reader_checksums.
Example C10_ex : compute_checksum cfg_ex NCxNC field_ex [[2%nat]; [0%nat; 1%nat]] = Some (field_sums cfg_ex NCxNC field_ex) /\
  s_k (field_sums cfg_ex NCxNC field_ex) = 300 /\ s_29 (field_sums cfg_ex NCxNC field_ex) = 1411147750.
Proof. vm_compute. auto. Qed.
(* ISO C: work >> ( 32 - rank ) with rank 0 is undefined, and word 0 of the lattice always has rank 0 *)
Theorem C10_strict_refuted : forall c l lat vol s, sh32 c = None -> shorten_ok c l ->
  is_field (ND c) (NC c) vol lat -> (0 < vol)%nat -> (0 < ND c * loop_var c l)%nat -> is_schedule vol s ->
  compute_checksum c l lat s = None.
Proof. exact compute_checksum_strict. Qed.
Print Assumptions C10_strict_refuted.

(* Writing then reading in the declared byte order gives the same links (with the rows the layout omits
   recomputed) and the same checksum, for the in-memory reader under every schedule and the site by site reader. *)
Theorem C11_write_read_partial : forall c l lat vol mem worder, sane_shift c -> shorten_ok c l -> is_field (ND c) (NC c) vol lat ->
  Permutation worder (seq 0 vol) -> length mem = (ND c * loop_var c l * vol)%nat ->
  exists bytes, write_binary_data c l lat mem worder = Some bytes /\
  forall h s1 s2 s3 order reunit hist lat0 tail,
    h_type h = l -> h_double h = true -> h_big h = out_big c -> h_head h <> ILDG_BQCD ->
    is_schedule vol s1 -> is_schedule vol s2 -> is_schedule vol s3 -> Permutation order (seq 0 vol) -> length lat0 = vol ->
    Forall is_byte hist ->
    exists wsum, compute_checksum c l lat s3 = Some wsum /\
    lattice_reader c reunit h vol (bytes ++ tail) (st_of hist) s1 s2 order lat0
      = Some (header_checksum (h_head h) wsum, map (map (restored c l)) lat, st_of hist) /\
    lattice_reader_cheaper c reunit h vol (bytes ++ tail) (st_of hist) lat0
      = Some (header_checksum (h_head h) wsum, map (map (restored c l)) lat, st_of (hist ++ bytes)).
Proof. exact write_read. Qed.
Print Assumptions C11_write_read_partial.
Theorem C11_file_bytes : forall c l lat vol mem order, shorten_ok c l -> is_field (ND c) (NC c) vol lat ->
  Permutation order (seq 0 vol) -> length mem = (ND c * loop_var c l * vol)%nat ->
  write_binary_data c l lat mem order = Some (flat_map (file_bytes (out_big c)) (field_words c l lat)).
Proof. exact write_binary_ok. Qed.
Print Assumptions C11_file_bytes.
Theorem C11_short_file : forall c reunit h vol file cks s1 s2 order lat0,
  (length file < ND c * loop_var c (h_type h) * vol * prec_bytes h)%nat ->
  lattice_reader c reunit h vol file cks s1 s2 order lat0 = Some (two32 - 1, lat0, cks).
Proof. exact reader_short. Qed.
Print Assumptions C11_short_file.
Example C11_ex : exists bytes, write_binary_data cfg_ex NCxNC field_ex (repeat 7 48) [1;0;2]%nat = Some bytes /\
  firstn 16 bytes = [0;0;0;0;0;0;0;10;0;0;0;0;0;0;0;2] /\ length bytes = 384%nat /\
  lattice_reader_cheaper cfg_ex (fun x => x) {| h_type := NCxNC ; h_double := true ; h_big := true ; h_head := NERSC |}
     3 bytes cksum_init [[];[];[]] = Some (300, field_ex, st_of bytes).
Proof. eexists. split; [vm_compute; reflexivity|]. repeat split; vm_compute; reflexivity. Qed.
(* The slice by slice writer (used when memory is short) indexes its one-slice buffer with the global site number:
   with two or more time slices it always writes outside the buffer. *)
Theorem C11_cheap_writer_refuted : forall c l lat lcu lt mem orders, shorten_ok c l ->
  is_field (ND c) (NC c) (lcu * lt) lat -> (0 < lcu)%nat -> (2 <= lt)%nat -> (0 < ND c * loop_var c l)%nat ->
  length mem = (ND c * loop_var c l * lcu)%nat -> length orders = lt ->
  (forall t, (t < lt)%nat -> exists o, nth_error orders t = Some o /\ Permutation o (seq (lcu * t) lcu)) ->
  write_slices c l lat mem orders = None.
Proof. exact write_slices_ub. Qed.
Print Assumptions C11_cheap_writer_refuted.
Example C11_cheap_ex : write_slices cfg_ex NCxNC field_ex (repeat 7 16) [[0];[1];[2]]%nat = None.
Proof. reflexivity. Qed.
