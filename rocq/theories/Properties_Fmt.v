(* C12, C13, C14: CERN and HiRep files, LIME records. *)
From Coq Require Import Permutation String.
From Verif Require Import CInt GeomModel GeomSpec ByteModel TextModel CernModel CernProofs HirepModel HirepProofs LimeModel LimeSpec LimeProofs.

(* C12: every lattice with even extents, every field of links, every schedule of the time slices in the writer
   and in the reader, whatever the output buffer and the field held before *)
Theorem C12_round_trip : forall (A : Type) (X Y Z0 T : nat) (lat mem : list A) (wo : list nat),
  lattice_ok (cdims X Y Z0 T) ->
  Nat.even X = true /\ Nat.even Y = true /\ Nat.even Z0 = true /\ Nat.even T = true ->
  length lat = (4 * (X * Y * Z0) * T)%nat -> length mem = (4 * (X * Y * Z0) * T)%nat -> Permutation wo (seq 0 T) ->
  exists file, cls_write X Y Z0 T lat wo mem = Some file /\ length file = (4 * (X * Y * Z0) * T)%nat /\
    (exists slot, Permutation slot (seq 0 (4 * (X * Y * Z0) * T)) /\
                  forall p j, nth_error slot p = Some j -> nth_error file p = nth_error lat j) /\
    (forall ro lat0, Permutation ro (seq 0 T) -> length lat0 = (4 * (X * Y * Z0) * T)%nat ->
       cls_read X Y Z0 T file ro lat0 = Some lat).
Proof.
  intros A X Y Z0 T lat mem wo Hok Hev L1 L2 P.
  exact (whole X Y Z0 T (tot X Y Z0 T Hok Hev) (cnt X Y Z0 T Hev) (all X Y Z0 T Hok Hev) lat mem wo L1 L2 P).
Qed.
Print Assumptions C12_round_trip.
Theorem C12_dims : forall d0 d1 d2 d3, Forall (fun d => 0 <= d < two31) [d0; d1; d2; d3] ->
  cern_dims (cern_nav [d0; d1; d2; d3]) = [d0; d1; d2; d3].
Proof.
  intros d0 d1 d2 d3 F. inversion F as [|? ? A0 F1]; subst. inversion F1 as [|? ? A1 F2]; subst.
  inversion F2 as [|? ? A2 F3]; subst. inversion F3 as [|? ? A3 _]; subst.
  assert (W := words_back [d3; d0; d1; d2]). cbn [map] in W. unfold cern_dims, cern_nav. cbn [map app].
  assert (G : Forall (fun d => 0 <= d < two31) [d3; d0; d1; d2]) by (repeat (apply Forall_cons; [assumption|]); constructor).
  specialize (W G). injection W as W0 W1 W2 W3. rewrite W0, W1, W2, W3. reflexivity.
Qed.
Print Assumptions C12_dims.
(* a 2x4x2x2 lattice with all links different, slices in two different orders *)
Example C12_ex : exists file, cls_write 2 4 2 2 (seq 0 128) [1; 0]%nat (repeat 7 128)%nat = Some file /\
  firstn 9 file = [35; 99; 32; 36; 33; 57; 34; 2; 11]%nat /\ file <> seq 0 128 /\
  cls_read 2 4 2 2 file [0; 1]%nat (repeat 9 128)%nat = Some (seq 0 128).
Proof.
  match eval vm_compute in (cls_write 2 4 2 2 (seq 0 128) [1; 0]%nat (repeat 7 128)%nat) with
  | Some ?f => exists f end.
  split; [vm_compute; reflexivity|]. split; [vm_compute; reflexivity|]. split; [intros E; discriminate (f_equal (hd 0%nat) E)|vm_compute; reflexivity].
Qed.
(* one odd extent: some links are in no slot of the file, reading does not restore them *)
Theorem C12_odd_refuted : exists X Y Z0 T (lat mem lat0 file : list nat), lattice_ok (cdims X Y Z0 T) /\
  length lat = (4 * (X * Y * Z0) * T)%nat /\ length lat0 = length lat /\ length mem = length lat /\
  cls_write X Y Z0 T lat (seq 0 T) mem = Some file /\ cls_read X Y Z0 T file (seq 0 T) lat0 <> Some lat.
Proof.
  exists 3%nat, 2%nat, 2%nat, 2%nat, (seq 0 96), (repeat 0%nat 96), (repeat 0%nat 96).
  match eval vm_compute in (cls_write 3 2 2 2 (seq 0 96) (seq 0 2) (repeat 0%nat 96)) with
  | Some ?f => exists f end.
  split. { split; [discriminate|]. split; [repeat constructor|reflexivity]. }
  split; [reflexivity|]. split; [reflexivity|]. split; [reflexivity|]. split; [vm_compute; reflexivity|].
  match goal with |- ?x <> _ => let v := eval vm_compute in x in
    assert (E : x = v) by (vm_compute; reflexivity); rewrite E; clear E end.
  intros E; discriminate E.
Qed.
Print Assumptions C12_odd_refuted.

(* C13, all gauge groups but SU(2), written big endian (the default): bit for bit what was written, up to the
   reunitarisation at the end of the reader.  Missing for the full claim: SU(2), refuted below. *)
Theorem C13_round_trip_partial : forall NC big dims reunit lat lat0, NC <> 2%nat -> lattice_ok dims ->
  length lat = (length dims * Z.to_nat (lvolume dims))%nat -> Forall (word_link NC) lat -> length lat0 = length lat ->
  exists file, hirep_write NC big true dims lat (vol_range dims) = Some file /\
    length file = (2 * (NC * NC) * length dims * Z.to_nat (lvolume dims))%nat /\
    hirep_read NC big dims reunit file lat0 = Some (map reunit lat).
Proof. intros NC big dims reunit lat lat0 HN Hok. exact (hirep_rt NC big dims HN Hok reunit lat lat0). Qed.
Print Assumptions C13_round_trip_partial.
Theorem C13_header : forall NC big dims rest, lattice_ok dims -> Z.of_nat NC < two31 ->
  exists nav, hirep_nav NC big true dims = Some nav /\ hirep_read_nav NC big dims (nav ++ rest) = Some dims.
Proof. exact hirep_nav_rt. Qed.
Print Assumptions C13_header.
Definition hirep_ex_lat : list (list Z) := map (fun k => map (fun j => Z.of_nat (100 * k + j)) (seq 0 18)) (seq 0 24).
Example C13_ex : lattice_ok [2; 2; 2] /\ length hirep_ex_lat = (3 * Z.to_nat (lvolume [2; 2; 2]%Z))%nat /\
  (do f <- hirep_write 3 false true [2; 2; 2] hirep_ex_lat (vol_range [2; 2; 2]); hirep_read 3 false [2; 2; 2] (fun l => l) f (repeat [] 24))
   = Some hirep_ex_lat /\ hirep_nav 3 false true [4; 5; 6] = Some [0x03000000; 0x06000000; 0x04000000; 0x05000000].
Proof.
  split. { split; [discriminate|]. split; [repeat constructor|reflexivity]. }
  split; [reflexivity|]. split; vm_compute; reflexivity.
Qed.
(* SU(2): every link diag(i,-i), written and read back, becomes the matrix with i off the diagonal; both are
   special unitary, so the reunitarisation does not repair it *)
Definition d_one : Z := 0x3ff0000000000000.
Definition d_mone : Z := 0xbff0000000000000.
Definition d_mzero : Z := 0x8000000000000000.
Theorem C13_SU2_refuted : exists dims lat lat0 file lat1, lattice_ok dims /\
  length lat = (length dims * Z.to_nat (lvolume dims))%nat /\ Forall (word_link 2) lat /\ length lat0 = length lat /\
  Forall (fun l => l = [0; d_one; 0; 0; 0; 0; 0; d_mone]) lat /\
  hirep_write 2 false true dims lat (vol_range dims) = Some file /\
  hirep_read_sites 2 false dims (vol_range dims) file lat0 = Some lat1 /\
  Forall (fun l => l = [0; 0; d_mzero; d_one; 0; d_one; 0; d_mzero]) lat1.
Proof.
  exists [2; 1], (repeat [0; d_one; 0; 0; 0; 0; 0; d_mone] 4), (repeat [] 4),
   (map SwapByteOrder_64 (List.concat (repeat [0; d_one; 0; 0] 4))), (repeat [0; 0; d_mzero; d_one; 0; d_one; 0; d_mzero] 4).
  split. { split; [discriminate|]. split; [repeat constructor|reflexivity]. }
  split; [reflexivity|]. split. { repeat (constructor; [split; [reflexivity|repeat (constructor; [split; [discriminate|reflexivity]|]); constructor]|]). constructor. }
  split; [reflexivity|]. split; [repeat (constructor; [reflexivity|]); constructor|].
  split; [vm_compute; reflexivity|]. split; [vm_compute; reflexivity|]. repeat (constructor; [reflexivity|]); constructor.
Qed.
Print Assumptions C13_SU2_refuted.
(* files written on a little-endian host without OUT_BIG are rejected by the reader *)
Theorem C13_little_refuted : exists dims nav, lattice_ok dims /\ hirep_nav 3 false false dims = Some nav /\
  hirep_read_nav 3 false dims nav = None.
Proof.
  exists [4; 4; 4; 8], [3; 8; 4; 4; 4]. split. { split; [discriminate|]. split; [repeat constructor|reflexivity]. }
  split; vm_compute; reflexivity.
Qed.
Print Assumptions C13_little_refuted.

(* C14 *)
Theorem C14_padding : forall n, 0 <= n -> 0 <= lime_padding n <= 7 /\ (n + lime_padding n) mod 8 = 0 /\
  (forall m, n <= m -> m mod 8 = 0 -> n + lime_padding n <= m).
Proof.
  intros n H. rewrite padding_round by assumption. destruct (round8_spec n H) as (A & B & C).
  replace (n + (round8 n - n)) with (round8 n) by lia. split; [lia|]. split; assumption.
Qed.
Print Assumptions C14_padding.
(* the writer produces LIME records on either host *)
Theorem C14_written : forall big payload typ, ~ In 0 payload -> ~ In 0 typ -> (length typ <= 128)%nat ->
  Z.of_nat (length payload) < two64 ->
  write_SCIDAC_binary big (payload ++ [0]) (Z.of_nat (length payload)) (typ ++ [0]) = Some (lime_record glu_flags typ payload).
Proof. intros big p t NP NT LT LP. apply write_header; try assumption. lia. Qed.
Print Assumptions C14_written.
(* the record for the binary data: its header is followed at once by the data when their size is a multiple
   of 8, and then header and data form a LIME record *)
Theorem C14_binary_written : forall big typ data, ~ In 0 typ -> (length typ <= 128)%nat ->
  Z.of_nat (length data) < two64 -> Z.of_nat (length data) mod 8 = 0 ->
  exists h, write_SCIDAC_binary big [0] (Z.of_nat (length data)) (typ ++ [0]) = Some h /\ h ++ data = lime_record glu_flags typ data.
Proof.
  intros big t d NT LT LD M. eexists. split; [apply (write_header big []); try assumption; [intros []|lia]|].
  assert (R := padding_round (Z.of_nat (length d)) ltac:(lia)). unfold lime_padding in R. rewrite M, Z.eqb_refl in R.
  unfold lime_record. rewrite <- R. cbn [zeros Z.to_nat repeat app]. rewrite !app_nil_r. reflexivity.
Qed.
Print Assumptions C14_binary_written.
(* one record is skipped exactly: any version and flags, type and payload (the payload of bqcd-plaquette has
   to be a number) *)
Theorem C14_skip_one : forall big bad flags typ payload r, length flags = 4%nat -> ~ In 0 typ -> (length typ <= 128)%nat ->
  Z.of_nat (length payload) < two64 -> ~ binary_type typ -> (typ = str "bqcd-plaquette" -> bad payload = false) ->
  parse_SCIDAC_hdr big bad (lime_record flags typ payload ++ r) = LRec (typ ++ repeat 0 (128 - length typ)) payload r.
Proof. exact parse_record. Qed.
Print Assumptions C14_skip_one.
(* reading: every sequence of up to eleven records before the binary data, any flags, types, payloads.  The
   reader sees exactly these records and stops at the first byte of the data; after the data it sees the
   records that follow and stops at the end of the file *)
Theorem C14_sequence : forall big bad qs flags typ data qs', Forall (good_record bad) qs -> (length qs <= 11)%nat ->
  length flags = 4%nat -> binary_type typ -> Z.of_nat (length data) mod 8 = 0 -> Z.of_nat (length data) < two64 ->
  Forall (good_record bad) qs' -> (length qs' <= 11)%nat ->
  exists rest, rest = data ++ flat_map frame qs' /\
  get_header_data_SCIDAC big bad (flat_map frame qs ++ lime_record flags typ data ++ flat_map frame qs') =
    (map seen qs, Some rest) /\
  get_header_data_SCIDAC big bad (skipn (length data) rest) = (map seen qs', Some []).
Proof.
  intros big bad qs flags typ data qs' F L HF BT M LD F' L'. eexists. split; [reflexivity|]. unfold get_header_data_SCIDAC. split.
  - rewrite records_ok by (first [assumption|lia]).
    remember (12 - length qs)%nat as k. destruct k as [|k]; [lia|]. cbn [scidac_records].
    unfold lime_record. rewrite <- !app_assoc.
    rewrite parse_header; [|assumption|destruct BT as [-> | ->]; apply str_safe; reflexivity|destruct BT as [-> | ->]; cbn; lia|lia].
    assert (R := padding_round (Z.of_nat (length data)) ltac:(lia)). unfold lime_padding in R. rewrite M, Z.eqb_refl in R.
    replace (eqs _ typ || eqs _ typ) with true by (destruct BT as [-> | ->]; reflexivity).
    rewrite <- R. rewrite app_nil_r. reflexivity.
  - rewrite skipn_app, Nat.sub_diag, skipn_all. cbn [app].
    rewrite <- (app_nil_r (flat_map frame qs')). rewrite skipn_O. rewrite records_ok by (first [assumption|lia]).
    remember (12 - length qs')%nat as k. destruct k as [|k]; [lia|]. cbn. rewrite app_nil_r. reflexivity.
Qed.
Print Assumptions C14_sequence.
Definition lime_ex : list (list Z * list Z * list Z) :=
  [(glu_flags, str "scidac-file-xml", str "<title>x</title>"); ([0; 1; 0; 0], str "ildg-data-lfn", str "lfn://")].
Example C14_ex : Forall (good_record (fun _ => true)) lime_ex /\
  lime_padding 6 = 2 /\ lime_padding 16 = 0 /\
  get_header_data_SCIDAC false (fun _ => true) (flat_map frame lime_ex ++ lime_record glu_flags (str "ildg-binary-data") [1;2;3;4;5;6;7;8] ++ [9])
   = (map seen lime_ex, Some [1;2;3;4;5;6;7;8;9]).
Proof.
  split. { repeat constructor; try (apply str_safe; reflexivity); try (cbn; lia); try (intros [E | E]; discriminate E); discriminate. }
  split; [reflexivity|]. split; [reflexivity|]. vm_compute. reflexivity.
Qed.
(* with twelve or more records before the data the reader reports success without having reached them *)
Theorem C14_twelve_records : forall big bad qs flags typ data, Forall (good_record bad) qs -> length qs = 12%nat ->
  get_header_data_SCIDAC big bad (flat_map frame qs ++ lime_record flags typ data) = (map seen qs, Some (lime_record flags typ data)).
Proof.
  intros big bad qs flags typ data F L. unfold get_header_data_SCIDAC. rewrite records_ok by (first [assumption|lia]).
  rewrite L. cbn. rewrite app_nil_r. reflexivity.
Qed.
Print Assumptions C14_twelve_records.
