(* C52: the XML metadata of SciDAC and ILDG files. *)
From Coq Require Import String.
From Verif Require Import CInt Lib GeomProofs LimeModel LimeSpec LimeProofs TextModel TextProofs InputModel XmlModel XmlProofs XmlProofs2 XmlProofs3 XmlProofs4 XmlProofs5.
Local Open Scope Z_scope.
Local Open Scope list_scope.

(* what a user expects to find: dims, big-endian data, the precision of the writer, full NC x NC matrices *)
Definition expected (dbl : bool) (dims : list Z) (sum sumb : Z) : meta := Meta dims B_ENDIAN (if dbl then DOUBLE_PREC else FLOAT_PREC) OUTPUT_NCxNC sum sumb.
(* the date is any text of up to 48 characters without < > and character 0 *)
Definition date_text (date : list Z) : Prop := Forall (fun c => c <> 60 /\ c <> 62 /\ c <> 0) date /\ (length date <= 48)%nat.
Lemma date_text_ok date : date_text date -> dateok date.
Proof.
  intros (F & L). split; [|split]; [eapply Forall_impl; [|exact F]|eapply Forall_impl; [|exact F]|exact L].
  - cbn. intros c (A & B & C) [E|[E|[]]]; congruence.
  - cbn. intros c (A & B & C). exact C.
Qed.

(* records without XML *)
Lemma plain_parse NC ND x m : match tokens sep (cstr x) with t :: _ => prefix (str "?xml") t | [] => true end = false ->
  parse_and_set_xml_SCIDAC NC ND x m = XOk (with_endian m B_ENDIAN).
Proof. unfold parse_and_set_xml_SCIDAC. destruct (tokens sep (cstr x)) as [|t ts]; [discriminate|]. intros ->. reflexivity. Qed.

(* SciDAC files written on one host and read on another (wbig, rbig), with the checksum block after the data: dimensions, precision,
   matrix format and first checksum are read back; the reader stops exactly at the data and at the end *)
Theorem C52_scidac_round_trip : forall wbig rbig bad dbl NC ND dims date vol cka ckb m data,
  0 < NC -> (1 <= ND < 12)%nat -> Z.of_nat ND * (NC * NC) * 4 < two31 -> length dims = ND -> Forall (fun d => 0 <= d < two63) dims ->
  date_text date -> 0 <= cka < two32 -> 0 <= ckb < two32 -> length (m_dims m) = ND ->
  exists header trailer, write_header_SCIDAC wbig dbl NC ND dims date vol = Some header /\ write_trailing_header_SCIDAC wbig cka ckb = Some trailer /\
  read_header_SCIDAC rbig bad NC ND m (header ++ data ++ trailer) = HOk (expected dbl dims (m_sum m) (m_sumb m)) (data ++ trailer) /\
  read_header_SCIDAC rbig bad NC ND (expected dbl dims (m_sum m) (m_sumb m)) trailer = HOk (expected dbl dims cka (m_sumb m)) [].
Proof.
  intros wbig rbig bad dbl NC ND dims date vol cka ckb m data HC HN Hs Ld F D Ha Hb Lm. apply date_text_ok in D.
  assert (Hz : 0 < NC * NC) by nia.
  assert (Hs1 : size dbl NC ND < two31) by (unfold size; destruct dbl; nia).
  destruct (NC_small dbl NC ND HC HN Hs1) as (S1 & S2).
  assert (F0 := ge0_pos _ F).
  pose proof (file_xml_some ND dims (str "</scidacFile>") HN) as X1.
  set (x1 := xml_start ++ _) in X1.
  assert (N1 : Forall (fun c => c <> 0) x1) by (apply file_nz; [lia|assumption|reflexivity]).
  assert (L1 : Z.of_nat (length x1) < two64).
  { unfold x1. rewrite !app_length. pose proof (dims_text_short dims F). pose proof (dec_short 2 (Z.of_nat ND) ltac:(lia) ltac:(cbn; lia)).
    change (length xml_start) with 38%nat. change (length (str "<scidacFile><version>1.1</version><spacetime>")) with 45%nat.
    change (length (str "</spacetime><dims>")) with 18%nat. change (length (str "</dims><volfmt>0</volfmt>")) with 25%nat. change (length (str "</scidacFile>")) with 13%nat.
    unfold two64. lia. }
  pose proof (record_xml_some dbl NC ND date HC HN Hs1 D) as X3. set (x3 := record_text dbl NC ND date) in X3.
  assert (N3 : Forall (fun c => c <> 0) x3) by (now apply record_nz).
  assert (L3 : Z.of_nat (length x3) < two64).
  { unfold x3, record_text. destruct D as (_ & _ & D3). pose proof (dec_short 5 NC ltac:(lia) ltac:(cbn; lia)) as K1. pose proof (dec_short 2 (Z.of_nat ND) ltac:(lia) ltac:(cbn; lia)) as K2.
    pose proof (dec_short 10 (size dbl NC ND) ltac:(lia) ltac:(unfold two31 in Hs1; cbn; lia)) as K3. rewrite !app_length.
    assert (Z.of_nat (length xml_start + (length (str "<scidacRecord><version>1.0</version><date>") + (length date + length (str " GMT</date><globaldata>0</globaldata>")) +
      (length (str (if dbl then "<datatype>QDP_D" else "<datatype>QDP_F")%string) + (length (dec NC) + (length (str "_ColorMatrix</datatype>") +
      length (str (if dbl then "<precision>D</precision>" else "<precision>F</precision>")%string))) + (length (str "<colors>") + (length (dec NC) + (length (str "</colors><typesize>") +
      (length (dec (size dbl NC ND)) + (length (str "</typesize><datacount>") + (length (dec (Z.of_nat ND)) + length (str "</datacount></scidacRecord>")))))))))) < 100000); [|unfold two64; lia].
    destruct dbl; cbn -[Z.of_nat dec size]; lia. }
  destruct (put_data_ok wbig NC ND dbl vol "scidac-binary-data" eq_refl ltac:(cbn; lia)) as (len & Hlen & Ed).
  assert (P1 : put wbig x1 "scidac-private-file-xml" = Some (lime_record glu_flags (str "scidac-private-file-xml") x1)) by (apply put_ok; [assumption|reflexivity|cbn; lia|assumption]).
  assert (P2 : forall x b, lit_ok x = true -> lit_ok (str b) = true -> (length (str b) <= 128)%nat -> Z.of_nat (length x) < two64 ->
     put wbig x b = Some (lime_record glu_flags (str b) x)) by (intros; apply put_ok; try assumption; now apply lit_nz).
  assert (P3 : put wbig x3 "scidac-private-record-xml" = Some (lime_record glu_flags (str "scidac-private-record-xml") x3)) by (apply put_ok; [assumption|reflexivity|cbn; lia|assumption]).
  assert (Nc : Forall (fun c => c <> 0) (checksum_xml cka ckb)) by (unfold checksum_xml; repeat apply nz_app; try (apply lit_nz; reflexivity); apply hex_nz; lia).
  assert (Lc : Z.of_nat (length (checksum_xml cka ckb)) < two64).
  { assert (Hh : forall n, 0 <= n < two32 -> (length (hex n) <= 33)%nat).
    { intros n Hn. unfold hex. assert (Z.log2 n < 32) by (destruct (Z.eq_dec n 0) as [->|]; [reflexivity|apply Z.log2_lt_pow2; [lia|]; change (2 ^ 32) with two32; lia]).
      assert (G : forall fuel k, (length (digits 16 fuel k) <= fuel)%nat).
      { induction fuel as [|f IH]; intros k; [cbn; lia|]. cbn [digits]. destruct (k <? 16); [cbn; lia|]. rewrite app_length. cbn [length]. specialize (IH (k / 16)). lia. }
      etransitivity; [apply G|]. pose proof (Z.log2_nonneg n). lia. }
    unfold checksum_xml. rewrite !app_length. pose proof (Hh cka Ha). pose proof (Hh ckb Hb). cbn -[Z.of_nat hex two64]. unfold two64. lia. }
  eexists; eexists. split.
  { unfold write_header_SCIDAC. rewrite X1. cbn [bindo]. rewrite P1. cbn [bindo]. rewrite P2 by (try reflexivity; cbn; lia). cbn [bindo]. rewrite X3. cbn [bindo]. rewrite P3. cbn [bindo].
    rewrite P2 by (try reflexivity; cbn; lia). cbn [bindo]. rewrite Ed. cbn [bindo]. reflexivity. }
  split.
  { unfold write_trailing_header_SCIDAC. apply put_ok; [assumption|reflexivity|cbn; lia|assumption]. }
  unfold read_header_SCIDAC. split.
  - rewrite <- !app_assoc. rewrite header_step by (try reflexivity; assumption).
    rewrite (file_parse NC ND ND dims (str "</scidacFile>") m x1 HN HN Ld Lm F eq_refl X1). rewrite Nat.eqb_refl.
    rewrite header_step by (try reflexivity; cbn; lia).
    rewrite plain_parse by (vm_compute; reflexivity). cbv iota.
    rewrite header_step by (try reflexivity; assumption).
    rewrite (record_parse dbl NC NC ND date _ x3 ltac:(unfold two31 in *; lia) HC HN Hs1 D X3). rewrite Z.eqb_refl.
    rewrite header_step by (try reflexivity; cbn; lia).
    rewrite plain_parse by (vm_compute; reflexivity). cbv iota.
    rewrite header_data by auto. destruct dbl; reflexivity.
  - rewrite <- (app_nil_r (lime_record _ _ _)). rewrite header_step by (try reflexivity; assumption). rewrite checksum_parse by assumption. reflexivity.
Qed.
Print Assumptions C52_scidac_round_trip.
Definition m0 : meta := Meta [1; 1; 1; 1] L_ENDIAN FLOAT_PREC OUTPUT_SMALL 77 5.
Definition no_plaq : list Z -> bool := fun _ => false.
Definition date0 : list Z := str "Mon Jan  0 00:00:00 1970".
Lemma date0_ok : date_text date0.
Proof. split; [|cbn; lia]. repeat constructor; discriminate. Qed.
Example C52_scidac_ex : 0 < 3 /\ (1 <= 4 < 12)%nat /\ Forall (fun d => 0 <= d < two63) [16; 16; 24; 128] /\ date_text date0 /\ length (m_dims m0) = 4%nat /\
  (exists f, write_header_SCIDAC false true 3 4 [16; 16; 24; 128] date0 786432 = Some f /\
   read_header_SCIDAC false no_plaq 3 4 m0 (f ++ [1; 2]) = HOk (Meta [16; 16; 24; 128] B_ENDIAN DOUBLE_PREC OUTPUT_NCxNC 77 5) [1; 2]).
Proof.
  split; [lia|]. split; [lia|]. split; [repeat constructor; discriminate|]. split; [exact date0_ok|]. split; [reflexivity|].
  eexists. split; [vm_compute; reflexivity|vm_compute; reflexivity].
Qed.

(* ILDG files: up to four dimensions, or any number of colours but three (the format record is then given up at its first element
   and the SciDAC records decide) *)
Theorem C52_ildg_round_trip : forall wbig rbig bad dbl NC ND dims date vol m data,
  0 < NC < 100 -> (1 <= ND < 12)%nat -> (NC = 3 -> (ND <= 4)%nat) -> length dims = ND -> Forall (fun d => 0 < d < two31) dims ->
  date_text date -> length (m_dims m) = ND ->
  exists header, write_header_ILDG wbig dbl NC ND dims date vol = Some header /\
  read_header_SCIDAC rbig bad NC ND m (header ++ data) = HOk (expected dbl dims (m_sum m) (m_sumb m)) data.
Proof.
  intros wbig rbig bad dbl NC ND dims date vol m data HC HN H3 Ld F2 D Lm. apply date_text_ok in D.
  assert (F : Forall (fun d => 0 <= d < two63) dims) by (eapply Forall_impl; [|exact F2]; cbn; unfold two31, two63; lia).
  assert (Hz : 0 < NC * NC < 10000) by nia.
  assert (Hs1 : size dbl NC ND < two31) by (unfold size, two31; destruct dbl; nia).
  assert (HC0 : 0 < NC) by lia.
  destruct (NC_small dbl NC ND HC0 HN Hs1) as (S1 & S2).
  assert (F0 := ge0_pos _ F).
  pose proof (file_xml_some ND dims (str "</ScidacFile>") HN) as X1.
  set (x1 := xml_start ++ _) in X1.
  assert (N1 : Forall (fun c => c <> 0) x1) by (apply file_nz; [lia|assumption|reflexivity]).
  assert (L1 : Z.of_nat (length x1) < two64).
  { unfold x1. rewrite !app_length. pose proof (dims_text_short dims F). pose proof (dec_short 2 (Z.of_nat ND) ltac:(lia) ltac:(cbn; lia)).
    change (length xml_start) with 38%nat. change (length (str "<scidacFile><version>1.1</version><spacetime>")) with 45%nat.
    change (length (str "</spacetime><dims>")) with 18%nat. change (length (str "</dims><volfmt>0</volfmt>")) with 25%nat. change (length (str "</ScidacFile>")) with 13%nat.
    unfold two64. lia. }
  pose proof (record_xml_some dbl NC ND date HC0 HN Hs1 D) as X3. set (x3 := record_text dbl NC ND date) in X3.
  assert (N3 : Forall (fun c => c <> 0) x3) by (now apply record_nz).
  assert (L3 : Z.of_nat (length x3) < two64).
  { unfold x3, record_text. destruct D as (_ & _ & D3). pose proof (dec_short 5 NC ltac:(lia) ltac:(cbn; lia)) as K1. pose proof (dec_short 2 (Z.of_nat ND) ltac:(lia) ltac:(cbn; lia)) as K2.
    pose proof (dec_short 10 (size dbl NC ND) ltac:(lia) ltac:(unfold two31 in Hs1; cbn; lia)) as K3. rewrite !app_length.
    assert (Z.of_nat (length xml_start + (length (str "<scidacRecord><version>1.0</version><date>") + (length date + length (str " GMT</date><globaldata>0</globaldata>")) +
      (length (str (if dbl then "<datatype>QDP_D" else "<datatype>QDP_F")%string) + (length (dec NC) + (length (str "_ColorMatrix</datatype>") +
      length (str (if dbl then "<precision>D</precision>" else "<precision>F</precision>")%string))) + (length (str "<colors>") + (length (dec NC) + (length (str "</colors><typesize>") +
      (length (dec (size dbl NC ND)) + (length (str "</typesize><datacount>") + (length (dec (Z.of_nat ND)) + length (str "</datacount></scidacRecord>")))))))))) < 100000); [|unfold two64; lia].
    destruct dbl; cbn -[Z.of_nat dec size]; lia. }
  set (x5 := ildg_xml dbl ND dims).
  assert (N5 : Forall (fun c => c <> 0) x5) by (now apply ildg_nz).
  assert (L5 : Z.of_nat (length x5) < two64).
  { unfold x5, ildg_xml. rewrite !app_length. pose proof (geos_short ND ltac:(lia) dims 0 ltac:(lia) F) as G. 
    generalize dependent (length (geometry_tags ND 0 dims)). intros g G. destruct dbl; cbn -[Z.of_nat two64 plus]; unfold two64; lia. }
  destruct (put_data_ok wbig NC ND dbl vol "ildg-binary-data" eq_refl ltac:(cbn; lia)) as (len & Hlen & Ed).
  assert (P1 : put wbig x1 "scidac-private-file-xml" = Some (lime_record glu_flags (str "scidac-private-file-xml") x1)) by (apply put_ok; [assumption|reflexivity|cbn; lia|assumption]).
  assert (P2 : forall x b, lit_ok x = true -> lit_ok (str b) = true -> (length (str b) <= 128)%nat -> Z.of_nat (length x) < two64 ->
     put wbig x b = Some (lime_record glu_flags (str b) x)) by (intros; apply put_ok; try assumption; now apply lit_nz).
  assert (P3 : put wbig x3 "scidac-private-record-xml" = Some (lime_record glu_flags (str "scidac-private-record-xml") x3)) by (apply put_ok; [assumption|reflexivity|cbn; lia|assumption]).
  assert (P5 : put wbig x5 "ildg-format" = Some (lime_record glu_flags (str "ildg-format") x5)) by (apply put_ok; [assumption|reflexivity|cbn; lia|assumption]).
  eexists. split.
  { unfold write_header_ILDG. rewrite X1. cbn [bindo]. rewrite P1. cbn [bindo]. rewrite P2 by (try reflexivity; cbn; lia). cbn [bindo]. rewrite X3. cbn [bindo]. rewrite P3. cbn [bindo].
    rewrite P2 by (try reflexivity; cbn; lia). cbn [bindo]. fold x5. rewrite P5. cbn [bindo]. rewrite P2 by (try reflexivity; cbn; lia). cbn [bindo]. rewrite Ed. cbn [bindo]. reflexivity. }
  unfold read_header_SCIDAC. rewrite <- !app_assoc. rewrite header_step by (try reflexivity; assumption).
  rewrite (file_parse NC ND ND dims (str "</ScidacFile>") m x1 HN HN Ld Lm F eq_refl X1). rewrite Nat.eqb_refl.
  rewrite header_step by (try reflexivity; cbn; lia).
  rewrite plain_parse by (vm_compute; reflexivity). cbv iota.
  rewrite header_step by (try reflexivity; assumption).
  rewrite (record_parse dbl NC NC ND date _ x3 ltac:(unfold two31 in *; lia) HC0 HN Hs1 D X3). rewrite Z.eqb_refl.
  rewrite header_step by (try reflexivity; cbn; lia).
  rewrite plain_parse by (vm_compute; reflexivity). cbv iota.
  rewrite header_step by (try reflexivity; assumption). unfold x5. rewrite ildg_parse; [|assumption|assumption|assumption|cbn; assumption|assumption|assumption].
  destruct (NC =? 3); cbv beta iota.
  - rewrite header_step by (try reflexivity; cbn; lia). rewrite plain_parse by (vm_compute; reflexivity). cbv iota.
    rewrite header_data by auto. destruct dbl; reflexivity.
  - rewrite header_step by (try reflexivity; cbn; lia). rewrite plain_parse by (vm_compute; reflexivity). cbv iota.
    rewrite header_data by auto. destruct dbl; reflexivity.
Qed.
Print Assumptions C52_ildg_round_trip.
Example C52_ildg_ex : (0 < 3 < 100 /\ 0 < 2 < 100) /\ (3 = 3 -> (4 <= 4)%nat) /\ Forall (fun d => 0 < d < two31) [16; 16; 24; 128] /\
  (exists f, write_header_ILDG false false 3 4 [16; 16; 24; 128] date0 786432 = Some f /\
   read_header_SCIDAC true no_plaq 3 4 m0 (f ++ [1; 2]) = HOk (Meta [16; 16; 24; 128] B_ENDIAN FLOAT_PREC OUTPUT_NCxNC 77 5) [1; 2]).
Proof.
  split; [lia|]. split; [lia|]. split; [repeat constructor; reflexivity|]. eexists. split; [vm_compute; reflexivity|vm_compute; reflexivity].
Qed.
(* with three colours and five dimensions the last extent is read as 2^64 - 1 *)
Theorem C52_ildg_five_dims_refuted : exists dims f m data, length dims = 5%nat /\ Forall (fun d => 0 < d < two31) dims /\ length (m_dims m) = 5%nat /\
  write_header_ILDG false true 3 5 dims date0 12288 = Some f /\
  exists m', read_header_SCIDAC false no_plaq 3 5 m (f ++ data) = HOk m' data /\ m_dims m' = [4; 4; 4; 8; two64 - 1] /\ dims = [4; 4; 4; 8; 12].
Proof.
  exists [4; 4; 4; 8; 12]. eexists. exists (Meta [1; 1; 1; 1; 1] L_ENDIAN FLOAT_PREC OUTPUT_SMALL 77 5), [].
  split; [reflexivity|]. split; [repeat constructor; reflexivity|]. split; [reflexivity|]. split; [vm_compute; reflexivity|].
  eexists. split; [vm_compute; reflexivity|]. split; reflexivity.
Qed.
Print Assumptions C52_ildg_five_dims_refuted.
(* an extent of 2^31 or more does not survive the ILDG record although the SciDAC record holds it *)
Theorem C52_ildg_large_refuted : exists d f m', write_header_ILDG false true 3 4 [1; 1; 1; d] date0 12288 = Some f /\ two31 <= d < two32 /\
  read_header_SCIDAC false no_plaq 3 4 m0 f = HOk m' [] /\ m_dims m' <> [1; 1; 1; d].
Proof.
  exists 2147483648. eexists. eexists. split; [vm_compute; reflexivity|]. split; [split; [discriminate|reflexivity]|].
  split; [vm_compute; reflexivity|]. vm_compute. discriminate.
Qed.
Print Assumptions C52_ildg_large_refuted.

(* the second checksum is written but not read *)
Theorem C52_sumb_refuted : exists t1 t2, write_trailing_header_SCIDAC false 0xdeadbeef 0x1234 = Some t1 /\ write_trailing_header_SCIDAC false 0xdeadbeef 0x99999999 = Some t2 /\
  read_header_SCIDAC false no_plaq 3 4 m0 t1 = read_header_SCIDAC false no_plaq 3 4 m0 t2 /\
  exists m', read_header_SCIDAC false no_plaq 3 4 m0 t1 = HOk m' [] /\ m_sum m' = 0xdeadbeef /\ m_sumb m' <> 0x1234.
Proof.
  eexists. eexists. split; [vm_compute; reflexivity|]. split; [vm_compute; reflexivity|]. split; [vm_compute; reflexivity|].
  eexists. split; [vm_compute; reflexivity|]. split; [reflexivity|]. discriminate.
Qed.
Print Assumptions C52_sumb_refuted.

(* every text: nothing outside of the arrays is touched and the result is success or failure, if there is at least one word between the
   brackets, the word after "dims" holds no more than ND numbers, the words between "precision" and "/precision" have less than 8 characters
   and those between "suma" and "/suma" no more than 8 *)
Theorem C52_stays_inside : forall NC ND text m ts, NC < 100 -> (1 <= ND < 12)%nat -> ~ In 0 text -> length (m_dims m) = ND ->
  splits (str "<>") text ts -> ts <> [] -> safe ND ts ->
  exists m', (parse_and_set_xml_SCIDAC NC ND text m = XOk m' \/ parse_and_set_xml_SCIDAC NC ND text m = XFail m') /\ length (m_dims m') = ND.
Proof. exact parse_defined. Qed.
Print Assumptions C52_stays_inside.
Definition odd_text : list Z := str "<?xml?><a><precision>bad</precision><dims>1 2 x 4</dims>".
Definition odd_words : list (list Z) := [str "?xml?"; str "a"; str "precision"; str "bad"; str "/precision"; str "dims"; str "1 2 x 4"; str "/dims"].
Lemma splits_wrap w s ts : forallb (fun c => negb (among sep c)) w = true -> w <> [] -> splits sep s ts -> splits sep (60 :: w ++ 62 :: s) (w :: ts).
Proof. intros C N S. apply splits_sep; [now left|]. apply splits_word; [assumption|now apply clean_lit|right; now left|assumption]. Qed.
Lemma splits_mid w s ts : forallb (fun c => negb (among sep c)) w = true -> w <> [] -> splits sep s ts -> splits sep (w ++ 60 :: s) (w :: ts).
Proof. intros C N S. apply splits_word; [assumption|now apply clean_lit|now left|assumption]. Qed.
Example C52_inside_ex : ~ In 0 odd_text /\ splits (str "<>") odd_text odd_words /\ safe 4 odd_words /\ odd_words <> [] /\
  parse_and_set_xml_SCIDAC 3 4 odd_text m0 = XOk (Meta [1; 2; 0; 4] B_ENDIAN FLOAT_PREC OUTPUT_SMALL 77 5).
Proof.
  split; [apply nz_notin; apply lit_nz; reflexivity|]. split; [|split; [|split; [discriminate|vm_compute; reflexivity]]].
  - unfold odd_text. apply (splits_wrap (str "?xml?")); [reflexivity|discriminate|]. apply (splits_wrap (str "a")); [reflexivity|discriminate|].
    apply (splits_wrap (str "precision")); [reflexivity|discriminate|]. apply (splits_mid (str "bad") (str "/precision><dims>1 2 x 4</dims>")); [reflexivity|discriminate|].
    apply (splits_word sep (str "/precision") 62); [discriminate|now apply clean_lit|right; now left|].
    apply (splits_wrap (str "dims")); [reflexivity|discriminate|]. apply (splits_mid (str "1 2 x 4") (str "/dims>")); [reflexivity|discriminate|].
    apply (splits_word sep (str "/dims") 62); [discriminate|now apply clean_lit|right; now left|constructor].
  - split; [|split].
    + intros a u c E. do 5 (destruct a as [|? a]; [discriminate E|injection E as _ E]). destruct a as [|? a]; [injection E as <- <-|injection E as _ E; do 2 (destruct a as [|? a]; [discriminate E|injection E as _ E]); destruct a; discriminate E].
        exists [str "1"; str "2"; str "x"; str "4"]. split; [|cbn; lia].
        apply (splits_word blank1 (str "1") 32); [discriminate| |now left|]. { repeat constructor; intros [X|[]]; discriminate. }
        apply (splits_word blank1 (str "2") 32); [discriminate| |now left|]. { repeat constructor; intros [X|[]]; discriminate. }
        apply (splits_word blank1 (str "x") 32); [discriminate| |now left|]. { repeat constructor; intros [X|[]]; discriminate. }
        apply splits_end; [discriminate|]. repeat constructor; intros [X|[]]; discriminate.
    + intros a b t c E Hb. destruct a as [|? a]; [discriminate|injection E as _ E]. destruct a as [|? a]; [discriminate|injection E as _ E].
      destruct a as [|? a]; [injection E as E|injection E as _ E].
      * destruct b as [|b0 b]; [injection E as <- _; cbn; lia|]. injection E as <- E. destruct b as [|b1 b].
        { injection E as <- _. exfalso. apply (Hb (str "/precision")); [now right; left|now exists []]. }
        injection E as <- E. exfalso. apply (Hb (str "/precision")); [now right; left|now exists []].
      * do 5 (destruct a as [|? a]; [discriminate E|injection E as _ E]). destruct a; discriminate E.
    + intros a b t c E. do 8 (destruct a as [|? a]; [discriminate E|injection E as _ E]). destruct a; discriminate E.
Qed.
(* each of the conditions is needed: an empty text, a fifth extent, a long word for the precision, a nine digit checksum *)
Theorem C52_outside_refuted : exists t1 t2 t3 t4, t1 = [] /\ t2 = str "<?xml?><scidacFile><dims>4 4 4 4 4</dims>" /\
  t3 = str "<?xml?><scidacRecord><precision>float-32</precision>" /\ t4 = str "<?xml?><scidacChecksum><suma>123456789</suma>" /\
  Forall (fun t => parse_and_set_xml_SCIDAC 3 4 t m0 = XUndef) [t1; t2; t3; t4].
Proof. do 4 eexists. split; [reflexivity|]. split; [reflexivity|]. split; [reflexivity|]. split; [reflexivity|]. repeat constructor; vm_compute; reflexivity. Qed.
Print Assumptions C52_outside_refuted.

(* rejection: a number of dimensions or of colours other than the compiled one is reported by the parser and nothing of the geometry is changed *)
Theorem C52_mismatch : forall NC ND dims close m x, (1 <= ND < 12)%nat -> (1 <= length dims < 12)%nat -> length dims <> ND -> length (m_dims m) = ND ->
  Forall (fun d => 0 <= d < two63) dims -> close = str "</scidacFile>" \/ close = str "</ScidacFile>" -> file_xml (length dims) dims close = Some x ->
  exists m', parse_and_set_xml_SCIDAC NC ND x m = XFail m' /\ m_dims m' = m_dims m.
Proof.
  intros NC ND dims close m x HN HN' Hd Lm F Hc E. eexists. split.
  - rewrite (file_parse NC ND (length dims) dims close m x HN HN' eq_refl Lm F ltac:(destruct Hc as [-> | ->]; reflexivity) E).
    destruct (Nat.eqb_spec (length dims) ND); [contradiction|reflexivity].
  - reflexivity.
Qed.
Print Assumptions C52_mismatch.
Theorem C52_colours : forall dbl NC NC' ND date m x, 0 < NC < two31 -> 0 < NC' -> NC' <> NC -> (1 <= ND < 12)%nat -> Z.of_nat ND * (NC' * NC') * 4 < two31 ->
  date_text date -> record_xml dbl NC' ND date = Some x -> exists m', parse_and_set_xml_SCIDAC NC ND x m = XFail m' /\ m_dims m' = m_dims m /\ m_type m' = m_type m.
Proof.
  intros dbl NC NC' ND date m x H H' Hne HN Hs D E. apply date_text_ok in D. assert (Hz : 0 < NC' * NC') by nia.
  assert (Hs1 : size dbl NC' ND < two31) by (unfold size; destruct dbl; nia). eexists. split.
  - rewrite (record_parse dbl NC NC' ND date m x H H' HN Hs1 D E). destruct (Z.eqb_spec NC' NC); [contradiction|reflexivity].
  - split; reflexivity.
Qed.
Print Assumptions C52_colours.
Example C52_mismatch_ex : exists x y, file_xml 3 [4; 4; 8] (str "</scidacFile>") = Some x /\ parse_and_set_xml_SCIDAC 3 4 x m0 = XFail (with_endian m0 B_ENDIAN) /\
  record_xml true 2 4 date0 = Some y /\ exists m', parse_and_set_xml_SCIDAC 3 4 y m0 = XFail m'.
Proof. do 2 eexists. split; [vm_compute; reflexivity|]. split; [vm_compute; reflexivity|]. split; [vm_compute; reflexivity|]. eexists. vm_compute. reflexivity. Qed.
(* but the caller does not look: an SU(2) file in four dimensions and an SU(3) file in three dimensions are read without an error *)
Theorem C52_reject_refuted : exists f g m1 m2, write_header_SCIDAC false true 2 4 [4; 4; 4; 8] date0 512 = Some f /\ write_header_SCIDAC false true 3 3 [4; 4; 8] date0 128 = Some g /\
  read_header_SCIDAC false no_plaq 3 4 m0 f = HOk m1 [] /\ read_header_SCIDAC false no_plaq 3 4 m0 g = HOk m2 [].
Proof. do 4 eexists. split; [vm_compute; reflexivity|]. split; [vm_compute; reflexivity|]. split; vm_compute; reflexivity. Qed.
Print Assumptions C52_reject_refuted.
(* and malformed numbers are taken: an extent abc becomes 2^64 - 1, an unknown precision is passed over *)
Theorem C52_malformed_refuted : exists m1, parse_and_set_xml_SCIDAC 3 4 (str "<?xml?><ildgFormat><precision>16</precision><lx>abc</lx></ildgFormat>") m0 = XOk m1 /\
  m_dims m1 = [two64 - 1; 1; 1; 1] /\ m_prec m1 = m_prec m0.
Proof. eexists. split; [vm_compute; reflexivity|]. split; reflexivity. Qed.
Print Assumptions C52_malformed_refuted.
