From Coq Require Import String.
From Verif Require Import CInt Lib GeomProofs LimeModel LimeSpec LimeProofs TextModel TextProofs InputModel XmlModel XmlProofs XmlProofs2.

Local Open Scope Z_scope.

Lemma digits_short : forall k fuel n, (1 <= k)%nat -> 0 <= n < 10 ^ Z.of_nat k -> (List.length (digits 10 fuel n) <= k)%nat.
Proof.
  induction k as [|k IH]; intros fuel n Hk Hn; [lia|]. destruct fuel as [|f]; [cbn; lia|]. cbn [digits].
  destruct (Z.ltb_spec n 10); [cbn; lia|]. rewrite app_length. cbn [List.length].
  destruct k as [|k]; [cbn in Hn; lia|]. enough (List.length (digits 10 f (n / 10)) <= S k)%nat by lia.
  apply IH; [lia|]. rewrite Nat2Z.inj_succ, Z.pow_succ_r in Hn by lia. split; [apply Z.div_pos; lia|]. apply Z.div_lt_upper_bound; lia.
Qed.
Lemma dec_short k n : (1 <= k)%nat -> 0 <= n < 10 ^ Z.of_nat k -> (List.length (dec n) <= k)%nat.
Proof. apply digits_short. Qed.

Definition lit_ok (L : list Z) : bool := forallb (fun c => negb (c =? 0)) L.
Lemma lit_nz L : lit_ok L = true -> Forall (fun c => c <> 0) L.
Proof. unfold lit_ok. rewrite forallb_forall. intros H. apply Forall_forall. intros c I E. specialize (H c I). subst. discriminate. Qed.
Lemma nz_app a b : Forall (fun c => c <> 0) a -> Forall (fun c => c <> 0) b -> Forall (fun c => c <> 0) (a ++ b).
Proof. intros. apply Forall_app. auto. Qed.

Lemma sprintf_ok s : (List.length s < 128)%nat -> sprintf128 s = Some s.
Proof. intros H. unfold sprintf128. now destruct (Nat.ltb_spec (List.length s) 128); [|lia]. Qed.

Definition xml_tok : list Z := str "?xml version=""1.0"" encoding=""UTF-8""?".
Lemma start_tokens s : tokens sep (xml_start ++ s) = xml_tok :: tokens sep s.
Proof. rewrite tokens_lit by reflexivity. reflexivity. Qed.

Lemma some_inj {A} (x y : A) : Some x = Some y -> x = y. Proof. congruence. Qed.
(* ---- the file record ---- *)
Lemma file_tokens ND dims close : 0 < ND -> Forall (fun d => 0 <= d) dims -> dims <> [] -> 
  exists ts, tokens sep (xml_start ++ (str "<scidacFile><version>1.1</version><spacetime>" ++ dec ND ++ str "</spacetime><dims>") ++ dims_text dims ++
    str "</dims><volfmt>0</volfmt>" ++ close) =
  xml_tok :: str "scidacFile" :: str "version" :: str "1.1" :: str "/version" :: str "spacetime" :: dec ND :: str "/spacetime" :: str "dims" :: dims_text dims :: ts.
Proof.
  intros H F Hn. eexists. rewrite start_tokens, <- !app_assoc. f_equal. rewrite tokens_lit by reflexivity.
  change (tokens sep (str "<scidacFile><version>1.1</version><spacetime>")) with [str "scidacFile"; str "version"; str "1.1"; str "/version"; str "spacetime"].
  cbn [app]. do 5 f_equal. rewrite tokens_mid; [|apply dec_sep; lia|apply dec_nonempty|reflexivity]. f_equal.
  rewrite tokens_lit by reflexivity. change (tokens sep (str "</spacetime><dims>")) with [str "/spacetime"; str "dims"]. cbn [app]. do 2 f_equal.
  rewrite tokens_mid; [|now apply dims_text_clean|now apply dims_text_nonempty|reflexivity]. reflexivity.
Qed.
Lemma file_nz ND dims close : 0 < ND -> Forall (fun d => 0 <= d) dims -> lit_ok close = true ->
  Forall (fun c => c <> 0) (xml_start ++ (str "<scidacFile><version>1.1</version><spacetime>" ++ dec ND ++ str "</spacetime><dims>") ++ dims_text dims ++
    str "</dims><volfmt>0</volfmt>" ++ close).
Proof.
  intros H F C. repeat apply nz_app; try (apply lit_nz; reflexivity); [apply dec_nz; lia|now apply dims_text_nz|now apply lit_nz].
Qed.
Definition ge0 (dims : list Z) : Prop := Forall (fun d => 0 <= d < two63) dims.
Lemma ge0_pos dims : ge0 dims -> Forall (fun d => 0 <= d) dims.
Proof. intros H. eapply Forall_impl; [|exact H]. cbn. lia. Qed.

Lemma file_xml_some ND dims close : (1 <= ND < 12)%nat -> file_xml ND dims close =
  Some (xml_start ++ (str "<scidacFile><version>1.1</version><spacetime>" ++ dec (Z.of_nat ND) ++ str "</spacetime><dims>") ++ dims_text dims ++
    str "</dims><volfmt>0</volfmt>" ++ close).
Proof.
  intros H. unfold file_xml. rewrite sprintf_ok; [reflexivity|]. rewrite !app_length.
  assert (L := dec_short 2 (Z.of_nat ND) ltac:(lia) ltac:(cbn; lia)).
  change (List.length (str "<scidacFile><version>1.1</version><spacetime>")) with 45%nat. change (List.length (str "</spacetime><dims>")) with 18%nat. lia.
Qed.
Lemma file_parse NC ND ND' dims close m x : (1 <= ND < 12)%nat -> (1 <= ND' < 12)%nat -> length dims = ND' -> length (m_dims m) = ND -> ge0 dims ->
  lit_ok close = true -> file_xml ND' dims close = Some x ->
  parse_and_set_xml_SCIDAC NC ND x m = if (ND' =? ND)%nat then XOk (with_dims (with_endian m B_ENDIAN) dims) else XFail (with_endian m B_ENDIAN).
Proof.
  intros HN HN' L Lm F C E. rewrite file_xml_some in E by assumption. apply some_inj in E. subst x.
  assert (F0 := ge0_pos _ F).
  unfold parse_and_set_xml_SCIDAC. rewrite cstr_id by (apply file_nz; try assumption; lia).
  destruct (file_tokens (Z.of_nat ND') dims close) as (ts & Et); [lia|assumption|destruct dims; [cbn in L; lia|congruence]|].
  rewrite Et. change (prefix (str "?xml") xml_tok) with true. cbn [negb].
  destruct (Nat.leb_spec 12 ND) as [Hl|_]; [lia|]. cbn [List.length].
  rewrite !xml_other by (try reflexivity; lia). rewrite xml_spacetime by (try assumption; unfold two31; lia).
  assert (Eq : (Z.of_nat ND' =? Z.of_nat ND) = (ND' =? ND)%nat).
  { destruct (Z.eqb_spec (Z.of_nat ND') (Z.of_nat ND)); destruct (Nat.eqb_spec ND' ND); try reflexivity; lia. }
  rewrite Eq. destruct (Nat.eqb_spec ND' ND) as [->|]; [|reflexivity].
  apply xml_dims; try assumption.
Qed.

(* ---- the record xml ---- *)
Definition dateok (date : list Z) : Prop := clean sep date /\ Forall (fun c => c <> 0) date /\ (List.length date <= 48)%nat.
Definition size (dbl : bool) (NC : Z) (ND : nat) : Z := Z.of_nat ND * (NC * NC) * 2 * (if dbl then 2 else 1).
Definition prec_of (dbl : bool) : file_prec := if dbl then DOUBLE_PREC else FLOAT_PREC.
Definition dt1 (dbl : bool) : list Z := str (if dbl then "QDP_D" else "QDP_F")%string.
Definition pr (dbl : bool) : list Z := str (if dbl then "D" else "F")%string.
Definition record_text (dbl : bool) NC ND date : list Z := xml_start ++
  (str "<scidacRecord><version>1.0</version><date>" ++ date ++ str " GMT</date><globaldata>0</globaldata>") ++
  (str (if dbl then "<datatype>QDP_D" else "<datatype>QDP_F")%string ++ dec NC ++ str "_ColorMatrix</datatype>" ++
   str (if dbl then "<precision>D</precision>" else "<precision>F</precision>")%string) ++
  (str "<colors>" ++ dec NC ++ str "</colors><typesize>" ++ dec (size dbl NC ND) ++
   str "</typesize><datacount>" ++ dec (Z.of_nat ND) ++ str "</datacount></scidacRecord>").
Lemma NC_small dbl NC ND : 0 < NC -> (1 <= ND < 12)%nat -> size dbl NC ND < two31 -> NC < 100000 /\ 0 < size dbl NC ND.
Proof.
  intros H HN Hs. unfold size in *. assert (A : 0 < NC * NC) by nia.
  assert (B : NC * NC <= Z.of_nat ND * (NC * NC) * 2 * (if dbl then 2 else 1)) by (destruct dbl; nia).
  split; [|lia]. unfold two31 in Hs. nia.
Qed.
Lemma record_xml_some dbl NC ND date : 0 < NC -> (1 <= ND < 12)%nat -> size dbl NC ND < two31 -> dateok date ->
  record_xml dbl NC ND date = Some (record_text dbl NC ND date).
Proof.
  intros H HN Hs (D1 & D2 & D3). destruct (NC_small _ _ _ H HN Hs) as (S1 & S2). unfold record_xml.
  assert (L1 := dec_short 5 NC ltac:(lia) ltac:(cbn; lia)). assert (L2 := dec_short 2 (Z.of_nat ND) ltac:(lia) ltac:(cbn; lia)).
  assert (L3 := dec_short 10 (size dbl NC ND) ltac:(lia) ltac:(unfold two31 in Hs; cbn; lia)).
  rewrite sprintf_ok.
  2:{ rewrite !app_length. change (List.length (str "<scidacRecord><version>1.0</version><date>")) with 42%nat.
      change (List.length (str " GMT</date><globaldata>0</globaldata>")) with 37%nat. lia. }
  cbn [bindo]. rewrite sprintf_ok.
  2:{ rewrite !app_length. replace (List.length (str (if dbl then "<datatype>QDP_D" else "<datatype>QDP_F")%string)) with 15%nat by (destruct dbl; reflexivity).
      change (List.length (str "_ColorMatrix</datatype>")) with 23%nat.
      replace (List.length (str (if dbl then "<precision>D</precision>" else "<precision>F</precision>")%string)) with 24%nat by (destruct dbl; reflexivity). lia. }
  cbn [bindo]. cbv zeta. fold (size dbl NC ND). destruct (Z.leb_spec two31 (size dbl NC ND)); [lia|]. rewrite sprintf_ok.
  2:{ rewrite !app_length. change (List.length (str "<colors>")) with 8%nat. change (List.length (str "</colors><typesize>")) with 19%nat.
      change (List.length (str "</typesize><datacount>")) with 22%nat. change (List.length (str "</datacount></scidacRecord>")) with 27%nat. lia. }
  reflexivity.
Qed.
Lemma clean_lit L : forallb (fun c => negb (among sep c)) L = true -> clean sep L.
Proof. rewrite forallb_forall. intros H. apply Forall_forall. intros c I J. specialize (H c I). apply among_In in J. rewrite J in H. discriminate. Qed.
Lemma record_tokens dbl NC ND date : 0 < NC -> (1 <= ND < 12)%nat -> 0 < size dbl NC ND -> dateok date ->
  tokens sep (record_text dbl NC ND date) =
  xml_tok :: str "scidacRecord" :: str "version" :: str "1.0" :: str "/version" :: str "date" :: (date ++ str " GMT") :: str "/date" ::
  str "globaldata" :: str "0" :: str "/globaldata" :: str "datatype" :: (dt1 dbl ++ dec NC ++ str "_ColorMatrix") :: str "/datatype" ::
  str "precision" :: pr dbl :: str "/precision" :: str "colors" :: dec NC :: str "/colors" :: str "typesize" :: dec (size dbl NC ND) ::
  str "/typesize" :: str "datacount" :: dec (Z.of_nat ND) :: str "/datacount" :: str "/scidacRecord" :: [].
Proof.
  intros H HN Hs (D1 & D2 & D3). unfold record_text. rewrite start_tokens. f_equal. rewrite <- !app_assoc.
  rewrite tokens_lit by reflexivity.
  change (tokens sep (str "<scidacRecord><version>1.0</version><date>")) with [str "scidacRecord"; str "version"; str "1.0"; str "/version"; str "date"].
  cbn [app]. do 5 f_equal.
  change (str " GMT</date><globaldata>0</globaldata>") with (str " GMT" ++ str "</date><globaldata>0</globaldata>"). rewrite <- app_assoc, app_assoc.
  rewrite tokens_mid; [|apply Forall_app; split; [exact D1|apply clean_lit; reflexivity]|destruct date; discriminate|reflexivity]. f_equal.
  rewrite tokens_lit by reflexivity. change (tokens sep (str "</date><globaldata>0</globaldata>")) with [str "/date"; str "globaldata"; str "0"; str "/globaldata"].
  cbn [app]. do 4 f_equal.
  replace (str (if dbl then "<datatype>QDP_D" else "<datatype>QDP_F")%string) with (str "<datatype>" ++ dt1 dbl) by (destruct dbl; reflexivity).
  rewrite <- app_assoc. rewrite tokens_lit by reflexivity. change (tokens sep (str "<datatype>")) with [str "datatype"]. cbn [app]. f_equal.
  change (str "_ColorMatrix</datatype>") with (str "_ColorMatrix" ++ str "</datatype>"). rewrite <- app_assoc.
  match goal with |- tokens sep (?a ++ ?b ++ ?c ++ ?d ++ ?e) = _ => replace (a ++ b ++ c ++ d ++ e) with ((a ++ b ++ c) ++ d ++ e) by (now rewrite <- !app_assoc) end.
  rewrite tokens_mid; [| |destruct dbl; discriminate|reflexivity].
  2:{ apply Forall_app. split; [destruct dbl; apply clean_lit; reflexivity|]. apply Forall_app. split; [apply dec_sep; lia|apply clean_lit; reflexivity]. }
  f_equal. rewrite tokens_lit by reflexivity. change (tokens sep (str "</datatype>")) with [str "/datatype"]. cbn [app]. f_equal.
  rewrite tokens_lit by (destruct dbl; reflexivity).
  replace (tokens sep (str (if dbl then "<precision>D</precision>" else "<precision>F</precision>")%string)) with [str "precision"; pr dbl; str "/precision"]
    by (destruct dbl; reflexivity). cbn [app]. do 3 f_equal.
  rewrite tokens_lit by reflexivity. change (tokens sep (str "<colors>")) with [str "colors"]. cbn [app]. f_equal.
  rewrite tokens_mid; [|apply dec_sep; lia|apply dec_nonempty|reflexivity]. f_equal.
  rewrite tokens_lit by reflexivity. change (tokens sep (str "</colors><typesize>")) with [str "/colors"; str "typesize"]. cbn [app]. do 2 f_equal.
  rewrite tokens_mid; [|apply dec_sep; lia|apply dec_nonempty|reflexivity]. f_equal.
  rewrite tokens_lit by reflexivity. change (tokens sep (str "</typesize><datacount>")) with [str "/typesize"; str "datacount"]. cbn [app]. do 2 f_equal.
  rewrite <- (app_nil_r (str "</datacount></scidacRecord>")).
  rewrite tokens_mid; [|apply dec_sep; lia|apply dec_nonempty|reflexivity]. reflexivity.
Qed.
Lemma record_nz dbl NC ND date : 0 < NC -> 0 < size dbl NC ND -> dateok date -> Forall (fun c => c <> 0) (record_text dbl NC ND date).
Proof.
  intros H Hs (D1 & D2 & D3). unfold record_text.
  repeat apply nz_app; try (apply lit_nz; reflexivity); try (apply lit_nz; destruct dbl; reflexivity); try assumption; apply dec_nz; lia.
Qed.
Lemma eqs_ne a b : a <> b -> eqs a b = false.
Proof. intros H. destruct (eqs a b) eqn:E; [|reflexivity]. apply eqs_eq in E. contradiction. Qed.
Lemma last_ne (a : list Z) c b : last b 0 <> c -> a ++ [c] <> b.
Proof. intros H E. apply H. rewrite <- E. apply last_last. Qed.
Lemma other_last a c : negb (existsb (fun t => last t 0 =? c) tags) = true -> (2 < List.length (a ++ [c]))%nat -> other (a ++ [c]) = true.
Proof.
  intros H L. unfold other. apply andb_true_iff. split.
  - apply negb_true_iff. apply negb_true_iff in H. destruct (existsb (eqs (a ++ [c])) tags) eqn:E; [|reflexivity].
    apply existsb_exists in E. destruct E as (t & It & Et). apply eqs_eq in Et.
    assert (X : existsb (fun t => last t 0 =? c) tags = true); [|congruence].
    apply existsb_exists. exists t. split; [assumption|]. rewrite <- Et, last_last. apply Z.eqb_refl.
  - apply negb_true_iff. unfold geo. destruct (a ++ [c]) as [|x [|y [|z l]]]; cbn in L; try lia; reflexivity.
Qed.
Lemma other_dec n : 0 <= n -> other (dec n) = true.
Proof.
  intros H. destruct (dec_hd n H) as (c & l & E & Hc). rewrite E. unfold other. apply andb_true_iff. split.
  - apply negb_true_iff. destruct (existsb (eqs (c :: l)) tags) eqn:X; [|reflexivity]. apply existsb_exists in X. destruct X as (t & It & Et).
    apply eqs_eq in Et. subst t. exfalso. assert (B : forallb (fun t => match t with x :: _ => negb ((48 <=? x) && (x <=? 57)) | [] => true end) tags = true) by (vm_compute; reflexivity).
    rewrite forallb_forall in B. specialize (B _ It). cbn in B. apply negb_true_iff in B. apply andb_false_iff in B.
    destruct B as [B|B]; apply Z.leb_gt in B; lia.
  - apply negb_true_iff. unfold geo. destruct l as [|y [|z l]]; try reflexivity. apply Z.eqb_neq. lia.
Qed.
Lemma record_parse dbl NC NC' ND date m x : 0 < NC < two31 -> 0 < NC' -> (1 <= ND < 12)%nat -> size dbl NC' ND < two31 -> dateok date ->
  record_xml dbl NC' ND date = Some x ->
  parse_and_set_xml_SCIDAC NC ND x m =
  if NC' =? NC then XOk (with_type (with_prec (with_endian m B_ENDIAN) (prec_of dbl)) OUTPUT_NCxNC)
  else XFail (with_prec (with_endian m B_ENDIAN) (prec_of dbl)).
Proof.
  intros H H' HN Hs D E. destruct (NC_small _ _ _ H' HN Hs) as (S1 & S2).
  rewrite record_xml_some in E by assumption. apply some_inj in E. subst x. unfold parse_and_set_xml_SCIDAC.
  rewrite cstr_id by (now apply record_nz). rewrite record_tokens by assumption.
  change (prefix (str "?xml") xml_tok) with true. cbn [negb].
  destruct (Nat.leb_spec 12 ND) as [Hl|_]; [lia|]. cbn [List.length].
  rewrite !xml_other by (try reflexivity; lia).
  rewrite xml_other; [|lia|].
  2:{ change (str " GMT") with (str " GM" ++ [84]). rewrite app_assoc. apply other_last; [reflexivity|]. rewrite !app_length. cbn. lia. }
  rewrite !xml_other by (try reflexivity; lia).
  rewrite xml_other; [|lia|].
  2:{ change (str "_ColorMatrix") with (str "_ColorMatri" ++ [120]). rewrite !app_assoc. apply other_last; [reflexivity|]. rewrite !app_length. cbn. lia. }
  rewrite xml_other by (try reflexivity; lia).
  rewrite xml_precision by (destruct dbl; auto). rewrite xml_colors by (unfold two31; lia).
  destruct (Z.eqb_spec NC' NC) as [->|]; [|destruct dbl; reflexivity].
  rewrite xml_typesize by lia. 
  assert (Hz : 0 < Z.of_nat ND * (NC * NC)) by nia.
  destruct dbl.
  - destruct (Z.eqb_spec (size true NC ND) (2 * Z.of_nat ND * (NC * NC))) as [X|_]; [unfold size in X; lia|].
    destruct (Z.eqb_spec (size true NC ND) (4 * Z.of_nat ND * (NC * NC))) as [_|X]; [|unfold size in X; lia].
    rewrite xml_other by (try reflexivity; lia). rewrite xml_other by (try (apply other_dec); lia). rewrite xml_other by (try reflexivity; lia).
    rewrite xml_end by auto. reflexivity.
  - destruct (Z.eqb_spec (size false NC ND) (2 * Z.of_nat ND * (NC * NC))) as [_|X]; [|unfold size in X; lia].
    rewrite xml_other by (try reflexivity; lia). rewrite xml_other by (try (apply other_dec); lia). rewrite xml_other by (try reflexivity; lia).
    rewrite xml_end by auto. reflexivity.
Qed.

(* ---- checksums ---- *)
Lemma checksum_tokens a b : 0 <= a -> 0 <= b -> tokens sep (checksum_xml a b) =
  [xml_tok; str "scidacChecksum"; str "version"; str "1.0"; str "/version"; str "suma"; hex a; str "/suma"; str "sumb"; hex b; str "/sumb"; str "/scidacChecksum"].
Proof.
  intros Ha Hb. unfold checksum_xml. rewrite start_tokens. f_equal. rewrite tokens_lit by reflexivity. rewrite tokens_lit by reflexivity.
  change (tokens sep (str "<scidacChecksum>")) with [str "scidacChecksum"].
  change (tokens sep (str "<version>1.0</version><suma>")) with [str "version"; str "1.0"; str "/version"; str "suma"]. cbn [app]. do 5 f_equal.
  rewrite tokens_mid; [|now apply hex_sep|apply hex_nonempty|reflexivity]. f_equal. rewrite tokens_lit by reflexivity.
  change (tokens sep (str "</suma><sumb>")) with [str "/suma"; str "sumb"]. cbn [app]. do 2 f_equal.
  rewrite tokens_mid; [|now apply hex_sep|apply hex_nonempty|reflexivity]. reflexivity.
Qed.
Lemma other_hex n : 0 <= n -> other (hex n) = true.
Proof.
  intros H. pose proof (hex_codes n H) as F. unfold other. apply andb_true_iff. split.
  - apply negb_true_iff. destruct (existsb (eqs (hex n)) tags) eqn:X; [|reflexivity]. apply existsb_exists in X. destruct X as (t & It & Et).
    apply eqs_eq in Et. rewrite Et in F. exfalso. clear -F It. unfold tags in It. cbn [In] in It.
    repeat (destruct It as [<-|It]; [rewrite Forall_forall in F; 
      first [specialize (F 47 ltac:(cbn; tauto)); lia | specialize (F 112 ltac:(cbn; tauto)); lia | specialize (F 108 ltac:(cbn; tauto)); lia | specialize (F 109 ltac:(cbn; tauto)); lia]|]).
    contradiction.
  - apply negb_true_iff. unfold geo. destruct (hex n) as [|c [|y [|z l]]]; try reflexivity. apply Z.eqb_neq. inversion F; subst. cbn in *. lia.
Qed.
Lemma checksum_parse NC ND a b m : (1 <= ND < 12)%nat -> 0 <= a < two32 -> 0 <= b < two32 ->
  parse_and_set_xml_SCIDAC NC ND (checksum_xml a b) m = XOk (with_sum (with_endian m B_ENDIAN) a).
Proof.
  intros HN Ha Hb. unfold parse_and_set_xml_SCIDAC.
  rewrite cstr_id by (unfold checksum_xml; repeat apply nz_app; try (apply lit_nz; reflexivity); apply hex_nz; lia).
  rewrite checksum_tokens by lia. change (prefix (str "?xml") xml_tok) with true. cbn [negb].
  destruct (Nat.leb_spec 12 ND) as [Hl|_]; [lia|]. cbn [List.length].
  rewrite !xml_other by (try reflexivity; lia). rewrite xml_suma by assumption.
  rewrite xml_other by (try reflexivity; lia). rewrite xml_other by (try (apply other_hex); lia). rewrite !xml_other by (try reflexivity; lia).
  reflexivity.
Qed.
