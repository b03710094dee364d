From Coq Require Import String.
From Verif Require Import CInt Lib GeomProofs LimeModel LimeSpec LimeProofs TextModel TextProofs InputModel XmlModel XmlProofs XmlProofs2 XmlProofs3.
Local Open Scope Z_scope.

(* ---- the ILDG record ---- *)
Lemma search_clean ND mu : (mu < ND)%nat -> (ND < 12)%nat -> clean sep (search ND mu) /\ search ND mu <> [] /\ Forall (fun c => c <> 0) (search ND mu).
Proof.
  intros H1 H2. assert (G : forallb (fun n => forallb (fun k => forallb (fun c => negb (among sep c)) (search n k) && lit_ok (search n k)) (seq 0 n)) (seq 0 12) = true) by (vm_compute; reflexivity).
  rewrite forallb_forall in G. specialize (G ND ltac:(apply in_seq; lia)). rewrite forallb_forall in G. specialize (G mu ltac:(apply in_seq; lia)).
  apply andb_true_iff in G. destruct G as [G1 G2]. split; [now apply clean_lit|]. split; [|now apply lit_nz].
  pose proof (search_geo ND mu H1 H2) as X. intros E. rewrite E in X. discriminate.
Qed.
Lemma geometry_tag_text ND mu d : geometry_tag ND mu d = 60 :: search ND mu ++ 62 :: dec d ++ 60 :: (47 :: search ND mu) ++ [62].
Proof.
  unfold geometry_tag, search. destruct (mu =? ND - 1)%nat; [reflexivity|]. destruct (mu <? 4)%nat.
  - cbn [str list_ascii_of_string map app]. reflexivity.
  - change (str "<l") with (60 :: str "l"). change (str "</l") with (60 :: 47 :: str "l"). change (str ">") with [62].
    rewrite <- !app_assoc. cbn [app]. rewrite <- !app_assoc. reflexivity.
Qed.
Lemma geo_tokens ND mu d s : (mu < ND)%nat -> (ND < 12)%nat -> 0 <= d ->
  tokens sep (geometry_tag ND mu d ++ s) = search ND mu :: dec d :: (47 :: search ND mu) :: tokens sep s.
Proof.
  intros H1 H2 Hd. destruct (search_clean ND mu H1 H2) as (C1 & C2 & _). rewrite geometry_tag_text. cbn [app]. rewrite tokens_sep by (now left).
  rewrite <- app_assoc. cbn [app]. rewrite tokens_word; [|assumption|assumption|right; now left]. f_equal.
  rewrite <- app_assoc. cbn [app]. rewrite tokens_word; [|now apply dec_sep|apply dec_nonempty|now left]. f_equal.
  rewrite <- app_assoc. cbn [app]. change (47 :: search ND mu ++ 62 :: s) with ((47 :: search ND mu) ++ 62 :: s).
  rewrite tokens_word; [reflexivity| |congruence|right; now left]. constructor; [|assumption]. intros [E|[E|[]]]; discriminate.
Qed.
Fixpoint geo_toks (ND mu : nat) (dims : list Z) : list (list Z) :=
  match dims with [] => [] | d :: r => search ND mu :: dec d :: (47 :: search ND mu) :: geo_toks ND (S mu) r end.
Lemma geos_tokens ND : (ND < 12)%nat -> forall dims mu s, (mu + length dims <= ND)%nat -> Forall (fun d => 0 <= d) dims ->
  tokens sep (geometry_tags ND mu dims ++ s) = (geo_toks ND mu dims ++ tokens sep s)%list.
Proof.
  intros HN. induction dims as [|d r IH]; intros mu s L F; [reflexivity|]. apply Forall_cons_iff in F. destruct F as [Hd F]. cbn [length] in L.
  cbn [geometry_tags geo_toks app]. rewrite <- app_assoc, geo_tokens by lia. rewrite IH by (try assumption; lia). reflexivity.
Qed.
Lemma geos_nz ND : (ND < 12)%nat -> forall dims mu, (mu + length dims <= ND)%nat -> Forall (fun d => 0 <= d) dims -> Forall (fun c => c <> 0) (geometry_tags ND mu dims).
Proof.
  intros HN. induction dims as [|d r IH]; intros mu L F; [constructor|]. apply Forall_cons_iff in F. destruct F as [Hd F]. cbn [length] in L.
  cbn [geometry_tags]. apply nz_app; [|apply IH; [lia|assumption]]. rewrite geometry_tag_text. destruct (search_clean ND mu ltac:(lia) HN) as (_ & _ & C).
  constructor; [lia|]. apply nz_app; [assumption|]. constructor; [lia|]. apply nz_app; [now apply dec_nz|]. constructor; [lia|].
  constructor; [lia|]. apply nz_app; [assumption|]. repeat constructor; lia.
Qed.
Lemma xml_geos NC ND : (1 <= ND <= 4)%nat -> forall rest fuel m pre old ts, m_dims m = (pre ++ old)%list -> length old = length rest -> length (pre ++ old) = ND ->
  Forall (fun d => 0 < d < two31) rest -> (length rest < fuel)%nat ->
  xml_loop fuel NC ND m (geo_toks ND (length pre) rest ++ str "/ildgFormat" :: ts) = XOk (with_dims m (pre ++ rest)).
Proof.
  intros HN. induction rest as [|d rest IH]; intros fuel m pre old ts Em Lo L F Hf.
  - destruct fuel as [|f]; [cbn in Hf; lia|]. cbn [geo_toks app]. rewrite xml_end by auto. destruct old; [|discriminate].
    rewrite <- Em. destruct m; reflexivity.
  - destruct old as [|o old]; [discriminate|]. apply Forall_cons_iff in F. destruct F as [Hd F]. cbn [length] in *. destruct fuel as [|f]; [lia|].
    cbn [geo_toks app]. assert (Lt : (length pre < ND)%nat) by (rewrite app_length in L; cbn in L; lia).
    destruct (xml_geo NC ND ltac:(lia) f m (length pre) d (geo_toks ND (S (length pre)) rest ++ str "/ildgFormat" :: ts) ltac:(lia) Lt Hd) as (dd & E & X); [congruence|].
    rewrite X. rewrite Em, set_nth_mid in E. apply some_inj in E. subst dd.
    replace (S (length pre)) with (length (pre ++ [d])) by (rewrite app_length; cbn; lia).
    rewrite (IH f _ (pre ++ [d])%list old ts).
    + unfold with_dims. cbn. now rewrite <- app_assoc.
    + cbn. now rewrite <- app_assoc.
    + lia.
    + rewrite <- app_assoc. rewrite app_length in *. cbn in *. lia.
    + assumption.
    + lia.
Qed.
Lemma geo_toks_len ND : forall dims mu, (length dims <= length (geo_toks ND mu dims))%nat.
Proof. induction dims as [|d r IH]; intros mu; [cbn; lia|]. cbn [geo_toks length]. specialize (IH (S mu)). lia. Qed.

Definition ildg_tok : list Z := str "ildgFormat xmlns=""http://www.lqcd.org/ildg"" xmlns:xsi=""http://www.w3.org/2001/XMLSchema-instance"" xsi:schemaLocation=""http://www.lqcd.org/ildg/filefmt.xsd""".
Definition pr2 (dbl : bool) : list Z := str (if dbl then "64" else "32")%string.
Lemma ildg_tokens dbl ND dims : (1 <= ND < 12)%nat -> length dims = ND -> Forall (fun d => 0 <= d) dims ->
  tokens sep (ildg_xml dbl ND dims) = xml_tok :: ildg_tok :: str "version" :: str "1.0" :: str "/version" :: str "field" :: str "su3gauge" :: str "/field" ::
   str "precision" :: pr2 dbl :: str "/precision" :: geo_toks ND 0 dims ++ [str "/ildgFormat"].
Proof.
  intros HN L F. unfold ildg_xml. rewrite start_tokens. f_equal. rewrite tokens_lit by (vm_compute; reflexivity).
  match goal with |- (?a ++ _)%list = _ => replace a with [ildg_tok; str "version"; str "1.0"; str "/version"] by (vm_compute; reflexivity) end.
  cbn [app]. do 4 f_equal. rewrite tokens_lit by (destruct dbl; vm_compute; reflexivity).
  match goal with |- (?a ++ _)%list = _ => replace a with [str "field"; str "su3gauge"; str "/field"; str "precision"; pr2 dbl; str "/precision"] by (destruct dbl; vm_compute; reflexivity) end.
  cbn [app]. do 6 f_equal. rewrite geos_tokens by (try assumption; lia). reflexivity.
Qed.
Lemma ildg_nz dbl ND dims : (1 <= ND < 12)%nat -> length dims = ND -> Forall (fun d => 0 <= d) dims -> Forall (fun c => c <> 0) (ildg_xml dbl ND dims).
Proof.
  intros HN L F. unfold ildg_xml. repeat apply nz_app; try (apply lit_nz; destruct dbl; vm_compute; reflexivity); try (apply lit_nz; vm_compute; reflexivity).
  apply geos_nz; try assumption; lia.
Qed.
Lemma ildg_parse dbl NC ND dims m : (1 <= ND < 12)%nat -> 0 < NC < 100 -> length dims = ND -> length (m_dims m) = ND -> Forall (fun d => 0 < d < two31) dims ->
  (NC = 3 -> (ND <= 4)%nat) ->
  parse_and_set_xml_SCIDAC NC ND (ildg_xml dbl ND dims) m =
  if NC =? 3 then XOk (with_dims (with_prec (with_type (with_endian m B_ENDIAN) OUTPUT_NCxNC) (prec_of dbl)) dims)
  else XFail (with_endian m B_ENDIAN).
Proof.
  intros HN HC L Lm F H3. assert (F0 : Forall (fun d => 0 <= d) dims) by (eapply Forall_impl; [|exact F]; cbn; lia).
  unfold parse_and_set_xml_SCIDAC. rewrite cstr_id by (now apply ildg_nz). rewrite ildg_tokens by assumption.
  change (prefix (str "?xml") xml_tok) with true. cbn [negb].
  destruct (Nat.leb_spec 12 ND) as [Hl|_]; [lia|]. cbn [List.length]. rewrite !xml_other by (try reflexivity; lia). rewrite xml_field by lia.
  destruct (Z.eqb_spec NC 3) as [E|_]; [|reflexivity]. rewrite xml_precision by (destruct dbl; auto).
  pose proof (geo_toks_len ND dims 0) as G. change 0%nat with (length (@nil Z)) at 2.
  rewrite (xml_geos NC ND ltac:(specialize (H3 E); lia) dims _ _ [] (m_dims m) []).
  - cbn [app]. destruct dbl; reflexivity.
  - reflexivity.
  - congruence.
  - cbn [app]. assumption.
  - assumption.
  - rewrite app_length. cbn [length]. lia.
Qed.

(* ---- records ---- *)
Section H.
Variables (big : bool) (bad : list Z -> bool) (NC : Z) (ND : nat).
Definition banner_ok (b : list Z) : bool := lit_ok b && (List.length b <=? 128)%nat &&
  negb (eqs b (str "scidac-binary-data")) && negb (eqs b (str "ildg-binary-data")) && negb (eqs b (str "bqcd-plaquette")) && negb (eqs b (str "bqcd-cksum")).
Lemma nz_notin l : Forall (fun c => c <> 0) l <-> ~ In 0 l.
Proof. rewrite Forall_forall. split; [intros H I; now apply (H 0 I)|intros H c I ->; contradiction]. Qed.
Lemma header_step n m b x r : banner_ok b = true -> Z.of_nat (length x) < two64 ->
  header_records big bad NC ND (S n) m (lime_record glu_flags b x ++ r) =
  match parse_and_set_xml_SCIDAC NC ND x m with XUndef => HUndef | XFail m => header_records big bad NC ND n m r | XOk m => header_records big bad NC ND n m r end.
Proof.
  intros B L. unfold banner_ok in B. repeat (apply andb_true_iff in B; let E := fresh "E" in destruct B as [B E]).
  apply negb_true_iff in E, E0, E1, E2. apply Nat.leb_le in E3. apply lit_nz in B. apply nz_notin in B.
  assert (N : forall lit, eqs b lit = false -> b <> lit) by (intros lit X ->; rewrite eqs_refl in X; discriminate).
  cbn [header_records]. rewrite parse_record; [|reflexivity|assumption|assumption|assumption| |].
  2:{ intros [X|X]; [now apply N in E2|now apply N in E1]. }
  2:{ intros X. exfalso. now apply N in E0. }
  unfold use_record. rewrite is_type_field; [|apply nz_notin; apply lit_nz; reflexivity|assumption|cbn; lia|assumption].
  replace (eqs (str "bqcd-cksum") b) with false.
  2:{ symmetry. apply eqs_ne. intros X. symmetry in X. now apply N in E. }
  cbn [bindo]. destruct (parse_and_set_xml_SCIDAC NC ND x m); reflexivity.
Qed.
Lemma header_data n m b len r : b = str "scidac-binary-data" \/ b = str "ildg-binary-data" -> 0 <= len < two64 ->
  header_records big bad NC ND (S n) m (lime_header glu_flags b len ++ r) = HOk m r.
Proof.
  intros B L. cbn [header_records]. destruct B as [-> | ->]; rewrite parse_header by (try reflexivity; try (apply nz_notin; apply lit_nz; reflexivity); try (cbn; lia); assumption); reflexivity.
Qed.
Lemma put_ok (b : string) x : Forall (fun c => c <> 0) x -> lit_ok (str b) = true -> (List.length (str b) <= 128)%nat -> Z.of_nat (length x) < two64 ->
  put big x b = Some (lime_record glu_flags (str b) x).
Proof. intros Hx Hb L1 L2. apply write_header; [now apply nz_notin|apply nz_notin; now apply lit_nz|assumption|lia]. Qed.
Lemma put_data_ok dbl vol (b : string) : lit_ok (str b) = true -> (List.length (str b) <= 128)%nat ->
  exists len, 0 <= len < two64 /\ put_data big dbl NC ND vol b = Some (lime_header glu_flags (str b) len).
Proof.
  intros Hb L1. unfold put_data. set (v := (if dbl then 8 else 4) * vol * Z.of_nat ND * (NC * NC) * 2). exists (u64 v).
  assert (R : 0 <= u64 v < two64) by (unfold u64; apply Z.mod_pos_bound; reflexivity). split; [exact R|].
  assert (M : u64 v mod 8 = 0).
  { unfold u64. change two64 with (8 * (two64 / 8)).
    assert (Ev : exists k, v = 8 * k) by (unfold v; destruct dbl; [exists (2 * (vol * Z.of_nat ND * (NC * NC)))|exists (vol * Z.of_nat ND * (NC * NC))]; ring).
    destruct Ev as (k & ->). rewrite Z.mul_mod_distr_l by (unfold two64; cbn; lia). rewrite Z.mul_comm. apply Z.mod_mul. lia. }
  etransitivity; [apply (write_header big []); [intros []|apply nz_notin; now apply lit_nz|assumption|exact R]|].
  assert (P := padding_round (u64 v) ltac:(lia)). unfold lime_padding in P. rewrite M, Z.eqb_refl in P.
  rewrite <- P. cbn [zeros Z.to_nat repeat app]. rewrite app_nil_r. reflexivity.
Qed.
End H.

Lemma dims_text_short : forall dims, ge0 dims -> (length (dims_text dims) <= 20 * length dims)%nat.
Proof.
  induction dims as [|d r IH]; intros F; [cbn; lia|]. apply Forall_cons_iff in F. destruct F as [Hd F].
  assert (L := dec_short 19 d ltac:(lia) ltac:(unfold two63 in Hd; split; [lia|]; eapply Z.lt_le_trans; [apply Hd|]; vm_compute; discriminate)).
  destruct r as [|d' r]; [cbn [dims_text length]; lia|]. rewrite dims_text_cons by congruence. rewrite app_length.
  specialize (IH F). cbn [length] in *. lia.
Qed.
Lemma geos_short ND : (ND < 12)%nat -> forall dims mu, (mu + length dims <= ND)%nat -> ge0 dims -> (length (geometry_tags ND mu dims) <= 40 * length dims)%nat.
Proof.
  intros HN. induction dims as [|d r IH]; intros mu Lm F; [cbn; lia|]. apply Forall_cons_iff in F. destruct F as [Hd F]. cbn [length] in Lm.
  assert (L := dec_short 19 d ltac:(lia) ltac:(unfold two63 in Hd; split; [lia|]; eapply Z.lt_le_trans; [apply Hd|]; vm_compute; discriminate)).
  cbn [geometry_tags]. rewrite app_length, geometry_tag_text.
  assert (S2 : length (search ND mu) = 2%nat).
  { pose proof (search_geo ND mu ltac:(lia) HN) as G. unfold geo in G. destruct (search ND mu) as [|a [|b [|c l]]]; try discriminate. reflexivity. }
  specialize (IH (S mu) ltac:(lia) F). cbn [length app]. rewrite !app_length. cbn [length]. rewrite !app_length. cbn [length]. rewrite !app_length. cbn [length]. lia.
Qed.
