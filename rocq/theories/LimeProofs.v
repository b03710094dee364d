From Coq Require Import String.
From Verif Require Import CInt Lib GeomProofs ByteModel ByteSpec ByteProofs TextModel LimeModel LimeSpec.

Lemma padding_round n : 0 <= n -> lime_padding n = round8 n - n.
Proof.
  intros H. unfold lime_padding, round8. assert (M := Z.mod_pos_bound n 8 ltac:(lia)). assert (D := Z.div_mod n 8 ltac:(lia)).
  destruct (Z.eqb_spec (n mod 8) 0) as [E|E].
  - replace ((n + 7) / 8) with (n / 8); [lia|]. apply (Z.div_unique _ _ _ 7); lia.
  - rewrite u64_id by (unfold two64; lia). rewrite i32_id by (unfold two31; lia).
    replace ((n + 7) / 8) with (n / 8 + 1); [lia|]. apply (Z.div_unique _ _ _ (n mod 8 - 1)); lia.
Qed.
Lemma round8_spec n : 0 <= n -> n <= round8 n < n + 8 /\ round8 n mod 8 = 0 /\ (forall m, n <= m -> m mod 8 = 0 -> round8 n <= m).
Proof.
  intros H. unfold round8. assert (D := Z.div_mod (n + 7) 8 ltac:(lia)). assert (M := Z.mod_pos_bound (n + 7) 8 ltac:(lia)).
  split; [lia|]. split; [apply Z.mod_mul; lia|].
  intros m L E. assert (Dm := Z.div_mod m 8 ltac:(lia)). rewrite E in Dm. lia.
Qed.

Lemma le_bytes_len k : forall x, length (le_bytes k x) = k.
Proof. induction k as [|k IH]; intros x; [reflexivity|]. cbn. now rewrite IH. Qed.

Lemma header_len flags typ len : length flags = 4%nat -> (length typ <= 128)%nat -> length (lime_header flags typ len) = 144%nat.
Proof.
  intros F T. unfold lime_header. rewrite !app_length, repeat_length, F. unfold be_bytes. rewrite rev_length, le_bytes_len. cbn [length]. lia.
Qed.

Lemma eqs_refl l : eqs l l = true.
Proof. induction l as [|a l IH]; [reflexivity|]. cbn. rewrite Z.eqb_refl. exact IH. Qed.
Lemma eqs_eq a : forall b, eqs a b = true <-> a = b.
Proof.
  induction a as [|x a IH]; intros [|y b]; cbn; try (split; congruence).
  rewrite Bool.andb_true_iff, Z.eqb_eq, IH. split; [intros (-> & ->); reflexivity|intros E; injection E; auto].
Qed.

(* the type field *)
Definition tyfield (typ : list Z) : list Z := typ ++ repeat 0 (128 - length typ).
Lemma is_type_field lit typ : ~ In 0 lit -> ~ In 0 typ -> (length lit < 128)%nat -> (length typ <= 128)%nat ->
  is_type lit (tyfield typ) = eqs lit typ.
Proof.
  intros NL NT LL LT. unfold is_type, tyfield.
  assert (G : forall lit typ k, ~ In 0 lit -> ~ In 0 typ -> (length lit < length typ + k)%nat ->
     eqs (firstn (length lit + 1) (typ ++ repeat 0 k)) (lit ++ [0]) = eqs lit typ).
  { clear. induction lit as [|c lit IH]; intros [|d typ] k NL NT L.
    - destruct k; [cbn in L; lia|]. reflexivity.
    - cbn. destruct (Z.eqb_spec d 0) as [->|]; [exfalso; apply NT; left; reflexivity|reflexivity].
    - destruct k; [cbn in L; lia|]. cbn. destruct c; [exfalso; apply NL; left; reflexivity|reflexivity|reflexivity].
    - cbn [length Nat.add firstn app eqs]. rewrite IH; [|intros I; apply NL; right; exact I|intros I; apply NT; right; exact I|cbn in L; lia].
      rewrite Z.eqb_sym. reflexivity. }
  apply G; try assumption. lia.
Qed.

Definition str_safe : forall s, forallb (fun c => negb (c =? 0)) (str s) = true -> ~ In 0 (str s).
Proof. intros s H I. rewrite forallb_forall in H. specialize (H 0 I). discriminate. Qed.

Definition binary_type (t : list Z) : Prop := t = str "scidac-binary-data" \/ t = str "ildg-binary-data".

Lemma word_of_be big k f v : 0 <= v < 256 ^ Z.of_nat k -> 
  (forall x, 0 <= x < 256 ^ Z.of_nat k -> le_bytes k (f x) = rev (le_bytes k x) /\ 0 <= f x < 256 ^ Z.of_nat k) ->
  (if negb big then f (mem_word big (be_bytes k v)) else mem_word big (be_bytes k v)) = v.
Proof.
  intros Hv Hf. unfold mem_word, be_bytes. destruct big; cbn [negb].
  - rewrite rev_involutive. apply le_val_bytes; exact Hv.
  - assert (F : Forall (fun b => 0 <= b < 256) (rev (le_bytes k v))).
    { apply Forall_rev. clear. revert v. induction k as [|k IH]; intros v; [constructor|]. cbn. constructor; [apply Z.mod_pos_bound; lia|apply IH]. }
    assert (R := le_val_range _ F). rewrite rev_length, le_bytes_len in R.
    destruct (Hf _ R) as (E & R2).
    assert (B := le_bytes_val _ F). rewrite rev_length, le_bytes_len in B.
    rewrite B, rev_involutive in E. rewrite <- (le_val_bytes k (f _) R2), E. apply le_val_bytes; exact Hv.
Qed.

Section R.
Variables (big : bool) (bad : list Z -> bool).
Lemma parse_header flags typ len r : length flags = 4%nat -> ~ In 0 typ -> (length typ <= 128)%nat -> 0 <= len < two64 ->
  parse_SCIDAC_hdr big bad (lime_header flags typ len ++ r) =
  if eqs (str "scidac-binary-data") typ || eqs (str "ildg-binary-data") typ then LEof r else
  if Z.of_nat (length r) <? len then LFail else
  let io_data := firstn (Z.to_nat len) r in
  let r := skipn (Z.to_nat len) r in
  if eqs (str "bqcd-plaquette") typ && bad io_data then LFail else
  if (0 <? lime_padding len) && (Z.of_nat (length r) <? lime_padding len) then LFail else
  LRec (tyfield typ) io_data (skipn (Z.to_nat (lime_padding len)) r).
Proof.
  intros F NT LT HL. unfold parse_SCIDAC_hdr.
  assert (LH := header_len flags typ len F LT). rewrite app_length, LH.
  destruct (Nat.ltb_spec (144 + length r) 144); [lia|].
  assert (F1 : firstn 144 (lime_header flags typ len ++ r) = lime_header flags typ len).
  { rewrite firstn_app, LH, Nat.sub_diag, firstn_O, app_nil_r. apply firstn_all2. lia. }
  assert (F2 : skipn 144 (lime_header flags typ len ++ r) = r).
  { rewrite skipn_app, LH, Nat.sub_diag, (skipn_all2 (lime_header flags typ len)) by lia. reflexivity. }
  rewrite F1, F2.
  assert (Em : firstn 4 (lime_header flags typ len) = be_bytes 4 lime_magic) by reflexivity.
  assert (El : firstn 8 (skipn 8 (lime_header flags typ len)) = be_bytes 8 len).
  { unfold lime_header. do 5 (destruct flags as [|? flags]; try discriminate).
    assert (L8 : length (be_bytes 8 len) = 8%nat) by (unfold be_bytes; now rewrite rev_length, le_bytes_len).
    cbn [app skipn]. rewrite firstn_app, L8, Nat.sub_diag, firstn_O, app_nil_r, firstn_all2 by lia. reflexivity. }
  assert (Et : skipn 16 (lime_header flags typ len) = tyfield typ).
  { unfold lime_header. do 5 (destruct flags as [|? flags]; try discriminate).
    assert (L8 : length (be_bytes 8 len) = 8%nat) by (unfold be_bytes; now rewrite rev_length, le_bytes_len).
    reflexivity. }
  cbv zeta. rewrite Em, El, Et.
  rewrite (word_of_be big 4 SwapByteOrder_32 lime_magic) by
    (first [split; [discriminate|reflexivity]|intros x Hx; destruct (swap32_rev x Hx); auto]).
  rewrite (word_of_be big 8 SwapByteOrder_64 len) by
    (first [exact HL|intros x Hx; destruct (swap64_rev x Hx); auto]).
  rewrite Z.eqb_refl. cbn [negb].
  rewrite !is_type_field by (first [assumption|apply str_safe; reflexivity|cbn; lia]). reflexivity.
Qed.
Lemma parse_record flags typ payload r : length flags = 4%nat -> ~ In 0 typ -> (length typ <= 128)%nat ->
  Z.of_nat (length payload) < two64 -> ~ binary_type typ -> (typ = str "bqcd-plaquette" -> bad payload = false) ->
  parse_SCIDAC_hdr big bad (lime_record flags typ payload ++ r) = LRec (tyfield typ) payload r.
Proof.
  intros F NT LT HL NB BP. unfold lime_record. rewrite <- !app_assoc.
  rewrite parse_header by (first [assumption|lia]).
  destruct (eqs (str "scidac-binary-data") typ) eqn:E1; [apply eqs_eq in E1; exfalso; apply NB; left; auto|].
  destruct (eqs (str "ildg-binary-data") typ) eqn:E2; [apply eqs_eq in E2; exfalso; apply NB; right; auto|].
  cbn [orb]. rewrite !app_length. destruct (Z.ltb_spec (Z.of_nat (length payload + (length (zeros (round8 (Z.of_nat (length payload)) - Z.of_nat (length payload))) + length r))) (Z.of_nat (length payload))); [lia|].
  cbv zeta. rewrite Nat2Z.id. rewrite firstn_app, Nat.sub_diag, firstn_O, app_nil_r, firstn_all2 by lia.
  rewrite skipn_app, Nat.sub_diag, skipn_all2 by lia. cbn [app]. change (skipn 0 ?l) with l. cbn [skipn].
  destruct (eqs (str "bqcd-plaquette") typ) eqn:E3.
  - apply eqs_eq in E3. rewrite BP by auto. cbn [andb].
    rewrite (padding_round (Z.of_nat (length payload))) by lia.
    assert (P := round8_spec (Z.of_nat (length payload)) ltac:(lia)).
    set (p := round8 (Z.of_nat (length payload)) - Z.of_nat (length payload)) in *.
    assert (Lz : length (zeros p) = Z.to_nat p) by apply repeat_length.
    rewrite app_length, Lz. destruct (Z.ltb_spec (Z.of_nat (Z.to_nat p + length r)) p); [lia|].
    rewrite Bool.andb_false_r. rewrite skipn_app, Lz, Nat.sub_diag, skipn_all2 by lia. reflexivity.
  - cbn [andb].
    rewrite (padding_round (Z.of_nat (length payload))) by lia.
    assert (P := round8_spec (Z.of_nat (length payload)) ltac:(lia)).
    set (p := round8 (Z.of_nat (length payload)) - Z.of_nat (length payload)) in *.
    assert (Lz : length (zeros p) = Z.to_nat p) by apply repeat_length.
    rewrite app_length, Lz. destruct (Z.ltb_spec (Z.of_nat (Z.to_nat p + length r)) p); [lia|].
    rewrite Bool.andb_false_r. rewrite skipn_app, Lz, Nat.sub_diag, skipn_all2 by lia. reflexivity.
Qed.

(* records as (flags, type, payload) *)
Definition good_record (q : list Z * list Z * list Z) : Prop :=
  let '(flags, typ, payload) := q in
  length flags = 4%nat /\ ~ In 0 typ /\ (length typ <= 128)%nat /\ Z.of_nat (length payload) < two64 /\
  ~ binary_type typ /\ (typ = str "bqcd-plaquette" -> bad payload = false).
Definition frame (q : list Z * list Z * list Z) : list Z := let '(flags, typ, payload) := q in lime_record flags typ payload.
Definition seen (q : list Z * list Z * list Z) : list Z * list Z := let '(flags, typ, payload) := q in (tyfield typ, payload).

Lemma records_ok : forall qs n r, Forall good_record qs -> (length qs <= n)%nat ->
  scidac_records big bad n (flat_map frame qs ++ r) =
  (let '(l, o) := scidac_records big bad (n - length qs) r in (map seen qs ++ l, o)).
Proof.
  induction qs as [|((flags, typ), payload) qs IH]; intros n r F L.
  - cbn [flat_map app length map]. rewrite Nat.sub_0_r. destruct (scidac_records big bad n r); reflexivity.
  - destruct n as [|n]; [cbn in L; lia|]. inversion F as [|? ? G F']; subst.
    destruct G as (G1 & G2 & G3 & G4 & G5 & G6).
    cbn [flat_map frame scidac_records]. rewrite <- app_assoc. rewrite parse_record by assumption.
    rewrite IH by (first [assumption|cbn in L; lia]). cbn [length Nat.sub map seen]. 
    destruct (scidac_records big bad (n - length qs) r). reflexivity.
Qed.
End R.

Lemma poke_ok h off b : (off + length b <= length h)%nat -> poke h off b = Some (firstn off h ++ b ++ skipn (off + length b) h).
Proof. intros H. unfold poke. destruct (Nat.ltb_spec (length h) (off + length b)); [lia|reflexivity]. Qed.
Lemma cstr_id l : ~ In 0 l -> cstr (l ++ [0]) = l.
Proof.
  induction l as [|c l IH]; intros H; [reflexivity|]. cbn. destruct (Z.eqb_spec c 0) as [->|]; [exfalso; apply H; left; reflexivity|].
  rewrite IH; [reflexivity|]. intros I; apply H; right; exact I.
Qed.
Lemma swap_bytes_mem big k f v : 0 <= v < 256 ^ Z.of_nat k ->
  (forall x, 0 <= x < 256 ^ Z.of_nat k -> le_bytes k (f x) = rev (le_bytes k x)) ->
  mem_bytes big k (if negb big then f v else v) = be_bytes k v.
Proof. intros H E. unfold mem_bytes, be_bytes. destruct big; cbn [negb]; [reflexivity|]. apply E; exact H. Qed.
Lemma skipn_repeat {A} (x : A) k n : skipn k (repeat x n) = repeat x (n - k).
Proof. revert n. induction k as [|k IH]; intros [|n]; try reflexivity. cbn. apply IH. Qed.

Definition glu_flags : list Z := [0; 1; 0x80; 0].
Lemma write_header big rec len typ : ~ In 0 rec -> ~ In 0 typ -> (length typ <= 128)%nat -> 0 <= len < two64 ->
  write_SCIDAC_binary big (rec ++ [0]) len (typ ++ [0]) =
  Some (lime_header glu_flags typ len ++ rec ++ zeros (round8 len - len)).
Proof.
  intros NR NT LT HL. unfold write_SCIDAC_binary. cbv zeta.
  rewrite (swap_bytes_mem big 4 SwapByteOrder_32) by (first [split; [discriminate|reflexivity]|intros x Hx; apply swap32_rev; exact Hx]).
  rewrite (swap_bytes_mem big 2 SwapByteOrder_16) by (first [split; [discriminate|reflexivity]|intros x Hx; apply swap16_rev; exact Hx]).
  rewrite (swap_bytes_mem big 8 SwapByteOrder_64) by (first [exact HL|intros x Hx; apply swap64_rev; exact Hx]).
  rewrite !cstr_id by assumption.
  change (be_bytes 4 lime_magic) with [0x45; 0x67; 0x89; 0xab]. change (be_bytes 2 1) with [0; 1].
  assert (L8 : length (be_bytes 8 len) = 8%nat) by (unfold be_bytes; now rewrite rev_length, le_bytes_len).
  rewrite poke_ok by (cbn; lia). cbn [bindo]. 
  rewrite poke_ok by (cbn; lia). cbn [bindo].
  rewrite poke_ok by (cbn; lia). cbn [bindo]. 
  set (h3 := firstn 6 _ ++ _ ++ _). assert (E3 : h3 = [0x45; 0x67; 0x89; 0xab] ++ glu_flags ++ repeat 0 136) by reflexivity.
  clearbody h3. subst h3.
  rewrite poke_ok by (rewrite L8; cbn; lia). cbn [bindo]. rewrite L8.
  set (h4 := firstn 8 _ ++ _ ++ _).
  assert (E4 : h4 = [0x45; 0x67; 0x89; 0xab] ++ glu_flags ++ be_bytes 8 len ++ repeat 0 128) by reflexivity.
  clearbody h4. subst h4.
  assert (L4 : length ([0x45; 0x67; 0x89; 0xab] ++ glu_flags ++ be_bytes 8 len ++ repeat 0 128) = 144%nat)
    by (rewrite !app_length, L8; reflexivity).
  rewrite poke_ok by (rewrite L4; lia). cbn [bindo].
  assert (L16 : length ([0x45; 0x67; 0x89; 0xab] ++ glu_flags ++ be_bytes 8 len) = 16%nat) by (rewrite !app_length, L8; reflexivity).
  replace ([0x45; 0x67; 0x89; 0xab] ++ glu_flags ++ be_bytes 8 len ++ repeat 0 128)
    with (([0x45; 0x67; 0x89; 0xab] ++ glu_flags ++ be_bytes 8 len) ++ repeat 0 128) by (rewrite <- !app_assoc; reflexivity).
  rewrite firstn_app, L16, Nat.sub_diag, firstn_O, app_nil_r, firstn_all2 by lia.
  rewrite skipn_app, L16. rewrite (skipn_all2 ([0x45; 0x67; 0x89; 0xab] ++ glu_flags ++ be_bytes 8 len)) by lia.
  cbn [app]. replace (16 + length typ - 16)%nat with (length typ) by lia. rewrite skipn_repeat.
  rewrite padding_round by lia. unfold lime_header. rewrite <- !app_assoc. reflexivity.
Qed.
