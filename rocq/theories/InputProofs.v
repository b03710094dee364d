From Coq Require Import Ascii String.
From Verif Require Import CInt Lib TextModel TextProofs InputModel.
Import ListNotations.
Open Scope Z_scope.

(** * specification: files of lines "tag = value" in any layout *)
Definition blank (w : list Z) : Prop := Forall (fun c => space c = true) w.
Definition plain (w : list Z) : Prop := w <> [] /\ Forall (fun c => space c = false /\ c <> 0) w.
Definition apart (s : list Z) : Prop := match s with [] => True | c :: _ => space c = true end.
Inductive layout : list (list Z * list Z) -> list Z -> Prop :=
| lay_end w : blank w -> layout [] w
| lay_line w0 t w1 w2 v rest L : blank w0 -> plain t -> blank w1 -> w1 <> [] -> blank w2 -> plain v -> apart rest -> layout L rest ->
    layout ((t, v) :: L) (w0 ++ t ++ w1 ++ [61] ++ w2 ++ v ++ rest).
Definition small (L : list (list Z * list Z)) : Prop := (length L < 64)%nat /\ Forall (fun e => (length (fst e) < 64)%nat /\ (length (snd e) < 64)%nat) L.
(** the value on the first line carrying the tag *)
Fixpoint first_value (tag : list Z) (L : list (list Z * list Z)) : option (list Z) :=
  match L with
  | [] => None
  | (t, v) :: r => if eqs t tag then Some v else first_value tag r
  end.
(** decimal numbers *)
Definition decimal (c : Z) : Prop := 48 <= c <= 57.
Definition value10 (ds : list Z) : Z := fold_left (fun a c => a * 10 + (c - 48)) ds 0.
Inductive numeral : list Z -> Z -> Prop :=
| num_intro sgn s ds rest : (sgn = [] /\ s = 1 \/ sgn = [43] /\ s = 1 \/ sgn = [45] /\ s = -1) -> ds <> [] -> Forall decimal ds ->
    (match rest with [] => True | c :: _ => ~ decimal c end) -> numeral (sgn ++ ds ++ rest) (s * value10 ds).

(** * packing *)
Lemma skip_blank w s : blank w -> skip_ws (w ++ s) = skip_ws s.
Proof. induction 1 as [|c w Hc _ IH]; [reflexivity|]. cbn. now rewrite Hc. Qed.
Lemma skip_plain w s : plain w -> skip_ws (w ++ s) = w ++ s.
Proof. intros [H1 H2]. destruct w as [|c w]; [congruence|]. inversion H2 as [|? ? [Hc _] _]; subst. cbn. now rewrite Hc. Qed.
Lemma word_plain w s : Forall (fun c => space c = false /\ c <> 0) w -> apart s -> word (w ++ s) = (w, s).
Proof.
  intros H Hs. induction H as [|c w [Hc _] _ IH].
  - destruct s as [|c s]; [reflexivity|]. cbn in *. now rewrite Hs.
  - cbn. now rewrite Hc, IH.
Qed.
Lemma blank_apart w s : blank w -> w <> [] -> apart (w ++ s).
Proof. intros H Hne. destruct H as [|c w Hc]; [congruence|exact Hc]. Qed.
Lemma scan_line w0 t w1 w2 v rest : blank w0 -> plain t -> blank w1 -> w1 <> [] -> blank w2 -> plain v -> apart rest ->
  scan_entry (w0 ++ t ++ w1 ++ [61] ++ w2 ++ v ++ rest) = Some (t, v, rest).
Proof.
  intros H0 Ht H1 Hne H2 Hv Hr. unfold scan_entry. rewrite skip_blank by assumption. rewrite skip_plain by assumption.
  destruct t as [|c t]; [destruct Ht; congruence|]. cbn [app]. change (c :: t ++ w1 ++ 61 :: w2 ++ v ++ rest) with ((c :: t) ++ w1 ++ [61] ++ w2 ++ v ++ rest).
  rewrite word_plain; [|apply Ht|now apply blank_apart].
  rewrite skip_blank by assumption. cbn [app skip_ws]. change (space 61) with false. cbv iota. rewrite Z.eqb_refl.
  rewrite skip_blank by assumption. rewrite skip_plain by assumption. rewrite word_plain; [reflexivity|apply Hv|assumption].
Qed.
Lemma scan_blank w : blank w -> scan_entry w = None.
Proof. intros H. unfold scan_entry. rewrite <- (app_nil_r w), skip_blank by assumption. reflexivity. Qed.
Lemma pack_layout L text : layout L text -> forall fuel tbl, (length text < fuel)%nat -> (length tbl + length L <= 64)%nat ->
  Forall (fun e => (length (fst e) < 64)%nat /\ (length (snd e) < 64)%nat) L -> pack_loop fuel tbl text = Some (tbl ++ L).
Proof.
  induction 1 as [w Hw|w0 t w1 w2 v rest L H0 Ht H1 Hne H2 Hv Hr HL IH]; intros fuel tbl Hf Hn Hs.
  - destruct fuel; [lia|]. cbn [pack_loop]. rewrite scan_blank by assumption. now rewrite app_nil_r.
  - destruct fuel; [lia|]. cbn [pack_loop]. rewrite scan_line by assumption. inversion Hs as [|? ? [S1 S2] Hs']; subst. cbn [fst snd] in *.
    cbn [length] in Hn. unfold fits. apply Nat.ltb_lt in S1, S2. rewrite S1, S2. replace (Nat.ltb (length tbl) 64) with true by (symmetry; apply Nat.ltb_lt; lia).
    cbn [andb]. rewrite IH.
    + now rewrite <- app_assoc.
    + rewrite !app_length in Hf. cbn [length] in Hf. lia.
    + rewrite app_length. cbn [length]. lia.
    + assumption.
Qed.
Lemma pack_ok L text : layout L text -> small L -> pack_inputs 0 text = Some (([], []) :: L).
Proof. intros H [S1 S2]. unfold pack_inputs. rewrite (pack_layout L text H); [reflexivity|lia|cbn; lia|assumption]. Qed.

(** * searching *)
Definition look (tbl : list entry) (tag : list Z) : option (list Z) := VALUE tbl (tag_search tbl tag).
Lemma search_shift tag : forall tbl i, search_from (S i) tbl tag = option_map S (search_from i tbl tag).
Proof. induction tbl as [|e r IH]; intros i; [reflexivity|]. cbn. destruct (streq (fst e) tag); [reflexivity|]. apply IH. Qed.
Lemma look_cons e r tag : look (e :: r) tag = if streq (fst e) tag then Some (snd e) else look r tag.
Proof.
  unfold look, tag_search. cbn [search_from]. destruct (streq (fst e) tag); [reflexivity|].
  rewrite search_shift. destruct (search_from 0 r tag); reflexivity.
Qed.
Definition clean (w : list Z) : Prop := Forall (fun c => c <> 0) w.
Lemma plain_clean w : plain w -> clean w.
Proof. intros [_ H]. eapply Forall_impl; [|exact H]. now intros ? []. Qed.
Lemma layout_plain L text : layout L text -> Forall (fun e => plain (fst e) /\ plain (snd e)) L.
Proof. induction 1; constructor; auto. Qed.
Lemma look_lines tag : clean tag -> forall L, Forall (fun e => plain (fst e) /\ plain (snd e)) L -> look L tag = first_value tag L.
Proof.
  intros Ht. induction 1 as [|[t v] L [H1 H2] HL IH]; [reflexivity|]. rewrite look_cons. cbn [fst snd first_value] in *. rewrite IH.
  unfold streq. rewrite (cstr_id tag Ht), (cstr_id t (plain_clean t H1)). reflexivity.
Qed.
Lemma look_table tag L text : clean tag -> tag <> [] -> layout L text -> look (([], []) :: L) tag = first_value tag L.
Proof.
  intros Hc Hne H. rewrite look_cons. cbn [fst]. unfold streq. rewrite (cstr_id tag Hc). destruct tag; [congruence|]. cbn [cstr eqs].
  apply look_lines; [assumption|]. eapply layout_plain; eassumption.
Qed.
Lemma first_value_plain tag L v : Forall (fun e => plain (fst e) /\ plain (snd e)) L -> first_value tag L = Some v -> plain v.
Proof. induction 1 as [|[t w] L [H1 H2] HL IH]; [discriminate|]. cbn. destruct (eqs t tag); [intros E; injection E as <-; exact H2|exact IH]. Qed.

(** * numbers *)
Lemma decimal_isdig c : decimal c <-> isdig 10 c.
Proof.
  unfold decimal, isdig, digit_val. split.
  - intros H. exists (c - 48). replace ((48 <=? c) && (c <=? 57)) with true by (symmetry; apply andb_true_iff; split; apply Z.leb_le; lia). split; [reflexivity|lia].
  - intros (d & E & Hd). destruct ((48 <=? c) && (c <=? 57)) eqn:E1; [apply andb_true_iff in E1; rewrite !Z.leb_le in E1; lia|].
    destruct ((97 <=? c) && (c <=? 102)) eqn:E2; [apply andb_true_iff in E2; rewrite !Z.leb_le in E2; injection E as <-; lia|].
    destruct ((65 <=? c) && (c <=? 70)) eqn:E3; [apply andb_true_iff in E3; rewrite !Z.leb_le in E3; injection E as <-; lia|discriminate].
Qed.
Lemma decimal_dv c : decimal c -> dv c = c - 48.
Proof. intros H. unfold dv, digit_val. unfold decimal in H. replace ((48 <=? c) && (c <=? 57)) with true by (symmetry; apply andb_true_iff; split; apply Z.leb_le; lia). reflexivity. Qed.
Lemma value10_dv ds : Forall decimal ds -> forall a, fold_left (fun a c => a * 10 + dv c) ds a = fold_left (fun a c => a * 10 + (c - 48)) ds a.
Proof. induction 1 as [|c ds Hc _ IH]; intros a; [reflexivity|]. cbn. rewrite decimal_dv by assumption. apply IH. Qed.
Lemma get_digits_stop rest k acc : (match rest with [] => True | c :: _ => ~ decimal c end) -> get_digits 10 rest k acc = (k, acc, rest).
Proof.
  destruct rest as [|c r]; [reflexivity|]. intros H. cbn. destruct (digit_val c) as [d|] eqn:E; [|reflexivity].
  destruct (Z.ltb_spec d 10); [|reflexivity]. exfalso. apply H. apply decimal_isdig. exists d. split; [assumption|].
  split; [|assumption]. revert E. unfold digit_val.
  destruct ((48 <=? c) && (c <=? 57)) eqn:E1; [apply andb_true_iff in E1; rewrite !Z.leb_le in E1; intros E; injection E as <-; lia|].
  destruct ((97 <=? c) && (c <=? 102)) eqn:E2; [apply andb_true_iff in E2; rewrite !Z.leb_le in E2; intros E; injection E as <-; lia|].
  destruct ((65 <=? c) && (c <=? 70)) eqn:E3; [apply andb_true_iff in E3; rewrite !Z.leb_le in E3; intros E; injection E as <-; lia|discriminate].
Qed.
Lemma split_digits : forall s, exists ds rest, s = ds ++ rest /\ Forall decimal ds /\ (match rest with [] => True | c :: _ => ~ decimal c end).
Proof.
  induction s as [|c s IH]; [exists [], []; auto|]. destruct (Z_le_dec 48 c), (Z_le_dec c 57).
  - destruct IH as (ds & rest & -> & H1 & H2). exists (c :: ds), rest. repeat split; [constructor; [unfold decimal; lia|assumption]|assumption].
  - exists [], (c :: s). repeat split; [constructor|unfold decimal; lia].
  - exists [], (c :: s). repeat split; [constructor|unfold decimal; lia].
  - exists [], (c :: s). repeat split; [constructor|unfold decimal; lia].
Qed.
Lemma take_sign_cases s : exists sgn r, s = sgn ++ r /\
  (sgn = [] /\ take_sign s = (false, r) /\ match r with [] => True | c :: _ => c <> 43 /\ c <> 45 end \/ sgn = [43] /\ take_sign s = (false, r) \/ sgn = [45] /\ take_sign s = (true, r)).
Proof.
  destruct s as [|c s]; [exists [], []; split; [reflexivity|left; auto]|]. unfold take_sign.
  destruct (Z.eqb_spec c 45) as [->|H1]; [exists [45], s; split; [reflexivity|]; right; right; auto|].
  destruct (Z.eqb_spec c 43) as [->|H2]; [exists [43], s; split; [reflexivity|]; right; left; auto|].
  exists [], (c :: s). split; [reflexivity|]. left. auto.
Qed.
Definition strtol_ok (s : list Z) : option Z := let '(found, inrange, v) := strtol s in if found && inrange then Some (u64 v) else None.
Lemma skip_plain0 w : plain w -> skip_ws w = w.
Proof. intros H. rewrite <- (app_nil_r w) at 1. rewrite skip_plain by assumption. apply app_nil_r. Qed.
Lemma strtol_numeral v n : plain v -> (strtol_ok v = Some n <-> exists x, numeral v x /\ - two63 <= x < two63 /\ n = u64 x).
Proof.
  intros Hv. unfold strtol_ok, strtol. rewrite cstr_id by (now apply plain_clean). rewrite skip_plain0 by assumption.
  split.
  - destruct (take_sign_cases v) as (sgn & r & Ev & Hs). destruct (split_digits r) as (ds & rest & Er & Hd & Hr).
    assert (Hg : forall k acc, get_digits 10 r k acc = ((k + length ds)%nat, fold_left (fun a c => a * 10 + (c - 48)) ds acc, rest)).
    { intros k acc. rewrite Er, get_digits_app by (eapply Forall_impl; [|exact Hd]; intros; now apply decimal_isdig).
      rewrite get_digits_stop by assumption. now rewrite value10_dv. }
    assert (X : forall b s, take_sign v = (b, r) -> (sgn = [] /\ s = 1 \/ sgn = [43] /\ s = 1 \/ sgn = [45] /\ s = -1) -> (if b : bool then -1 else 1) = s ->
      (let '(found, inrange, v0) := let '(neg, r0) := take_sign v in let '(k, v0, _) := get_digits 10 r0 0 0 in
         match k with O => (false, true, 0) | S _ => let v1 := if neg : bool then - v0 else v0 in
           if LONG_MAX <? v1 then (true, false, LONG_MAX) else if v1 <? LONG_MIN then (true, false, LONG_MIN) else (true, true, v1) end in
       if found && inrange then Some (u64 v0) else None) = Some n -> exists x, numeral v x /\ - two63 <= x < two63 /\ n = u64 x).
    { intros b s Et Hsg Hb. rewrite Et, Hg. cbn [Nat.add]. destruct ds as [|d0 ds]; [discriminate|]. cbn [length].
      fold (value10 (d0 :: ds)). set (X := value10 (d0 :: ds)). assert (EX : (if b then - X else X) = s * X) by (destruct b; lia). rewrite EX.
      destruct (Z.ltb_spec LONG_MAX (s * X)) as [|H1]; [discriminate|]. destruct (Z.ltb_spec (s * X) LONG_MIN) as [|H2]; [discriminate|].
      cbn [andb]. intros E. injection E as <-. exists (s * X). split; [|split; [unfold LONG_MAX, LONG_MIN in *; lia|reflexivity]].
      rewrite Ev, Er. apply num_intro; auto. discriminate. }
    destruct Hs as [(E1 & E2 & _)|[(E1 & E2)|(E1 & E2)]].
    + apply (X false 1 E2); auto.
    + apply (X false 1 E2); auto.
    + apply (X true (-1) E2); auto.
  - intros (x & Hn & Hx & ->). destruct Hn as [sgn s ds rest Hs Hne Hd Hr].
    assert (Hg : forall k acc, get_digits 10 (ds ++ rest) k acc = ((k + length ds)%nat, fold_left (fun a c => a * 10 + (c - 48)) ds acc, rest)).
    { intros k acc. rewrite get_digits_app by (eapply Forall_impl; [|exact Hd]; intros; now apply decimal_isdig).
      rewrite get_digits_stop by assumption. now rewrite value10_dv. }
    assert (Ht : take_sign (sgn ++ ds ++ rest) = (if s =? -1 then true else false, ds ++ rest)).
    { destruct ds as [|d0 ds]; [congruence|]. inversion Hd as [|? ? Hd0 _]; subst. unfold decimal in Hd0.
      destruct Hs as [(-> & ->)|[(-> & ->)|(-> & ->)]]; cbn [app]; unfold take_sign.
      - destruct (Z.eqb_spec d0 45); [lia|]. destruct (Z.eqb_spec d0 43); [lia|]. reflexivity.
      - reflexivity.
      - reflexivity. }
    rewrite Ht, Hg. fold (value10 ds). cbn [Nat.add]. destruct ds as [|d0 ds]; [congruence|]. cbn [length].
    set (X := value10 (d0 :: ds)) in *. assert (EX : (if (if s =? -1 then true else false) then - X else X) = s * X).
    { destruct Hs as [(_ & ->)|[(_ & ->)|(_ & ->)]]; cbn [Z.eqb Pos.eqb]; lia. } rewrite EX.
    destruct (Z.ltb_spec LONG_MAX (s * X)) as [H1|_]; [unfold LONG_MAX in H1; lia|]. destruct (Z.ltb_spec (s * X) LONG_MIN) as [H2|_]; [unfold LONG_MIN in H2; lia|].
    reflexivity.
Qed.
Lemma getint_look tbl tag : getint tbl tag = match look tbl tag with None => None | Some s => strtol_ok s end.
Proof.
  unfold getint, setint, strtol_ok. fold (look tbl tag). destruct (look tbl tag) as [s|]; [|reflexivity].
  destruct (strtol s) as [[f i] v]. destruct f, i; reflexivity.
Qed.
