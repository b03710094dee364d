From Coq Require Import Ascii String Permutation.
From Verif Require Import CInt Lib TextModel HdrModel.
Open Scope Z_scope.

Lemma eqs_eq : forall a b, eqs a b = true <-> a = b.
Proof.
  induction a as [|x a IH]; intros [|y b]; cbn; split; intro H; try discriminate; auto.
  - apply andb_true_iff in H. destruct H as [H1 H2]. apply Z.eqb_eq in H1. apply IH in H2. congruence.
  - injection H as -> ->. rewrite Z.eqb_refl. cbn. apply IH. reflexivity.
Qed.
Lemma eqs_refl a : eqs a a = true. Proof. apply eqs_eq. reflexivity. Qed.

Lemma cstr_id : forall l, Forall (fun c => c <> 0) l -> cstr l = l.
Proof.
  induction 1; cbn; auto. destruct (Z.eqb_spec x 0); [contradiction|]. rewrite IHForall. reflexivity.
Qed.
Lemma streq_refl a : streq a a = true. Proof. apply eqs_refl. Qed.
Lemma streq_eq : forall a b, Forall (fun c => c <> 0) a -> Forall (fun c => c <> 0) b -> streq a b = true <-> a = b.
Proof. intros a b Ha Hb. unfold streq. rewrite !cstr_id by assumption. apply eqs_eq. Qed.

Lemma fgets_line : forall n l r, Forall (fun c => c <> 10) l -> (List.length l < n)%nat ->
  fgets n (l ++ 10 :: r) = (l ++ [10], r).
Proof.
  intros n l r H. revert n. induction H as [|c l Hc H IH]; intros [|n] L; cbn in *; try lia; auto.
  destruct (Z.eqb_spec c 10); [contradiction|]. rewrite IH by lia. reflexivity.
Qed.

Lemma split_at_app : forall c l r, Forall (fun x => x <> c) l -> split_at c (l ++ c :: r) = Some (l, r).
Proof.
  induction 1 as [|x l Hx H IH]; cbn.
  - rewrite Z.eqb_refl. reflexivity.
  - destruct (Z.eqb_spec x c); [contradiction|]. rewrite IH. reflexivity.
Qed.

(* decimal and hexadecimal texts *)
Lemma dig_val : forall d, 0 <= d < 16 -> digit_val (dig d) = Some d.
Proof.
  intros d H. unfold dig, digit_val. destruct (Z.ltb_spec d 10).
  - replace ((48 <=? 48 + d) && (48 + d <=? 57)) with true by (symmetry; apply andb_true_iff; split; apply Z.leb_le; lia).
    f_equal; lia.
  - replace ((48 <=? 87 + d) && (87 + d <=? 57)) with false by (symmetry; apply andb_false_iff; right; apply Z.leb_gt; lia).
    replace ((97 <=? 87 + d) && (87 + d <=? 102)) with true by (symmetry; apply andb_true_iff; split; apply Z.leb_le; lia).
    f_equal; lia.
Qed.
Definition dv (c : Z) : Z := match digit_val c with Some d => d | None => 0 end.
Definition isdig (b c : Z) : Prop := exists d, digit_val c = Some d /\ 0 <= d < b.
Lemma digits_dig : forall b, 0 < b <= 16 -> forall fuel n, 0 <= n -> Forall (isdig b) (digits b fuel n).
Proof.
  intros b Hb. induction fuel as [|f IH]; intros n Hn; cbn [digits]; [constructor|].
  destruct (Z.ltb_spec n b).
  - constructor; [|constructor]. exists n. split; [apply dig_val; lia|lia].
  - apply Forall_app. split; [apply IH; apply Z.div_pos; lia|].
    constructor; [|constructor]. pose proof (Z.mod_pos_bound n b). exists (n mod b). split; [apply dig_val; lia|lia].
Qed.
Lemma digits_val : forall b, 1 < b <= 16 -> forall fuel n, 0 <= n < b ^ Z.of_nat fuel -> forall acc,
  fold_left (fun a c => a * b + dv c) (digits b fuel n) acc = acc * b ^ Z.of_nat (List.length (digits b fuel n)) + n.
Proof.
  intros b Hb. induction fuel as [|f IH]; intros n Hn acc.
  - cbn in *. lia.
  - cbn [digits]. destruct (Z.ltb_spec n b).
    + cbn [fold_left List.length]. unfold dv. rewrite dig_val by lia. change (Z.of_nat 1) with 1. rewrite Z.pow_1_r. lia.
    + rewrite fold_left_app, app_length. cbn [fold_left List.length]. rewrite IH.
      2:{ split; [apply Z.div_pos; lia|]. apply Z.div_lt_upper_bound; [lia|]. rewrite Nat2Z.inj_succ, Z.pow_succ_r in Hn by lia. lia. }
      unfold dv. pose proof (Z.mod_pos_bound n b). rewrite dig_val by lia.
      rewrite Nat2Z.inj_add. change (Z.of_nat 1) with 1. rewrite Z.pow_add_r, Z.pow_1_r by lia.
      pose proof (Z.div_mod n b). nia.
Qed.
Lemma digits_len : forall b fuel n, (0 < fuel)%nat -> (0 < List.length (digits b fuel n))%nat.
Proof. intros b [|f] n H; [lia|]. cbn [digits]. destruct (n <? b); cbn; [lia|]. rewrite app_length. cbn. lia. Qed.
Lemma log2_fuel : forall b n, 2 <= b -> 0 <= n -> n < b ^ Z.of_nat (S (Z.to_nat (Z.log2 n))).
Proof.
  intros b n Hb Hn. rewrite Nat2Z.inj_succ, Z2Nat.id by apply Z.log2_nonneg.
  destruct (Z.eq_dec n 0) as [->|Hn0]; [cbn; lia|].
  pose proof (Z.log2_spec n ltac:(lia)) as L. eapply Z.lt_le_trans; [apply L|].
  apply Z.pow_le_mono_l. lia.
Qed.
Lemma get_digits_app : forall b ds r k acc, Forall (isdig b) ds ->
  get_digits b (ds ++ r) k acc = get_digits b r (k + List.length ds) (fold_left (fun a c => a * b + dv c) ds acc).
Proof.
  intros b ds r k acc H. revert k acc. induction H as [|c ds Hc H IH]; intros k acc.
  - cbn. rewrite Nat.add_0_r. reflexivity.
  - cbn [app get_digits]. destruct Hc as (d & E & Hd). rewrite E.
    destruct (Z.ltb_spec d b); [|lia]. rewrite IH. cbn [fold_left List.length].
    replace (dv c) with d by (unfold dv; rewrite E; reflexivity). f_equal. lia.
Qed.
Lemma dec_val : forall n r, 0 <= n -> exists k, get_digits 10 (dec n ++ r) 0 0 = get_digits 10 r (S k) n.
Proof.
  intros n r Hn. rewrite get_digits_app by (apply digits_dig; lia). unfold dec.
  rewrite digits_val by (try (split; [|apply log2_fuel]); lia).
  pose proof (digits_len 10 (S (Z.to_nat (Z.log2 n))) n ltac:(lia)) as L.
  destruct (List.length (digits 10 (S (Z.to_nat (Z.log2 n))) n)) as [|k]; [lia|]. exists k. f_equal.
Qed.
Lemma hex_val : forall n r, 0 <= n -> exists k, get_digits 16 (hex n ++ r) 0 0 = get_digits 16 r (S k) n.
Proof.
  intros n r Hn. rewrite get_digits_app by (apply digits_dig; lia). unfold hex.
  rewrite digits_val by (try (split; [|apply log2_fuel]); lia).
  pose proof (digits_len 16 (S (Z.to_nat (Z.log2 n))) n ltac:(lia)) as L.
  destruct (List.length (digits 16 (S (Z.to_nat (Z.log2 n))) n)) as [|k]; [lia|]. exists k. f_equal.
Qed.

(* characters of numbers *)
Lemma isdig_range : forall c, isdig 16 c -> (48 <= c <= 57) \/ (97 <= c <= 102) \/ (65 <= c <= 70).
Proof.
  intros c (d & E & H). unfold digit_val in E.
  destruct ((48 <=? c) && (c <=? 57)) eqn:E1; [apply andb_true_iff in E1; destruct E1 as [A B]; apply Z.leb_le in A, B; lia|].
  destruct ((97 <=? c) && (c <=? 102)) eqn:E2; [apply andb_true_iff in E2; destruct E2 as [A B]; apply Z.leb_le in A, B; lia|].
  destruct ((65 <=? c) && (c <=? 70)) eqn:E3; [apply andb_true_iff in E3; destruct E3 as [A B]; apply Z.leb_le in A, B; lia|].
  discriminate.
Qed.
Lemma isdig_mono : forall b c, b <= 16 -> isdig b c -> isdig 16 c.
Proof. intros b c H (d & E & Hd). exists d. split; auto. lia. Qed.
Lemma digits_range : forall b fuel n, 0 < b <= 16 -> 0 <= n ->
  Forall (fun c => (48 <= c <= 57) \/ (97 <= c <= 102) \/ (65 <= c <= 70)) (digits b fuel n).
Proof.
  intros b fuel n Hb Hn. eapply Forall_impl; [|apply digits_dig; eauto].
  intros c H. apply isdig_range. apply (isdig_mono b); [lia|assumption].
Qed.
Lemma hex_hd : forall n, 0 <= n -> exists c l, hex n = c :: l /\ Forall (isdig 16) (c :: l).
Proof.
  intros n H. pose proof (digits_dig 16 ltac:(lia) (S (Z.to_nat (Z.log2 n))) n H) as D.
  pose proof (digits_len 16 (S (Z.to_nat (Z.log2 n))) n ltac:(lia)) as L. unfold hex.
  destruct (digits 16 _ n) as [|c l]; [cbn in L; lia|]. eauto.
Qed.
Lemma no_0x : forall l, Forall (isdig 16) l -> skip_0x l = l.
Proof.
  intros l H. destruct l as [|z [|x [|d r]]]; try reflexivity. cbn [skip_0x].
  inversion H as [|? ? Hz H1]; subst. inversion H1 as [|? ? Hx H2]; subst. apply isdig_range in Hx.
  replace ((x =? 120) || (x =? 88)) with false; [rewrite andb_false_r; reflexivity|].
  symmetry. apply orb_false_iff. split; apply Z.eqb_neq; lia.
Qed.
Lemma nz_of_digits : forall b fuel n, 0 < b <= 16 -> 0 <= n -> Forall (fun c => c <> 0) (digits b fuel n).
Proof. intros. eapply Forall_impl; [|apply digits_range; eauto]. cbn. lia. Qed.

Lemma skip_ws_digit : forall c l, isdig 16 c -> skip_ws (32 :: c :: l) = c :: l.
Proof.
  intros c l H. apply isdig_range in H. cbn [skip_ws].
  replace (space 32) with true by reflexivity. cbn iota.
  replace (space c) with false; [reflexivity|].
  symmetry. unfold space. apply orb_false_iff. split; [apply Z.eqb_neq; lia|]. apply andb_false_iff. right. apply Z.leb_gt. lia.
Qed.
Lemma take_sign_digit : forall c l, isdig 16 c -> take_sign (c :: l) = (false, c :: l).
Proof.
  intros c l H. apply isdig_range in H. cbn [take_sign].
  destruct (Z.eqb_spec c 45); [lia|]. destruct (Z.eqb_spec c 43); [lia|]. reflexivity.
Qed.
Lemma digits_hd : forall b n, 1 < b <= 16 -> 0 <= n -> exists c l, digits b (S (Z.to_nat (Z.log2 n))) n = c :: l /\ Forall (isdig b) (c :: l).
Proof.
  intros b n Hb H. pose proof (digits_dig b ltac:(lia) (S (Z.to_nat (Z.log2 n))) n H) as D.
  pose proof (digits_len b (S (Z.to_nat (Z.log2 n))) n ltac:(lia)) as L.
  destruct (digits b _ n) as [|c l]; [cbn in L; lia|]. eauto.
Qed.
Lemma scan_zu_dec : forall n, 0 <= n < two64 -> scan_zu (32 :: dec n) = Some (Some n).
Proof.
  intros n H. unfold scan_zu, scan_u.
  rewrite cstr_id by (constructor; [lia|apply nz_of_digits; lia]).
  destruct (digits_hd 10 n ltac:(lia) ltac:(lia)) as (c & l & E & F).
  pose proof (dec_val n [] ltac:(lia)) as (k & D). rewrite app_nil_r in D. unfold dec in *. rewrite E in *.
  assert (Hc : isdig 16 c) by (inversion F; subst; apply (isdig_mono 10); [lia|assumption]).
  rewrite skip_ws_digit, take_sign_digit by assumption.
  replace (10 =? 16) with false by reflexivity. cbn iota. rewrite D. cbn [get_digits].
  destruct (Z.ltb_spec n two64); [reflexivity|lia].
Qed.
Lemma scan_x_hex : forall n, 0 <= n < two32 -> scan_x (32 :: hex n) = Some (Some n).
Proof.
  intros n H. unfold scan_x, scan_u.
  rewrite cstr_id by (constructor; [lia|apply nz_of_digits; lia]).
  destruct (digits_hd 16 n ltac:(lia) ltac:(lia)) as (c & l & E & F).
  pose proof (hex_val n [] ltac:(lia)) as (k & D). rewrite app_nil_r in D. unfold hex in *. rewrite E in *.
  assert (Hc : isdig 16 c) by (inversion F; subst; assumption).
  rewrite skip_ws_digit, take_sign_digit by assumption.
  replace (16 =? 16) with true by reflexivity. cbn iota. rewrite no_0x by assumption. rewrite D. cbn [get_digits].
  destruct (Z.ltb_spec n two32); [reflexivity|lia].
Qed.

(* header lines "token = value" *)
Definition hline (tv : list Z * list Z) : list Z := fst tv ++ str " = " ++ snd tv ++ nl.
Definition hline_ok (tv : list Z * list Z) : Prop :=
  Forall (fun c => c <> 0 /\ c <> 10 /\ c <> 32) (fst tv) /\ Forall (fun c => c <> 0 /\ c <> 10) (snd tv) /\
  (List.length (fst tv) + List.length (snd tv) <= 123)%nat.

Lemma hline_parse : forall tv, hline_ok tv -> parse_line (hline tv) = Some (fst tv, 32 :: snd tv).
Proof.
  intros [t v] (Ht & Hv & _). cbn [fst snd] in *. unfold parse_line, hline. cbn [fst snd].
  rewrite cstr_id.
  2:{ rewrite !Forall_app. repeat split.
      - eapply Forall_impl; [|exact Ht]. cbn. tauto.
      - repeat (constructor; [discriminate|]); constructor.
      - eapply Forall_impl; [|exact Hv]. cbn. tauto.
      - repeat constructor; discriminate. }
  change (str " = ") with [32;61;32]. cbn [app].
  rewrite split_at_app. 2:{ eapply Forall_impl; [|exact Ht]. cbn. tauto. }
  change (61 :: 32 :: v ++ nl) with ([] ++ 61 :: 32 :: v ++ nl). rewrite split_at_app by constructor.
  change (32 :: v ++ nl) with ((32 :: v) ++ [10]). rewrite removelast_last. reflexivity.
Qed.

Lemma header_loop_ok : forall tvs fuel n toks r, Forall hline_ok tvs -> (List.length tvs < fuel)%nat ->
  (n + List.length tvs <= MAX_TOKENS)%nat ->
  header_loop fuel (List.concat (map hline tvs) ++ str "END_HEADER" ++ nl ++ r) n toks
  = Hdr (rev toks ++ map (fun tv => (fst tv, 32 :: snd tv)) tvs) r.
Proof.
  induction tvs as [|tv tvs IH]; intros fuel n toks r H L M.
  - destruct fuel as [|fuel]; [cbn in L; lia|]. cbn [map List.concat app header_loop].
    change (nl ++ r) with (10 :: r). rewrite fgets_line.
    2:{ repeat (constructor; [discriminate|]); constructor. } 2:{ vm_compute. lia. }
    change (str "END_HEADER" ++ [10]) with (str "END_HEADER" ++ nl). rewrite streq_refl. cbn. rewrite app_nil_r. reflexivity.
  - destruct fuel as [|fuel]; [cbn in L; lia|]. inversion H as [|? ? H1 H2]; subst.
    cbn [map List.concat]. rewrite <- app_assoc. cbn [header_loop].
    replace (hline tv ++ List.concat (map hline tvs) ++ str "END_HEADER" ++ nl ++ r)
      with ((fst tv ++ str " = " ++ snd tv) ++ 10 :: List.concat (map hline tvs) ++ str "END_HEADER" ++ nl ++ r).
    2:{ unfold hline, nl. rewrite <- !app_assoc. reflexivity. }
    destruct H1 as (Ht & Hv & Hl). rewrite fgets_line.
    2:{ rewrite !Forall_app. repeat split.
        - eapply Forall_impl; [|exact Ht]. cbn. tauto.
        - repeat (constructor; [discriminate|]); constructor.
        - eapply Forall_impl; [|exact Hv]. cbn. tauto. }
    2:{ unfold MAX_LINE_LENGTH. rewrite !app_length. change (List.length (str " = ")) with 3%nat. lia. }
    replace ((fst tv ++ str " = " ++ snd tv) ++ [10]) with (hline tv) by (unfold hline, nl; rewrite <- !app_assoc; reflexivity).
    assert (P : parse_line (hline tv) = Some (fst tv, 32 :: snd tv)) by (apply hline_parse; repeat split; assumption).
    destruct (hline tv) as [|c0 l0] eqn:El.
    { unfold hline in El. destruct (fst tv); discriminate. }
    rewrite <- El in *. rewrite P.
    replace (streq (hline tv) (str "END_HEADER" ++ nl)) with false.
    2:{ symmetry. destruct (streq (hline tv) (str "END_HEADER" ++ nl)) eqn:E; auto. exfalso.
        unfold streq in E. apply eqs_eq in E. apply (f_equal (split_at 32)) in E.
        change (split_at 32 (cstr (str "END_HEADER" ++ nl))) with (@None (list Z * list Z)) in E.
        unfold parse_line in P. rewrite E in P. discriminate. }
    cbn [List.length] in *. destruct (Nat.ltb_spec n MAX_TOKENS); [|lia].
    rewrite IH by (auto; lia). cbn [rev]. rewrite <- app_assoc. reflexivity.
Qed.

Theorem get_header_ok : forall tvs r, Forall hline_ok tvs -> (List.length tvs <= MAX_TOKENS)%nat ->
  get_header (str "BEGIN_HEADER" ++ nl ++ List.concat (map hline tvs) ++ str "END_HEADER" ++ nl ++ r)
  = Hdr (map (fun tv => (fst tv, 32 :: snd tv)) tvs) r.
Proof.
  intros tvs r H L. unfold get_header. change (nl ++ ?x) with (10 :: x) at 1. rewrite fgets_line.
  2:{ repeat (constructor; [discriminate|]); constructor. } 2:{ vm_compute. lia. }
  change (str "BEGIN_HEADER" ++ [10]) with (str "BEGIN_HEADER" ++ nl). rewrite streq_refl.
  change (match str "BEGIN_HEADER" ++ nl with [] => HNull | _ :: _ => ?x end) with x. cbn iota.
  rewrite header_loop_ok; auto.
  rewrite app_length. assert (List.length tvs <= List.length (List.concat (map hline tvs)))%nat; [|lia].
  clear. induction tvs; cbn; [lia|]. rewrite app_length.
  assert (1 <= List.length (hline a))%nat; [|lia]. unfold hline. rewrite !app_length. cbn. lia.
Qed.
