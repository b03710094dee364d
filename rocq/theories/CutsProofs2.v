From Coq Require Import Sorted Permutation.
From Verif Require Import CInt Lib ByteModel ByteSpec ByteProofs GeomModel GeomSpec GeomProofs GeomProofs2 CutsModel CutsSpec CutsProofs.

(* ---- C39: the configuration-space list ---- *)
Lemma removelast_prod_bound d ds s : Forall (fun L => 0 < L) (d :: ds) -> 0 < s ->
  s * prodZ (removelast (d :: ds)) < two31 -> s < two31 /\ (ds <> [] -> s * d * prodZ (removelast ds) < two31).
Proof.
  intros H Hs Hp. inversion H as [|? ? Hd Hds]; subst. destruct ds as [|e ds].
  - split; [cbn in Hp; lia|tauto].
  - rewrite removelast_cons2, prodZ_cons in Hp.
    assert (0 < prodZ (removelast (e :: ds))).
    { apply prodZ_pos. apply Forall_forall. intros x Hx. rewrite Forall_forall in Hds. apply Hds.
      clear -Hx. revert e Hx. induction ds as [|f ds IH]; intros e Hx; [destruct Hx|].
      destruct Hx as [->|Hx]; [now left|]. right. now apply IH. }
    assert (0 < d * prodZ (removelast (e :: ds))) by nia.
    split; [nia|]. intros _. rewrite <- Z.mul_assoc. exact Hp.
Qed.
Lemma mom_2pi_app ds ts : (length ts <= 1)%nat -> Forall (fun L => 0 < L < two31) ds ->
  forall mu i s DIMS, 0 < s -> s * prodZ (removelast ds) < two31 -> (mu + length ds = DIMS)%nat -> 0 <= i ->
  mom_2piBZ_loop (ds ++ ts) mu i s DIMS = Some (digits ds (i / s) ++ zeros ts).
Proof.
  intros Ht Hd. induction Hd as [|d ds Hd0 Hds IH]; intros mu i s DIMS Hs Hp HD Hi.
  - cbn [length app] in *. destruct ts as [|t [|]]; [reflexivity| |cbn in Ht; lia].
    cbn [mom_2piBZ_loop]. replace (mu =? DIMS)%nat with true by (symmetry; apply Nat.eqb_eq; lia). reflexivity.
  - destruct (removelast_prod_bound d ds s) as (Hs' & Hp'); [apply ok_pos; constructor; assumption|assumption|assumption|].
    change ((d :: ds) ++ ts) with (d :: (ds ++ ts)). cbn [length] in HD.
    cbn [mom_2piBZ_loop]. replace (mu =? DIMS)%nat with false by (symmetry; apply Nat.eqb_neq; lia).
    rewrite (u64_id s) by (unfold two31, two64 in *; lia).
    replace ((s =? 0) || (d =? 0)) with false by lia. cbv zeta.
    rewrite sub_mod_div by lia.
    assert (Hm : 0 <= (i / s) mod d < d) by (apply Z.mod_pos_bound; lia).
    rewrite (i32_id ((i / s) mod d)) by (unfold two31 in *; lia).
    cbn [digits app].
    destruct ds as [|e ds].
    + cbn [app]. destruct ts as [|t [|]]; [reflexivity| |cbn in Ht; lia].
      cbn [mom_2piBZ_loop]. cbn [length] in HD.
      replace (S mu =? DIMS)%nat with true by (symmetry; apply Nat.eqb_eq; lia). reflexivity.
    + specialize (Hp' ltac:(discriminate)).
      assert (0 < prodZ (removelast (e :: ds))).
      { apply prodZ_pos. apply Forall_forall. intros x Hx. rewrite Forall_forall in Hds. apply Hds.
        clear -Hx. revert e Hx. induction ds as [|f ds IH]; intros e Hx; [destruct Hx|].
        destruct Hx as [->|Hx]; [now left|]. right. now apply IH. }
      assert (Hsd : 0 < s * d) by nia. assert (s * d < two31) by nia.
      rewrite u64_id by (unfold two31, two64 in *; lia). rewrite i32_id by (unfold two31 in *; lia).
      rewrite IH; [|lia|assumption|lia|lia]. cbn [bindo]. rewrite Z.div_div by lia. reflexivity.
Qed.

Definition centre (L c : Z) : Z := if c >? L / 2 then c - L else c.
Lemma vec_app ds ts : (length ts <= 1)%nat -> Forall (fun L => 0 < L < two31) ds ->
  forall x, in_box ds x -> forall mu DIMS, (mu + length ds = DIMS)%nat ->
  vec_from_origin_loop (ds ++ ts) (x ++ zeros ts) mu DIMS
  = map (fun p => centre (fst p) (snd p)) (combine ds x) ++ zeros ts.
Proof.
  intros Ht Hd x Hx. revert Hd. induction Hx as [|d c ds x Hc Hx IH]; intros Hd mu DIMS HD.
  - cbn [app combine map length] in *. destruct ts as [|t [|]]; [reflexivity| |cbn in Ht; lia].
    cbn [zeros map vec_from_origin_loop]. replace (mu <? DIMS)%nat with false by (symmetry; apply Nat.ltb_ge; lia). reflexivity.
  - inversion Hd as [|? ? Hd0 Hds]; subst. cbn [length app vec_from_origin_loop combine map fst snd] in *.
    f_equal; [|apply IH; [assumption|lia]].
    replace (mu <? mu + S (length ds))%nat with true by (symmetry; apply Nat.ltb_lt; lia).
    rewrite Z.shiftr_div_pow2 by lia. change (2 ^ 1) with 2. unfold centre.
    destruct (half_bounds d Hd0) as (Hh & Hh').
    rewrite !i32_id by (unfold two31 in *; lia). reflexivity.
Qed.

(* the shortest vector from the origin to site x: congruent to x, -L < 2 v <= L *)
Definition shortest (ds x v : list Z) : Prop :=
  Forall2 (fun p c => (c - snd p) mod fst p = 0 /\ - fst p < 2 * c <= fst p) (combine ds x) v.

Lemma centre_shortest ds x : in_box ds x -> shortest ds x (map (fun p => centre (fst p) (snd p)) (combine ds x)).
Proof.
  intros H. unfold shortest. induction H as [|d c ds x Hc Hx IH]; cbn [combine map]; constructor; [|exact IH]. cbn [fst snd].
  unfold centre. pose proof (Z.div_mod d 2 ltac:(lia)). pose proof (Z.mod_pos_bound d 2 ltac:(lia)).
  rewrite Z.gtb_ltb. destruct (Z.ltb_spec (d / 2) c).
  - split; [|lia]. replace (c - d - c) with (0 + (-1) * d) by lia. rewrite Z.mod_add, Z.mod_0_l by lia. reflexivity.
  - split; [|lia]. rewrite Z.sub_diag, Z.mod_0_l by lia. reflexivity.
Qed.
Lemma shortest_unique ds x : in_box ds x -> forall v, shortest ds x v ->
  v = map (fun p => centre (fst p) (snd p)) (combine ds x).
Proof.
  intros H. unfold shortest. induction H as [|d c ds x Hc Hx IH]; intros v Hv; cbn [combine map] in *.
  - now inversion Hv.
  - inversion Hv as [|? w ? v' (Hm & Hb) Hr]; subst. cbn [fst snd] in *. f_equal; [|now apply IH].
    apply Z.mod_divide in Hm; [|lia]. destruct Hm as (k & Hk).
    unfold centre. pose proof (Z.div_mod d 2 ltac:(lia)). pose proof (Z.mod_pos_bound d 2 ltac:(lia)).
    assert (k = 0 \/ k = -1) by nia. rewrite Z.gtb_ltb. destruct (Z.ltb_spec (d / 2) c); nia.
Qed.

Theorem veclist_ok : forall ds ts safe, lat_ok ds ts -> prodZ (removelast ds) < two31 ->
  exists l, get_veclist (ds ++ ts) (length ds) safe = Some l /\
    increasing_by (fun a b => fst a < fst b) l /\
    forall s p, In (s, p) l <->
      exists x v, in_box ds x /\ shortest ds x v /\ s = index_of ds x /\ p = v ++ zeros ts /\ safe p = true.
Proof.
  intros ds ts safe H Hr. destruct (lat_ok_ds _ _ H) as (Hd & Hp & Hp2). pose proof H as (Ht & Hn & Hf & Hpp).
  assert (Hv : forall i, 0 <= i -> get_vec_from_origin (ds ++ ts) i (length ds) =
     Some (map (fun p => centre (fst p) (snd p)) (combine ds (digits ds i)) ++ zeros ts)).
  { intros i Hi. unfold get_vec_from_origin, get_mom_2piBZ. rewrite mom_2pi_app; try assumption; try lia.
    cbn [bindo]. rewrite Z.div_1_r. f_equal. apply vec_app; try assumption; [|lia].
    apply digits_in_box, ok_pos; assumption. }
  exists (map (fun i => (i, map (fun p => centre (fst p) (snd p)) (combine ds (digits ds i)) ++ zeros ts))
    (filter (fun i => safe (map (fun p => centre (fst p) (snd p)) (combine ds (digits ds i)) ++ zeros ts)) (zrange (prodZ ds)))).
  split; [|split].
  - unfold get_veclist. rewrite LOOP_prod by assumption.
    rewrite (keep_total _ _ (fun i => map (fun p => centre (fst p) (snd p)) (combine ds (digits ds i)) ++ zeros ts)).
    2:{ intros i Hi. apply in_zrange in Hi. apply Hv. lia. }
    cbn [bindo]. apply mapo_total. intros i Hi. apply filter_In in Hi. destruct Hi as (Hi & _). apply in_zrange in Hi.
    rewrite Hv by lia. reflexivity.
  - apply (sorted_map Z.lt); [|apply sorted_filter, zrange_sorted]. intros a b _ _ Hab. exact Hab.
  - intros s p. rewrite in_map_iff. split.
    + intros (i & E & Hi). apply filter_In in Hi. destruct Hi as (Hi & Hs). apply in_zrange in Hi. injection E as <- <-.
      assert (Hb : in_box ds (digits ds i)) by (apply digits_in_box, ok_pos; assumption).
      exists (digits ds i), (map (fun p => centre (fst p) (snd p)) (combine ds (digits ds i))).
      repeat split; try assumption.
      * now apply centre_shortest.
      * rewrite index_of_horner by (now apply in_box_length in Hb). rewrite horner_digits; [reflexivity|apply ok_pos; assumption|assumption].
    + intros (x & v & Hx & Hsh & -> & -> & Hs). exists (horner ds x).
      rewrite index_of_horner by (now apply in_box_length in Hx).
      rewrite (shortest_unique ds x Hx v Hsh) in *. rewrite digits_horner by assumption. split; [reflexivity|].
      apply filter_In. rewrite digits_horner by assumption. split; [|assumption]. apply in_zrange. now apply horner_bound.
Qed.

(* ---- memory images ---- *)
Lemma enc_length be k x : length (enc be k x) = k.
Proof. unfold enc. destruct be; [rewrite rev_length|]; apply le_bytes_length. Qed.
Lemma dec_enc be k x : 0 <= x < 256 ^ Z.of_nat k -> dec be (enc be k x) = x.
Proof. intros H. unfold dec, enc. destruct be; [rewrite rev_involutive|]; now apply le_val_bytes. Qed.

Definition vec_ok (nd : nat) (v : veclist) : Prop :=
  0 <= fst v < two64 /\ length (snd v) = nd /\ Forall (fun c => - two31 <= c < two31) (snd v).

Lemma concat_const_length {A B} (f : A -> list B) k l : (forall a, length (f a) = k) ->
  length (concat (map f l)) = (k * length l)%nat.
Proof. intros H. induction l as [|a l IH]; cbn; [lia|]. rewrite app_length, H, IH. lia. Qed.
Lemma concat_const_skip {A B} (f : A -> list B) k l : (forall a, In a l -> length (f a) = k) ->
  forall j a r, nth_error l j = Some a -> firstn k (skipn (k * j) (concat (map f l) ++ r)) = f a.
Proof.
  induction l as [|b l IH]; intros H j a r Ha; [destruct j; discriminate|].
  cbn [map concat]. destruct j as [|j].
  - injection Ha as ->. rewrite Nat.mul_0_r. cbn [skipn]. rewrite <- app_assoc.
    rewrite firstn_app, H by now left. rewrite Nat.sub_diag, firstn_O, app_nil_r.
    rewrite <- (H a) by now left. apply firstn_all.
  - cbn in Ha. replace (k * S j)%nat with (k * j + k)%nat by lia. rewrite <- skipn_skipn'.
    rewrite <- app_assoc. rewrite skipn_app, H by now left.
    rewrite Nat.sub_diag. rewrite (skipn_all2 (f b)) by (rewrite H by (now left); lia). cbn [app skipn].
    apply IH; [intros; apply H; now right|assumption].
Qed.
Lemma enc_vec_length be nd v : length (snd v) = nd -> length (enc_vec be v) = vec_size nd.
Proof.
  intros <-. unfold enc_vec, vec_size. rewrite !app_length, enc_length, repeat_length.
  rewrite (concat_const_length _ 4) by (intros; apply enc_length). lia.
Qed.
Lemma i32_mod c : - two31 <= c < two31 -> i32 (c mod two32) = c.
Proof.
  intros H. unfold i32. rewrite Zplus_mod_idemp_l. rewrite Z.mod_small by (unfold two31, two32 in *; lia). lia.
Qed.
Lemma dec_enc_vec be nd v : vec_ok nd v -> dec_vec be nd (enc_vec be v) = v.
Proof.
  intros (H1 & H2 & H3). destruct v as [s p]. cbn [fst snd] in *. unfold dec_vec. f_equal.
  - unfold enc_vec. cbn [fst]. rewrite firstn_app, enc_length, Nat.sub_diag, firstn_O, app_nil_r.
    rewrite <- (enc_length be 8 s) at 1. rewrite firstn_all. now apply dec_enc.
  - unfold enc_vec. cbn [fst snd].
    assert (Hsk : forall mu, skipn (8 + 4 * mu) (enc be 8 s ++ concat (map (fun c => enc be 4 (c mod two32)) p) ++ repeat 0 (vec_pad (length p)))
      = skipn (4 * mu) (concat (map (fun c => enc be 4 (c mod two32)) p) ++ repeat 0 (vec_pad (length p)))).
    { intros mu. rewrite Nat.add_comm, <- skipn_skipn', skipn_app, enc_length, Nat.sub_diag.
      rewrite (skipn_all2 (enc be 8 s)) by (rewrite enc_length; lia). reflexivity. }
    apply list_ext. intros k. destruct (Nat.lt_ge_cases k nd) as [Hk|Hk].
    + destruct (nth_error_lt p k) as (c & Hc); [lia|]. rewrite Hc.
      assert (E : nth_error (seq 0 nd) k = Some k).
      { rewrite (nth_error_nth' _ 0%nat) by (rewrite seq_length; lia). now rewrite seq_nth. }
      rewrite (map_nth_error _ _ _ E). f_equal. rewrite Hsk.
      rewrite (concat_const_skip (fun c => enc be 4 (c mod two32)) 4 p) with (a := c) by (intros; try apply enc_length; assumption).
      assert (Hm : 0 <= c mod two32 < two32) by (apply Z.mod_pos_bound; reflexivity).
      rewrite dec_enc by exact Hm. apply i32_mod. rewrite Forall_forall in H3. apply H3. now apply nth_error_In in Hc.
    + rewrite (proj2 (nth_error_None _ _)) by (rewrite map_length, seq_length; lia).
      symmetry. apply nth_error_None. lia.
Qed.

(* ---- the cache file ---- *)
Definition is_prefix {A} (a b : list A) : Prop := exists r, b = a ++ r.

Lemma le_bytes_high k x : 0 <= x < 256 ^ Z.of_nat k -> forall j, le_bytes (k + j) x = le_bytes k x ++ repeat 0 j.
Proof.
  intros H j. rewrite le_bytes_app. f_equal. rewrite Z.div_small by assumption.
  induction j as [|j IH]; [reflexivity|]. cbn. f_equal. exact IH.
Qed.

(* little endian: the four bytes are the count *)
Lemma count_le n in0 : 0 <= n < two32 -> 0 <= in0 < two32 ->
  dec false (firstn 4 (enc false 8 n) ++ skipn 4 (enc false 8 in0)) = n.
Proof.
  intros H H0. unfold enc, dec. change 8%nat with (4 + 4)%nat. rewrite (le_bytes_high 4 n H 4), (le_bytes_high 4 in0 H0 4).
  rewrite firstn_app, le_bytes_length. cbn [Nat.sub]. rewrite firstn_O, app_nil_r.
  rewrite <- (le_bytes_length 4 n) at 1. rewrite firstn_all.
  rewrite skipn_app, le_bytes_length. cbn [Nat.sub]. rewrite (skipn_all2 (le_bytes 4 in0)) by (rewrite le_bytes_length; lia).
  change (skipn 0 (repeat 0 4)) with (repeat 0 4). cbn [app]. rewrite <- (le_bytes_high 4 n H 4).
  apply le_val_bytes. unfold two32 in *. change (256 ^ Z.of_nat (4 + 4)) with 18446744073709551616. lia.
Qed.
(* big endian: they are its upper half *)
Lemma count_be n in0 : 0 <= n < two32 -> 0 <= in0 < two32 ->
  dec true (firstn 4 (enc true 8 n) ++ skipn 4 (enc true 8 in0)) = in0.
Proof.
  intros H H0. unfold enc, dec. change 8%nat with (4 + 4)%nat. rewrite (le_bytes_high 4 n H 4).
  assert (E : firstn 4 (rev (le_bytes 4 n ++ repeat 0 4)) = firstn 4 (rev (le_bytes (4 + 4) in0))).
  { rewrite (le_bytes_high 4 in0 H0 4). rewrite !rev_app_distr. rewrite !firstn_app. reflexivity. }
  rewrite E, firstn_skipn, rev_involutive. apply le_val_bytes.
  unfold two32 in *. change (256 ^ Z.of_nat (4 + 4)) with 18446744073709551616. lia.
Qed.

Section Cache.
Variable nd : nat.
Variable kept : list veclist.
Hypothesis Hok : Forall (vec_ok nd) kept.
Hypothesis Hlen : 0 < Z.of_nat (length kept) < two32.

Lemma head_len be : length (firstn 4 (enc be 8 (Z.of_nat (length kept)))) = 4%nat.
Proof. rewrite firstn_length, enc_length. reflexivity. Qed.
Lemma body_len be : length (concat (map (enc_vec be) kept)) = (vec_size nd * length kept)%nat.
Proof.
  clear Hlen. induction Hok as [|v l Hv Hl IH]; cbn [map concat length]; [lia|].
  rewrite app_length, (enc_vec_length be nd) by apply Hv. rewrite IH by assumption. lia.
Qed.
Lemma file_len be : length (write_cache be kept) = (4 + vec_size nd * length kept)%nat.
Proof. unfold write_cache. rewrite app_length, head_len, body_len. reflexivity. Qed.

(* records of a prefix of the file *)
Lemma record_prefix be j k a : nth_error kept j = Some a -> (4 + vec_size nd * S j <= k)%nat ->
  record be nd (skipn 4 (firstn k (write_cache be kept))) j = a.
Proof.
  intros Ha Hk. unfold record. rewrite skipn_firstn_comm. unfold write_cache.
  rewrite skipn_app, head_len, Nat.sub_diag.
  rewrite (skipn_all2 (firstn 4 _)) by (rewrite head_len; lia). cbn [app skipn].
  rewrite skipn_firstn_comm, firstn_firstn. rewrite Nat.min_l by lia.
  rewrite <- (app_nil_r (concat _)).
  rewrite (concat_const_skip (enc_vec be) (vec_size nd) kept) with (a := a); [|intros v Hv; apply enc_vec_length; rewrite Forall_forall in Hok; now apply Hok|assumption].
  apply dec_enc_vec. rewrite Forall_forall in Hok. apply Hok. now apply nth_error_In in Ha.
Qed.
Lemma records_prefix be m k : (m <= length kept)%nat -> (4 + vec_size nd * m <= k)%nat ->
  map (record be nd (skipn 4 (firstn k (write_cache be kept)))) (seq 0 m) = firstn m kept.
Proof.
  intros Hm Hk. apply list_ext. intros j. rewrite nth_firstn. destruct (Nat.ltb_spec j m) as [Hj|Hj].
  - destruct (nth_error_lt kept j) as (a & Ha); [lia|]. rewrite Ha.
    assert (E : nth_error (seq 0 m) j = Some j).
    { rewrite (nth_error_nth' _ 0%nat) by (rewrite seq_length; lia). now rewrite seq_nth. }
    rewrite (map_nth_error _ _ _ E). f_equal. apply record_prefix; [assumption|nia].
  - apply nth_error_None. rewrite map_length, seq_length. exact Hj.
Qed.

Lemma size_pos : (0 < vec_size nd)%nat.
Proof. unfold vec_size. lia. Qed.

(* the file after k bytes, read on a little endian host *)
Lemma read_prefix k in0 old : (k <= length (write_cache false kept))%nat -> 0 <= in0 < two32 ->
  let m := ((k - 4) / vec_size nd)%nat in
  read_cache false nd in0 old (firstn k (write_cache false kept)) =
  if (m =? 0)%nat then Null
  else VList (Z.of_nat (length kept)) (map Some (firstn m kept) ++
        match old with Some l => map Some (skipn m l) | None => repeat None (length kept - m) end).
Proof.
  intros Hk Hin m. pose proof size_pos as Hsz. pose proof (file_len false) as FL.
  unfold read_cache. rewrite firstn_length, Nat.min_l by assumption.
  destruct (Nat.ltb_spec k 4) as [K|K].
  { replace m with 0%nat; [reflexivity|]. unfold m. replace (k - 4)%nat with 0%nat by lia. symmetry. apply Nat.div_small. lia. }
  rewrite firstn_firstn, Nat.min_l by lia.
  replace (firstn 4 (write_cache false kept)) with (firstn 4 (enc false 8 (Z.of_nat (length kept)))).
  2:{ unfold write_cache. rewrite firstn_app, head_len, Nat.sub_diag, firstn_O, app_nil_r.
      rewrite firstn_firstn. reflexivity. }
  rewrite count_le by lia.
  rewrite (skipn_length 4 (firstn k _)), firstn_length, Nat.min_l by assumption. cbv zeta.
  assert (Hm : (m <= length kept)%nat).
  { unfold m. apply Nat.div_le_upper_bound; lia. }
  rewrite <- Nat2Z.inj_div. fold m. rewrite Z.min_r by lia.
  replace (Z.of_nat m =? 0) with (m =? 0)%nat by (destruct (Nat.eqb_spec m 0); lia).
  destruct (m =? 0)%nat; [reflexivity|]. rewrite Nat2Z.id. f_equal. f_equal.
  - f_equal. apply records_prefix; [assumption|]. unfold m.
    pose proof (Nat.div_mod (k - 4) (vec_size nd) ltac:(lia)). lia.
  - destruct old; [reflexivity|]. f_equal. lia.
Qed.

Lemma read_full in0 old : 0 <= in0 < two32 ->
  (old = None \/ old = Some kept) ->
  read_cache false nd in0 old (write_cache false kept) = VList (Z.of_nat (length kept)) (map Some kept).
Proof.
  intros Hin Ho. rewrite <- (firstn_all (write_cache false kept)) at 1. rewrite read_prefix; [|lia|assumption].
  rewrite file_len. pose proof size_pos.
  replace ((4 + vec_size nd * length kept - 4) / vec_size nd)%nat with (length kept).
  2:{ replace (4 + vec_size nd * length kept - 4)%nat with (length kept * vec_size nd)%nat by lia. symmetry. apply Nat.div_mul. lia. }
  destruct (Nat.eqb_spec (length kept) 0); [lia|]. f_equal. rewrite firstn_all.
  destruct Ho as [-> | ->]; [rewrite Nat.sub_diag|rewrite skipn_all2 by lia]; apply app_nil_r.
Qed.
End Cache.

(* ---- whole calls ---- *)
Theorem first_call : forall nd kept, Forall (vec_ok nd) kept -> 0 < Z.of_nat (length kept) < two32 ->
  compute_veclist false nd true None kept =
  (VList (Z.of_nat (length kept)) (map Some kept), Some (write_cache false kept)).
Proof.
  intros nd kept Hok Hlen. destruct kept as [|a k] eqn:E; [cbn in Hlen; lia|]. rewrite <- E in *.
  unfold compute_veclist. rewrite E at 1. f_equal. apply read_full; try assumption; [lia|now right].
Qed.
Theorem later_call : forall nd kept b kept', Forall (vec_ok nd) kept -> 0 < Z.of_nat (length kept) < two32 ->
  compute_veclist false nd b (Some (write_cache false kept)) kept' =
  (VList (Z.of_nat (length kept)) (map Some kept), Some (write_cache false kept)).
Proof.
  intros nd kept b kept' Hok Hlen. unfold compute_veclist. f_equal.
  apply read_full; try assumption; [cbv; split; congruence|now left].
Qed.

(* ---- FWRITE ---- *)
Lemma bswap_bytes f size n arr : (forall x, In x arr -> le_bytes size (f x) = rev (le_bytes size x)) ->
  image false size (firstn n (map f (firstn n arr) ++ skipn n arr)) = image true size (firstn n arr).
Proof.
  intros H. unfold image, enc.
  assert (E : firstn n (map f (firstn n arr) ++ skipn n arr) = map f (firstn n arr)).
  { rewrite firstn_app, map_length, firstn_length. destruct (Nat.le_ge_cases n (length arr)).
    - rewrite Nat.min_l, Nat.sub_diag, firstn_O, app_nil_r by assumption. apply firstn_all2.
      rewrite map_length, firstn_length. lia.
    - rewrite skipn_all2 by assumption. rewrite firstn_nil, app_nil_r. apply firstn_all2.
      rewrite map_length, firstn_length. lia. }
  rewrite E, map_map. f_equal. apply map_ext_in. intros x Hx. apply H.
  rewrite <- (firstn_skipn n arr). apply in_or_app. now left.
Qed.
Theorem FWRITE_ok : forall be o1 o2 arr size stride,
  Permutation o1 (seq 0 stride) -> Permutation o2 (seq 0 stride) -> (stride <= length arr)%nat ->
  (size = 4%nat /\ Forall (fun x => 0 <= x < two32) arr \/ size = 8%nat /\ Forall (fun x => 0 <= x < two64) arr) ->
  FWRITE be o1 o2 arr size stride = Some (0, concat (map (fun x => rev (le_bytes size x)) (firstn stride arr)), arr).
Proof.
  intros be o1 o2 arr size n P1 P2 HL [[-> HF]|[-> HF]]; unfold FWRITE; cbn [Nat.eqb].
  - destruct be; cbn [bindo].
    + destruct (Nat.ltb_spec (length arr) n); [lia|]. reflexivity.
    + pose proof (bswap_twice _ two32 n o1 o2 arr swap32_invol P1 P2 HL HF) as T.
      unfold bswap_32 in *. rewrite (bswap_map _ n o1 arr P1 HL) in *. cbn [bindo] in *.
      rewrite app_length, map_length, firstn_length, skipn_length.
      destruct (Nat.ltb_spec (Nat.min n (length arr) + (length arr - n)) n); [lia|].
      rewrite T. cbn [bindo]. f_equal. f_equal. f_equal. rewrite bswap_bytes; [reflexivity|].
      intros x Hx. apply swap32_rev. rewrite Forall_forall in HF. now apply HF.
  - destruct be; cbn [bindo].
    + destruct (Nat.ltb_spec (length arr) n); [lia|]. reflexivity.
    + pose proof (bswap_twice _ two64 n o1 o2 arr swap64_invol P1 P2 HL HF) as T.
      unfold bswap_64 in *. rewrite (bswap_map _ n o1 arr P1 HL) in *. cbn [bindo] in *.
      rewrite app_length, map_length, firstn_length, skipn_length.
      destruct (Nat.ltb_spec (Nat.min n (length arr) + (length arr - n)) n); [lia|].
      rewrite T. cbn [bindo]. f_equal. f_equal. f_equal. rewrite bswap_bytes; [reflexivity|].
      intros x Hx. apply swap64_rev. rewrite Forall_forall in HF. now apply HF.
Qed.
