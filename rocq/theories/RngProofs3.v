From Coq Require Import String Permutation.
From Verif Require Import CInt Lib ByteModel ByteSpec ByteProofs TextModel HdrModel TextProofs RngModel RngProofs RngProofs2.
Open Scope Z_scope.

(* ---------- saved states ---------- *)
Lemma to_be_ok : forall be f n a, List.length a = n -> to_be be f n a = Some (if be then a else map f a).
Proof.
  intros [] f n a L; [reflexivity|]. unfold to_be, bswap_seq. rewrite (bswap_map f n (seq 0 n)); [|apply Permutation_refl|lia].
  rewrite <- L, firstn_all, skipn_all, app_nil_r. reflexivity.
Qed.
Definition wbytes (be : bool) (nb : nat) (a : list Z) : list Z := List.concat (map (mem_bytes be nb) a).
Lemma fwrite_ok : forall be nb n a, List.length a = n -> fwrite be nb n a = Some (wbytes be nb a).
Proof. intros be nb n a L. unfold fwrite. destruct (Nat.ltb_spec (List.length a) n); [lia|]. rewrite <- L, firstn_all. reflexivity. Qed.
Lemma mem_bytes_len : forall be nb w, List.length (mem_bytes be nb w) = nb.
Proof. intros [] nb w; unfold mem_bytes; rewrite ?rev_length; apply le_bytes_length. Qed.
Lemma mem_word_bytes : forall be nb w, 0 <= w < 256 ^ Z.of_nat nb -> mem_word be (mem_bytes be nb w) = w.
Proof. intros [] nb w H; unfold mem_word, mem_bytes; rewrite ?rev_involutive; apply le_val_bytes; assumption. Qed.
Lemma fread_ok : forall be nb a r, Forall (fun w => 0 <= w < 256 ^ Z.of_nat nb) a ->
  fread be nb (List.length a) (wbytes be nb a ++ r) = Some (a, r).
Proof.
  intros be nb a r H. induction H as [|w a Hw H IH]; [reflexivity|].
  unfold wbytes in *. cbn [List.length fread map List.concat]. rewrite <- app_assoc.
  set (m := mem_bytes be nb w) in *. assert (L : List.length m = nb) by apply mem_bytes_len.
  rewrite app_length. destruct (Nat.ltb_spec (List.length m + List.length (List.concat (map (mem_bytes be nb) a) ++ r)) nb); [lia|].
  rewrite skipn_app, firstn_app. rewrite L, Nat.sub_diag. cbn [firstn skipn]. rewrite app_nil_r.
  rewrite skipn_all2, firstn_all2 by lia. cbn [app]. rewrite IH. cbn [bindo]. unfold m. rewrite mem_word_bytes by assumption. reflexivity.
Qed.
Lemma fread_short : forall be nb n f, (0 < nb)%nat -> (List.length f < n * nb)%nat -> fread be nb n f = None.
Proof.
  intros be nb n f Hn. revert f. induction n as [|n IH]; intros f L; [lia|]. cbn [fread].
  destruct (Nat.ltb_spec (List.length f) nb); [reflexivity|]. rewrite IH; [reflexivity|]. rewrite skipn_length. nia.
Qed.
Lemma fread_len : forall be nb n f ws r, fread be nb n f = Some (ws, r) -> (List.length f = n * nb + List.length r)%nat.
Proof.
  intros be nb n. induction n as [|n IH]; intros f ws r E; cbn [fread] in E; [injection E as <- <-; reflexivity|].
  destruct (Nat.ltb_spec (List.length f) nb); [discriminate|].
  destruct (fread be nb n (skipn nb f)) as [[ws' r']|] eqn:E1; [|discriminate]. cbn in E. injection E as <- <-.
  apply IH in E1. rewrite skipn_length in E1. lia.
Qed.

(* the words of a table as they are in the file *)
Definition fw (g : gen) (be : bool) (t : list Z) : list Z := if be then t else map (word_swap g) t.
Definition fw32 (be : bool) (t : list Z) : list Z := if be then t else map SwapByteOrder_32 t.
Lemma bits_bytes : forall g, 256 ^ Z.of_nat (word_bytes g) = 2 ^ bits g.
Proof. destruct g; reflexivity. Qed.
Lemma swap_range32 : forall v, 0 <= v < 2 ^ 32 -> 0 <= SwapByteOrder_32 v < 2 ^ 32.
Proof. intros v H. apply (swap32_rev v H). Qed.
Lemma swap_range64 : forall v, 0 <= v < 2 ^ 64 -> 0 <= SwapByteOrder_64 v < 2 ^ 64.
Proof. intros v H. apply (swap64_rev v H). Qed.
Lemma word_swap_range : forall g v, 0 <= v < 2 ^ bits g -> 0 <= word_swap g v < 2 ^ bits g.
Proof. intros [] v H; [apply swap_range32|apply swap_range32|apply swap_range32|apply swap_range32|apply swap_range64]; assumption. Qed.
Lemma word_swap_invol : forall g v, 0 <= v < 2 ^ bits g -> word_swap g (word_swap g v) = v.
Proof. intros [] v H; [apply swap32_invol|apply swap32_invol|apply swap32_invol|apply swap32_invol|apply swap64_invol]; assumption. Qed.
Lemma map_range : forall (P : Z -> Prop) f l, (forall v, P v -> P (f v)) -> Forall P l -> Forall P (map f l).
Proof. intros P f l H F. induction F; cbn; constructor; auto. Qed.
Lemma map_inv : forall (P : Z -> Prop) f l, (forall v, P v -> f (f v) = v) -> Forall P l -> map f (map f l) = l.
Proof. intros P f l H F. induction F; cbn; [reflexivity|]. rewrite H, IHF by assumption. reflexivity. Qed.

Lemma write_tables_ok : forall g be N T, List.length T = N -> Forall (tabok g) T ->
  write_tables g be N T = Some (List.concat (map (fun t => wbytes be (word_bytes g) (fw g be t)) T), T).
Proof.
  intros g be N T L F. revert N L. induction F as [|t T [Lt Ft] F IH]; intros N L; cbn [List.length] in L; subst N; [reflexivity|].
  cbn [write_tables]. rewrite to_be_ok by assumption. cbn [bindo]. fold (fw g be t).
  assert (Lf : List.length (fw g be t) = tbl g) by (unfold fw; destruct be; rewrite ?map_length; assumption).
  rewrite fwrite_ok by assumption. cbn [bindo]. rewrite to_be_ok by assumption. cbn [bindo].
  rewrite (IH _ eq_refl). cbn [bindo map List.concat]. do 3 f_equal.
  unfold fw. destruct be; [reflexivity|]. apply (map_inv (fun w => 0 <= w < 2 ^ bits g)); [apply word_swap_invol|assumption].
Qed.
Lemma write_array_ok : forall be N a, List.length a = N -> Forall (fun w => 0 <= w < 2 ^ 32) a ->
  write_array be N a = Some (wbytes be 4 (fw32 be a), a).
Proof.
  intros be N a L F. unfold write_array. rewrite to_be_ok by assumption. cbn [bindo]. fold (fw32 be a).
  assert (Lf : List.length (fw32 be a) = N) by (unfold fw32; destruct be; rewrite ?map_length; assumption).
  rewrite fwrite_ok by assumption. cbn [bindo]. rewrite to_be_ok by assumption. cbn [bindo]. do 2 f_equal.
  unfold fw32. destruct be; [reflexivity|]. apply (map_inv (fun w => 0 <= w < 2 ^ 32)); [apply swap32_invol|assumption].
Qed.
Definition body (g : gen) (be : bool) (s : rng) : list Z :=
  List.concat (map (fun t => wbytes be (word_bytes g) (fw g be t)) (tab s)) ++
  (if has_idx g then wbytes be 4 (fw32 be (idx s)) else []) ++ (if has_car g then wbytes be 4 (fw32 be (car s)) else []).
Lemma write_table_ok : forall g be N s, wfb g N s -> write_table g be N s = Some (body g be s, s).
Proof.
  intros g be N [T J C] (L & F & LI & FI & LC & FC). cbn [tab idx car] in *. unfold write_table, body. cbn [tab idx car].
  rewrite (write_tables_ok g be N T L F). cbn [bindo].
  destruct (has_idx g); [rewrite write_array_ok by assumption|]; cbn [bindo];
  (destruct (has_car g); [rewrite write_array_ok by assumption|]; cbn [bindo]); reflexivity.
Qed.
Lemma read_tables_ok : forall g be T r, Forall (tabok g) T ->
  read_tables g be (List.length T) (List.concat (map (fun t => wbytes be (word_bytes g) (fw g be t)) T) ++ r) = Some (map (fw g be) T, r).
Proof.
  intros g be T r F. induction F as [|t T [Lt Ft] F IH]; [reflexivity|]. cbn [List.length read_tables map List.concat]. rewrite <- app_assoc.
  assert (Lf : List.length (fw g be t) = tbl g) by (unfold fw; destruct be; rewrite ?map_length; assumption).
  rewrite <- Lf at 1. rewrite fread_ok.
  2:{ rewrite bits_bytes. unfold fw. destruct be; [assumption|]. apply (map_range (fun w => 0 <= w < 2 ^ bits g)); [apply word_swap_range|assumption]. }
  cbn [bindo]. rewrite IH. reflexivity.
Qed.
Lemma fw32_range : forall be a, Forall (fun w => 0 <= w < 2 ^ 32) a -> Forall (fun w => 0 <= w < 256 ^ Z.of_nat 4) (fw32 be a).
Proof.
  intros be a F. unfold fw32. change (256 ^ Z.of_nat 4) with (2 ^ 32). destruct be; [assumption|].
  apply (map_range (fun w => 0 <= w < 2 ^ 32)); [apply swap_range32|assumption].
Qed.
Lemma fw32_len : forall be a, List.length (fw32 be a) = List.length a.
Proof. intros [] a; unfold fw32; rewrite ?map_length; reflexivity. Qed.
Lemma fw32_inv : forall be a, Forall (fun w => 0 <= w < 2 ^ 32) a -> fw32 be (fw32 be a) = a.
Proof. intros [] a F; unfold fw32; [reflexivity|]. apply (map_inv (fun w => 0 <= w < 2 ^ 32)); [apply swap32_invol|assumption]. Qed.
Lemma fw_inv : forall g be T, Forall (tabok g) T -> map (fw g be) (map (fw g be) T) = T.
Proof.
  intros g be T F. induction F as [|t T [Lt Ft] F IH]; [reflexivity|]. cbn [map]. rewrite IH. f_equal.
  unfold fw. destruct be; [reflexivity|]. apply (map_inv (fun w => 0 <= w < 2 ^ bits g)); [apply word_swap_invol|assumption].
Qed.

Definition unswap (g : gen) (be : bool) (s : rng) : rng :=
  match g with KISS => Rng (map (fw g be) (tab s)) (idx s) (car s) | _ => s end.
Lemma read_table_ok : forall g be N s, wfb g N s -> read_table g be N (body g be s) = Some (unswap g be s).
Proof.
  intros g be N [T J C] (L & F & LI & FI & LC & FC). cbn [tab idx car] in *. unfold read_table, body. cbn [tab idx car].
  subst N. rewrite (read_tables_ok g be T); [|assumption]. cbn [bindo].
  replace (if has_idx g then fread be 4 (List.length T) ((if has_idx g then wbytes be 4 (fw32 be J) else []) ++ (if has_car g then wbytes be 4 (fw32 be C) else []))
           else Some ([], (if has_idx g then wbytes be 4 (fw32 be J) else []) ++ (if has_car g then wbytes be 4 (fw32 be C) else [])))
    with (Some (fw32 be J, if has_car g then wbytes be 4 (fw32 be C) else [])).
  2:{ destruct (has_idx g).
      - rewrite <- LI, <- (fw32_len be J). rewrite fread_ok by (apply fw32_range; assumption). reflexivity.
      - subst J. unfold fw32. destruct be; reflexivity. }
  cbn [bindo].
  replace (if has_car g then fread be 4 (List.length T) (if has_car g then wbytes be 4 (fw32 be C) else [])
           else Some ([], if has_car g then wbytes be 4 (fw32 be C) else [])) with (Some (fw32 be C, @nil Z)).
  2:{ destruct (has_car g).
      - rewrite <- LC, <- (fw32_len be C). rewrite <- (app_nil_r (wbytes be 4 (fw32 be C))), fread_ok by (apply fw32_range; assumption). reflexivity.
      - subst C. unfold fw32. destruct be; reflexivity. }
  cbn [bindo]. unfold unswap. cbn [tab idx car].
  assert (K : Some (Rng (if be then map (fw g be) T else map (map (word_swap g)) (map (fw g be) T))
                   (if be then fw32 be J else map SwapByteOrder_32 (fw32 be J)) (if be then fw32 be C else map SwapByteOrder_32 (fw32 be C))) = Some (Rng T J C)).
  { do 2 f_equal.
    - rewrite <- (fw_inv g be T F) at 3. unfold fw. destruct be; [|reflexivity]. rewrite !map_id. reflexivity.
    - rewrite <- (fw32_inv be J FI) at 3. unfold fw32. destruct be; reflexivity.
    - rewrite <- (fw32_inv be C FC) at 3. unfold fw32. destruct be; reflexivity. }
  destruct g; try exact K.
  cbn [has_idx has_car] in LI, LC. subst J C. unfold fw32. destruct be; reflexivity.
Qed.

(* ---------- the whole file ---------- *)
Definition hdr_of (g : gen) (N : nat) : list (list Z * list Z) :=
  [(str "NTHREADS", dec (Z.of_nat N)); (str "RNG", rng_name g); (str "RNG_TABLE", dec (RNG_TABLE g))].
Lemma write_state_ok : forall g be N s, g <> WELL_512 -> wfb g N s ->
  write_par_rng_state g be N s =
  Some (str "BEGIN_HEADER" ++ nl ++ List.concat (map hline (hdr_of g N)) ++ str "END_HEADER" ++ nl ++ body g be s, s).
Proof.
  intros g be N s Hg W. unfold write_par_rng_state. rewrite (write_table_ok g be N s W). cbn [bindo].
  assert (E : str "BEGIN_HEADER" ++ nl ++ str "NTHREADS = " ++ dec (Z.of_nat N) ++ nl ++ str "RNG = " ++ rng_name g ++ nl ++
            str "RNG_TABLE = " ++ dec (RNG_TABLE g) ++ nl ++ str "END_HEADER" ++ nl ++ body g be s
            = str "BEGIN_HEADER" ++ nl ++ List.concat (map hline (hdr_of g N)) ++ str "END_HEADER" ++ nl ++ body g be s).
  { do 2 f_equal. unfold hdr_of, hline. cbn [map List.concat fst snd].
    change (str "NTHREADS = ") with (str "NTHREADS" ++ str " = "). change (str "RNG = ") with (str "RNG" ++ str " = ").
    change (str "RNG_TABLE = ") with (str "RNG_TABLE" ++ str " = "). rewrite <- !app_assoc. reflexivity. }
  rewrite E. destruct g; try contradiction; reflexivity.
Qed.
Lemma dec_len : forall n k, 0 <= n < 10 ^ Z.of_nat k -> (0 < k)%nat -> (List.length (dec n) <= k)%nat.
Proof.
  intros n k H. unfold dec. generalize (S (Z.to_nat (Z.log2 n))) as f. intro f. revert n k H. induction f as [|f IH]; intros n k H Hk; cbn [digits]; [cbn; lia|].
  destruct (Z.ltb_spec n 10); [cbn; lia|]. destruct k as [|k]; [lia|]. rewrite app_length. cbn [List.length].
  rewrite Nat2Z.inj_succ, Z.pow_succ_r in H by lia.
  destruct k as [|k]; [cbn in H; lia|]. pose proof (IH (n / 10) (S k)) as K.
  assert (0 <= n / 10 < 10 ^ Z.of_nat (S k)). { split; [apply Z.div_pos; lia|]. apply Z.div_lt_upper_bound; lia. }
  specialize (K H1 ltac:(lia)). lia.
Qed.
Lemma digits_ok : forall n, 0 <= n -> Forall (fun c => c <> 0 /\ c <> 10) (dec n).
Proof. intros n H. eapply Forall_impl; [|apply digits_range; lia]. cbn. lia. Qed.
Lemma hdr_ok : forall g N, Z.of_nat N < two32 -> Forall hline_ok (hdr_of g N).
Proof.
  intros g N HN. unfold hdr_of.
  assert (LN : (List.length (dec (Z.of_nat N)) <= 10)%nat) by (apply dec_len; [split; [lia|]; eapply Z.lt_trans; [exact HN|reflexivity]|lia]).
  constructor; [|constructor; [|constructor; [|constructor]]]; unfold hline_ok; cbn [fst snd].
  - split; [repeat (constructor; [repeat split; discriminate|]); constructor|]. split; [apply digits_ok; lia|].
    change (List.length (str "NTHREADS")) with 8%nat. lia.
  - split; [repeat (constructor; [repeat split; discriminate|]); constructor|]. split.
    + destruct g; repeat (constructor; [split; discriminate|]); constructor.
    + destruct g; cbn; lia.
  - split; [repeat (constructor; [repeat split; discriminate|]); constructor|]. split; [apply digits_ok; destruct g; cbn; lia|].
    destruct g; vm_compute; lia.
Qed.
Lemma get_hdr_N : forall g N, Z.of_nat N < two32 ->
  get_size_t (str "NTHREADS") (map (fun tv => (fst tv, 32 :: snd tv)) (hdr_of g N)) = HNum (Z.of_nat N).
Proof.
  intros g N H. unfold get_size_t, hdr_of. cbn [map get_string fst snd]. rewrite streq_refl. cbn iota.
  rewrite scan_zu_dec; [reflexivity|]. unfold two64, two32 in *. lia.
Qed.
Lemma get_hdr_R : forall g N, get_string (str "RNG") (map (fun tv => (fst tv, 32 :: snd tv)) (hdr_of g N)) = Some (32 :: rng_name g).
Proof. intros g N. unfold hdr_of. cbn [map get_string fst snd]. reflexivity. Qed.
Lemma name_eq : forall g h, streq (str " " ++ rng_name g) (32 :: rng_name h) = true <-> g = h.
Proof. intros g h. split; [|intros ->; apply streq_refl]. destruct g, h; intro E; try reflexivity; vm_compute in E; discriminate. Qed.

Theorem read_state_body : forall g h be N M b, Z.of_nat N < two32 -> Z.of_nat M < two32 ->
  read_par_rng_state h be M (str "BEGIN_HEADER" ++ nl ++ List.concat (map hline (hdr_of g N)) ++ str "END_HEADER" ++ nl ++ b)
  = if (Nat.eqb N M) && (streq (str " " ++ rng_name h) (32 :: rng_name g))
    then match read_table h be M b with Some s => Restored s | None => Failure end else NewSequence.
Proof.
  intros g h be N M b HN HM. unfold read_par_rng_state. rewrite get_header_ok; [|apply hdr_ok; assumption|cbn; unfold MAX_TOKENS; lia].
  rewrite get_hdr_N by assumption. rewrite get_hdr_R.
  destruct (Nat.eqb_spec N M) as [->|Hne].
  - rewrite Z.eqb_refl. cbn [negb andb]. destruct (streq _ _); reflexivity.
  - destruct (Z.eqb_spec (Z.of_nat N) (Z.of_nat M)); [lia|]. reflexivity.
Qed.
