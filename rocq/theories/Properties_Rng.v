(* C17, C18, C19: random number generators. *)
From Coq Require Import String.
From Verif Require Import CInt Lib ByteModel TextModel HdrModel TextProofs RngModel RngSpec RngProofs RngProofs2 RngProofs3 RngProofs4 RngProofs5.
Open Scope Z_scope.

Lemma reach_wf : forall g be N s, reach g be N s -> wfb g N s /\ idxok g s.
Proof.
  intros g be N s (seeds & s0 & order & ws & L & F & E & FO & D). destruct (seeded_ok g be seeds s0 F E) as [W X]. rewrite L in W.
  destruct (draws_ok g N order s0 FO W X) as ([ws' s'] & E' & _ & _ & W' & X'). rewrite D in E'.
  apply some_pair in E'. destruct E' as [<- <-]. auto.
Qed.

(* C17: writing leaves the running program's state as it was, and reading the file back gives a state with
   the same later draws, in every order of the threads *)
Theorem C17_resume_partial : forall g be N s, g = MWC_1038 \/ g = MWC_4096 \/ g = XOR_1024 \/ (g = KISS /\ be = true) ->
  Z.of_nat N < two32 -> reach g be N s ->
  exists f s1 s2, write_par_rng_state g be N s = Some (f, s1) /\ read_par_rng_state g be N f = Restored s2 /\
    forall order, words g order s1 = words g order s /\ words g order s2 = words g order s.
Proof.
  intros g be N s Hg HN R. destruct (reach_wf g be N s R) as [W _].
  assert (Hw : g <> WELL_512) by (intros ->; destruct Hg as [H|[H|[H|[H _]]]]; discriminate).
  rewrite (write_state_ok g be N s Hw W).
  eexists _, s, s. split; [reflexivity|]. split; [|auto].
  rewrite read_state_body by assumption. rewrite Nat.eqb_refl. rewrite (proj2 (name_eq g g) eq_refl). cbn [andb].
  rewrite (read_table_ok g be N s W). f_equal.
  destruct Hg as [->|[->|[->|[-> ->]]]]; try reflexivity. destruct s as [ta ia ca]. unfold unswap, fw. cbn [tab idx car]. rewrite map_id. reflexivity.
Qed.
Print Assumptions C17_resume_partial.

(* a file of another number of threads or another generator is never taken for a state of this run *)
Theorem C17_mismatch : forall g h be N M s f s1, Z.of_nat N < two32 -> Z.of_nat M < two32 -> reach g be N s ->
  write_par_rng_state g be N s = Some (f, s1) -> (N <> M \/ g <> h) -> read_par_rng_state h be M f = NewSequence.
Proof.
  intros g h be N M s f s1 HN HM R E D. destruct (reach_wf g be N s R) as [W _].
  assert (Hw : g <> WELL_512) by (intros ->; discriminate).
  rewrite (write_state_ok g be N s Hw W) in E. apply some_pair in E. destruct E as [-> ->].
  rewrite read_state_body by assumption. destruct (Nat.eqb_spec N M) as [->|]; [|reflexivity]. cbn [andb].
  destruct (streq (str " " ++ rng_name h) (32 :: rng_name g)) eqn:E; [|reflexivity].
  apply name_eq in E. destruct D; congruence.
Qed.
Print Assumptions C17_mismatch.

(* a file whose data were cut off is reported as a failure *)
Theorem C17_truncated : forall g be N s f s1 k, Z.of_nat N < two32 -> reach g be N s ->
  write_par_rng_state g be N s = Some (f, s1) -> (0 < k <= body_len g N)%nat ->
  read_par_rng_state g be N (firstn (List.length f - k) f) = Failure.
Proof.
  intros g be N s f s1 k HN R E Hk. destruct (reach_wf g be N s R) as [W _].
  assert (Hw : g <> WELL_512) by (intros ->; discriminate).
  rewrite (write_state_ok g be N s Hw W) in E. apply some_pair in E. destruct E as [-> ->].
  pose proof (body_length g be N s W) as LB.
  assert (E : forall A B : list Z, List.length B = body_len g N -> firstn (List.length (A ++ B) - k) (A ++ B) = A ++ firstn (body_len g N - k) B).
  { intros A B L. rewrite app_length, L. rewrite firstn_app. rewrite firstn_all2 by lia. f_equal. f_equal. lia. }
  rewrite !app_assoc. rewrite E by assumption. rewrite <- !app_assoc. rewrite read_state_body by assumption.
  rewrite Nat.eqb_refl. rewrite (proj2 (name_eq g g) eq_refl). cbn [andb].
  destruct (read_table g be N (firstn (body_len g N - k) (body g be s))) as [s2|] eqn:E2; [|reflexivity].
  apply read_table_len in E2. rewrite firstn_length in E2. lia.
Qed.
Print Assumptions C17_truncated.

(* the state of a run with N threads after some draws *)
Definition run (g : gen) (be : bool) (seed : Z) (N : nat) (order : list nat) : option rng :=
  match set_table g be (seeds_of seed N) with Some s => option_map snd (draws g order s) | None => None end.
Lemma run_reach : forall g be seed N order s, forallb (fun th => Nat.ltb th N) order = true -> run g be seed N order = Some s -> reach g be N s.
Proof.
  intros g be seed N order s F E. unfold run in E. destruct (set_table g be (seeds_of seed N)) as [s0|] eqn:E0; [|discriminate].
  destruct (draws g order s0) as [[ws s1]|] eqn:E1; [|discriminate]. cbn [option_map snd] in E. injection E as <-.
  exists (seeds_of seed N), s0, order, ws. split; [unfold seeds_of; rewrite map_length, seq_length; reflexivity|].
  split; [|split; [exact E0|split; [|exact E1]]].
  - apply Forall_forall. intros x Hx. unfold seeds_of in Hx. apply in_map_iff in Hx. destruct Hx as (i & <- & _). apply u32_range.
  - apply Forall_forall. intros x Hx. rewrite forallb_forall in F. apply Nat.ltb_lt. auto.
Qed.
Example C17_ex : exists s, reach MWC_1038 false 2 s /\ words MWC_1038 [1]%nat s <> None.
Proof.
  assert (K : (match run MWC_1038 false 12345 2 [0;1;1;0;1]%nat with Some s => match words MWC_1038 [1]%nat s with Some _ => true | _ => false end | None => false end) = true)
    by (vm_compute; reflexivity).
  destruct (run MWC_1038 false 12345 2 [0;1;1;0;1]%nat) as [s|] eqn:E; [|discriminate]. exists s. split.
  - exact (run_reach MWC_1038 false 12345 2 [0;1;1;0;1]%nat s eq_refl E).
  - intro Q. rewrite Q in K. discriminate.
Qed.
Print Assumptions C17_ex.
(* the state of a KISS run on a little endian machine comes back with its bytes reversed: after the 10000
   draws of the initialisation the next draw of the restored state differs *)
Definition warm : list nat := repeat 0%nat (Z.to_nat 10000).
Definition kiss_bad (s : rng) : bool :=
  match words KISS [0]%nat (unswap KISS false s), words KISS [0]%nat s with Some [a], Some [b] => negb (a =? b) | _, _ => false end.
Theorem C17_KISS_refuted : exists s, reach KISS false 1 s /\
  exists f s1 s2, write_par_rng_state KISS false 1 s = Some (f, s1) /\ read_par_rng_state KISS false 1 f = Restored s2 /\
  words KISS [0]%nat s2 <> words KISS [0]%nat s.
Proof.
  assert (K : (match run KISS false 12345 1 warm with Some s => kiss_bad s | None => false end) = true) by (vm_compute; reflexivity).
  destruct (run KISS false 12345 1 warm) as [s|] eqn:E; [|discriminate].
  assert (R : reach KISS false 1 s).
  { assert (F : forallb (fun th => Nat.ltb th 1) warm = true) by (vm_compute; reflexivity). exact (run_reach KISS false 12345 1 warm s F E). }
  exists s. split; [assumption|]. destruct (reach_wf _ _ _ _ R) as [W _].
  rewrite (write_state_ok KISS false 1 s ltac:(discriminate) W). eexists _, s, _. split; [reflexivity|]. split.
  - rewrite read_state_body by reflexivity. rewrite Nat.eqb_refl. rewrite (proj2 (name_eq KISS KISS) eq_refl). cbn [andb].
    rewrite (read_table_ok KISS false 1 s W). reflexivity.
  - unfold kiss_bad in K. intro Q. rewrite Q in K. clear E Q. destruct (words KISS [0]%nat s) as [[|a [|]]|]; try discriminate K.
    rewrite Z.eqb_refl in K. discriminate K.
Qed.
Print Assumptions C17_KISS_refuted.

(* C18: no draw of any generator reads or writes outside its arrays, and the words have the right size *)
Theorem C18_in_bounds : forall g be N s order, reach g be N s -> Forall (fun th => (th < N)%nat) order ->
  exists ws, words g order s = Some ws /\ List.length ws = List.length order /\ Forall (fun w => 0 <= w < 2 ^ bits g) ws.
Proof.
  intros g be N s order R H. destruct (reach_wf g be N s R) as [W X].
  destruct (draws_ok g N order s H W X) as ([ws s'] & E & L & F & _). unfold words. rewrite E. exists ws. auto.
Qed.
Print Assumptions C18_in_bounds.
(* the double is in [0,1), for XOR_1024 in [0,1]; the integer fits 32 bits (the conversion is defined) *)
Theorem C18_unit_interval : forall g w, 0 <= w < 2 ^ bits g ->
  0 <= dbl_num g w <= 2 ^ bits g /\ (g <> XOR_1024 -> dbl_num g w < 2 ^ bits g) /\
  exists v, par_rng_int g w = Some v /\ 0 <= v < two32.
Proof.
  intros g w H. destruct (dbl_range g w H) as [R E]. split; [assumption|]. split; [|apply int_range; assumption].
  intro Hg. rewrite E by assumption. apply H.
Qed.
Print Assumptions C18_unit_interval.
(* a state of XOR_1024 from which 1 is drawn *)
Theorem C18_XOR_below_one_refuted : exists s w s', wfb XOR_1024 1 s /\ idxok XOR_1024 s /\ draw XOR_1024 0 s = Some (w, s') /\ dbl_num XOR_1024 w = 2 ^ 64.
Proof.
  eexists (Rng [0 :: repeat 0 14 ++ [4930887941502473911]] [15] []), _, _. split; [|split; [|split; [vm_compute; reflexivity|vm_compute; reflexivity]]].
  - split; [reflexivity|]. split; [|split; [reflexivity|split; [|split; [reflexivity|constructor]]]].
    + constructor; [|constructor]. split; [reflexivity|]. repeat (constructor; [vm_compute; split; [discriminate|reflexivity]|]). constructor.
    + constructor; [vm_compute; split; [discriminate|reflexivity]|constructor].
  - intros [|[|j]] i E; cbn in E; try discriminate. injection E as <-. cbn. lia.
Qed.
Print Assumptions C18_XOR_below_one_refuted.
(* every entry of the table of XOR_1024 influences the next 16 draws *)
Theorem C18_XOR_table : forall N th s1 s2, (th < N)%nat ->
  wfb XOR_1024 N s1 -> idxok XOR_1024 s1 -> wfb XOR_1024 N s2 -> idxok XOR_1024 s2 -> getI s1 th = getI s2 th ->
  words XOR_1024 (repeat th 16) s1 = words XOR_1024 (repeat th 16) s2 -> nth_error (tab s1) th = nth_error (tab s2) th.
Proof. exact xor_table_used. Qed.
Print Assumptions C18_XOR_table.
(* the draws of MWC_4096 are determined by one of its 4096 entries and the carry *)
Theorem C18_MWC_4096_one_entry : forall N th s1 s2, (th < N)%nat ->
  wfb MWC_4096 N s1 -> idxok MWC_4096 s1 -> wfb MWC_4096 N s2 -> idxok MWC_4096 s2 ->
  getT s1 th 0 = getT s2 th 0 -> getC s1 th = getC s2 th -> forall n, words MWC_4096 (repeat th n) s1 = words MWC_4096 (repeat th n) s2.
Proof.
  intros N th s1 s2 H W1 X1 W2 X2 A B n. unfold words. apply (alike_draws MWC_4096 N th (alike_4096 th)); auto; [|split; assumption].
  intros t1 t2 w1 w2 u1 u2 A1 A2 A3 A4 A5 A6. exact (alike_4096_draw N th t1 t2 w1 w2 u1 u2 H A1 A3 A4 A5 A6).
Qed.
Print Assumptions C18_MWC_4096_one_entry.
(* the draws of MWC_1038 are determined by the last entry, the current one and the carry *)
Theorem C18_MWC_1038_two_entries : forall N th s1 s2 i, (th < N)%nat ->
  wfb MWC_1038 N s1 -> idxok MWC_1038 s1 -> wfb MWC_1038 N s2 -> idxok MWC_1038 s2 ->
  getI s1 th = Some i -> getI s2 th = Some i -> getT s1 th i = getT s2 th i -> getT s1 th 1037 = getT s2 th 1037 -> getC s1 th = getC s2 th ->
  forall n, words MWC_1038 (repeat th n) s1 = words MWC_1038 (repeat th n) s2.
Proof.
  intros N th s1 s2 i H W1 X1 W2 X2 I1 I2 A B C n. unfold words. apply (alike_draws MWC_1038 N th (alike_1038 th)); auto.
  - intros t1 t2 w1 w2 u1 u2 A1 A2 A3 A4 A5 A6. exact (alike_1038_draw N th t1 t2 w1 w2 u1 u2 H A1 A2 A4 A5 A6).
  - split; [congruence|]. split; [exact C|]. split; [exact B|]. intros j Hj. assert (j = i) by congruence. subst j. assumption.
Qed.
Print Assumptions C18_MWC_1038_two_entries.
(* so "the whole table is used" is false: two states of the default generator that differ in 4095 entries *)
Definition mwc_state (fill : Z) : rng := Rng [7 :: repeat fill (Z.to_nat 4095)] [4095] [1].
Lemma mwc_state_wf : forall fill, 0 <= fill < 2 ^ 32 -> wfb MWC_4096 1 (mwc_state fill) /\ idxok MWC_4096 (mwc_state fill).
Proof.
  intros fill H. split.
  - split; [reflexivity|]. split; [|split; [reflexivity|split; [|split; [reflexivity|]]]].
    + constructor; [|constructor]. split; [cbn [List.length]; rewrite repeat_length; reflexivity|].
      constructor; [cbn; lia|]. apply Forall_forall. intros x Hx. apply repeat_spec in Hx. subst. exact H.
    + constructor; [cbn; lia|constructor].
    + constructor; [cbn; lia|constructor].
  - intros [|[|j]] i E; cbn in E; try discriminate. injection E as <-. cbn. lia.
Qed.
Theorem C18_MWC_4096_table_refuted : exists s1 s2, wfb MWC_4096 1 s1 /\ idxok MWC_4096 s1 /\ wfb MWC_4096 1 s2 /\ idxok MWC_4096 s2 /\
  (forall k, 1 <= k <= 4095 -> getT s1 0 k <> getT s2 0 k) /\ forall n, words MWC_4096 (repeat 0%nat n) s1 = words MWC_4096 (repeat 0%nat n) s2.
Proof.
  destruct (mwc_state_wf 1 ltac:(cbn; lia)) as [W1 X1]. destruct (mwc_state_wf 2 ltac:(cbn; lia)) as [W2 X2].
  exists (mwc_state 1), (mwc_state 2). repeat (split; [assumption|]). split.
  - intros k Hk. unfold getT, mwc_state. cbn [tab nth_error bindo]. unfold zn. destruct (Z.ltb_spec k 0); [lia|].
    destruct (Z.to_nat k) as [|m] eqn:Em; [lia|]. cbn [nth_error].
    assert (N : forall v : Z, nth_error (repeat v (Z.to_nat 4095)) m = Some v) by (intro v; apply nth_error_repeat; lia).
    rewrite !N. discriminate.
  - apply (C18_MWC_4096_one_entry 1 0); auto.
Qed.
Print Assumptions C18_MWC_4096_table_refuted.
Example C18_ex : exists s, reach XOR_1024 false 2 s /\ words XOR_1024 [1;0]%nat s <> None.
Proof.
  assert (K : (match run XOR_1024 false 12345 2 [0;1;1;0;1]%nat with Some s => match words XOR_1024 [1;0]%nat s with Some _ => true | _ => false end | None => false end) = true)
    by (vm_compute; reflexivity).
  destruct (run XOR_1024 false 12345 2 [0;1;1;0;1]%nat) as [s|] eqn:E; [|discriminate]. exists s. split.
  - exact (run_reach XOR_1024 false 12345 2 [0;1;1;0;1]%nat s eq_refl E).
  - intro Q. rewrite Q in K. discriminate.
Qed.
Print Assumptions C18_ex.

(* C19: whatever the interleaving, thread th draws the words it would draw alone ... *)
Theorem C19_streams : forall g th order s ws s', draws g order s = Some (ws, s') ->
  words g (repeat th (count_occ Nat.eq_dec order th)) s = Some (outs th order ws).
Proof.
  intros g th order s ws s' E. destruct (streams g th order s s ws s' eq_refl E) as (s0 & E0 & _).
  rewrite filter_repeat in E0. unfold words. rewrite E0. reflexivity.
Qed.
Print Assumptions C19_streams.
(* ... and these depend on its own seed only *)
Theorem C19_own_seed : forall g be seeds1 seeds2 s1 s2 th n,
  set_table g be seeds1 = Some s1 -> set_table g be seeds2 = Some s2 -> nth_error seeds1 th = nth_error seeds2 th ->
  words g (repeat th n) s1 = words g (repeat th n) s2.
Proof.
  intros g be seeds1 seeds2 s1 s2 th n E1 E2 H.
  assert (R : forall (v : Z) l1 l2, nth_error l1 th = nth_error l2 th -> nth_error (repeat v (@List.length Z l1)) th = nth_error (repeat v (@List.length Z l2)) th).
  { intros v l1 l2 E. destruct (Nat.lt_ge_cases th (List.length l1)) as [L|L].
    - assert (th < List.length l2)%nat. { apply nth_error_Some. rewrite <- E. apply nth_error_Some. assumption. }
      rewrite !nth_error_repeat by assumption. reflexivity.
    - assert (List.length l2 <= th)%nat. { apply nth_error_None. rewrite <- E. apply nth_error_None. assumption. }
      rewrite !(proj2 (nth_error_None _ _)) by (rewrite repeat_length; assumption). reflexivity. }
  assert (S : same th s1 s2).
  { unfold same, view. destruct g; cbn [set_table] in E1, E2; injection E1 as <-; injection E2 as <-; cbn [tab idx car];
      rewrite !nth_error_map, ?H, ?(R _ _ _ H); reflexivity. }
  assert (K : forall n s1 s2, same th s1 s2 -> words g (repeat th n) s1 = words g (repeat th n) s2).
  { clear. intro n. induction n as [|n IH]; intros s1 s2 S; [reflexivity|]. unfold words in *. cbn [repeat draws].
    pose proof (draw_same g th s1 s2 S) as D. destruct (draw g th s1) as [[w1 t1]|], (draw g th s2) as [[w2 t2]|]; try contradiction; [|reflexivity].
    destruct D as [D1 D2]. cbn [fst snd] in *. subst w2. cbn [bindo]. specialize (IH t1 t2 D2).
    destruct (draws g (repeat th n) t1) as [[ws1 u1]|], (draws g (repeat th n) t2) as [[ws2 u2]|]; cbn in *; congruence. }
  apply K. exact S.
Qed.
Print Assumptions C19_own_seed.
Example C19_ex : exists s ws s', set_table KISS false (seeds_of 12345 3) = Some s /\ draws KISS [2;0;2;1]%nat s = Some (ws, s') /\
  words KISS [2;2]%nat s = Some (outs 2 [2;0;2;1]%nat ws) /\ ~ In 0 ws.
Proof.
  eexists _, _, _. split; [vm_compute; reflexivity|]. split; [vm_compute; reflexivity|]. split; [vm_compute; reflexivity|].
  vm_compute. intuition discriminate.
Qed.
Print Assumptions C19_ex.
