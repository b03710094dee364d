From Coq Require Import String Permutation.
From Verif Require Import CInt Lib ByteModel ByteSpec ByteProofs TextModel HdrModel TextProofs RngModel RngProofs RngProofs2 RngProofs3.
Open Scope Z_scope.

(* ---------- truncated files ---------- *)
Definition body_len (g : gen) (N : nat) : nat :=
  N * (tbl g * word_bytes g) + (if has_idx g then N * 4 else 0) + (if has_car g then N * 4 else 0).
Lemma wbytes_len : forall be nb a, List.length (wbytes be nb a) = (List.length a * nb)%nat.
Proof.
  intros be nb a. unfold wbytes. induction a as [|w a IH]; [reflexivity|]. cbn [map List.concat List.length].
  rewrite app_length, mem_bytes_len, IH. lia.
Qed.
Lemma body_length : forall g be N s, wfb g N s -> List.length (body g be s) = body_len g N.
Proof.
  intros g be N [T J C] (L & F & LI & FI & LC & FC). cbn [tab idx car] in *. unfold body, body_len. cbn [tab idx car]. rewrite !app_length.
  assert (E : List.length (List.concat (map (fun t => wbytes be (word_bytes g) (fw g be t)) T)) = (N * (tbl g * word_bytes g))%nat).
  { subst N. clear - F. induction F as [|t T [Lt Ft] F IH]; [reflexivity|]. cbn [map List.concat List.length]. rewrite app_length, IH, wbytes_len.
    unfold fw. destruct be; rewrite ?map_length, Lt; lia. }
  rewrite E. destruct (has_idx g), (has_car g); rewrite ?wbytes_len, ?fw32_len, ?LI, ?LC; cbn [List.length]; lia.
Qed.
Lemma read_tables_len : forall g be N f T r, read_tables g be N f = Some (T, r) ->
  (List.length f = N * (tbl g * word_bytes g) + List.length r)%nat.
Proof.
  intros g be N. induction N as [|N IH]; intros f T r E; cbn [read_tables] in E; [injection E as <- <-; reflexivity|].
  destruct (fread be (word_bytes g) (tbl g) f) as [[t r1]|] eqn:E1; [|discriminate]. cbn [bindo] in E.
  destruct (read_tables g be N r1) as [[T1 r2]|] eqn:E2; [|discriminate]. cbn [bindo] in E. injection E as <- <-.
  apply fread_len in E1. apply IH in E2. lia.
Qed.
Lemma read_table_len : forall g be N f s, read_table g be N f = Some s -> (body_len g N <= List.length f)%nat.
Proof.
  intros g be N f s E. unfold read_table in E.
  destruct (read_tables g be N f) as [[T r1]|] eqn:E1; [|discriminate]. cbn [bindo] in E. apply read_tables_len in E1.
  destruct (if has_idx g then fread be 4 N r1 else Some ([], r1)) as [[J r2]|] eqn:E2; [|discriminate]. cbn [bindo] in E.
  destruct (if has_car g then fread be 4 N r2 else Some ([], r2)) as [[C r3]|] eqn:E3; [|discriminate].
  unfold body_len. destruct (has_idx g); [apply fread_len in E2|injection E2 as <- <-];
  (destruct (has_car g); [apply fread_len in E3|injection E3 as <- <-]); lia.
Qed.

(* ---------- doubles and integers ---------- *)
Lemma rnd53_small : forall z, z < 2 ^ 53 -> rnd53 z = z.
Proof. intros z H. unfold rnd53. destruct (Z.ltb_spec z (2 ^ 53)); [reflexivity|lia]. Qed.
Lemma rnd53_upper : forall z Y, 0 <= z <= Y -> (forall e, 2 ^ 53 <= z -> e = Z.log2 z - 52 -> exists c, Y = c * 2 ^ e) -> rnd53 z <= Y.
Proof.
  intros z Y H D. unfold rnd53. destruct (Z.ltb_spec z (2 ^ 53)); [lia|]. cbv zeta.
  set (e := Z.log2 z - 52) in *. destruct (D e H0 eq_refl) as [c Ec].
  assert (He : 1 <= e). { unfold e. assert (53 <= Z.log2 z); [|lia]. apply Z.log2_le_pow2; [|assumption]. assert (0 < 2 ^ 53) by reflexivity. lia. }
  assert (P : 0 < 2 ^ e) by (apply Z.pow_pos_nonneg; lia). assert (P1 : 0 < 2 ^ (e - 1)) by (apply Z.pow_pos_nonneg; lia).
  pose proof (Z.div_mod z (2 ^ e) ltac:(lia)) as M. pose proof (Z.mod_pos_bound z (2 ^ e) P) as B.
  set (q := z / 2 ^ e) in *. set (r := z mod 2 ^ e) in *.
  destruct ((r <? 2 ^ (e - 1)) || ((r =? 2 ^ (e - 1)) && Z.even q)) eqn:E; [nia|].
  apply orb_false_iff in E. destruct E as [E _]. apply Z.ltb_ge in E.
  assert (q * 2 ^ e < c * 2 ^ e) by lia. apply Z.mul_lt_mono_pos_r in H1; [|exact P]. rewrite Ec. apply Z.mul_le_mono_nonneg_r; lia.
Qed.
Lemma rnd53_nonneg : forall z, 0 <= z -> 0 <= rnd53 z.
Proof.
  intros z H. unfold rnd53. destruct (Z.ltb_spec z (2 ^ 53)); [lia|]. cbv zeta.
  set (e := Z.log2 z - 52) in *. 
  assert (P : 0 <= 2 ^ e) by (apply Z.pow_nonneg; lia). assert (0 <= z / 2 ^ e).
  { destruct (Z.eq_dec (2 ^ e) 0) as [->|]; [rewrite Zdiv_0_r; lia|]. apply Z.div_pos; lia. }
  destruct (_ || _); nia.
Qed.
(* x is within half a unit in the last place of 53 bits *)
Lemma rnd53_close : forall z, 2 ^ 53 <= z -> Z.abs (rnd53 z - z) <= 2 ^ (Z.log2 z - 53).
Proof.
  intros z H. unfold rnd53. destruct (Z.ltb_spec z (2 ^ 53)); [lia|]. cbv zeta.
  set (e := Z.log2 z - 52) in *. replace (Z.log2 z - 53) with (e - 1) by (unfold e; lia).
  assert (He : 1 <= e). { unfold e. assert (53 <= Z.log2 z); [|lia]. apply Z.log2_le_pow2; [|assumption]. assert (0 < 2 ^ 53) by reflexivity. lia. }
  assert (P2 : 2 ^ e = 2 * 2 ^ (e - 1)) by (rewrite <- Z.pow_succ_r by lia; f_equal; lia).
  assert (P1 : 0 < 2 ^ (e - 1)) by (apply Z.pow_pos_nonneg; lia).
  pose proof (Z.div_mod z (2 ^ e) ltac:(lia)) as M. pose proof (Z.mod_pos_bound z (2 ^ e) ltac:(lia)) as B.
  set (q := z / 2 ^ e) in *. set (r := z mod 2 ^ e) in *.
  destruct ((r <? 2 ^ (e - 1)) || ((r =? 2 ^ (e - 1)) && Z.even q)) eqn:E.
  - assert (r <= 2 ^ (e - 1)). { apply orb_true_iff in E. destruct E as [E|E]; [apply Z.ltb_lt in E; lia|]. apply andb_true_iff in E. destruct E as [E _]. apply Z.eqb_eq in E. lia. }
    replace (q * 2 ^ e - z) with (- r) by lia. lia.
  - apply orb_false_iff in E. destruct E as [E _]. apply Z.ltb_ge in E. replace ((q + 1) * 2 ^ e - z) with (2 ^ e - r) by lia. lia.
Qed.
Lemma pow_mult : forall e n, 0 <= e <= n -> 2 ^ n = 2 ^ (n - e) * 2 ^ e.
Proof. intros e n H. rewrite <- Z.pow_add_r by lia. f_equal. lia. Qed.

Theorem dbl_range : forall g w, 0 <= w < 2 ^ bits g ->
  0 <= dbl_num g w <= 2 ^ bits g /\ (g <> XOR_1024 -> dbl_num g w = w).
Proof.
  intros g w H. unfold dbl_num.
  assert (K : bits g = 32 -> 0 <= rnd53 w <= 2 ^ bits g /\ (g <> XOR_1024 -> rnd53 w = w)).
  { intros B. rewrite B in *. rewrite rnd53_small; [split; [lia|auto]|]. assert (2 ^ 32 < 2 ^ 53) by reflexivity. lia. }
  destruct g; try (apply K; reflexivity). change (bits XOR_1024) with 64 in *. split; [|contradiction].
  split; [apply rnd53_nonneg; lia|]. apply rnd53_upper; [lia|]. intros e L ->. exists (2 ^ (64 - (Z.log2 w - 52))).
  apply pow_mult. assert (53 <= Z.log2 w) by (apply Z.log2_le_pow2; [|assumption]; assert (0 < 2 ^ 53) by reflexivity; lia).
  assert (Z.log2 w < 64) by (apply Z.log2_lt_pow2; [assert (0 < 2 ^ 53) by reflexivity; lia|lia]). lia.
Qed.
Theorem int_range : forall g w, 0 <= w < 2 ^ bits g -> exists v, par_rng_int g w = Some v /\ 0 <= v < two32.
Proof.
  intros g w H. destruct (dbl_range g w H) as [R _]. set (x := dbl_num g w) in *.
  assert (U : rnd53 (4294967295 * x) <= 4294967295 * 2 ^ bits g).
  { apply rnd53_upper; [lia|]. intros e L ->. set (z := 4294967295 * x) in *. exists (4294967295 * 2 ^ (bits g - (Z.log2 z - 52))).
    rewrite <- Z.mul_assoc. f_equal. apply pow_mult.
    assert (53 <= Z.log2 z) by (apply Z.log2_le_pow2; [|assumption]; assert (0 < 2 ^ 53) by reflexivity; lia).
    assert (Z.log2 z < bits g + 32).
    { apply Z.log2_lt_pow2; [assert (0 < 2 ^ 53) by reflexivity; lia|]. rewrite Z.pow_add_r by (destruct g; cbn; lia).
      change (2 ^ 32) with 4294967296. unfold z. assert (0 < 2 ^ bits g) by (destruct g; reflexivity). nia. }
    destruct g; cbn [bits] in *; lia. }
  assert (P : 0 < 2 ^ bits g) by (destruct g; reflexivity).
  pose proof (rnd53_nonneg (4294967295 * x) ltac:(lia)) as N.
  unfold par_rng_int. fold x. set (y := rnd53 (4294967295 * x)) in *. cbv zeta.
  assert (0 <= y / 2 ^ bits g) by (apply Z.div_pos; lia).
  assert (y / 2 ^ bits g < two32) by (apply Z.div_lt_upper_bound; [lia|]; unfold two32; nia).
  exists (y / 2 ^ bits g). destruct (Z.ltb_spec (y / 2 ^ bits g) two32); [split; [reflexivity|lia]|lia].
Qed.
(* C evaluates the product of two doubles to the nearest double: same integer as [rnd53] of the exact product *)

(* ---------- which entries of the table matter ---------- *)
Lemma setT_get : forall s th k v s', setT s th k v = Some s' -> getT s' th k = Some v /\
  (forall k', 0 <= k' -> k' <> k -> getT s' th k' = getT s th k') /\ idx s' = idx s /\ car s' = car s.
Proof.
  intros s th k v s' E. unfold setT, getT in *. destruct (nth_error (tab s) th) as [t|] eqn:Et; [|discriminate]. cbn [bindo] in *.
  unfold zset, zn in *. destruct (Z.ltb_spec k 0); [discriminate|].
  destruct (set_nth t (Z.to_nat k) v) as [t'|] eqn:E1; [|discriminate]. cbn [bindo] in E.
  destruct (set_nth (tab s) th t') as [T|] eqn:E2; [|discriminate]. cbn [bindo] in E. injection E as <-. cbn [tab idx car].
  assert (L2 : (th < List.length (tab s))%nat) by (apply nth_error_Some; congruence).
  destruct (setn_spec (tab s) th t' L2) as (T' & E2' & _ & N2). rewrite E2 in E2'. injection E2' as <-. rewrite N2, Nat.eqb_refl. cbn [bindo].
  assert (L1 : (Z.to_nat k < List.length t)%nat). { destruct (Nat.lt_ge_cases (Z.to_nat k) (List.length t)); auto. rewrite setn_None in E1 by assumption. discriminate. }
  destruct (setn_spec t (Z.to_nat k) v L1) as (t1 & E1' & _ & N1). rewrite E1 in E1'. injection E1' as <-.
  repeat split.
  - rewrite N1, Nat.eqb_refl. reflexivity.
  - intros k' P Hk. destruct (Z.ltb_spec k' 0); [lia|]. rewrite N1. destruct (Nat.eqb_spec (Z.to_nat k') (Z.to_nat k)); [lia|reflexivity].
Qed.
Lemma setC_get : forall s th v s', setC s th v = Some s' -> getC s' th = Some v /\ idx s' = idx s /\ tab s' = tab s.
Proof.
  intros s th v s' E. unfold setC, getC in *. destruct (set_nth (car s) th v) as [C|] eqn:E1; [|discriminate]. cbn [bindo] in E. injection E as <-. cbn.
  assert (L1 : (th < List.length (car s))%nat). { destruct (Nat.lt_ge_cases th (List.length (car s))); auto. rewrite setn_None in E1 by assumption. discriminate. }
  destruct (setn_spec (car s) th v L1) as (t1 & E1' & _ & N1). rewrite E1 in E1'. injection E1' as <-. rewrite N1, Nat.eqb_refl. auto.
Qed.
Lemma setI_get : forall s th v s', setI s th v = Some s' -> getI s' th = Some v /\ car s' = car s /\ tab s' = tab s.
Proof.
  intros s th v s' E. unfold setI, getI in *. destruct (set_nth (idx s) th v) as [C|] eqn:E1; [|discriminate]. cbn [bindo] in E. injection E as <-. cbn.
  assert (L1 : (th < List.length (idx s))%nat). { destruct (Nat.lt_ge_cases th (List.length (idx s))); auto. rewrite setn_None in E1 by assumption. discriminate. }
  destruct (setn_spec (idx s) th v L1) as (t1 & E1' & _ & N1). rewrite E1 in E1'. injection E1' as <-. rewrite N1, Nat.eqb_refl. auto.
Qed.
Lemma tab_getT : forall s s' th k, tab s' = tab s -> getT s' th k = getT s th k.
Proof. intros s s' th k E. unfold getT. rewrite E. reflexivity. Qed.
Lemma car_getC : forall s s' th, car s' = car s -> getC s' th = getC s th.
Proof. intros s s' th E. unfold getC. rewrite E. reflexivity. Qed.

Lemma some_pair : forall {A B} (a c : A) (b d : B), Some (a, b) = Some (c, d) -> c = a /\ d = b.
Proof. intros A B a c b d E. split; congruence. Qed.
(* one draw of MWC_4096: the new state as a function of table[th][0] and carry[th] alone *)
Definition mwc4096 (q c : Z) : Z * Z :=
  let t := u64 (18782 * q + c) in let c1 := u32 (Z.shiftr t 32) in let x := u32 (t + c1) in
  if x <? c1 then (u32 (0xfffffffe - u32 (x + 1)), u32 (c1 + 1)) else (u32 (0xfffffffe - x), c1).
Lemma step_4096 : forall th s w s' q c, draw MWC_4096 th s = Some (w, s') -> getT s th 0 = Some q -> getC s th = Some c ->
  w = fst (mwc4096 q c) /\ getT s' th 0 = Some w /\ getC s' th = Some (snd (mwc4096 q c)).
Proof.
  intros th s w s' q c E Q C. cbn [draw] in E. unfold draw_MWC_4096 in E.
  destruct (setI s th 4095) as [s1|] eqn:E1; [|discriminate]. cbn [bindo] in E. apply setI_get in E1. destruct E1 as (I1 & C1 & T1). rewrite I1 in E. cbn [bindo] in E.
  destruct (setI s1 th _) as [s2|] eqn:E2; [|discriminate]. cbn [bindo] in E. apply setI_get in E2. destruct E2 as (I2 & C2 & T2).
  change (Z.land (u32 (4095 + 1)) 4095) with 0 in I2. rewrite I2 in E. cbn [bindo] in E.
  rewrite (tab_getT s) in E by congruence. rewrite Q in E. cbn [bindo] in E. rewrite (car_getC s) in E by congruence. rewrite C in E. cbn [bindo] in E. cbv zeta in E.
  destruct (setC s2 th _) as [s3|] eqn:E3; [|discriminate]. cbn [bindo] in E. apply setC_get in E3. destruct E3 as (C3 & I3 & T3). rewrite C3 in E. cbn [bindo] in E.
  unfold mwc4096. cbv zeta. set (t := u64 (18782 * q + c)) in *. set (c1 := u32 (Z.shiftr t 32)) in *. set (x := u32 (t + c1)) in *.
  destruct (x <? c1).
  - destruct (setC s3 th (u32 (c1 + 1))) as [s4|] eqn:E4; [|discriminate]. cbn [bindo] in E. apply setC_get in E4. destruct E4 as (C4 & I4 & T4).
    rewrite (idx_getI s2) in E by congruence. rewrite I2 in E. cbn [bindo] in E.
    destruct (setT s4 th 0 _) as [s5|] eqn:E5; [|discriminate]. cbn [bindo] in E. apply some_pair in E; destruct E as [-> ->]; apply setT_get in E5. destruct E5 as (G5 & _ & I5 & C5).
    cbn [fst snd]. repeat split; auto. rewrite (car_getC s4) by assumption. assumption.
  - cbn [bindo] in E. rewrite (idx_getI s2) in E by congruence. rewrite I2 in E. cbn [bindo] in E.
    destruct (setT s3 th 0 _) as [s5|] eqn:E5; [|discriminate]. cbn [bindo] in E. apply some_pair in E; destruct E as [-> ->]; apply setT_get in E5. destruct E5 as (G5 & _ & I5 & C5).
    cbn [fst snd]. repeat split; auto. rewrite (car_getC s3) by assumption. assumption.
Qed.
Definition alike_4096 (th : nat) (s1 s2 : rng) : Prop := getT s1 th 0 = getT s2 th 0 /\ getC s1 th = getC s2 th.
Definition alike_1038 (th : nat) (s1 s2 : rng) : Prop :=
  getI s1 th = getI s2 th /\ getC s1 th = getC s2 th /\ getT s1 th 1037 = getT s2 th 1037 /\
  forall i, getI s1 th = Some i -> getT s1 th i = getT s2 th i.
Lemma get_some : forall g N th s, (th < N)%nat -> wfb g N s -> has_car g = true -> (exists q, getT s th 0 = Some q) /\ exists c, getC s th = Some c.
Proof.
  intros g N th s H W Hc. split.
  - destruct (getT_sat g N th H s W 0) as (q & E & _); [destruct g; cbn; lia|eauto].
  - destruct (getC_sat g N th H s W Hc) as (q & E & _); eauto.
Qed.
Lemma alike_4096_draw : forall N th s1 s2 w1 w2 s1' s2', (th < N)%nat -> wfb MWC_4096 N s1 -> wfb MWC_4096 N s2 -> alike_4096 th s1 s2 ->
  draw MWC_4096 th s1 = Some (w1, s1') -> draw MWC_4096 th s2 = Some (w2, s2') -> w1 = w2 /\ alike_4096 th s1' s2'.
Proof.
  intros N th s1 s2 w1 w2 s1' s2' H W1 W2 [A1 A2] E1 E2.
  destruct (get_some MWC_4096 N th s1 H W1 eq_refl) as [[q Q] [c C]].
  destruct (step_4096 th s1 w1 s1' q c E1 Q C) as (X1 & X2 & X3).
  destruct (step_4096 th s2 w2 s2' q c E2) as (Y1 & Y2 & Y3); [congruence|congruence|]. split; [congruence|]. split; congruence.
Qed.
Lemma step_1038 : forall th s w s' q c i, draw MWC_1038 th s = Some (w, s') -> getI s th = Some i -> 1 <= i <= 1037 ->
  getT s th i = Some q -> getC s th = Some c ->
  let t := u64 (611373678 * q + c) in
  w = u32 t /\ getC s' th = Some (u32 (Z.shiftr t 32)) /\ getT s' th 1037 = getT s th 1037 /\
  (if i =? 1 then getI s' th = Some 1037 else getI s' th = Some (i - 1) /\ getT s' th (i - 1) = Some (u32 t)).
Proof.
  intros th s w s' q c i E G Hi Q C t. cbn [draw] in E. unfold draw_MWC_1038 in E. rewrite G in E. cbn [bindo] in E. rewrite Q in E. cbn [bindo] in E.
  rewrite C in E. cbn [bindo] in E. cbv zeta in E. fold t in E.
  destruct (setC s th _) as [s1|] eqn:E1; [|discriminate]. cbn [bindo] in E. apply setC_get in E1. destruct E1 as (C1 & I1 & T1).
  rewrite (idx_getI s) in E by assumption. rewrite G in E. cbn [bindo] in E.
  destruct (setI s1 th _) as [s2|] eqn:E2; [|discriminate]. cbn [bindo] in E. apply setI_get in E2. destruct E2 as (I2 & C2 & T2). rewrite I2 in E. cbn [bindo] in E.
  assert (U : u32 (i - 1) = i - 1) by (unfold u32; apply Z.mod_small; unfold two32; lia). rewrite U in *.
  destruct (Z.eqb_spec (i - 1) 0) as [Ei|Ei]; cbn [negb] in E.
  - destruct (setI s2 th _) as [s3|] eqn:E3; [|discriminate]. cbn [bindo] in E. apply setI_get in E3. destruct E3 as (I3 & C3 & T3).
    destruct (setT s3 th 0 _) as [s4|] eqn:E4; [|discriminate]. cbn [bindo] in E. apply some_pair in E; destruct E as [-> ->]; apply setT_get in E4. destruct E4 as (G4 & N4 & I4 & C4).
    split; [reflexivity|]. split; [rewrite (car_getC s1) by congruence; assumption|]. split.
    + rewrite N4 by lia. apply tab_getT. congruence.
    + destruct (Z.eqb_spec i 1); [|lia]. rewrite (idx_getI s3) by assumption. exact I3.
  - destruct (setT s2 th (i - 1) _) as [s4|] eqn:E4; [|discriminate]. cbn [bindo] in E. apply some_pair in E; destruct E as [-> ->]; apply setT_get in E4. destruct E4 as (G4 & N4 & I4 & C4).
    split; [reflexivity|]. split; [rewrite (car_getC s1) by congruence; assumption|]. split.
    + rewrite N4 by lia. apply tab_getT. congruence.
    + destruct (Z.eqb_spec i 1); [lia|]. rewrite (idx_getI s2) by assumption. auto.
Qed.
Lemma alike_1038_draw : forall N th s1 s2 w1 w2 s1' s2', (th < N)%nat -> wfb MWC_1038 N s1 -> idxok MWC_1038 s1 -> alike_1038 th s1 s2 ->
  draw MWC_1038 th s1 = Some (w1, s1') -> draw MWC_1038 th s2 = Some (w2, s2') -> w1 = w2 /\ alike_1038 th s1' s2'.
Proof.
  intros N th s1 s2 w1 w2 s1' s2' H W1 X1 (A1 & A2 & A3 & A4) E1 E2.
  destruct (getI_sat MWC_1038 N th H s1 W1 eq_refl) as (i & G & _). pose proof (X1 _ _ G) as Hi. cbn in Hi.
  destruct (getT_sat MWC_1038 N th H s1 W1 i) as (q & Q & _); [cbn [RNG_TABLE]; lia|].
  destruct (getC_sat MWC_1038 N th H s1 W1 eq_refl) as (c & C & _).
  destruct (step_1038 th s1 w1 s1' q c i E1 G Hi Q C) as (B1 & B2 & B3 & B4).
  destruct (step_1038 th s2 w2 s2' q c i E2) as (D1 & D2 & D3 & D4); try congruence; try assumption.
  { rewrite <- (A4 i G). assumption. }
  split; [congruence|]. unfold alike_1038. destruct (i =? 1).
  - split; [congruence|split; [congruence|split; [congruence|]]]. intros j Hj. assert (j = 1037) by congruence. subst j. congruence.
  - destruct B4, D4. split; [congruence|split; [congruence|split; [congruence|]]]. intros j Hj. assert (j = i - 1) by congruence. subst j. congruence.
Qed.
Lemma alike_draws : forall g N th (R : rng -> rng -> Prop),
  (forall s1 s2 w1 w2 s1' s2', wfb g N s1 -> idxok g s1 -> wfb g N s2 -> R s1 s2 -> draw g th s1 = Some (w1, s1') -> draw g th s2 = Some (w2, s2') -> w1 = w2 /\ R s1' s2') ->
  (th < N)%nat -> forall n s1 s2, wfb g N s1 -> idxok g s1 -> wfb g N s2 -> idxok g s2 -> R s1 s2 ->
  option_map fst (draws g (repeat th n) s1) = option_map fst (draws g (repeat th n) s2).
Proof.
  intros g N th R K H n. induction n as [|n IH]; intros s1 s2 W1 X1 W2 X2 A; [reflexivity|]. cbn [repeat draws].
  destruct (draw_ok g N th s1 H W1 X1) as ([w1 s1'] & E1 & D1). destruct (draw_ok g N th s2 H W2 X2) as ([w2 s2'] & E2 & D2).
  rewrite E1, E2. cbn [bindo]. destruct (K s1 s2 w1 w2 s1' s2' W1 X1 W2 A E1 E2) as [-> A'].
  destruct D1 as (_ & W1' & X1'), D2 as (_ & W2' & X2'). cbn [snd] in *. specialize (IH s1' s2' W1' X1' W2' X2' A').
  destruct (draws g (repeat th n) s1') as [[ws1 t1]|], (draws g (repeat th n) s2') as [[ws2 t2]|]; cbn in *; congruence.
Qed.
