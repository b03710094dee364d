From Coq Require Import String QArith Qabs.
From Verif Require Import CInt Lib TextModel HdrModel TextProofs NerscModel.
Open Scope Z_scope.

Lemma rne_close : forall a b, 0 < b -> Z.abs (rne a b * b - a) * 2 <= b.
Proof.
  intros a b H. unfold rne. pose proof (Z.div_mod a b ltac:(lia)) as E. pose proof (Z.mod_pos_bound a b H) as R.
  set (q := a / b) in *. set (r := a mod b) in *.
  destruct (Z.ltb_spec (2 * r) b); [replace (q * b - a) with (- r) by lia; lia|].
  destruct (Z.ltb_spec b (2 * r)); [replace ((q + 1) * b - a) with (b - r) by lia; lia|].
  destruct (Z.even q); [replace (q * b - a) with (- r) by lia; lia|replace ((q + 1) * b - a) with (b - r) by lia; lia].
Qed.
Lemma rne_nonneg : forall a b, 0 < b -> 0 <= a -> 0 <= rne a b.
Proof.
  intros a b H A. unfold rne. pose proof (Z.div_pos a b A H). destruct (_ <? _); [lia|]. destruct (_ <? _); [lia|]. destruct (Z.even _); lia.
Qed.

Lemma pad_dig : forall k n, Forall (isdig 10) (pad k n).
Proof.
  induction k as [|k IH]; intro n; cbn [pad]; [constructor|]. apply Forall_app. split; [apply IH|]. constructor; [|constructor].
  pose proof (Z.mod_pos_bound n 10 ltac:(lia)). exists (n mod 10). split; [apply dig_val; lia|lia].
Qed.
Lemma pad_len : forall k n, List.length (pad k n) = k.
Proof. induction k as [|k IH]; intro n; cbn [pad]; [reflexivity|]. rewrite app_length, IH. cbn. lia. Qed.
Lemma pad_val : forall k n, 0 <= n < 10 ^ Z.of_nat k -> forall acc,
  fold_left (fun a c => a * 10 + dv c) (pad k n) acc = acc * 10 ^ Z.of_nat k + n.
Proof.
  induction k as [|k IH]; intros n H acc.
  - cbn [pad fold_left]. change (10 ^ Z.of_nat 0) with 1 in *. lia.
  - cbn [pad]. rewrite fold_left_app. rewrite Nat2Z.inj_succ, Z.pow_succ_r in * by lia. rewrite IH.
    2:{ split; [apply Z.div_pos; lia|]. apply Z.div_lt_upper_bound; lia. }
    cbn [fold_left]. unfold dv. pose proof (Z.mod_pos_bound n 10 ltac:(lia)). rewrite dig_val by lia. pose proof (Z.div_mod n 10 ltac:(lia)). nia.
Qed.

(* the integer printed by %1.15f *)
Definition dec15 (q : Q) : Z := (if Qnum q <? 0 then -1 else 1) * rne (Z.abs (Qnum q) * ten15) (QDen q).

Lemma nz_digs : forall l, Forall (isdig 10) l -> Forall (fun c => c <> 0) l.
Proof.
  intros l H. eapply Forall_impl; [|exact H]. intros c Hc. apply (isdig_mono 10) in Hc; [|lia]. apply isdig_range in Hc. lia.
Qed.
Lemma fmt15_ok : forall q, Forall (fun c => c <> 0 /\ c <> 10) (fmt15 q).
Proof.
  intro q. unfold fmt15. pose proof (rne_nonneg (Z.abs (Qnum q) * ten15) (QDen q) (Pos2Z.is_pos _) ltac:(unfold ten15; lia)) as P.
  set (N := rne _ _) in *.
  assert (D : forall l, Forall (isdig 10) l -> Forall (fun c => c <> 0 /\ c <> 10) l).
  { intros l H. eapply Forall_impl; [|exact H]. intros c Hc. apply (isdig_mono 10) in Hc; [|lia]. apply isdig_range in Hc. lia. }
  apply Forall_app. split; [destruct (_ <? _); repeat constructor; discriminate|].
  apply Forall_app. split; [apply D, digits_dig; [lia|apply Z.div_pos; [lia|reflexivity]]|].
  apply Forall_app. split; [repeat constructor; discriminate|]. apply D, pad_dig.
Qed.

Lemma scan_f_fmt : forall q, scan_f (32 :: fmt15 q) = Some (dec15 q # 1000000000000000)%Q.
Proof.
  intro q. unfold scan_f. rewrite cstr_id.
  2:{ constructor; [lia|]. eapply Forall_impl; [|apply fmt15_ok]. cbn. tauto. }
  unfold fmt15, dec15. pose proof (rne_nonneg (Z.abs (Qnum q) * ten15) (QDen q) (Pos2Z.is_pos _) ltac:(unfold ten15; lia)) as P.
  set (N := rne _ _) in *.
  assert (Hq : 0 <= N / ten15) by (apply Z.div_pos; [lia|reflexivity]).
  destruct (digits_hd 10 (N / ten15) ltac:(lia) Hq) as (c & l & E & F).
  assert (Hc : isdig 16 c) by (inversion F; subst; apply (isdig_mono 10); [lia|assumption]).
  assert (S : take_sign (skip_ws (32 :: (if Qnum q <? 0 then str "-" else []) ++ dec (N / ten15) ++ str "." ++ pad 15 (N mod ten15)))
              = (Qnum q <? 0, dec (N / ten15) ++ str "." ++ pad 15 (N mod ten15))).
  { unfold dec. rewrite E. destruct (Qnum q <? 0).
    - reflexivity.
    - cbn [app]. rewrite skip_ws_digit, take_sign_digit by assumption. reflexivity. }
  rewrite S. clear S. destruct (dec_val (N / ten15) (str "." ++ pad 15 (N mod ten15)) Hq) as (k & D). rewrite D.
  change (str "." ++ pad 15 (N mod ten15)) with (46 :: pad 15 (N mod ten15)).
  replace (get_digits 10 (46 :: pad 15 (N mod ten15)) (S k) (N / ten15)) with (S k, N / ten15, 46 :: pad 15 (N mod ten15)) by reflexivity.
  cbn iota. replace (46 =? 46) with true by reflexivity. cbn iota.
  rewrite <- (app_nil_r (pad 15 (N mod ten15))). rewrite get_digits_app by apply pad_dig. rewrite pad_len, pad_val.
  2:{ apply Z.mod_pos_bound. reflexivity. }
  cbn [get_digits Nat.add]. f_equal.
  change (Z.to_pos (10 ^ Z.of_nat 15)) with 1000000000000000%positive. f_equal.
  change (10 ^ Z.of_nat 15) with ten15. pose proof (Z.div_mod N ten15 ltac:(discriminate)). destruct (Qnum q <? 0); lia.
Qed.

Lemma dec15_close : forall q, (Qabs ((dec15 q # 1000000000000000) - q) <= 1 # 2000000000000000)%Q.
Proof.
  intro q. unfold dec15. pose proof (rne_close (Z.abs (Qnum q) * ten15) (QDen q) (Pos2Z.is_pos _)) as C.
  set (N := rne _ _) in *. destruct q as [n d]. cbn [Qnum Qden] in *.
  unfold Qabs, Qminus, Qplus, Qopp, Qle. cbn [Qnum Qden].
  change ten15 with 1000000000000000 in C. rewrite Pos2Z.inj_mul.
  set (D := Z.pos d) in *. assert (HD : 0 < D) by reflexivity. clearbody D N.
  destruct (Z.ltb_spec n 0); nia.
Qed.

Lemma fl32_E : forall n d, 0 < n -> 0 < d -> n <= 3 * d ->
  (if d * 2 ^ Z.max 0 (Z.log2 n - Z.log2 d) <=? n * 2 ^ Z.max 0 (- (Z.log2 n - Z.log2 d)) then Z.log2 n - Z.log2 d else Z.log2 n - Z.log2 d - 1) <= 1.
Proof.
  intros n d Hn Hd H. pose proof (Z.log2_spec n Hn) as Ln. pose proof (Z.log2_spec d Hd) as Ld.
  pose proof (Z.log2_nonneg n) as Pn. pose proof (Z.log2_nonneg d) as Pd.
  set (a := Z.log2 n) in *. set (b := Z.log2 d) in *.
  assert (T : a - b <= 2).
  { destruct (Z.le_gt_cases (a - b) 2) as [L|G]; [assumption|exfalso].
    assert (2 ^ Z.succ b * 4 <= 2 ^ a) by (change 4 with (2 ^ 2); rewrite <- Z.pow_add_r by lia; apply Z.pow_le_mono_r; lia). lia. }
  destruct (Z.leb_spec (d * 2 ^ Z.max 0 (a - b)) (n * 2 ^ Z.max 0 (- (a - b)))) as [L|L]; [|lia].
  destruct (Z.eq_dec (a - b) 2) as [E|]; [|lia]. exfalso. rewrite E in L. change (2 ^ Z.max 0 2) with 4 in L. change (2 ^ Z.max 0 (- (2))) with 1 in L. lia.
Qed.

Lemma fl32_close : forall q, (Qabs q <= 3)%Q -> exists x, fl32 q = Some x /\ (Qabs (x - q) <= 1 # 8388608)%Q.
Proof.
  intros [n0 d] H. unfold fl32. cbn [Qnum Qden]. unfold Qabs, Qle in H. cbn [Qnum Qden] in H.
  destruct (Z.eqb_spec (Z.abs n0) 0) as [Z0|NZ].
  - exists 0%Q. split; [reflexivity|]. assert (n0 = 0) by lia. subst. unfold Qabs, Qminus, Qplus, Qopp, Qle. cbn [Qnum Qden]. lia.
  - set (n := Z.abs n0) in *. set (D := Z.pos d) in *. assert (HD : 0 < D) by reflexivity. assert (Hn : 0 < n) by lia.
    assert (HB : n <= 3 * D) by lia. pose proof (fl32_E n D Hn HD HB) as HE. cbv zeta.
    match type of HE with ?x <= 1 => set (E := x) in * end. clearbody E. set (e := Z.max (E - 23) (-149)). assert (He : e <= -22) by lia.
    assert (M1 : Z.max 0 e = 0) by lia. assert (M2 : Z.max 0 (- e) = - e) by lia. rewrite M1, M2. rewrite Z.pow_0_r, !Z.mul_1_r.
    pose proof (rne_close (n * 2 ^ (- e)) D HD) as C. pose proof (rne_nonneg (n * 2 ^ - e) D HD ltac:(nia)) as P. set (m := rne _ _) in *.
    assert (HP : 2 ^ 22 <= 2 ^ (- e)) by (apply Z.pow_le_mono_r; lia). change (2 ^ 22) with 4194304 in HP.
    set (p := 2 ^ (- e)) in *. assert (Pp : Z.pos (Z.to_pos p) = p) by (apply Z2Pos.id; lia).
    clearbody e p m. 
    assert (mb : m * D <= 4 * p * D) by nia. assert (mb2 : m <= 4 * p) by nia.
    replace (Qle_bool (inject_Z (2 ^ 128)) (m # Z.to_pos p)) with false.
    2:{ symmetry. destruct (Qle_bool _ _) eqn:B; [|reflexivity]. apply Qle_bool_iff in B. unfold Qle, inject_Z in B. cbn [Qnum Qden] in B.
        rewrite Pp in B. assert (16 <= 2 ^ 128) by (vm_compute; discriminate). nia. }
    eexists. split; [reflexivity|].
    assert (C1 : Z.abs (m * D - n * p) * 8388608 <= p * D) by nia.
    destruct (Z.ltb_spec n0 0).
    + unfold Qabs, Qminus, Qplus, Qopp, Qle. cbn [Qnum Qden]. rewrite !Pos2Z.inj_mul, Pp. fold D.
      replace (- m * D + - n0 * p) with (- (m * D - n * p)) by (unfold n; lia). lia.
    + unfold Qabs, Qminus, Qplus, Qopp, Qle. cbn [Qnum Qden]. rewrite !Pos2Z.inj_mul, Pp. fold D.
      replace (m * D + - n0 * p) with (m * D - n * p) by (unfold n; lia). lia.
Qed.

(* reading back a printed number *)
Lemma float_back : forall q, (Qabs q <= 2)%Q -> exists x, (match scan_f (32 :: fmt15 q) with Some v => fl32 v | None => None end) = Some x /\
  (Qabs (x - q) <= 1 # 4194304)%Q.
Proof.
  intros q H. rewrite scan_f_fmt. pose proof (dec15_close q) as C. set (v := (dec15 q # 1000000000000000)%Q) in *.
  assert (B : (Qabs v <= 3)%Q).
  { setoid_replace v with ((v - q) + q)%Q by ring. eapply Qle_trans; [apply Qabs_triangle|].
    eapply Qle_trans; [apply Qplus_le_compat; [exact C|exact H]|]. unfold Qle. cbn. lia. }
  destruct (fl32_close v B) as (x & E & F). exists x. split; [exact E|].
  setoid_replace (x - q)%Q with ((x - v) + (v - q))%Q by ring. eapply Qle_trans; [apply Qabs_triangle|].
  eapply Qle_trans; [apply Qplus_le_compat; [exact F|exact C]|]. unfold Qle. cbn. lia.
Qed.

(* the header as a list of tokens and values *)
Definition dimlines (a : nat) (dims : list Z) : list (list Z * list Z) :=
  map (fun p => (str "DIMENSION_" ++ dec (Z.of_nat (fst p) + 1), dec (snd p))) (combine (seq a (List.length dims)) dims).
Definition boundlines (n : nat) : list (list Z * list Z) :=
  map (fun mu => (str "BOUNDARY_" ++ dec (Z.of_nat mu + 1), str "PERIODIC")) (seq 0 n).
Definition nhdr (single big : bool) (NC : Z) (dims : list Z) (flow : Z) (tr plaq : Q) (chksum : Z)
    (details user : list Z) (date : option (list Z)) (type : GLU_output) : list (list Z * list Z) :=
  [(str "HDR_VERSION", str "1.0"); (str "DATATYPE", datatype (Z.of_nat (List.length dims)) NC type); (str "STORAGE_FORMAT", str "1.0")]
  ++ dimlines 0 dims
  ++ [(str "CHECKSUM", hex chksum); (str "LINK_TRACE", fmt15 tr); (str "PLAQUETTE", fmt15 plaq)]
  ++ boundlines (List.length dims)
  ++ [(str "ENSEMBLE_ID", str "ukqcd"); (str "SEQUENCE_NUMBER", dec flow); (str "ENSEMBLE_LABEL", details); (str "CREATOR_MACHINE", user)]
  ++ (match date with Some d => [(str "CREATION_DATE", d)] | None => [] end)
  ++ [(str "FLOATING_POINT", float_format single big)].

Lemma concat_dims : forall dims a,
  List.concat (map (fun mu => str "DIMENSION_" ++ dec (Z.of_nat (mu + a) + 1) ++ str " = " ++ dec (nth mu dims 0) ++ nl) (seq 0 (List.length dims)))
  = List.concat (map hline (dimlines a dims)).
Proof.
  unfold dimlines. induction dims as [|d dims IH]; intro a; [reflexivity|].
  cbn [List.length seq map List.concat combine]. unfold hline at 1. cbn [fst snd Nat.add]. rewrite <- !app_assoc. do 5 f_equal.
  rewrite <- IH. rewrite <- seq_shift, map_map. apply (f_equal (@List.concat Z)). apply map_ext. intro mu. cbn [nth]. replace (S mu + a)%nat with (mu + S a)%nat by lia. reflexivity.
Qed.
Lemma nersc_text : forall single big NC dims flow tr plaq chksum details user date type r,
  write_header_NERSC single big NC dims flow tr plaq chksum details user date type ++ r
  = str "BEGIN_HEADER" ++ nl ++ List.concat (map hline (nhdr single big NC dims flow tr plaq chksum details user date type)) ++ str "END_HEADER" ++ nl ++ r.
Proof.
  intros. unfold write_header_NERSC, nhdr. rewrite !map_app, !concat_app. rewrite <- (concat_dims dims 0).
  replace (map (fun mu => str "DIMENSION_" ++ dec (Z.of_nat mu + 1) ++ str " = " ++ dec (nth mu dims 0) ++ nl) (seq 0 (List.length dims)))
    with (map (fun mu => str "DIMENSION_" ++ dec (Z.of_nat (mu + 0) + 1) ++ str " = " ++ dec (nth mu dims 0) ++ nl) (seq 0 (List.length dims)))
    by (apply map_ext; intro; rewrite Nat.add_0_r; reflexivity).
  replace (List.concat (map hline (boundlines (List.length dims))))
    with (List.concat (map (fun mu => str "BOUNDARY_" ++ dec (Z.of_nat mu + 1) ++ str " = PERIODIC" ++ nl) (seq 0 (List.length dims)))).
  2:{ unfold boundlines. rewrite map_map. reflexivity. }
  set (X := List.concat (map _ (seq 0 (List.length dims)))). set (Y := List.concat (map _ (seq 0 (List.length dims)))).
  clearbody X Y. destruct date as [d|]; cbn [map List.concat]; unfold hline; cbn [fst snd]; rewrite ?app_nil_r;
    change (str "HDR_VERSION = 1.0") with (str "HDR_VERSION" ++ str " = " ++ str "1.0");
    change (str "DATATYPE = ") with (str "DATATYPE" ++ str " = "); change (str "STORAGE_FORMAT = 1.0") with (str "STORAGE_FORMAT" ++ str " = " ++ str "1.0");
    change (str "CHECKSUM = ") with (str "CHECKSUM" ++ str " = "); change (str "LINK_TRACE = ") with (str "LINK_TRACE" ++ str " = ");
    change (str "PLAQUETTE = ") with (str "PLAQUETTE" ++ str " = "); change (str "ENSEMBLE_ID = ukqcd") with (str "ENSEMBLE_ID" ++ str " = " ++ str "ukqcd");
    change (str "SEQUENCE_NUMBER = ") with (str "SEQUENCE_NUMBER" ++ str " = "); change (str "ENSEMBLE_LABEL = ") with (str "ENSEMBLE_LABEL" ++ str " = ");
    change (str "CREATOR_MACHINE = ") with (str "CREATOR_MACHINE" ++ str " = "); change (str "FLOATING_POINT = ") with (str "FLOATING_POINT" ++ str " = ");
    try change (str "CREATION_DATE = ") with (str "CREATION_DATE" ++ str " = "); rewrite <- !app_assoc; reflexivity.
Qed.

(* texts that may stand in the header *)
Definition plain (l : list Z) : Prop := Forall (fun c => c <> 0 /\ c <> 10) l /\ (List.length l <= 100)%nat.

Lemma dec_len' : forall n k, 0 <= n < 10 ^ Z.of_nat k -> (0 < k)%nat -> (List.length (dec n) <= k)%nat.
Proof.
  intros n k H K. unfold dec. revert n H. assert (G : forall fuel k n, 0 <= n < 10 ^ Z.of_nat k -> (0 < k)%nat -> (List.length (digits 10 fuel n) <= k)%nat).
  { clear. induction fuel as [|f IH]; intros k n H K; cbn [digits List.length]; [lia|]. destruct (Z.ltb_spec n 10); [cbn; lia|].
    rewrite app_length. cbn [List.length]. destruct k as [|[|k]]; [lia|change (10 ^ Z.of_nat 1) with 10 in H; lia|].
    assert (List.length (digits 10 f (n / 10)) <= S k)%nat; [|lia]. apply IH; [|lia]. split; [apply Z.div_pos; lia|].
    apply Z.div_lt_upper_bound; [lia|]. rewrite (Nat2Z.inj_succ (S k)), Z.pow_succ_r in H by lia. lia. }
  intros n H. apply G; assumption.
Qed.
Lemma hex_len : forall n, 0 <= n < two32 -> (List.length (hex n) <= 8)%nat.
Proof.
  assert (G : forall fuel k n, 0 <= n < 16 ^ Z.of_nat k -> (0 < k)%nat -> (List.length (digits 16 fuel n) <= k)%nat).
  { induction fuel as [|f IH]; intros k n H K; cbn [digits List.length]; [lia|]. destruct (Z.ltb_spec n 16); [cbn; lia|].
    rewrite app_length. cbn [List.length]. destruct k as [|[|k]]; [lia|change (16 ^ Z.of_nat 1) with 16 in H; lia|].
    assert (List.length (digits 16 f (n / 16)) <= S k)%nat; [|lia]. apply IH; [|lia]. split; [apply Z.div_pos; lia|].
    apply Z.div_lt_upper_bound; [lia|]. rewrite (Nat2Z.inj_succ (S k)), Z.pow_succ_r in H by lia. lia. }
  intros n H. apply G; [|lia]. exact H.
Qed.
Lemma digits_plain : forall b fuel n, 0 < b <= 16 -> 0 <= n -> Forall (fun c => c <> 0 /\ c <> 10 /\ c <> 32) (digits b fuel n).
Proof. intros. eapply Forall_impl; [|apply digits_range; eauto]. cbn. lia. Qed.
Lemma digits_plain' : forall b fuel n, 0 < b <= 16 -> 0 <= n -> Forall (fun c => c <> 0 /\ c <> 10) (digits b fuel n).
Proof. intros. eapply Forall_impl; [|apply digits_range; eauto]. cbn. lia. Qed.

Lemma fmt15_len : forall q, (Qabs q <= 2)%Q -> (List.length (fmt15 q) <= 18)%nat.
Proof.
  intros q H. unfold fmt15. rewrite !app_length, pad_len. change (List.length (str ".")) with 1%nat.
  assert (L : (List.length (dec (rne (Z.abs (Qnum q) * ten15) (QDen q) / ten15)) <= 1)%nat).
  { pose proof (rne_nonneg (Z.abs (Qnum q) * ten15) (QDen q) (Pos2Z.is_pos _) ltac:(unfold ten15; lia)) as P.
    pose proof (rne_close (Z.abs (Qnum q) * ten15) (QDen q) (Pos2Z.is_pos _)) as C.
    set (N := rne _ _) in *. apply dec_len'; [|lia]. split; [apply Z.div_pos; [assumption|reflexivity]|].
    apply Z.div_lt_upper_bound; [reflexivity|]. unfold Qabs, Qle in H. destruct q as [n d]. cbn [Qnum Qden] in *.
    change ten15 with 1000000000000000 in *. change (10 ^ Z.of_nat 1) with 10. nia. }
  destruct (_ <? _); [change (List.length (str "-")) with 1%nat|cbn [List.length]]; lia.
Qed.

Lemma dec_inj : forall m n, 0 <= m -> 0 <= n -> dec m = dec n -> m = n.
Proof.
  intros m n Hm Hn E. destruct (dec_val m [] Hm) as (k & A). destruct (dec_val n [] Hn) as (j & B). rewrite E, B in A. cbn in A. congruence.
Qed.
Lemma dec_nz : forall n, 0 <= n -> Forall (fun c => c <> 0) (dec n).
Proof. intros. apply nz_of_digits; lia. Qed.

Definition P (l : list (list Z * list Z)) := map (fun tv : list Z * list Z => (fst tv, 32 :: snd tv)) l.
Lemma P_app : forall a b, P (a ++ b) = P a ++ P b. Proof. intros. apply map_app. Qed.
Lemma gs_app : forall s l1 l2, get_string s (l1 ++ l2) = match get_string s l1 with Some v => Some v | None => get_string s l2 end.
Proof. intros s l1 l2. induction l1 as [|[t v] l1 IH]; [reflexivity|]. cbn [app get_string]. destruct (streq s t); auto. Qed.
Lemma gs_dims_none : forall s, (forall x, streq s (str "DIMENSION_" ++ x) = false) -> forall dims a, get_string s (P (dimlines a dims)) = None.
Proof.
  intros s H dims. unfold dimlines, P. induction dims as [|d dims IH]; intro a; [reflexivity|].
  cbn [List.length seq combine map get_string fst snd]. rewrite H. apply IH.
Qed.
Lemma gs_bound_none : forall s, (forall x, streq s (str "BOUNDARY_" ++ x) = false) -> forall n, get_string s (P (boundlines n)) = None.
Proof.
  intros s H n. unfold boundlines, P. generalize 0%nat. induction n as [|n IH]; intro a; [reflexivity|].
  cbn [seq map get_string fst snd]. rewrite H. apply IH.
Qed.
Lemma dim_eq : forall m n, 0 <= m -> 0 <= n -> streq (str "DIMENSION_" ++ dec m) (str "DIMENSION_" ++ dec n) = (m =? n).
Proof.
  intros m n Hm Hn. destruct (Z.eqb_spec m n) as [->|N]; [apply streq_refl|].
  destruct (streq _ _) eqn:E; [|reflexivity]. exfalso. apply N. apply dec_inj; auto.
  apply streq_eq in E; [apply app_inv_head in E; exact E| |]; apply Forall_app; (split; [repeat (constructor; [discriminate|]); constructor|apply dec_nz; assumption]).
Qed.
Lemma gs_dims : forall dims a i d, nth_error dims i = Some d ->
  get_string (str "DIMENSION_" ++ dec (Z.of_nat (a + i) + 1)) (P (dimlines a dims)) = Some (32 :: dec d).
Proof.
  unfold dimlines, P. induction dims as [|x dims IH]; intros a i d E; [destruct i; discriminate|].
  cbn [List.length seq combine map get_string fst snd]. rewrite dim_eq by lia. destruct i as [|i]; cbn [nth_error] in E.
  - injection E as ->. rewrite Nat.add_0_r, Z.eqb_refl. reflexivity.
  - destruct (Z.eqb_spec (Z.of_nat (a + S i) + 1) (Z.of_nat a + 1)); [lia|]. rewrite <- (IH (S a) i d E). f_equal. f_equal. f_equal. lia.
Qed.

Lemma get_dims_ok : forall hdr dims dims0 mu, List.length dims0 = List.length dims ->
  (forall i d, nth_error dims i = Some d -> get_size_t (str "DIMENSION_" ++ dec (Z.of_nat (mu + i) + 1)) hdr = HNum d) ->
  get_dims mu dims0 hdr = inl (Some dims).
Proof.
  intros hdr. induction dims as [|d dims IH]; intros [|d0 dims0] mu L H; try discriminate; [reflexivity|]. cbn [get_dims].
  pose proof (H 0%nat d eq_refl) as E. rewrite Nat.add_0_r in E. rewrite E. rewrite (IH dims0 (S mu)); [reflexivity|cbn in L; lia|].
  intros i x Hi. specialize (H (S i) x Hi). rewrite <- H. f_equal. f_equal. f_equal. lia.
Qed.

Lemma data_type_ok : forall ND NC type, 0 <= ND -> 0 <= NC ->
  data_type ND NC (32 :: datatype ND NC type) = Some (match type with OUTPUT_OTHER => OUTPUT_NCxNC | t => t end).
Proof.
  intros ND NC type HD HC. unfold data_type.
  assert (Q : forall t1 t2, streq (str " " ++ datatype ND NC t1) (32 :: datatype ND NC t2) = eqs (datatype ND NC t1) (datatype ND NC t2)).
  { assert (K : forall t, Forall (fun c => c <> 0) (datatype ND NC t)).
    { intro t. destruct t; unfold datatype; rewrite !Forall_app;
        repeat (split; [solve [apply dec_nz; assumption|repeat (constructor; [discriminate|]); constructor]|]);
        solve [apply dec_nz; assumption|repeat (constructor; [discriminate|]); constructor]. }
    intros t1 t2. unfold streq. change (str " " ++ datatype ND NC t1) with (32 :: datatype ND NC t1).
    rewrite !cstr_id by (constructor; [discriminate|apply K]). reflexivity. }
  rewrite !Q. clear Q.
  assert (H1 : eqs (datatype ND NC OUTPUT_SMALL) (datatype ND NC OUTPUT_GAUGE) = false).
  { destruct (eqs _ _) eqn:E; [|reflexivity]. apply eqs_eq in E. unfold datatype in E. do 3 apply app_inv_head in E. discriminate. }
  assert (H2 : eqs (datatype ND NC OUTPUT_SMALL) (datatype ND NC OUTPUT_NCxNC) = false).
  { clear H1. destruct (eqs _ _) eqn:E; [|reflexivity]. apply eqs_eq in E. unfold datatype in E. do 3 apply app_inv_head in E.
    change (str "_GAUGE_SMALL") with (str "_GAUGE_" ++ str "SMALL") in E. apply app_inv_head in E.
    destruct (digits_hd 10 NC ltac:(lia) HC) as (c & l & D & F). unfold dec in E. rewrite D in E. inversion F as [|? ? Fc _]; subst.
    apply (isdig_mono 10) in Fc; [|lia]. apply isdig_range in Fc. assert (c = 83) by (cbn in E; congruence). lia. }
  assert (H3 : eqs (datatype ND NC OUTPUT_GAUGE) (datatype ND NC OUTPUT_NCxNC) = false).
  { clear H1 H2. destruct (eqs _ _) eqn:E; [|reflexivity]. apply eqs_eq in E. unfold datatype in E. do 3 apply app_inv_head in E. discriminate. }
  change (datatype ND NC OUTPUT_OTHER) with (datatype ND NC OUTPUT_NCxNC).
  destruct type; change (datatype ND NC OUTPUT_OTHER) with (datatype ND NC OUTPUT_NCxNC); rewrite ?H1, ?H2, ?H3, ?eqs_refl; reflexivity.
Qed.
Lemma float_type_ok : forall single big, float_type (32 :: float_format single big) = Some (negb single, big).
Proof. intros [] []; vm_compute; reflexivity. Qed.

Section Nersc.
  Variables (single big : bool) (NC : Z) (dims : list Z) (flow : Z) (tr plaq : Q) (chksum : Z) (details user : list Z) (date : option (list Z)) (type : GLU_output).
  Hypothesis Hnc : 0 <= NC < 2 ^ 31.
  Hypothesis Hlen : (List.length dims <= 18)%nat.
  Hypothesis Hdims : Forall (fun d => 0 <= d < two64) dims.
  Hypothesis Hflow : 0 <= flow < two64.
  Hypothesis Htr : (Qabs tr <= 2)%Q.
  Hypothesis Hplaq : (Qabs plaq <= 2)%Q.
  Hypothesis Hchk : 0 <= chksum < two32.
  Hypothesis Hdet : plain details.
  Hypothesis Huser : plain user.
  Hypothesis Hdate : match date with Some d => plain d | None => True end.
  Let H := nhdr single big NC dims flow tr plaq chksum details user date type.

  Lemma nhdr_len : (List.length H <= MAX_TOKENS)%nat.
  Proof.
    unfold H, nhdr, dimlines, boundlines. rewrite !app_length, !map_length, combine_length, !seq_length.
    unfold MAX_TOKENS. destruct date; cbn [List.length]; lia.
  Qed.
  Lemma nhdr_ok : Forall hline_ok H.
  Proof.
    assert (K : forall n, 0 <= n < two64 -> (List.length (dec n) <= 20)%nat).
    { intros n Hn. apply dec_len'; [|lia]. split; [lia|]. eapply Z.lt_trans; [apply Hn|reflexivity]. }
    assert (T : forall t v, Forall (fun c => c <> 0 /\ c <> 10 /\ c <> 32) t -> (List.length t <= 20)%nat -> plain v -> hline_ok (t, v)).
    { intros t v A B [C D]. split; [exact A|]. split; [exact C|]. cbn [fst snd]. lia. }
    assert (Hpos : forall k, (k < 18)%nat -> (List.length (dec (Z.of_nat k + 1)) <= 2)%nat).
    { intros k Hk. apply dec_len'; [|lia]. change (10 ^ Z.of_nat 2) with 100. lia. }
    assert (PD : forall n, 0 <= n < two64 -> plain (dec n)).
    { intros n Hn. split; [apply digits_plain'; lia|]. specialize (K n Hn). lia. }
    assert (PT : plain (datatype (Z.of_nat (List.length dims)) NC type)).
    { assert (L1 : (List.length (dec (Z.of_nat (List.length dims))) <= 2)%nat) by (apply dec_len'; [change (10 ^ Z.of_nat 2) with 100; lia|lia]).
      assert (L2 : (List.length (dec NC) <= 20)%nat) by (apply K; unfold two64; lia).
      assert (N1 : Forall (fun c => c <> 0 /\ c <> 10) (dec (Z.of_nat (List.length dims)))) by (apply digits_plain'; lia).
      assert (N2 : Forall (fun c => c <> 0 /\ c <> 10) (dec NC)) by (apply digits_plain'; lia).
      split.
      - destruct type; unfold datatype; rewrite !Forall_app;
          repeat (split; [solve [assumption|repeat (constructor; [split; discriminate|]); constructor]|]);
          solve [assumption|repeat (constructor; [split; discriminate|]); constructor].
      - destruct type; unfold datatype; rewrite !app_length;
        change (List.length (str "D_SU")) with 4%nat; try change (List.length (str "_GAUGE_SMALL")) with 12%nat;
        try change (List.length (str "_GAUGE")) with 6%nat; try change (List.length (str "_GAUGE_")) with 7%nat; try change (List.length (str "x")) with 1%nat; lia. }
    assert (PQ : forall q, (Qabs q <= 2)%Q -> plain (fmt15 q)).
    { intros q Hq. split; [apply fmt15_ok|]. pose proof (fmt15_len q Hq). lia. }
    assert (PX : plain (hex chksum)).
    { split; [apply digits_plain'; lia|]. pose proof (hex_len chksum Hchk). lia. }
    assert (PS : forall s, forallb (fun c => negb (c =? 0) && negb (c =? 10)) (str s) = true -> (List.length (str s) <=? 100)%nat = true -> plain (str s)).
    { intros s A B. split; [|apply Nat.leb_le; exact B]. apply Forall_forall. intros c Hc. rewrite forallb_forall in A. specialize (A c Hc).
      apply andb_true_iff in A. destruct A as [A1 A2]. destruct (Z.eqb_spec c 0), (Z.eqb_spec c 10); try discriminate. auto. }
    assert (PF : plain (float_format single big)) by (unfold float_format; destruct single, big; apply PS; reflexivity).
    unfold H, nhdr. rewrite !Forall_app. repeat split;
      repeat (apply Forall_cons; [solve [apply T; [repeat (constructor; [repeat split; discriminate|]); constructor|cbn; lia|auto; apply PS; reflexivity]]|]);
      try apply Forall_nil.
    - unfold dimlines. apply Forall_forall. intros x Hx. apply in_map_iff in Hx. destruct Hx as ([k d] & <- & Hi). cbn [fst snd].
      pose proof (in_combine_l _ _ _ _ Hi) as I1. pose proof (in_combine_r _ _ _ _ Hi) as I2. apply in_seq in I1.
      rewrite Forall_forall in Hdims. apply T; [|rewrite app_length; specialize (Hpos k ltac:(lia)); cbn [List.length]; change (List.length (str "DIMENSION_")) with 10%nat; lia|apply PD, Hdims, I2].
      apply Forall_app. split; [repeat (constructor; [repeat split; discriminate|]); constructor|apply digits_plain; lia].
    - unfold boundlines. apply Forall_forall. intros x Hx. apply in_map_iff in Hx. destruct Hx as (k & <- & Hi). apply in_seq in Hi.
      apply T; [|rewrite app_length; specialize (Hpos k ltac:(lia)); change (List.length (str "BOUNDARY_")) with 9%nat; lia|apply PS; reflexivity].
      apply Forall_app. split; [repeat (constructor; [repeat split; discriminate|]); constructor|apply digits_plain; lia].
    - destruct date as [d|]; [|constructor]. apply Forall_cons; [|constructor].
      apply T; [repeat (constructor; [repeat split; discriminate|]); constructor|cbn; lia|exact Hdate].
  Qed.

  Ltac keys := repeat match goal with |- context [streq (str ?a) (str ?b)] => let r := eval vm_compute in (streq (str a) (str b)) in change (streq (str a) (str b)) with r; cbn iota end.
  Ltac look := unfold H, nhdr; rewrite !P_app, !gs_app; rewrite gs_dims_none, gs_bound_none by reflexivity;
    generalize (datatype (Z.of_nat (List.length dims)) NC type); generalize (float_format single big);
    destruct date; cbn [P map get_string fst snd]; keys; reflexivity.
  Lemma g_flow : get_string (str "SEQUENCE_NUMBER") (P H) = Some (32 :: dec flow).
  Proof. look. Qed.
  Lemma g_float : get_string (str "FLOATING_POINT") (P H) = Some (32 :: float_format single big).
  Proof. look. Qed.
  Lemma g_type : get_string (str "DATATYPE") (P H) = Some (32 :: datatype (Z.of_nat (List.length dims)) NC type).
  Proof. look. Qed.
  Lemma g_chk : get_string (str "CHECKSUM") (P H) = Some (32 :: hex chksum).
  Proof. look. Qed.
  Lemma g_plaq : get_string (str "PLAQUETTE") (P H) = Some (32 :: fmt15 plaq).
  Proof. look. Qed.
  Lemma g_tr : get_string (str "LINK_TRACE") (P H) = Some (32 :: fmt15 tr).
  Proof. look. Qed.
  Lemma g_dim : forall i d, nth_error dims i = Some d -> get_size_t (str "DIMENSION_" ++ dec (Z.of_nat i + 1)) (P H) = HNum d.
  Proof.
    intros i d E. unfold get_size_t, H, nhdr. rewrite P_app, gs_app.
    replace (get_string (str "DIMENSION_" ++ dec (Z.of_nat i + 1))
      (P [(str "HDR_VERSION", str "1.0"); (str "DATATYPE", datatype (Z.of_nat (List.length dims)) NC type); (str "STORAGE_FORMAT", str "1.0")])) with (@None (list Z)) by reflexivity.
    pose proof (gs_dims dims 0 i d E) as G. cbn [Nat.add] in G. rewrite P_app, gs_app, G. rewrite scan_zu_dec; [reflexivity|].
    rewrite Forall_forall in Hdims. apply Hdims. eapply nth_error_In; eauto.
  Qed.

  Theorem nersc_ok : forall flow0 dims0 r, List.length dims0 = List.length dims ->
    if flow =? 0 then get_header_data_NERSC NC flow0 dims0 (write_header_NERSC single big NC dims flow tr plaq chksum details user date type ++ r) = NFail
    else exists plaq' tr', (Qabs (plaq' - plaq) <= 1 # 4194304)%Q /\ (Qabs (tr' - tr) <= 1 # 4194304)%Q /\
      get_header_data_NERSC NC flow0 dims0 (write_header_NERSC single big NC dims flow tr plaq chksum details user date type ++ r)
      = NOk (Nersc flow dims (negb single) big (match type with OUTPUT_OTHER => OUTPUT_NCxNC | t => t end) chksum plaq' tr' r).
  Proof.
    intros flow0 dims0 r L. rewrite nersc_text. unfold get_header_data_NERSC. fold H.
    rewrite (get_header_ok H r nhdr_ok nhdr_len). fold (P H).
    assert (GF : get_size_t (str "SEQUENCE_NUMBER") (P H) = HNum flow) by (unfold get_size_t; rewrite g_flow, scan_zu_dec by assumption; reflexivity).
    rewrite GF.
    destruct (flow =? 0); [reflexivity|].
    rewrite (get_dims_ok (P H) dims dims0 0 L) by (intros; apply g_dim; assumption).
    rewrite g_float, float_type_ok. rewrite g_type, L, data_type_ok by lia.
    unfold get_uint32_t. rewrite g_chk, scan_x_hex by assumption. cbn [hnum_of].
    unfold get_float. rewrite g_plaq, g_tr.
    destruct (float_back plaq Hplaq) as (p' & Ep & Cp). destruct (float_back tr Htr) as (t' & Et & Ct).
    rewrite Ep, Et. exists p', t'. auto.
  Qed.
End Nersc.
