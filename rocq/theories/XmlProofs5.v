From Coq Require Import String.
From Verif Require Import CInt Lib GeomProofs LimeModel LimeSpec LimeProofs TextModel TextProofs InputModel XmlModel XmlProofs XmlProofs2 XmlProofs3 XmlProofs4.
Local Open Scope Z_scope.
Local Open Scope list_scope.

(* specification: texts that stay within the arrays.  t starts with p *)
Definition begins (p t : list Z) : Prop := exists l, t = p ++ l.
Definition safe (ND : nat) (ts : list (list Z)) : Prop :=
  (forall a u c, ts = a ++ str "dims" :: u :: c -> exists ws, splits blank1 u ws /\ (length ws <= ND)%nat) /\
  (forall a b t c, ts = a ++ str "precision" :: b ++ t :: c -> (forall x, In x (b ++ [t]) -> ~ begins (str "/precision") x) -> (length t < 8)%nat) /\
  (forall a b t c, ts = a ++ str "suma" :: b ++ t :: c -> ~ In (str "/suma") (b ++ [t]) -> (length t <= 8)%nat).

Lemma safe_suffix ND p ts : safe ND (p ++ ts) -> safe ND ts.
Proof.
  intros (A & B & C). split; [|split].
  - intros a u c E. apply (A (p ++ a) u c). now rewrite E, <- app_assoc.
  - intros a b t c E. apply (B (p ++ a) b t c). now rewrite E, <- app_assoc.
  - intros a b t c E. apply (C (p ++ a) b t c). now rewrite E, <- app_assoc.
Qed.
Lemma safe_short ND ts : (length ts <= 1)%nat -> safe ND ts.
Proof.
  intros L. split; [|split].
  - intros a u c ->. rewrite app_length in L. cbn in L. lia.
  - intros a b t c ->. rewrite app_length in L. cbn in L. rewrite app_length in L. cbn in L. lia.
  - intros a b t c ->. rewrite app_length in L. cbn in L. rewrite app_length in L. cbn in L. lia.
Qed.
Lemma prefix_begins p t : prefix p t = true <-> begins p t.
Proof.
  revert t. induction p as [|x p IH]; intros t; cbn [prefix].
  - split; [intros _; now exists t|reflexivity].
  - destruct t as [|y t].
    + split; [discriminate|]. intros (l & E). discriminate.
    + rewrite andb_true_iff, Z.eqb_eq, IH. split.
      * intros (-> & l & ->). now exists l.
      * intros (l & E). injection E as -> ->. split; [reflexivity|now exists l].
Qed.

Lemma int_suffix close : forall ts v, exists p, ts = p ++ snd (int_loop close v ts).
Proof.
  induction ts as [|t ts IH]; intros v; [now exists []|]. cbn [int_loop]. destruct (prefix close t); [now exists [t]|].
  destruct (strtol (realFront t)) as [[fd ir] x]. destruct (negb ir || negb fd); [now exists [t]|].
  destruct (IH (i32 x)) as (p & E). exists (t :: p). cbn [app]. now rewrite <- E.
Qed.
Lemma prec_defined : forall ts prec, 
  (forall b t c, ts = b ++ t :: c -> (forall x, In x (b ++ [t]) -> ~ begins (str "/precision") x) -> (length t < 8)%nat) ->
  exists q p r, prec_loop (47 :: str "precision") prec ts = Some (q, r) /\ ts = p ++ r.
Proof.
  induction ts as [|t ts IH]; intros prec H; [now exists prec, [], []|]. cbn [prec_loop].
  destruct (prefix (47 :: str "precision") t) eqn:E; [now exists prec, [t], ts|].
  assert (N : ~ begins (str "/precision") t) by (intros B; apply prefix_begins in B; change (str "/precision") with (47 :: str "precision") in B; congruence).
  assert (L : (length t < 8)%nat).
  { apply (H [] t ts eq_refl). intros x [<-|[]]. exact N. }
  destruct (Nat.leb_spec 8 (length t)); [lia|]. destruct (IH t) as (q & p & r & E1 & E2).
  - intros b u c -> Hb. apply (H (t :: b) u c eq_refl). intros x [<-|I]; [exact N|now apply Hb].
  - exists q, (t :: p), r. split; [exact E1|]. now rewrite E2.
Qed.
Lemma get_digits_bound : forall s k acc k' v r, 0 <= acc -> get_digits 16 s k acc = (k', v, r) -> 0 <= v < (acc + 1) * 16 ^ Z.of_nat (length s).
Proof.
  induction s as [|c s IH]; intros k acc k' v r Ha E; cbn [get_digits] in E.
  - injection E as <- <- <-. cbn. lia.
  - cbn [length]. rewrite Nat2Z.inj_succ, Z.pow_succ_r by lia. assert (P : 0 < 16 ^ Z.of_nat (length s)) by (apply Z.pow_pos_nonneg; lia).
    destruct (digit_val c) as [d|] eqn:D.
    + assert (Hd : 0 <= d).
      { unfold digit_val in D. destruct ((48 <=? c) && (c <=? 57)) eqn:E1; [apply andb_true_iff in E1; destruct E1 as [A B]; apply Z.leb_le in A, B; injection D as <-; lia|].
        destruct ((97 <=? c) && (c <=? 102)) eqn:E2; [apply andb_true_iff in E2; destruct E2 as [A B]; apply Z.leb_le in A, B; injection D as <-; lia|].
        destruct ((65 <=? c) && (c <=? 70)) eqn:E3; [apply andb_true_iff in E3; destruct E3 as [A B]; apply Z.leb_le in A, B; injection D as <-; lia|discriminate]. }
      destruct (Z.ltb_spec d 16).
      * apply IH in E; [|lia]. nia.
      * injection E as <- <- <-. nia.
    + injection E as <- <- <-. nia.
Qed.
Lemma scan_short t : (length t <= 8)%nat -> exists v, scan_x t = Some v.
Proof.
  intros L. unfold scan_x, scan_u. assert (L1 : (length (cstr t) <= length t)%nat).
  { clear. induction t as [|c t IH]; [cbn; lia|]. cbn [cstr]. destruct (c =? 0); cbn; lia. }
  assert (L2 : forall s, (length (skip_ws s) <= length s)%nat).
  { clear. induction s as [|c t IH]; [cbn; lia|]. cbn [skip_ws]. destruct (space c); cbn in *; lia. }
  assert (L3 : forall s, (length (snd (take_sign s)) <= length s)%nat).
  { intros [|c s]; [cbn; lia|]. cbn [take_sign]. destruct (c =? 45); [cbn; lia|]. destruct (c =? 43); cbn; lia. }
  specialize (L3 (skip_ws (cstr t))). specialize (L2 (cstr t)). destruct (take_sign (skip_ws (cstr t))) as [neg r]. cbn [snd] in L3.
  change (16 =? 16) with true. cbv iota.
  assert (L4 : (length (skip_0x r) <= length r)%nat).
  { destruct r as [|z [|x [|d r]]]; cbn [skip_0x]; try lia. destruct ((z =? 48) && _ && _); cbn; lia. }
  destruct (get_digits 16 (skip_0x r) 0 0) as [[k v] rr] eqn:E. apply get_digits_bound in E; [|lia].
  destruct k; [eauto|]. destruct (Z.ltb_spec v two32) as [_|V]; [eauto|]. exfalso.
  assert (16 ^ Z.of_nat (length (skip_0x r)) <= 16 ^ 8) by (apply Z.pow_le_mono_r; lia). unfold two32 in V. change (16 ^ 8) with 4294967296 in H. lia.
Qed.
Lemma suma_defined : forall ts m, (forall b t c, ts = b ++ t :: c -> ~ In (str "/suma") (b ++ [t]) -> (length t <= 8)%nat) ->
  exists m' p r, suma_loop m ts = Some (m', r) /\ ts = p ++ r /\ m_dims m' = m_dims m.
Proof.
  induction ts as [|t ts IH]; intros m H; [now exists m, [], []|]. cbn [suma_loop].
  destruct (eqs t (str "/suma")) eqn:E; [now exists m, [t], ts|].
  assert (N : str "/suma" <> t) by (intros <-; rewrite eqs_refl in E; discriminate).
  destruct (scan_short t) as (v & Ev); [apply (H [] t ts eq_refl); intros [X|[]]; congruence|]. rewrite Ev. cbn [bindo].
  destruct (IH (match v with Some x => with_sum m x | None => m end)) as (m' & p & r & E1 & E2 & E3).
  - intros b u c -> Hb. apply (H (t :: b) u c eq_refl). intros [X|X]; [congruence|contradiction].
  - exists m', (t :: p), r. split; [exact E1|]. split; [now rewrite E2|]. rewrite E3. destruct v; reflexivity.
Qed.
Lemma geometry_defined ND t : forall mus m ts, Forall (fun k => (k < ND)%nat) mus -> length (m_dims m) = ND ->
  exists m' p r, geometry ND t mus m ts = Some (m', r) /\ ts = p ++ r /\ length (m_dims m') = ND.
Proof.
  induction mus as [|k mus IH]; intros m ts F L; [now exists m, [], ts|]. apply Forall_cons_iff in F. destruct F as [Hk F]. cbn [geometry].
  destruct (eqs t (search ND k)); [|now apply IH].
  destruct (int_suffix (47 :: search ND k) ts 0) as (p & Ep). unfold get_int_tag. destruct (int_loop (47 :: search ND k) 0 ts) as [v ts'] eqn:Ei. cbn [snd] in Ep.
  destruct (v =? 0).
  - destruct (IH m ts' F L) as (m' & p' & r & E1 & E2 & E3). exists m', (p ++ p'), r. split; [exact E1|]. split; [|exact E3]. now rewrite Ep, E2, <- app_assoc.
  - destruct (setn_spec (m_dims m) k (u64 v) ltac:(lia)) as (d & Ed & Ld & _). rewrite Ed. cbn [bindo].
    destruct (IH (with_dims m d) ts' F ltac:(cbn; congruence)) as (m' & p' & r & E1 & E2 & E3). exists m', (p ++ p'), r. split; [exact E1|]. split; [|exact E3].
    now rewrite Ep, E2, <- app_assoc.
Qed.
Lemma field_defined NC : forall ts m, match field_loop NC m ts with
  | inl m' => m_dims m' = m_dims m | inr (m', r) => m_dims m' = m_dims m /\ exists p, ts = p ++ r end.
Proof.
  induction ts as [|t ts IH]; intros m; cbn [field_loop]; [split; [reflexivity|now exists []]|].
  destruct (eqs t (str "/field")); [split; [reflexivity|now exists [t]]|]. destruct (prefix _ _); [|reflexivity].
  specialize (IH (with_type m OUTPUT_NCxNC)). destruct (field_loop NC (with_type m OUTPUT_NCxNC) ts) as [m'|[m' r]]; [exact IH|].
  destruct IH as (E & p & Ep). split; [exact E|]. exists (t :: p). cbn [app]. now rewrite Ep at 1.
Qed.

(* strtok finds the words *)
Lemma strtok_splits d s ws : splits d s ws -> match ws with [] => strtok d s = None | w :: r => exists s', strtok d s = Some (w, s') /\ splits d s' r end.
Proof.
  induction 1 as [|c s ts Hc H IH|t Hn Ht|t c s ts Hn Ht Hc H IH].
  - reflexivity.
  - assert (E : strtok d (c :: s) = strtok d s) by (unfold strtok; cbn [skip_d]; apply among_In in Hc; now rewrite Hc). rewrite E. exact IH.
  - exists []. split; [now apply strtok_end|constructor].
  - exists s. split; [now apply strtok_word|assumption].
Qed.
Lemma suffix_skip d s : exists p, s = p ++ skip_d d s.
Proof. induction s as [|c s IH]; [now exists []|]. cbn [skip_d]. destruct (among d c); [|now exists []]. destruct IH as (p & E). exists (c :: p). cbn [app]. now rewrite <- E. Qed.
Lemma suffix_till d s : exists p, s = p ++ snd (till_d d s).
Proof.
  induction s as [|c s IH]; [now exists []|]. cbn [till_d]. destruct (among d c); [now exists [c]|]. destruct IH as (p & E). destruct (till_d d s) as [t r]. cbn [snd] in *.
  exists (c :: p). cbn [app]. now rewrite <- E.
Qed.
Lemma strtok_suffix d s t r : strtok d s = Some (t, r) -> exists p, s = p ++ r.
Proof.
  unfold strtok. destruct (suffix_skip d s) as (p & E). destruct (skip_d d s) as [|c s'] eqn:E1; [discriminate|]. intros X. injection X as X.
  destruct (suffix_till d (c :: s')) as (p' & E'). cbn [till_d] in *. rewrite X in E'. cbn [snd] in E'. exists (p ++ p'). rewrite E at 1. rewrite E' at 1. now rewrite app_assoc.
Qed.
Lemma dims_defined ND : forall ws fuel d idx s, splits blank1 s ws -> (idx + length ws <= ND)%nat -> length d = ND ->
  exists d' r p, dims_words fuel d idx s = Some (d', r) /\ length d' = ND /\ s = p ++ r.
Proof.
  induction ws as [|w ws IH]; intros fuel d idx s H L Ld; (destruct fuel as [|f]; [exists d, s, []; cbn; auto|]); apply strtok_splits in H; cbn [dims_words].
  - rewrite H. exists d, [], s. rewrite app_nil_r. auto.
  - destruct H as (s' & E & H). rewrite E. destruct (strtok_suffix _ _ _ _ E) as (p & Ep). destruct (eqs w (str "/dims")); [exists d, s', p; auto|].
    cbn [length] in L. destruct (setn_spec d idx (dim_of w) ltac:(lia)) as (d1 & E1 & L1 & _). rewrite E1. cbn [bindo].
    destruct (IH f d1 (S idx) s' H ltac:(lia) ltac:(congruence)) as (d' & r & p' & X1 & X2 & X3). exists d', r, (p ++ p'). split; [exact X1|]. split; [exact X2|].
    now rewrite Ep, X3, <- app_assoc.
Qed.
Lemma tokens_short r : clean sep r -> (length (tokens sep r) <= 1)%nat.
Proof. intros H. destruct r as [|c r]; [cbn; lia|]. rewrite tokens_one by (try assumption; congruence). cbn. lia. Qed.

Definition fine (ND : nat) (x : xres) : Prop := exists m, (x = XOk m \/ x = XFail m) /\ length (m_dims m) = ND.
Lemma loop_defined NC ND : NC < 100 -> forall fuel m ts, (length ts <= fuel)%nat -> Forall (clean sep) ts -> safe ND ts ->
  length (m_dims m) = ND -> (1 <= ND)%nat -> fine ND (xml_loop fuel NC ND m ts).
Proof.
  intros HC. induction fuel as [|f IH]; intros m ts Lt Ft S Ld HN.
  - destruct ts; [|cbn in Lt; lia]. exists m. cbn. auto.
  - destruct ts as [|t ts]; [exists m; cbn; auto|]. cbn [length] in Lt. apply Forall_cons_iff in Ft. destruct Ft as [Ct Ft].
    assert (S' : safe ND ts) by (apply (safe_suffix ND [t] ts); exact S).
    (* continuing with what is left of ts *)
    assert (K : forall p r m', ts = p ++ r -> length (m_dims m') = ND -> fine ND (xml_loop f NC ND m' r)).
    { intros p r m' E L. apply IH; try assumption.
      - rewrite E, app_length in Lt. lia.
      - rewrite E in Ft. apply Forall_app in Ft. apply Ft.
      - rewrite E in S'. now apply safe_suffix in S'. }
    assert (OK : forall m', length (m_dims m') = ND -> fine ND (XOk m')) by (intros m' L; exists m'; auto).
    assert (FL : forall m', length (m_dims m') = ND -> fine ND (XFail m')) by (intros m' L; exists m'; auto).
    unfold xml_loop; fold xml_loop.
    destruct (eqs t (str "/scidacRecord") || eqs t (str "/scidacFile") || eqs t (str "/ildgFormat")); [now apply OK|].
    destruct (eqs t (str "spacetime")).
    { destruct (int_suffix (47 :: str "spacetime") ts 0) as (p & Ep). unfold get_int_tag. destruct (int_loop (47 :: str "spacetime") 0 ts) as [v r]. cbn [snd] in Ep.
      destruct (_ && _); [now apply FL|now apply (K p)]. }
    destruct (eqs t (str "colors")).
    { destruct (int_suffix (47 :: str "colors") ts 0) as (p & Ep). unfold get_int_tag. destruct (int_loop (47 :: str "colors") 0 ts) as [v r]. cbn [snd] in Ep.
      destruct (_ && _); [now apply FL|now apply (K p)]. }
    destruct (eqs t (str "typesize")).
    { destruct (int_suffix (47 :: str "typesize") ts 0) as (p & Ep). unfold get_int_tag. destruct (int_loop (47 :: str "typesize") 0 ts) as [v r]. cbn [snd] in Ep.
      destruct (v =? 0); [now apply (K p)|]. cbv zeta. destruct (_ =? _); [now apply (K p)|]. destruct (_ =? _); [now apply (K p)|now apply FL]. }
    destruct (eqs t (str "precision")) eqn:Et.
    { apply eqs_eq in Et. subst t. unfold get_prec_tag. destruct S as (_ & S2 & _).
      destruct (prec_defined ts (str "00")) as (q & p & r & E1 & E2); [intros b u c ->; apply (S2 [] b u c eq_refl)|]. rewrite E1. cbn [bindo].
      apply (K p); [exact E2|]. match goal with |- context[match ?x with Some _ => _ | None => _ end] => destruct x end; assumption. }
    clear Et. destruct (eqs t (str "dims")) eqn:Et.
    { apply eqs_eq in Et. subst t. destruct ts as [|u ts]; [now apply OK|]. destruct S as (S1 & _). destruct (S1 [] u ts eq_refl) as (ws & Hw & Lw).
      pose proof (strtok_splits _ _ _ Hw) as X. destruct ws as [|w ws]; [rewrite X; now apply FL|]. destruct X as (s' & E & Hs). rewrite E.
      destruct (m_dims m) as [|d0 dr] eqn:Em; [cbn in Ld; lia|]. cbn [set_nth bindo]. cbn [length] in Lw.
      destruct (dims_defined ND ws (Datatypes.S (length s')) (dim_of w :: dr) 1 s' Hs ltac:(lia) ltac:(cbn in *; lia)) as (d' & r & p & E1 & E2 & E3). rewrite E1.
      destruct (strtok_suffix _ _ _ _ E) as (p0 & Ep0). apply Forall_cons_iff in Ft. destruct Ft as [Cu Ft].
      assert (Cr : clean sep r) by (rewrite Ep0, E3 in Cu; apply Forall_app in Cu; destruct Cu as [_ Cu]; apply Forall_app in Cu; apply Cu).
      pose proof (tokens_short r Cr). cbn [length] in Lt. apply IH; [lia|apply tokens_clean|now apply safe_short|assumption|assumption]. }
    clear Et. destruct (eqs t (str "suma")) eqn:Et.
    { apply eqs_eq in Et. subst t. destruct S as (_ & _ & S3). destruct (suma_defined ts m) as (m' & p & r & E1 & E2 & E3).
      - intros b u c ->. apply (S3 [] b u c eq_refl).
      - rewrite E1. apply (K p); [exact E2|congruence]. }
    destruct (geometry_defined ND t (seq 0 ND) m ts (seq_lt ND) Ld) as (m' & p & r & E1 & E2 & E3). rewrite E1.
    destruct (eqs t (str "field")); [|now apply (K p)]. destruct (Z.leb_spec 100 NC); [lia|].
    pose proof (field_defined NC r m') as Fd. destruct (field_loop NC m' r) as [m2|[m2 r2]]; [apply FL; congruence|].
    destruct Fd as (E4 & p2 & E5). apply (K (p ++ p2)); [now rewrite E2, E5, <- app_assoc|congruence].
Qed.
Lemma parse_defined NC ND text m ts : NC < 100 -> (1 <= ND < 12)%nat -> ~ In 0 text -> length (m_dims m) = ND -> splits sep text ts -> ts <> [] -> safe ND ts ->
  fine ND (parse_and_set_xml_SCIDAC NC ND text m).
Proof.
  intros HC HN H0 Ld Hs Hn S. unfold parse_and_set_xml_SCIDAC. rewrite cstr_id by (now apply nz_notin). pose proof (tokens_clean sep text) as C.
  rewrite (splits_tokens _ _ _ Hs) in *. destruct ts as [|t ts]; [congruence|].
  destruct (negb _); [exists (with_endian m B_ENDIAN); auto|]. destruct (Nat.leb_spec 12 ND); [lia|]. destruct ts as [|u ts]; [exists (with_endian m B_ENDIAN); auto|].
  apply loop_defined; try assumption; try lia.
  - apply Forall_cons_iff in C. destruct C as [_ C]. apply Forall_cons_iff in C. apply C.
  - now apply (safe_suffix ND [t; u]).
Qed.
