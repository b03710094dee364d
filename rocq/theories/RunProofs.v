From Coq Require Import String Reals Lra Permutation.
From Verif Require Import CInt Lib TextModel HdrModel TextProofs RngModel RngProofs RngProofs2 RngProofs3 RunModel.
Open Scope Z_scope.

(* ---- names ---- *)
Lemma eqs_iff : forall a b, eqs a b = true <-> a = b.
Proof.
  induction a as [|x a IH]; intros [|y b]; cbn; try (split; congruence || discriminate || reflexivity).
  rewrite andb_true_iff, Z.eqb_eq, IH. split; [intros [-> ->]; reflexivity|intros E; injection E; auto].
Qed.
Lemma dec_inj a b : 0 <= a -> 0 <= b -> dec a = dec b -> a = b.
Proof.
  intros Ha Hb E. destruct (dec_val a [] Ha) as (k & Ka). destruct (dec_val b [] Hb) as (k' & Kb).
  rewrite E, Kb in Ka. cbn [get_digits] in Ka. congruence.
Qed.
Lemma dec_nodot a : 0 <= a -> Forall (fun c => c <> 46) (dec a).
Proof.
  intros Ha. unfold dec. eapply Forall_impl; [|apply (digits_dig 10); lia]. intros c Hc.
  apply (isdig_mono 10) in Hc; [|lia]. apply isdig_range in Hc. lia.
Qed.
Lemma conf_inj p a b : 0 <= a -> 0 <= b -> conf_name p a = conf_name p b -> a = b.
Proof. intros Ha Hb E. unfold conf_name in E. apply app_inv_head in E. apply app_inv_head in E. now apply dec_inj. Qed.
Lemma rand_not_conf p a b : 0 <= a -> 0 <= b -> rand_name p a <> conf_name p b.
Proof.
  intros Ha Hb E. unfold rand_name, conf_name in E. apply app_inv_head in E. apply app_inv_head in E.
  pose proof (dec_nodot b Hb) as H. rewrite <- E in H. apply Forall_app in H. destruct H as (_ & H).
  change (str ".rand") with [46; 114; 97; 110; 100] in H. inversion H. congruence.
Qed.
Definition nodots (p : list Z) : Prop := p <> [] /\ Forall (fun c => c <> 46) p.
Lemma upto_nodot s : Forall (fun c => c <> 46) (upto_dot s).
Proof. induction s as [|c r IH]; cbn; [constructor|]. destruct (Z.eqb_spec c 46); constructor; assumption. Qed.
Lemma stem_nodots name p : stem name = Some p -> nodots p.
Proof.
  unfold stem. pose proof (upto_nodot (skip_dots name)) as H. destruct (upto_dot (skip_dots name)) as [|c r]; [discriminate|].
  intros E. injection E as <-. split; [discriminate|assumption].
Qed.
Lemma upto_app p r : Forall (fun c => c <> 46) p -> upto_dot (p ++ 46 :: r) = p.
Proof. intros H. induction H as [|c p Hc H IH]; cbn; [reflexivity|]. destruct (Z.eqb_spec c 46); [congruence|]. now rewrite IH. Qed.
Lemma stem_conf p i : nodots p -> stem (conf_name p i) = Some p.
Proof.
  intros (Hn & Hf). unfold stem, conf_name. change (str ".") with [46].
  destruct p as [|c p]; [congruence|]. inversion Hf; subst. cbn [skip_dots app]. destruct (Z.eqb_spec c 46); [congruence|].
  rewrite app_comm_cons. cbn [app]. rewrite app_comm_cons. rewrite (upto_app (c :: p)) by assumption. reflexivity.
Qed.

(* ---- the update loop ---- *)
Section HB.
Variable L : Type.
Variable upd : L -> rng -> L * rng.
Variable reunit : L -> L.
Variable g : gen.
Variable be : bool.
Variable Nth : nat.
Notation loop := (hb_loop L upd reunit g be Nth).
Notation sav := (save L reunit g be Nth).

Lemma loop_start late hb p : forall n a b i lat s fs, a < i -> b < i -> loop n late hb p a i lat s fs = loop n late hb p b i lat s fs.
Proof.
  induction n as [|n IH]; intros a b i lat s fs Ha Hb; cbn [hb_loop]; [reflexivity|].
  destruct ((Nmeasure hb =? 0) || (Nsave hb =? 0)); [reflexivity|].
  destruct (Z.eqb_spec i a) as [|_]; [lia|]. destruct (Z.eqb_spec i b) as [|_]; [lia|].
  destruct (if (i mod Nsave hb =? 0) && negb false then _ else _) as [[[l1 s1] f1]|]; [|reflexivity]. cbn [bindo].
  destruct (upd l1 s1) as [l2 s2]. rewrite (IH a b (i + 1)) by lia. reflexivity.
Qed.
Lemma loop_split late hb p : forall n m a i lat s fs r, loop (n + m) late hb p a i lat s fs = Some r ->
  exists lat1 s1 fs1 t1 lat2 s2 fs2 t2,
    loop n late hb p a i lat s fs = Some (lat1, s1, fs1, t1) /\
    loop m late hb p a (i + Z.of_nat n) lat1 s1 fs1 = Some (lat2, s2, fs2, t2) /\
    r = (lat2, s2, fs2, t1 ++ t2).
Proof.
  induction n as [|n IH]; intros m a i lat s fs r E.
  - destruct r as [[[l2 s2] f2] t2]. exists lat, s, fs, [], l2, s2, f2, t2. split; [reflexivity|]. split; [|reflexivity].
    replace (i + Z.of_nat 0) with i by lia. exact E.
  - cbn [Nat.add hb_loop] in *. destruct ((Nmeasure hb =? 0) || (Nsave hb =? 0)); [discriminate|].
    destruct (if (i mod Nsave hb =? 0) && negb (i =? a) then _ else _) as [[[l1 s1] f1]|]; [|discriminate]. cbn [bindo] in *.
    destruct (upd l1 s1) as [l2 s2]. destruct (loop (n + m) late hb p a (i + 1) l2 s2 f1) as [[[[l3 s3] f3] t3]|] eqn:E1; [|discriminate].
    cbn [bindo] in E. injection E as <-. apply IH in E1. destruct E1 as (x1 & x2 & x3 & x4 & y1 & y2 & y3 & y4 & A & B & C).
    rewrite A. cbn [bindo]. exists x1, x2, x3, ((i, l1, s1) :: x4), y1, y2, y3, y4. split; [reflexivity|].
    replace (i + Z.of_nat (S n)) with (i + 1 + Z.of_nat n) by lia. split; [assumption|]. injection C as -> -> -> ->. reflexivity.
Qed.
Lemma lookup_cons n m c fs : lookup L n ((m, c) :: fs) = if eqs m n then Some c else lookup L n fs.
Proof. reflexivity. Qed.
Lemma save_fresh p i q lat s fs lat1 s1 fs1 j : 0 <= i -> 0 <= j -> j <> i ->
  sav p i q lat s fs = Some (lat1, s1, fs1) -> lookup L (conf_name p j) fs1 = lookup L (conf_name p j) fs.
Proof.
  intros Hi Hj Hne E. unfold save in E. destruct (negb (fits p i)); [discriminate|].
  destruct (lookup L (conf_name p i) fs); [injection E as <- <- <-; reflexivity|].
  destruct (write_par_rng_state g be Nth s) as [[b s']|]; [|discriminate]. cbn [bindo] in E. injection E as <- <- <-.
  rewrite !lookup_cons.
  destruct (eqs (rand_name p i) (conf_name p j)) eqn:E1; [apply eqs_iff in E1; destruct (rand_not_conf p i j); assumption|].
  destruct (eqs (conf_name p i) (conf_name p j)) eqn:E2; [apply eqs_iff in E2; apply conf_inj in E2; congruence|]. reflexivity.
Qed.
Lemma loop_fresh late hb p j : forall n a i lat s fs lat1 s1 fs1 t1, 0 <= i -> i + Z.of_nat n <= j ->
  loop n late hb p a i lat s fs = Some (lat1, s1, fs1, t1) -> lookup L (conf_name p j) fs1 = lookup L (conf_name p j) fs.
Proof.
  induction n as [|n IH]; intros a i lat s fs lat1 s1 fs1 t1 Hi Hj E; cbn [hb_loop] in E; [injection E as <- <- <- <-; reflexivity|].
  destruct ((Nmeasure hb =? 0) || (Nsave hb =? 0)); [discriminate|].
  destruct ((i mod Nsave hb =? 0) && negb (i =? a)).
  - destruct (sav p i _ lat s fs) as [[[l2 s2] f2]|] eqn:Es; [|discriminate]. cbn [bindo] in E. destruct (upd l2 s2) as [l3 s3].
    destruct (loop n late hb p a (i + 1) l3 s3 f2) as [[[[l4 s4] f4] t4]|] eqn:E1; [|discriminate]. cbn [bindo] in E. injection E as <- <- <- <-.
    apply IH in E1; [|lia|lia]. rewrite E1. eapply (save_fresh p i _ lat s fs l2 s2 f2 j); [lia|lia|lia|exact Es].
  - cbn [bindo] in E. destruct (upd lat s) as [l3 s3].
    destruct (loop n late hb p a (i + 1) l3 s3 fs) as [[[[l4 s4] f4] t4]|] eqn:E1; [|discriminate]. cbn [bindo] in E. injection E as <- <- <- <-.
    apply IH in E1; [assumption|lia|lia].
Qed.

(* generator states stay well formed, and saving does not change them *)
Hypothesis Hg : g = MWC_1038 \/ g = MWC_4096 \/ g = XOR_1024 \/ (g = KISS /\ be = true).
Hypothesis HN : Z.of_nat Nth < two32.
Variable Inv : rng -> Prop.
Hypothesis HInv : forall s, Inv s -> wfb g Nth s.
Hypothesis Hupd : forall l s, Inv s -> Inv (snd (upd l s)).

Lemma state_roundtrip s : wfb g Nth s -> exists b, write_par_rng_state g be Nth s = Some (b, s) /\ read_par_rng_state g be Nth b = Restored s.
Proof.
  intros W. assert (Hw : g <> WELL_512) by (intros E; rewrite E in Hg; destruct Hg as [H|[H|[H|[H _]]]]; discriminate).
  rewrite (write_state_ok g be Nth s Hw W). eexists. split; [reflexivity|].
  rewrite read_state_body by assumption. rewrite Nat.eqb_refl. rewrite (proj2 (name_eq g g) eq_refl). cbn [andb].
  rewrite (read_table_ok g be Nth s W). f_equal.
  destruct Hg as [->|[->|[->|[-> ->]]]]; try reflexivity. destruct s as [ta ia ca]. unfold unswap, fw. cbn [tab idx car]. rewrite map_id. reflexivity.
Qed.
Lemma save_state p i q lat s fs lat1 s1 fs1 : wfb g Nth s -> sav p i q lat s fs = Some (lat1, s1, fs1) -> s1 = s.
Proof.
  intros W E. unfold save in E. destruct (negb (fits p i)); [discriminate|].
  destruct (lookup L (conf_name p i) fs); [injection E as <- <- <-; reflexivity|].
  destruct (state_roundtrip s W) as (b & Eb & _). rewrite Eb in E. cbn [bindo] in E. injection E as <- <- <-. reflexivity.
Qed.
Lemma loop_wf late hb p : forall n a i lat s fs lat1 s1 fs1 t1, Inv s ->
  loop n late hb p a i lat s fs = Some (lat1, s1, fs1, t1) -> Inv s1.
Proof.
  induction n as [|n IH]; intros a i lat s fs lat1 s1 fs1 t1 W E; cbn [hb_loop] in E; [injection E as <- <- <- <-; assumption|].
  destruct ((Nmeasure hb =? 0) || (Nsave hb =? 0)); [discriminate|].
  destruct (if (i mod Nsave hb =? 0) && negb (i =? a) then sav p i _ lat s fs else Some (lat, s, fs)) as [[[l2 s2] f2]|] eqn:Es; [|discriminate].
  assert (s2 = s).
  { destruct ((i mod Nsave hb =? 0) && negb (i =? a)); [now apply save_state in Es; [|apply HInv]|]. injection Es as <- <- <-. reflexivity. }
  subst s2. cbn [bindo] in E. pose proof (Hupd l2 s W) as W2. destruct (upd l2 s) as [l3 s3].
  destruct (loop n late hb p a (i + 1) l3 s3 f2) as [[[[l4 s4] f4] t4]|] eqn:E1; [|discriminate]. cbn [bindo] in E. injection E as <- <- <- <-.
  exact (IH _ _ _ _ _ _ _ _ _ W2 E1).
Qed.
Lemma therm_wf n : forall lat s, Inv s -> Inv (snd (thermalise L upd n lat s)).
Proof.
  induction n as [|n IH]; intros lat s W; cbn [thermalise]; [assumption|].
  pose proof (Hupd lat s W) as W2. destruct (upd lat s) as [l3 s3]. now apply IH.
Qed.

(* a run of n more iterations from a save point, restarted from the files *)
Lemma restart late hb p a i lat s fs n lat2 s2 fs2 tr : 0 <= i -> a < i -> i mod Nsave hb = 0 -> Inv s ->
  nodots p -> therm hb = 0 -> continuation hb = true -> iterations hb = i + Z.of_nat (S n) ->
  lookup L (conf_name p i) fs = None ->
  loop (S n) late hb p a i lat s fs = Some (lat2, s2, fs2, tr) ->
  exists q fsS, (exists l1 s1 t1, loop 1 late hb p a i lat s fs = Some (l1, s1, fsS, t1)) /\ lookup L (conf_name p i) fsS = Some (Conf L q (reunit lat)) /\
    (late i = false \/ i mod Nmeasure hb = 0 -> q = i) /\
    forall s0, hb_update L upd reunit g be Nth late hb (conf_name p i) i (reunit lat) s0 fsS = HRun L lat2 s2 fs2 tr.
Proof.
  intros Hi Ha Hm W Hp Ht Hc Hit Hl E. cbn [hb_loop] in E.
  destruct ((Nmeasure hb =? 0) || (Nsave hb =? 0)) eqn:Hz; [discriminate|].
  rewrite Hm in E. cbn [Z.eqb] in E. destruct (Z.eqb_spec i a) as [|_]; [lia|]. cbn [andb negb] in E.
  unfold save in E. destruct (fits p i) eqn:Hf; cbn [negb] in E; [|discriminate]. rewrite Hl in E.
  destruct (state_roundtrip s (HInv s W)) as (b & Eb & Er). rewrite Eb in E. cbn [bindo] in E.
  set (q := if late i && negb (i mod Nmeasure hb =? 0) then i - 1 else i) in *.
  set (fsS := (rand_name p i, Rand L b) :: (conf_name p i, Conf L q (reunit lat)) :: fs) in *.
  exists q, fsS. split; [|split; [|split]].
  - cbn [hb_loop]. rewrite Hz, Hm. cbn [Z.eqb]. destruct (Z.eqb_spec i a) as [|_]; [lia|]. cbn [andb negb].
    unfold save. rewrite Hf, Hl, Eb. cbn [negb bindo]. fold q. fold fsS. destruct (upd (reunit lat) s) as [l3 s3]. cbn [bindo]. do 3 eexists. reflexivity.
  - unfold fsS. rewrite !lookup_cons.
    destruct (eqs (rand_name p i) (conf_name p i)) eqn:E1; [apply eqs_iff in E1; destruct (rand_not_conf p i i); assumption|].
    now rewrite (proj2 (eqs_iff _ _) eq_refl).
  - intros [H|H]; unfold q; rewrite H; [reflexivity|]. cbn [Z.eqb negb]. now rewrite andb_false_r.
  - intros s0. unfold hb_update. rewrite (stem_conf p i Hp), Hf, Hc. cbn [negb].
    unfold fsS at 1. rewrite lookup_cons, (proj2 (eqs_iff _ _) eq_refl), Er, Ht. cbn [Z.to_nat thermalise].
    replace (Z.to_nat (iterations hb - i)) with (S n) by lia.
    cbn [hb_loop]. rewrite Hz, Z.eqb_refl. cbn [negb]. rewrite andb_false_r. cbn [bindo].
    destruct (upd (reunit lat) s) as [l3 s3].
    rewrite (loop_start late hb p n i a (i + 1) l3 s3 fsS) by lia.
    destruct (loop n late hb p a (i + 1) l3 s3 fsS) as [[[[l4 s4] f4] t4]|]; [|discriminate]. cbn [bindo] in *. injection E as <- <- <- <-.
    reflexivity.
Qed.

(* the part of hb_info a restart keeps *)
Definition same_hb (a b : hb_info) : Prop := iterations a = iterations b /\ Nmeasure a = Nmeasure b /\ Nsave a = Nsave b.
Lemma loop_len_hb late hb hb' p : Nmeasure hb = Nmeasure hb' -> Nsave hb = Nsave hb' ->
  forall n a i lat s fs, loop n late hb p a i lat s fs = loop n late hb' p a i lat s fs.
Proof.
  intros H2 H3. induction n as [|n IH]; intros a i lat s fs; cbn [hb_loop]; [reflexivity|]. rewrite H2, H3.
  destruct ((Nmeasure hb' =? 0) || (Nsave hb' =? 0)); [reflexivity|].
  destruct (if (i mod Nsave hb' =? 0) && negb (i =? a) then _ else _) as [[[l1 s1] f1]|]; [|reflexivity]. cbn [bindo].
  destruct (upd l1 s1) as [l2 s2]. now rewrite IH.
Qed.

Lemma loop_len late hb p : forall n a i lat s fs l t f tr, loop n late hb p a i lat s fs = Some (l, t, f, tr) -> List.length tr = n.
Proof.
  induction n as [|n IH]; intros a i lat s fs l t f tr E; cbn [hb_loop] in E; [injection E as <- <- <- <-; reflexivity|].
  destruct ((Nmeasure hb =? 0) || (Nsave hb =? 0)); [discriminate|].
  destruct (if (i mod Nsave hb =? 0) && negb (i =? a) then _ else _) as [[[l1 s1] f1]|]; [|discriminate]. cbn [bindo] in E.
  destruct (upd l1 s1) as [l3 s3]. destruct (loop n late hb p a (i + 1) l3 s3 f1) as [[[[l4 s4] f4] t4]|] eqn:E1; [|discriminate].
  cbn [bindo] in E. injection E as <- <- <- <-. cbn [List.length]. f_equal. exact (IH _ _ _ _ _ _ _ _ _ E1).
Qed.
Lemma loop_hb late hb hb' p : same_hb hb hb' -> forall n a i lat s fs, loop n late hb p a i lat s fs = loop n late hb' p a i lat s fs.
Proof. intros (_ & H2 & H3). now apply loop_len_hb. Qed.
(* the same run stopped just after the save of iteration sp *)
Definition stop_at (hb : hb_info) (sp : Z) : hb_info :=
  {| therm := therm hb; iterations := sp + 1; Nmeasure := Nmeasure hb; Nsave := Nsave hb; continuation := continuation hb |}.
Lemma loop_join late hb p : forall n m a i lat s fs lat1 s1 fs1 t1 lat2 s2 fs2 t2,
  loop n late hb p a i lat s fs = Some (lat1, s1, fs1, t1) ->
  loop m late hb p a (i + Z.of_nat n) lat1 s1 fs1 = Some (lat2, s2, fs2, t2) ->
  loop (n + m) late hb p a i lat s fs = Some (lat2, s2, fs2, t1 ++ t2).
Proof.
  induction n as [|n IH]; intros m a i lat s fs lat1 s1 fs1 t1 lat2 s2 fs2 t2 E1 E2.
  - cbn [hb_loop] in E1. injection E1 as <- <- <- <-. replace (i + Z.of_nat 0) with i in E2 by lia. exact E2.
  - cbn [Nat.add hb_loop] in *. destruct ((Nmeasure hb =? 0) || (Nsave hb =? 0)); [discriminate|].
    destruct (if (i mod Nsave hb =? 0) && negb (i =? a) then _ else _) as [[[l1 sx] f1]|]; [|discriminate]. cbn [bindo] in *.
    destruct (upd l1 sx) as [l3 s3]. destruct (loop n late hb p a (i + 1) l3 s3 f1) as [[[[l4 s4] f4] t4]|] eqn:E; [|discriminate].
    cbn [bindo] in E1. injection E1 as <- <- <- <-. replace (i + Z.of_nat (S n)) with (i + 1 + Z.of_nat n) in E2 by lia.
    rewrite (IH _ _ _ _ _ _ _ _ _ _ _ _ _ _ E E2). reflexivity.
Qed.
Lemma loop_trace_head late hb p a i n lat s fs lat2 s2 fs2 tr :
  loop (S n) late hb p a i lat s fs = Some (lat2, s2, fs2, tr) -> exists l t, tr = (i, l, t) :: skipn 1 tr.
Proof.
  intros E. cbn [hb_loop] in E. destruct ((Nmeasure hb =? 0) || (Nsave hb =? 0)); [discriminate|].
  destruct (if (i mod Nsave hb =? 0) && negb (i =? a) then _ else _) as [[[l1 s1] f1]|]; [|discriminate]. cbn [bindo] in E.
  destruct (upd l1 s1) as [l3 s3]. destruct (loop n late hb p a (i + 1) l3 s3 f1) as [[[[l4 s4] f4] t4]|]; [|discriminate].
  cbn [bindo] in E. injection E as <- <- <- <-. exists l1, s1. reflexivity.
Qed.

Theorem continue_ok late hb hbc name p flow lat0 s0 fs0 latF sF fsF trF sp :
  stem name = Some p -> 0 <= flow -> Inv s0 ->
  (forall b, lookup L (rand_name p flow) fs0 = Some (Rand L b) -> forall s, read_par_rng_state g be Nth b = Restored s -> Inv s) ->
  hb_update L upd reunit g be Nth late hb name flow lat0 s0 fs0 = HRun L latF sF fsF trF ->
  flow < sp < iterations hb -> sp mod Nsave hb = 0 -> lookup L (conf_name p sp) fs0 = None ->
  same_hb hb hbc -> therm hbc = 0 -> continuation hbc = true ->
  exists q fsS l tr1 tr2,
    (exists latS sS trS, hb_update L upd reunit g be Nth late (stop_at hb sp) name flow lat0 s0 fs0 = HRun L latS sS fsS trS) /\
    lookup L (conf_name p sp) fsS = Some (Conf L q l) /\
    (late sp = false \/ sp mod Nmeasure hb = 0 -> q = sp) /\
    trF = tr1 ++ tr2 /\ List.length tr1 = Z.to_nat (sp - flow) /\
    forall s, hb_update L upd reunit g be Nth late hbc (conf_name p sp) sp l s fsS = HRun L latF sF fsF tr2.
Proof.
  intros Hst Hfl W0 Wr E Hsp Hm Hfree Hsame Htc Hcc. pose proof (stem_nodots _ _ Hst) as Hnd.
  unfold hb_update in E. rewrite Hst in E. destruct (negb (fits p flow)) eqn:Hfits; [discriminate|].
  assert (G : exists lat1 s1, Inv s1 /\
     loop (Z.to_nat (iterations hb - flow)) late hb p flow flow lat1 s1 fs0 = Some (latF, sF, fsF, trF) /\
     forall l t f tr, loop (Z.to_nat (sp + 1 - flow)) late (stop_at hb sp) p flow flow lat1 s1 fs0 = Some (l, t, f, tr) ->
       hb_update L upd reunit g be Nth late (stop_at hb sp) name flow lat0 s0 fs0 = HRun L l t f tr).
  { unfold hb_update. rewrite Hst, Hfits. cbn [stop_at continuation therm iterations].
    assert (K : forall s, Inv s -> (let '(lat1, s1) := thermalise L upd (Z.to_nat (therm hb)) lat0 s in
        match loop (Z.to_nat (iterations hb - flow)) late hb p flow flow lat1 s1 fs0 with
        | None => HUndefined L
        | Some (lat2, s2, fs2, tr) => HRun L lat2 s2 fs2 tr
        end) = HRun L latF sF fsF trF -> exists lat1 s1, Inv s1 /\
     loop (Z.to_nat (iterations hb - flow)) late hb p flow flow lat1 s1 fs0 = Some (latF, sF, fsF, trF) /\
     forall l t f tr, loop (Z.to_nat (sp + 1 - flow)) late (stop_at hb sp) p flow flow lat1 s1 fs0 = Some (l, t, f, tr) ->
       (let '(lat1, s1) := thermalise L upd (Z.to_nat (therm hb)) lat0 s in
        match loop (Z.to_nat (sp + 1 - flow)) late (stop_at hb sp) p flow flow lat1 s1 fs0 with
        | None => HUndefined L
        | Some (lat2, s2, fs2, tr) => HRun L lat2 s2 fs2 tr
        end) = HRun L l t f tr).
    { intros s W K. pose proof (therm_wf (Z.to_nat (therm hb)) lat0 s W) as W1.
      destruct (thermalise L upd (Z.to_nat (therm hb)) lat0 s) as [lat1 s1]. exists lat1, s1. split; [assumption|].
      destruct (loop (Z.to_nat (iterations hb - flow)) late hb p flow flow lat1 s1 fs0) as [[[[l4 s4] f4] t4]|]; [|discriminate]. injection K as <- <- <- <-.
      split; [reflexivity|]. intros l t f tr Es. rewrite Es. reflexivity. }
    destruct (continuation hb).
    - destruct (lookup L (rand_name p flow) fs0) as [[q l|b]|] eqn:El; try discriminate.
      destruct (read_par_rng_state g be Nth b) as [s| | |] eqn:Er; try discriminate. apply (K s); [now apply (Wr b)|assumption].
    - now apply (K s0). }
  destruct G as (lat1 & s1 & W1 & G & Gs).
  remember (Z.to_nat (sp - flow)) as n1 eqn:En1. remember (Z.to_nat (iterations hb - sp - 1)) as n2 eqn:En2.
  replace (Z.to_nat (iterations hb - flow)) with (n1 + S n2)%nat in G by lia.
  apply loop_split in G. destruct G as (la & sa & fa & ta & lb & sb & fb & tb & G1 & G2 & G3). injection G3 as -> -> -> ->.
  replace (flow + Z.of_nat n1) with sp in G2 by lia.
  pose proof (loop_wf _ _ _ _ _ _ _ _ _ _ _ _ _ W1 G1) as Wa.
  assert (Hfa : lookup L (conf_name p sp) fa = None).
  { rewrite (loop_fresh late hb p sp n1 flow flow lat1 s1 fs0 la sa fa ta) by (assumption || lia). assumption. }
  rewrite (loop_hb late hb hbc p Hsame) in G2. destruct Hsame as (H1 & H2 & H3).
  destruct (restart late hbc p flow sp la sa fa n2 lb sb fb tb) as (q & fsS & (l1 & t1 & x1 & R0) & R1 & R2 & R3); try assumption; try lia; [congruence|].
  exists q, fsS, (reunit la), ta, tb. split.
  { do 3 eexists. apply Gs. replace (Z.to_nat (sp + 1 - flow)) with (n1 + 1)%nat by lia.
    apply (loop_join late (stop_at hb sp) p n1 1 flow flow lat1 s1 fs0 la sa fa ta l1 t1 fsS x1).
    - rewrite (loop_len_hb late hb (stop_at hb sp)) in G1 by reflexivity. exact G1.
    - replace (flow + Z.of_nat n1) with sp by lia. rewrite <- R0. apply loop_len_hb; cbn; congruence. }
  split; [assumption|]. split; [rewrite H2; assumption|]. split; [reflexivity|]. split; [|assumption].
  exact (loop_len late hb p _ _ _ _ _ _ _ _ _ _ G1).
Qed.

(* when saving does not change the configuration, files that are already there change nothing *)
Variable P : L -> Prop.
Hypothesis Pupd : forall l s, P l -> P (fst (upd l s)).
Hypothesis Preunit : forall l, P l -> reunit l = l.
Lemma save_files p i q lat s fs : P lat -> Inv s -> fits p i = true -> exists fs1, sav p i q lat s fs = Some (lat, s, fs1).
Proof.
  intros HP W Hf. unfold save. rewrite Hf. cbn [negb]. destruct (lookup L (conf_name p i) fs); [eexists; reflexivity|].
  destruct (state_roundtrip s (HInv s W)) as (b & Eb & _). rewrite Eb. cbn [bindo]. rewrite Preunit by assumption. eexists; reflexivity.
Qed.
Theorem loop_files late late' hb p : forall n a i lat s fs fs' lat1 s1 fs1 tr, P lat -> Inv s ->
  loop n late hb p a i lat s fs = Some (lat1, s1, fs1, tr) ->
  exists fs1', loop n late' hb p a i lat s fs' = Some (lat1, s1, fs1', tr).
Proof.
  induction n as [|n IH]; intros a i lat s fs fs' lat1 s1 fs1 tr HP W E; cbn [hb_loop] in *; [injection E as <- <- <- <-; eexists; reflexivity|].
  destruct ((Nmeasure hb =? 0) || (Nsave hb =? 0)); [discriminate|].
  assert (K : forall f f', (do '(lat, s, fs) <- Some (lat, s, f); let '(lat', s') := upd lat s in
      do '(lat2, s2, fs2, tr) <- loop n late hb p a (i + 1) lat' s' fs; Some (lat2, s2, fs2, (i, lat, s) :: tr)) = Some (lat1, s1, fs1, tr) ->
     exists fs1', (do '(lat, s, fs) <- Some (lat, s, f'); let '(lat', s') := upd lat s in
      do '(lat2, s2, fs2, tr) <- loop n late' hb p a (i + 1) lat' s' fs; Some (lat2, s2, fs2, (i, lat, s) :: tr)) = Some (lat1, s1, fs1', tr)).
  { clear E. intros f f' E. cbn [bindo] in *. pose proof (Pupd lat s HP) as HP2. pose proof (Hupd lat s W) as W2. destruct (upd lat s) as [l3 s3].
    destruct (loop n late hb p a (i + 1) l3 s3 f) as [[[[l4 s4] f4] t4]|] eqn:E1; [|discriminate]. cbn [bindo] in E. injection E as <- <- <- <-.
    destruct (IH a (i + 1) l3 s3 f f' l4 s4 f4 t4 HP2 W2 E1) as (f5 & E5). rewrite E5. cbn [bindo]. eexists; reflexivity. }
  destruct ((i mod Nsave hb =? 0) && negb (i =? a)); [|exact (K _ _ E)].
  destruct (fits p i) eqn:Hf.
  - destruct (save_files p i (if late i && negb (i mod Nmeasure hb =? 0) then i - 1 else i) lat s fs HP W Hf) as (f1 & Ef). rewrite Ef in E.
    destruct (save_files p i (if late' i && negb (i mod Nmeasure hb =? 0) then i - 1 else i) lat s fs' HP W Hf) as (f2 & Ef2). rewrite Ef2.
    exact (K _ _ E).
  - unfold save in E. rewrite Hf in E. discriminate.
Qed.
End HB.

(* ---- the maximum ---- *)
Open Scope R_scope.
Definition remaining (t : thread) : list R := match t with Idle l => l | Pending r l => r :: l end.
Definition values (ts : list thread) : list R := List.concat (map remaining ts).
Lemma values_app a b : values (a ++ b) = values a ++ values b.
Proof. unfold values. now rewrite map_app, concat_app. Qed.
Lemma values_cons t b : values (t :: b) = remaining t ++ values b.
Proof. reflexivity. Qed.
Lemma step_in s s' : tstep s s' -> (fst s' = fst s \/ In (fst s') (values (snd s))) /\ (forall x, In x (values (snd s')) -> In x (values (snd s))).
Proof.
  intros H. destruct H as [m a b r l Hr|m a b r l Hr|m a b r l]; cbn [fst snd]; rewrite !values_app, !values_cons; cbn [remaining].
  - split; [now left|]. intros x; rewrite !in_app_iff; cbn [In]; tauto.
  - split; [now left|]. intros x; rewrite !in_app_iff; cbn [In]; tauto.
  - split; [|intros x; rewrite !in_app_iff; cbn [In]; tauto]. right. rewrite !in_app_iff. cbn [In]. tauto.
Qed.
Lemma steps_in s s' : tsteps s s' -> fst s' = fst s \/ In (fst s') (values (snd s)).
Proof.
  intros H. induction H as [s|s s' s'' H1 H IH]; [now left|]. destruct (step_in _ _ H1) as (A & B).
  destruct IH as [IH|IH]; [rewrite IH; tauto|]. right. now apply B.
Qed.
Lemma values_idle parts : values (map Idle parts) = List.concat parts.
Proof. unfold values. rewrite map_map. cbn [remaining]. now rewrite map_id. Qed.
Theorem theta_max_in : forall parts m, theta_max parts m -> m = 0 \/ In m (List.concat parts).
Proof. intros parts m (ts & H & _). apply steps_in in H. cbn [fst snd] in H. now rewrite values_idle in H. Qed.

(* one thread *)
Lemma single_split (x : thread) a b t : a ++ x :: b = [t] -> a = [] /\ b = [] /\ x = t.
Proof. intros E. destruct a as [|y a]; [injection E as -> ->; auto|]. destruct a; discriminate. Qed.
Definition top (m : R) (t : thread) : R := fold_left Rmax (remaining t) m.
Definition sane (m : R) (t : thread) : Prop := match t with Pending r _ => r > m | _ => True end.
Lemma single_inv s s' : tsteps s s' -> forall m t, s = (m, [t]) -> sane m t ->
  exists m' t', s' = (m', [t']) /\ sane m' t' /\ top m' t' = top m t.
Proof.
  intros H. induction H as [s|s s1 s2 H1 H IH]; intros m t E S; [exists m, t; auto|].
  destruct H1 as [x a b r l Hr|x a b r l Hr|x a b r l]; injection E as <- E;
    apply single_split in E; destruct E as (-> & -> & <-); cbn [app] in *; rename x into m.
  - destruct (IH m (Pending r l) eq_refl Hr) as (m' & t' & A & B & C). exists m', t'. rewrite C. auto.
  - destruct (IH m (Idle l) eq_refl I) as (m' & t' & A & B & C). exists m', t'. rewrite C. repeat split; try assumption.
    unfold top. cbn [remaining fold_left]. rewrite Rmax_left by lra. reflexivity.
  - destruct (IH r (Idle l) eq_refl I) as (m' & t' & A & B & C). exists m', t'. rewrite C. repeat split; try assumption.
    unfold top. cbn [remaining fold_left]. cbn [sane] in S. rewrite Rmax_right by lra. reflexivity.
Qed.
Theorem theta_single : forall l m, theta_max [l] m -> m = fold_left Rmax l 0.
Proof.
  intros l m (ts & H & F). destruct (single_inv _ _ H 0 (Idle l) eq_refl I) as (m' & t' & E & _ & T). injection E as -> ->.
  inversion F as [|x y Hf _]; subst. unfold finished in Hf. subst t'. exact T.
Qed.

(* sums *)
Lemma fold_plus_acc l : forall a, fold_left Rplus l a = a + fold_right Rplus 0 l.
Proof. induction l as [|x l IH]; intros a; cbn; [ring|]. rewrite IH. ring. Qed.
Lemma sum_perm l l' : Permutation l l' -> fold_right Rplus 0 l = fold_right Rplus 0 l'.
Proof. intros H. induction H; cbn; lra. Qed.
Lemma sum_app l l' : fold_right Rplus 0 (l ++ l') = fold_right Rplus 0 l + fold_right Rplus 0 l'.
Proof. induction l as [|x l IH]; cbn; [ring|]. rewrite IH. ring. Qed.
Theorem reduction_ok : forall parts l, Permutation (List.concat parts) l -> reduction parts = fold_right Rplus 0 l.
Proof.
  intros parts l H. rewrite <- (sum_perm _ _ H). clear H l. unfold reduction.
  assert (G : forall a, fold_left (fun s p => s + fold_left Rplus p 0) parts a = a + fold_right Rplus 0 (List.concat parts)).
  { induction parts as [|p parts IH]; intros a; cbn [fold_left List.concat]; [cbn; ring|]. rewrite IH, sum_app, fold_plus_acc. ring. }
  rewrite G. ring.
Qed.
