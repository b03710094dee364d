(* Proofs for C06, second part: neighbouring sites get different colours and
   the loops over one colour do not depend on the order of execution. *)
From Coq Require Import Permutation.
From Verif Require Import CInt GeomModel GeomSpec GeomProofs GeomProofs2 DraughtModel DraughtProofs.

Lemma stepped_cons0 d ds c x y s : stepped (d :: ds) (c :: x) y 0 s -> y = (c + s) mod d :: x.
Proof.
  intros (Hl & Hn). apply nth_error_ext_Z. intros [|k]; rewrite Hn; reflexivity.
Qed.
Lemma stepped_consS d ds c x y mu s : stepped (d :: ds) (c :: x) y (S mu) s ->
  exists y', y = c :: y' /\ stepped ds x y' mu s.
Proof.
  intros (Hl & Hn). destruct y as [|c' y]; [discriminate|]. exists y.
  pose proof (Hn 0%nat) as H0. cbn in H0. injection H0 as ->. split; [reflexivity|].
  split; [simpl in Hl; lia|]. intros k. exact (Hn (S k)).
Qed.

Lemma mod_succ_cases c d : 0 <= c < d -> (c + 1) mod d = c + 1 \/ (c = d - 1 /\ (c + 1) mod d = 0).
Proof.
  intros H. destruct (Z.eq_dec (c + 1) d) as [E|E].
  - right. split; [lia|]. rewrite E. apply Z.mod_same; lia.
  - left. apply Z.mod_small; lia.
Qed.

(* difference of the two sums along one forward step *)
Lemma step_sums ds x y mu : in_box ds x -> (mu < length ds)%nat -> stepped ds x y mu 1 ->
  exists L c, nth_error ds mu = Some L /\ nth_error x mu = Some c /\ 0 <= c < L /\
    evs ds y = evs ds x + (if L mod 2 =? 0 then (c + 1) mod L - c else 0) /\
    ods ds y = ods ds x + (if L mod 2 =? 0 then 0 else (c + 1) mod L - c).
Proof.
  intros Hx. revert y mu. induction Hx as [|d c ds x Hc Hx IH]; intros y mu Hmu Hs; [simpl in Hmu; lia|].
  destruct mu as [|mu].
  - apply stepped_cons0 in Hs as ->. exists d, c. cbn [nth_error evs ods]. repeat split; try lia;
      destruct (d mod 2 =? 0); lia.
  - apply stepped_consS in Hs as (y' & -> & Hs). cbn [length] in Hmu.
    destruct (IH y' mu ltac:(lia) Hs) as (L & c0 & H1 & H2 & H3 & H4 & H5).
    exists L, c0. cbn [nth_error evs ods]. rewrite H4, H5. repeat split; try assumption; lia.
Qed.

Lemma colour_step ds x y mu nc : in_box ds x -> (mu < length ds)%nat -> stepped ds x y mu 1 -> x <> y ->
  Forall (fun L => 0 < L) ds -> race_free_extents ds -> (nc = 3 \/ nc = 2 /\ small_odd ds) ->
  colour ds x nc <> colour ds y nc.
Proof.
  intros Hx Hmu Hs Hne Hpos Hrf Hnc.
  destruct (step_sums ds x y mu Hx Hmu Hs) as (L & c & EL & Ec & Hc & E1 & E2).
  assert (HL1 : L <> 1).
  { intros ->. apply Hne. eapply stepped_unique; [|exact Hs].
    pose proof (stepped_0 ds x mu Hx) as H0. destruct H0 as (A & B). split; [assumption|].
    intros k. rewrite B. destruct (Nat.eqb_spec k mu); [|reflexivity]. subst. rewrite Ec, EL.
    rewrite !Z.mod_1_r. reflexivity. }
  assert (HLr : L mod 2 = 0 \/ L mod 3 <> 1).
  { unfold race_free_extents in Hrf. rewrite Forall_forall in Hrf.
    destruct (Hrf L (nth_error_In _ _ EL)) as [|[|]]; tauto. }
  assert (Hev : 0 <= evs ds x) by apply (evod_bound _ _ Hx).
  unfold colour. rewrite E1, E2. destruct (Z.eqb_spec (L mod 2) 0) as [He|Ho].
  - (* even extent: the parity of evs flips *)
    assert (Hflip : exists q, (c + 1) mod L - c = 1 + 2 * q).
    { destruct (mod_succ_cases c L Hc) as [E|[Ecc E]]; rewrite E.
      - exists 0. lia.
      - apply Z.mod_divide in He; [|lia]. destruct He as (q & ->). exists (- q). lia. }
    destruct Hflip as (q & ->). rewrite !Z.add_0_r.
    set (e := evs ds x) in *. set (o := ods ds x).
    assert (Hm : e mod 2 = 0 /\ (e + (1 + 2*q)) mod 2 = 1 \/ e mod 2 = 1 /\ (e + (1 + 2*q)) mod 2 = 0).
    { replace (e + (1 + 2 * q)) with (e + 1 + q * 2) by ring. rewrite Z.mod_add by lia.
      pose proof (Z.mod_pos_bound e 2 ltac:(lia)). rewrite <- Z.add_mod_idemp_l by lia.
      destruct (Z.eq_dec (e mod 2) 0) as [->|]; [left; split; reflexivity|].
      right. replace (e mod 2) with 1 by lia. split; reflexivity. }
    intros Heq.
    assert (Hd : forall u, nc = 2 \/ nc = 3 -> u mod nc <> (1 + u) mod nc).
    { intros u Hn Hu. pose proof (Z.div_mod u nc ltac:(lia)). pose proof (Z.div_mod (1+u) nc ltac:(lia)).
      assert (1 = nc * ((1+u)/nc - u/nc)) by lia. destruct Hn; subst nc; lia. }
    destruct Hm as [(Em0 & Em)|(Em0 & Em)]; rewrite Em0, Em in Heq.
    + apply (Hd o); [tauto|]. rewrite Z.add_0_l in Heq. exact Heq.
    + apply (Hd o); [tauto|]. rewrite Z.add_0_l in Heq. symmetry. exact Heq.
  - (* odd extent *)
    destruct Hnc as [->|[-> Hsm]].
    + destruct HLr as [|HLr]; [contradiction|]. rewrite Z.add_0_r.
      set (e := evs ds x mod 2). set (o := ods ds x). intros Heq.
      pose proof (Z.div_mod (e + o) 3 ltac:(lia)) as D1.
      pose proof (Z.div_mod (e + (o + ((c + 1) mod L - c))) 3 ltac:(lia)) as D2.
      rewrite <- Heq in D2.
      set (q1 := (e + o) / 3) in *. set (q2 := (e + (o + ((c + 1) mod L - c))) / 3) in *.
      destruct (mod_succ_cases c L Hc) as [E|[Ecc E]]; rewrite E in D2.
      * assert (1 = 3 * (q2 - q1)) by lia. lia.
      * apply HLr. assert (EL3 : L = 1 + (q1 - q2) * 3) by lia. rewrite EL3. rewrite Z.mod_add by lia. reflexivity.
    + unfold small_odd in Hsm. rewrite Forall_forall in Hsm.
      destruct (Hsm L (nth_error_In _ _ EL)); contradiction.
Qed.

Lemma nth_error_firstn_lt {A} (l : list A) n k : nth_error (firstn n l) k = if Nat.ltb k n then nth_error l k else None.
Proof.
  revert n k. induction l as [|a l IH]; intros [|n] [|k]; try reflexivity.
  - cbn [firstn nth_error]. destruct (Nat.ltb (S k) (S n)); reflexivity.
  - cbn [firstn nth_error]. rewrite IH. reflexivity.
Qed.

Lemma stepped_firstn ds x y mu s k : stepped ds x y mu s ->
  (mu < k)%nat -> stepped (firstn k ds) (firstn k x) (firstn k y) mu s.
Proof.
  intros (Hl & Hn) Hmu. split; [rewrite !firstn_length; congruence|].
  intros j. rewrite !nth_error_firstn_lt, Hn. destruct (Nat.ltb_spec j k); destruct (Nat.eqb_spec j mu); try reflexivity; lia.
Qed.
Lemma stepped_firstn_same ds x y mu s k : stepped ds x y mu s ->
  (k <= mu)%nat -> firstn k y = firstn k x.
Proof.
  intros (Hl & Hn) Hmu. apply nth_error_ext_Z. intros j. rewrite !nth_error_firstn_lt, Hn.
  destruct (Nat.ltb_spec j k); [|reflexivity]. destruct (Nat.eqb_spec j mu); [lia|reflexivity].
Qed.

Lemma digits_shift ds : Forall (fun L => 0 < L) ds -> forall i t, 
  digits ds (i + prodZ ds * t) = digits ds i.
Proof.
  induction 1 as [|d ds Hd H IH]; intros i t; [reflexivity|].
  cbn [digits]. rewrite prodZ_cons. replace (i + d * prodZ ds * t) with (i + (prodZ ds * t) * d) by ring.
  rewrite Z.mod_add, Z.div_add by lia. rewrite IH. reflexivity.
Qed.

Lemma digits_firstn ds k i : Forall (fun L => 0 < L) ds -> 0 <= i ->
  firstn k (digits ds i) = digits (firstn k ds) i.
Proof.
  intros H Hi. destruct (Nat.le_gt_cases k (length ds)) as [Hk|Hk].
  - rewrite <- (firstn_skipn k ds) at 1. rewrite digits_app by (try apply Forall_firstn; assumption).
    rewrite firstn_app, digits_length, firstn_length_le by assumption. rewrite Nat.sub_diag, firstn_O, app_nil_r.
    rewrite firstn_all2; [reflexivity|]. rewrite digits_length, firstn_length_le by assumption. lia.
  - rewrite (firstn_all2 ds) by lia. apply firstn_all2. rewrite digits_length. lia.
Qed.

Theorem cb_not_neighbours ds k nc sq c s i j t :
  lattice_ok ds -> (k <= length ds)%nat -> race_free_extents (firstn k ds) ->
  init_cb ds (prodZ (firstn k ds)) k = Some (CbOk nc sq) ->
  nth_error sq c = Some s -> In i s -> In j s -> i <> j -> 0 <= t ->
  i + prodZ (firstn k ds) * t < lvolume ds -> j + prodZ (firstn k ds) * t < lvolume ds ->
  forall mu, (mu < length ds)%nat ->
  neighbor ds (i + prodZ (firstn k ds) * t) mu <> Some (j + prodZ (firstn k ds) * t).
Proof.
  intros Hok Hk Hrf Hcb Hs Hi Hj Hij Ht Hvi Hvj mu Hmu Hnb.
  destruct (cb_class ds k Hok Hk nc sq c s i Hcb Hs Hi) as (Bi & Ci & Hnc).
  destruct (cb_class ds k Hok Hk nc sq c s j Hcb Hs Hj) as (Bj & Cj & _).
  pose proof Hok as (Hne & Hd & Hp). pose proof (ok_pos _ Hd) as Hpos.
  pose proof (Forall_firstn _ _ k Hpos) as Hposk.
  set (P := prodZ (firstn k ds)) in *.
  assert (HP : 0 < P) by (apply prodZ_pos; assumption).
  destruct (site_coords ds (i + P * t) Hok) as (Bx & Ex); [nia|].
  destruct (site_coords ds (j + P * t) Hok) as (By & Ey); [nia|].
  destruct (neighbor_step ds (i + P * t) mu (digits ds (i + P * t)) Hok Hmu Bx) as (b & y & E1 & _ & B1 & E2 & S1).
  { rewrite index_of_horner by (apply digits_length). exact Ex. }
  rewrite Hnb in E1. injection E1 as <-.
  assert (y = digits ds (j + P * t)) as ->.
  { rewrite index_of_horner in E2 by (apply in_box_length; assumption). rewrite <- E2.
    symmetry. apply digits_horner; assumption. }
  assert (Fi : firstn k (digits ds (i + P * t)) = digits (firstn k ds) i).
  { rewrite digits_firstn by (try assumption; nia). apply digits_shift; assumption. }
  assert (Fj : firstn k (digits ds (j + P * t)) = digits (firstn k ds) j).
  { rewrite digits_firstn by (try assumption; nia). apply digits_shift; assumption. }
  assert (Hinj : digits (firstn k ds) i <> digits (firstn k ds) j).
  { intros E. apply Hij. rewrite <- (horner_digits (firstn k ds) i), <- (horner_digits (firstn k ds) j) by assumption.
    rewrite E. reflexivity. }
  destruct (Nat.lt_ge_cases mu k) as [Hlt|Hge].
  - pose proof (stepped_firstn _ _ _ _ _ k S1 Hlt) as S2. rewrite Fi, Fj in S2.
    apply (colour_step (firstn k ds) (digits (firstn k ds) i) (digits (firstn k ds) j) mu (Z.of_nat nc)); try assumption.
    + apply digits_in_box; assumption.
    + rewrite firstn_length_le by assumption. exact Hlt.
    + destruct Hnc as [->|[-> Hsm]]; [left; reflexivity|right; split; [reflexivity|assumption]].
    + congruence.
  - apply Hinj. rewrite <- Fi, <- Fj. symmetry. eapply stepped_firstn_same; eassumption.
Qed.

(* ---- order independence of a set of non conflicting tasks ---- *)
Section Tasks.
Context {K A I : Type}.
Variable K_dec : forall a b : K, {a = b} + {a <> b}.
Definition agree (P : K -> Prop) (f g : K -> A) : Prop := forall p, P p -> f p = g p.
Variable T : I -> (K -> A) -> (K -> A).
Variables (R : I -> K -> Prop) (W : I -> list K).
Hypothesis T_local : forall a f g, agree (R a) f g -> agree (fun p => In p (W a)) (T a f) (T a g).
Hypothesis T_frame : forall a f p, ~ In p (W a) -> T a f p = f p.

Definition indep (a b : I) : Prop :=
  (forall p, In p (W a) -> ~ In p (W b)) /\ (forall p, In p (W a) -> ~ R b p) /\ (forall p, In p (W b) -> ~ R a p).

Lemma T_ext a f g : (forall p, f p = g p) -> forall p, T a f p = T a g p.
Proof.
  intros H p. destruct (in_dec K_dec p (W a)) as [Hi|Hn].
  - apply T_local; [intros q _; apply H|assumption].
  - rewrite !T_frame by assumption. apply H.
Qed.

Lemma T_commute a b f : indep a b -> forall p, T a (T b f) p = T b (T a f) p.
Proof.
  intros (H1 & H2 & H3) p. destruct (in_dec K_dec p (W a)) as [Ha|Ha].
  - assert (Hb : ~ In p (W b)) by (apply H1; assumption).
    rewrite (T_frame b (T a f) p Hb). apply T_local; [|assumption].
    intros q Hq. apply T_frame. intros Hw. exact (H3 q Hw Hq).
  - rewrite (T_frame a (T b f) p Ha). destruct (in_dec K_dec p (W b)) as [Hb|Hb].
    + symmetry. apply T_local; [|assumption]. intros q Hq. apply T_frame. intros Hw. exact (H2 q Hw Hq).
    + rewrite !T_frame by assumption. reflexivity.
Qed.

Definition run (l : list I) (f : K -> A) : K -> A := fold_left (fun f a => T a f) l f.

Lemma run_ext l : forall f g, (forall p, f p = g p) -> forall p, run l f p = run l g p.
Proof. induction l as [|a l IH]; intros f g H; [exact H|]. cbn. apply IH. apply T_ext. exact H. Qed.

Lemma run_perm l l' : Permutation l l' -> (forall a b, In a l -> In b l -> a <> b -> indep a b) -> NoDup l ->
  forall f p, run l f p = run l' f p.
Proof.
  induction 1 as [|a l l' HP IH|a b l|l l' l'' H1 IH1 H2 IH2]; intros Hi Hd f p.
  - reflexivity.
  - cbn. inversion Hd; subst. apply IH; [|assumption]. intros. apply Hi; cbn; auto.
  - cbn. apply run_ext. inversion Hd as [|? ? Hni Hd']; subst. apply T_commute. apply Hi; cbn; auto.
    intros ->. apply Hni. cbn; auto.
  - rewrite IH1 by assumption. apply IH2.
    + intros a b Ha Hb. apply Hi; eapply Permutation_in; try eassumption; apply Permutation_sym; assumption.
    + eapply Permutation_NoDup; eassumption.
Qed.
End Tasks.

(* ---- class members are distinct ---- *)
Lemma NoDup_app_r {A} (a b : list A) : NoDup (a ++ b) -> NoDup b.
Proof. induction a; [auto|]. cbn. inversion 1; auto. Qed.
Lemma NoDup_concat_class {A} (sq : list (list A)) c s : NoDup (concat sq) -> nth_error sq c = Some s -> NoDup s.
Proof.
  revert c. induction sq as [|a sq IH]; intros c Hd Hs; [destruct c; discriminate|].
  cbn [concat] in Hd. pose proof (NoDup_app_r _ _ Hd) as Hd2.
  destruct c as [|c]; [|eapply IH; eassumption]. cbn in Hs. injection Hs as ->.
  clear -Hd. induction s; [constructor|]. cbn in Hd. inversion Hd; subst. constructor; [|apply IHs; assumption].
  intros H. apply H1. apply in_or_app; auto.
Qed.

Lemma class_NoDup ds k nc sq c s : lattice_ok ds -> (k <= length ds)%nat ->
  init_cb ds (prodZ (firstn k ds)) k = Some (CbOk nc sq) -> nth_error sq c = Some s -> NoDup s.
Proof.
  intros Hok Hk Hcb Hs. eapply NoDup_concat_class; [|exact Hs].
  assert (1 < prodZ (firstn k ds)).
  { pose proof (n_bound ds k Hok). destruct (Z.eq_dec (prodZ (firstn k ds)) 1) as [E|]; [|lia].
    pose proof (cb_single ds k Hok Hk E). congruence. }
  destruct (cb_partition_ok ds k Hok Hk H) as (nc' & sq' & E & _ & _ & HP & _). rewrite Hcb in E.
  injection E as <- <-. eapply Permutation_NoDup; [apply Permutation_sym; exact HP|apply zseq_NoDup].
Qed.

Definition key_dec (a b : Z * nat) : {a = b} + {a <> b}.
Proof. decide equality; [apply Nat.eq_dec|apply Z.eq_dec]. Defined.

Definition uncur {A} (f : @field A) : Z * nat -> A := fun p => f (fst p) (snd p).
Definition cur {A} (f : Z * nat -> A) : @field A := fun i mu => f (i, mu).

Lemma nb_total ds i mu : lattice_ok ds -> (mu < length ds)%nat -> 0 <= i < lvolume ds ->
  exists j, neighbor ds i mu = Some j /\ 0 <= j < lvolume ds.
Proof.
  intros Hok Hmu Hi. destruct (index_coords ds i Hok Hi) as (x & Hx & E).
  destruct (neighbor_step ds i mu x Hok Hmu Hx E) as (j & y & H1 & H2 & _). eauto.
Qed.
Lemma bk_total ds i mu : lattice_ok ds -> (mu < length ds)%nat -> 0 <= i < lvolume ds ->
  exists j, back ds i mu = Some j /\ 0 <= j < lvolume ds /\ neighbor ds j mu = Some i.
Proof.
  intros Hok Hmu Hi. destruct (index_coords ds i Hok Hi) as (x & Hx & E).
  destruct (back_step ds i mu x Hok Hmu Hx E) as (j & y & H1 & H2 & _).
  exists j. split; [assumption|]. split; [assumption|].
  destruct (back_neighbor ds i mu Hok Hmu Hi) as (_ & H). rewrite H1 in H. exact H.
Qed.

(* links written in phase mu never include a link read by another site's staple *)
Lemma staple_reads_In ds i mu js rs : staple_reads_loop ds i mu js = Some rs ->
  forall j nu, In (j, nu) rs -> nu = mu ->
   exists nu', (nu' <> mu) /\ (neighbor ds i nu' = Some j \/ back ds i nu' = Some j) /\ exists q, In q js /\ nu' = (if Nat.ltb q mu then q else S q).
Proof.
  revert rs. induction js as [|q js IH]; intros rs E j nu Hin Hnu.
  - injection E as <-. contradiction.
  - cbn [staple_reads_loop] in E. cbv zeta in E. set (nu' := if Nat.ltb q mu then q else S q) in *.
    assert (Hne : nu' <> mu) by (unfold nu'; destruct (Nat.ltb_spec q mu); lia).
    unfold staple_reads_nu in E.
    destruct (neighbor ds i nu') as [t1|] eqn:E1; [|discriminate].
    destruct (neighbor ds i mu) as [t2|] eqn:E2; [|discriminate].
    destruct (back ds i nu') as [b1|] eqn:E3; [|discriminate]. cbn [bindo] in E.
    destruct (neighbor ds b1 mu) as [b2|] eqn:E4; [|discriminate]. cbn [bindo] in E.
    destruct (staple_reads_loop ds i mu js) as [rs'|] eqn:E5; [|discriminate]. cbn [bindo] in E.
    injection E as <-.
    change (In (j, nu) ([(i, nu'); (t1, mu); (t2, nu'); (b1, nu'); (b1, mu); (b2, nu')] ++ rs')) in Hin.
    apply in_app_or in Hin as [Hin|Hin].
    + exists nu'. split; [assumption|]. split; [|exists q; split; [left; reflexivity|reflexivity]].
      cbn [In] in Hin. destruct Hin as [H|[H|[H|[H|[H|[H|[]]]]]]]; injection H as <- H; try (exfalso; congruence); auto.
    + destruct (IH rs' eq_refl j nu Hin Hnu) as (n' & A & B & q' & C & D). exists n'. split; [assumption|].
      split; [assumption|]. exists q'. split; [right; assumption|assumption].
Qed.

Lemma staple_reads_total ds i mu js : lattice_ok ds -> (mu < length ds)%nat -> 0 <= i < lvolume ds ->
  Forall (fun q => (if Nat.ltb q mu then q else S q) < length ds)%nat js ->
  exists rs, staple_reads_loop ds i mu js = Some rs.
Proof.
  intros Hok Hmu Hi. induction 1 as [|q js Hq Hjs (rs & IH)]; [eexists; reflexivity|].
  cbn [staple_reads_loop]. cbv zeta. unfold staple_reads_nu.
  destruct (nb_total ds i _ Hok Hq Hi) as (t1 & -> & _).
  destruct (nb_total ds i mu Hok Hmu Hi) as (t2 & -> & _).
  destruct (bk_total ds i _ Hok Hq Hi) as (b1 & -> & Hb1 & _). cbn [bindo].
  destruct (nb_total ds b1 mu Hok Hmu Hb1) as (b2 & -> & _). cbn [bindo].
  rewrite IH. cbn [bindo]. eexists; reflexivity.
Qed.

Lemma dirs_ok (n mu : nat) : (mu < n)%nat -> Forall (fun q => (if Nat.ltb q mu then q else S q) < n)%nat (seq 0 (n - 1)).
Proof. intros H. apply Forall_forall. intros q Hq. apply in_seq in Hq. destruct (Nat.ltb_spec q mu); lia. Qed.

Section LinkPhase.
Context {A : Type} (ds : list Z) (F : list A -> A -> A) (mu : nat).
Hypothesis Hok : lattice_ok ds.
Hypothesis Hmu : (mu < length ds)%nat.

Definition rd (i : Z) : list (Z * nat) := match staple_reads ds i mu (length ds) with Some rs => rs | None => [] end.
Definition lt_ (i : Z) (f : Z * nat -> A) : Z * nat -> A :=
  fun p => if key_dec p (i, mu) then F (map f (rd i)) (f (i, mu)) else f p.

Lemma run_color_eq l : Forall (fun i => 0 <= i < lvolume ds) l -> forall f,
  exists f', run_color ds F mu l f = Some f' /\ forall p, uncur f' p = run lt_ l (uncur f) p.
Proof.
  induction 1 as [|i l Hi Hl IH]; intros f.
  - exists f. split; reflexivity.
  - cbn [run_color]. unfold link_update.
    destruct (staple_reads_total ds i mu (seq 0 (length ds - 1)) Hok Hmu Hi (dirs_ok _ _ Hmu)) as (rs & Ers).
    unfold staple_reads. rewrite Ers. cbn [bindo].
    destruct (IH (upd f i mu (F (map (fun p => f (fst p) (snd p)) rs) (f i mu)))) as (f' & E & Hf).
    exists f'. split; [exact E|]. intros p. rewrite Hf. cbn.
    apply (run_ext key_dec lt_ (fun a p => In p (rd a) \/ p = (a, mu)) (fun a => [(a, mu)])).
    + intros a g h Hag q [<-|[]]. unfold lt_. destruct (key_dec (a, mu) (a, mu)); [|contradiction].
      f_equal; [apply map_ext_in; intros; apply Hag; auto|apply Hag; auto].
    + intros a g q Hq. unfold lt_. destruct (key_dec q (a, mu)); [exfalso; apply Hq; left; congruence|reflexivity].
    + intros [j nu]. unfold uncur, upd, lt_. cbn [fst snd].
      assert (Er : rd i = rs) by (unfold rd, staple_reads; rewrite Ers; reflexivity). rewrite Er.
      destruct (key_dec (j, nu) (i, mu)) as [E1|E1].
      * injection E1 as -> ->. rewrite Z.eqb_refl, Nat.eqb_refl. reflexivity.
      * destruct (Z.eqb_spec j i); destruct (Nat.eqb_spec nu mu); cbn [andb]; try reflexivity. congruence.
Qed.

Lemma run_color_perm l l' f f1 f2 : Forall (fun i => 0 <= i < lvolume ds) l ->
  Permutation l l' -> NoDup l ->
  (forall i j nu, In i l -> In j l -> i <> j -> (nu < length ds)%nat -> neighbor ds i nu <> Some j) ->
  run_color ds F mu l f = Some f1 -> run_color ds F mu l' f = Some f2 ->
  forall i nu, f1 i nu = f2 i nu.
Proof.
  intros Hl HP Hd Hnb E1 E2 i nu.
  destruct (run_color_eq l Hl f) as (g1 & G1 & P1). rewrite E1 in G1. injection G1 as <-.
  assert (Hl' : Forall (fun i => 0 <= i < lvolume ds) l').
  { eapply Permutation_Forall; eassumption. }
  destruct (run_color_eq l' Hl' f) as (g2 & G2 & P2). rewrite E2 in G2. injection G2 as <-.
  change (f1 i nu) with (uncur f1 (i, nu)). change (f2 i nu) with (uncur f2 (i, nu)). rewrite P1, P2.
  apply (run_perm key_dec lt_ (fun a p => In p (rd a) \/ p = (a, mu)) (fun a => [(a, mu)])); try assumption.
  - intros a g h Hag q [<-|[]]. unfold lt_. destruct (key_dec (a, mu) (a, mu)); [|contradiction].
    f_equal; [apply map_ext_in; intros; apply Hag; auto|apply Hag; auto].
  - intros a g q Hq. unfold lt_. destruct (key_dec q (a, mu)); [exfalso; apply Hq; left; congruence|reflexivity].
  - assert (Hsym : forall a b, In a l -> In b l -> a <> b -> ~ In (a, mu) (rd b)).
    { intros a b Ha Hb Hab Hin. unfold rd in Hin.
      destruct (staple_reads ds b mu (length ds)) as [rs|] eqn:Er; [|contradiction].
      unfold staple_reads in Er.
      destruct (staple_reads_In _ _ _ _ _ Er a mu Hin eq_refl) as (nu' & Hne & Hc & q & Hq & Eq).
      assert (Hnu' : (nu' < length ds)%nat).
      { pose proof (dirs_ok (length ds) mu Hmu) as HF. rewrite Forall_forall in HF. rewrite Eq. apply HF; assumption. }
      destruct Hc as [Hc|Hc].
      - exact (Hnb b a nu' Hb Ha (not_eq_sym Hab) Hnu' Hc).
      - rewrite Forall_forall in Hl.
        destruct (bk_total ds b nu' Hok Hnu' (Hl b Hb)) as (b' & B1 & _ & B3).
        rewrite B1 in Hc. injection Hc as ->. exact (Hnb a b nu' Ha Hb Hab Hnu' B3). }
    intros a b Ha Hb Hab. split; [|split].
    + intros p [<-|[]] [E|[]]. congruence.
    + intros p [<-|[]] [H|H]; [exact (Hsym a b Ha Hb Hab H)|congruence].
    + intros p [<-|[]] [H|H]; [exact (Hsym b a Hb Ha (not_eq_sym Hab) H)|congruence].
Qed.
End LinkPhase.

(* OR_lattice / hb_lattice: the loop over one colour and direction gives the
   same field in every order of execution *)
Theorem link_phase_schedule {A} ds (F : list A -> A -> A) mu nc sq c s s' f :
  lattice_ok ds -> race_free_extents ds -> (mu < length ds)%nat ->
  init_cb ds (lvolume ds) (length ds) = Some (CbOk nc sq) -> nth_error sq c = Some s -> Permutation s s' ->
  exists f1 f2, run_color ds F mu s f = Some f1 /\ run_color ds F mu s' f = Some f2 /\
    forall i nu, f1 i nu = f2 i nu.
Proof.
  intros Hok Hrf Hmu Hcb Hs HP.
  assert (Hall : firstn (length ds) ds = ds) by apply firstn_all.
  rewrite lvolume_prod in Hcb by assumption. rewrite <- Hall in Hcb at 2.
  assert (Hl : Forall (fun i => 0 <= i < lvolume ds) s).
  { apply Forall_forall. intros i Hi. destruct (cb_class ds (length ds) Hok (le_n _) nc sq c s i Hcb Hs Hi) as (B & _).
    rewrite Hall in B. rewrite lvolume_prod by assumption. exact B. }
  assert (Hl' : Forall (fun i => 0 <= i < lvolume ds) s') by (eapply Permutation_Forall; eassumption).
  destruct (run_color_eq ds F mu Hok Hmu s Hl f) as (f1 & E1 & _).
  destruct (run_color_eq ds F mu Hok Hmu s' Hl' f) as (f2 & E2 & _).
  exists f1, f2. split; [assumption|]. split; [assumption|].
  apply (run_color_perm ds F mu Hok Hmu s s' f f1 f2 Hl HP); try assumption.
  - eapply class_NoDup; [exact Hok|apply le_n|exact Hcb|exact Hs].
  - intros i j nu Hi Hj Hij Hnu. rewrite Forall_forall in Hl.
    pose proof (cb_not_neighbours ds (length ds) nc sq c s i j 0 Hok (le_n _)) as H.
    rewrite Hall, Z.mul_0_r, !Z.add_0_r in H. rewrite Hall in Hcb. apply H; try assumption; try lia; apply Hl; assumption.
Qed.

(* ---- gauge fixing: OR_iteration_th ---- *)
Section OrPhase.
Context {A S : Type} (ds : list Z) (G : list A -> S) (ML MR : S -> A -> A) (DIMS : nat).
Hypothesis Hok : lattice_ok ds.
Hypothesis HD : (DIMS <= length ds)%nat.

Definition wr (i : Z) : list (Z * nat) :=
  concat (map (fun mu => match back ds i mu with Some b => [(i, mu); (b, mu)] | None => [] end) (seq 0 (length ds))).

Lemma wr_In i j mu : In (j, mu) (wr i) <-> (mu < length ds)%nat /\ exists b, back ds i mu = Some b /\ (j = i \/ j = b).
Proof.
  unfold wr. rewrite in_concat. split.
  - intros (l & Hl & Hin). apply in_map_iff in Hl as (nu & <- & Hnu). apply in_seq in Hnu.
    destruct (back ds i nu) as [b|] eqn:Eb; [|contradiction].
    destruct Hin as [H|[H|[]]]; injection H as <- <-; (split; [lia|]); exists b; auto.
  - intros (Hmu & b & Eb & Hj). exists [(i, mu); (b, mu)]. split.
    + apply in_map_iff. exists mu. rewrite Eb. split; [reflexivity|]. apply in_seq; lia.
    + destruct Hj as [->| ->]; cbn; auto.
Qed.

Lemma or_reads_total i mus (f : @field A) : 0 <= i < lvolume ds -> Forall (fun m => m < length ds)%nat mus ->
  exists r, or_reads ds i mus f = Some r.
Proof.
  intros Hi. induction 1 as [|m mus Hm Hms (r & IH)]; [eexists; reflexivity|].
  cbn [or_reads]. destruct (bk_total ds i m Hok Hm Hi) as (b & -> & _). cbn [bindo]. rewrite IH. cbn [bindo]. eauto.
Qed.
Lemma or_reads_local i mus (f g : @field A) : Forall (fun m => m < length ds)%nat mus ->
  (forall p, In p (wr i) -> uncur f p = uncur g p) -> or_reads ds i mus f = or_reads ds i mus g.
Proof.
  intros Hms H. induction Hms as [|m mus Hm Hms IH]; [reflexivity|]. cbn [or_reads].
  destruct (back ds i m) as [b|] eqn:Eb; [|reflexivity]. cbn [bindo]. rewrite IH.
  assert (f i m = g i m) as ->. { apply (H (i, m)), wr_In. split; [assumption|]. exists b; auto. }
  assert (f b m = g b m) as ->. { apply (H (b, m)), wr_In. split; [assumption|]. exists b; auto. }
  reflexivity.
Qed.

Lemma upd_same (f : @field A) i mu v j nu : upd f i mu v j nu = if key_dec (j, nu) (i, mu) then v else f j nu.
Proof.
  unfold upd. destruct (key_dec (j, nu) (i, mu)) as [E|E].
  - injection E as -> ->. rewrite Z.eqb_refl, Nat.eqb_refl. reflexivity.
  - destruct (Z.eqb_spec j i); destruct (Nat.eqb_spec nu mu); cbn [andb]; try reflexivity. congruence.
Qed.

Lemma or_rotate_props g i mus : 0 <= i < lvolume ds -> Forall (fun m => m < length ds)%nat mus -> forall f,
  exists f', or_rotate ds ML MR g i mus f = Some f' /\
    (forall p, ~ In p (wr i) -> uncur f' p = uncur f p) /\
    (forall h, (forall p, In p (wr i) -> uncur f p = uncur h p) ->
       exists h', or_rotate ds ML MR g i mus h = Some h' /\ forall p, In p (wr i) -> uncur f' p = uncur h' p).
Proof.
  intros Hi. induction 1 as [|m mus Hm Hms IH]; intros f.
  - exists f. split; [reflexivity|]. split; [reflexivity|]. intros h Hh. exists h. split; [reflexivity|exact Hh].
  - cbn [or_rotate]. destruct (bk_total ds i m Hok Hm Hi) as (b & Eb & _). rewrite Eb. cbn [bindo]. cbv zeta.
    assert (Hw1 : In (i, m) (wr i)) by (apply wr_In; split; [assumption|]; exists b; auto).
    assert (Hw2 : In (b, m) (wr i)) by (apply wr_In; split; [assumption|]; exists b; auto).
    match goal with |- context[or_rotate ds ML MR g i mus ?F2] => set (f2 := F2) end.
    destruct (IH f2) as (f' & E & Hfr & Hloc). exists f'. split; [exact E|]. split.
    + intros [j nu] Hp. rewrite Hfr by assumption. unfold f2, uncur. cbn [fst snd]. rewrite !upd_same.
      destruct (key_dec (j, nu) (b, m)) as [E1|]; [rewrite E1 in Hp; contradiction|].
      destruct (key_dec (j, nu) (i, m)) as [E1|]; [rewrite E1 in Hp; contradiction|]. reflexivity.
    + intros h Hh. match goal with |- context[or_rotate ds ML MR g i mus ?H2] => destruct (Hloc H2) as (h' & E' & Hh') end; [|eauto].
      intros [j nu] Hp. unfold f2, uncur. cbn [fst snd]. rewrite !upd_same.
      pose proof (Hh (i, m) Hw1) as Q1. pose proof (Hh (b, m) Hw2) as Q2. pose proof (Hh (j, nu) Hp) as Q3.
      unfold uncur in Q1, Q2, Q3. cbn [fst snd] in Q1, Q2, Q3.
      repeat match goal with |- context[key_dec ?a ?b] => destruct (key_dec a b) end; congruence.
Qed.

Lemma seq_dirs n : (n <= length ds)%nat -> Forall (fun m => m < length ds)%nat (seq 0 n).
Proof. intros. apply Forall_forall. intros m Hm. apply in_seq in Hm. lia. Qed.

Lemma OR_single_props i : 0 <= i < lvolume ds -> forall f,
  exists f', OR_single ds G ML MR DIMS i f = Some f' /\
    (forall p, ~ In p (wr i) -> uncur f' p = uncur f p) /\
    (forall h, (forall p, In p (wr i) -> uncur f p = uncur h p) ->
       exists h', OR_single ds G ML MR DIMS i h = Some h' /\ forall p, In p (wr i) -> uncur f' p = uncur h' p).
Proof.
  intros Hi f. unfold OR_single.
  destruct (or_reads_total i (seq 0 DIMS) f Hi (seq_dirs _ HD)) as (r & Er). rewrite Er. cbn [bindo].
  destruct (or_rotate_props (G r) i (seq 0 (length ds)) Hi (seq_dirs _ (le_n _)) f) as (f' & E & H1 & H2).
  exists f'. split; [exact E|]. split; [exact H1|]. intros h Hh.
  rewrite <- (or_reads_local i (seq 0 DIMS) f h (seq_dirs _ HD) Hh), Er. cbn [bindo]. apply H2; assumption.
Qed.

Definition ort (i : Z) (f : Z * nat -> A) : Z * nat -> A :=
  if (0 <=? i) && (i <? lvolume ds)
  then match OR_single ds G ML MR DIMS i (cur f) with Some f' => uncur f' | None => f end
  else f.

Lemma uncur_cur (f : Z * nat -> A) p : uncur (cur f) p = f p.
Proof. destruct p; reflexivity. Qed.

Lemma ort_frame i f p : ~ In p (wr i) -> ort i f p = f p.
Proof.
  intros Hp. unfold ort. destruct ((0 <=? i) && (i <? lvolume ds)) eqn:Ei; [|reflexivity].
  destruct (OR_single_props i ltac:(lia) (cur f)) as (f' & E & H & _). rewrite E, H by assumption. apply uncur_cur.
Qed.
Lemma ort_local i f g : (forall p, In p (wr i) -> f p = g p) -> forall p, In p (wr i) -> ort i f p = ort i g p.
Proof.
  intros H p Hp. unfold ort. destruct ((0 <=? i) && (i <? lvolume ds)) eqn:Ei; [|apply H; assumption].
  destruct (OR_single_props i ltac:(lia) (cur f)) as (f' & E & _ & Hl).
  destruct (Hl (cur g)) as (h' & E' & Hh).
  { intros q Hq. rewrite !uncur_cur. apply H; assumption. }
  rewrite E, E'. apply Hh; assumption.
Qed.

Lemma OR_single_ext i f g : 0 <= i < lvolume ds -> (forall p, uncur f p = uncur g p) ->
  forall f' g', OR_single ds G ML MR DIMS i f = Some f' -> OR_single ds G ML MR DIMS i g = Some g' -> forall p, uncur f' p = uncur g' p.
Proof.
  intros Hi H f' g' E1 E2 p.
  destruct (OR_single_props i Hi f) as (f1 & F1 & F2 & F3). rewrite E1 in F1. injection F1 as <-.
  destruct (OR_single_props i Hi g) as (g1 & G1 & G2 & _). rewrite E2 in G1. injection G1 as <-.
  destruct (in_dec key_dec p (wr i)) as [Hp|Hp].
  - destruct (F3 g (fun q _ => H q)) as (h & H1 & H2). rewrite E2 in H1. injection H1 as <-. apply H2; assumption.
  - rewrite F2, G2 by assumption. apply H.
Qed.

Lemma or_color_eq t l : Forall (fun i => 0 <= i + lcu ds * t < lvolume ds) l -> forall f,
  exists f', or_color ds G ML MR DIMS t l f = Some f' /\
   forall p, uncur f' p = run ort (map (fun i => i + lcu ds * t) l) (uncur f) p.
Proof.
  induction 1 as [|i l Hi Hl IH]; intros f.
  - exists f. split; reflexivity.
  - cbn [or_color]. destruct (OR_single_props _ Hi f) as (f1 & E1 & _). rewrite E1. cbn [bindo].
    destruct (IH f1) as (f' & E & Hf). exists f'. split; [exact E|]. intros p. rewrite Hf. cbn [map]. unfold run. cbn [fold_left].
    apply (run_ext key_dec ort (fun a p => In p (wr a)) wr ort_local ort_frame).
    intros q. unfold ort. replace ((0 <=? i + lcu ds * t) && (i + lcu ds * t <? lvolume ds)) with true by lia.
    destruct (OR_single_props _ Hi (cur (uncur f))) as (f2 & E2 & _). rewrite E2.
    eapply OR_single_ext; [exact Hi| |exact E1|exact E2]. intros r. rewrite uncur_cur. reflexivity.
Qed.
End OrPhase.

Lemma or_color_perm {A S} ds (G : list A -> S) ML MR k t s s' f :
  lattice_ok ds -> (k <= length ds)%nat ->
  Forall (fun i => 0 <= i + lcu ds * t < lvolume ds) s -> Permutation s s' -> NoDup s ->
  (forall i j mu, In i s -> In j s -> i <> j -> (mu < length ds)%nat ->
      neighbor ds (i + lcu ds * t) mu <> Some (j + lcu ds * t)) ->
  exists f1 f2, or_color ds G ML MR k t s f = Some f1 /\ or_color ds G ML MR k t s' f = Some f2 /\
    forall i nu, f1 i nu = f2 i nu.
Proof.
  intros Hok Hk Hl HP Hd Hnb.
  assert (Hl' : Forall (fun i => 0 <= i + lcu ds * t < lvolume ds) s') by (eapply Permutation_Forall; eassumption).
  destruct (or_color_eq ds G ML MR k Hok Hk t s Hl f) as (f1 & E1 & P1).
  destruct (or_color_eq ds G ML MR k Hok Hk t s' Hl' f) as (f2 & E2 & P2).
  exists f1, f2. split; [assumption|]. split; [assumption|]. intros i nu.
  change (f1 i nu) with (uncur f1 (i, nu)). change (f2 i nu) with (uncur f2 (i, nu)). rewrite P1, P2.
  set (sh := fun i => i + lcu ds * t).
  apply (run_perm key_dec (ort ds G ML MR k) (fun a p => In p (wr ds a)) (wr ds)).
  - intros a f0 g0 H p Hp. apply ort_local; assumption.
  - intros a f0 p H. apply ort_frame; assumption.
  - apply Permutation_map. exact HP.
  - assert (Hdisj : forall a b, In a (map sh s) -> In b (map sh s) -> a <> b -> forall p, In p (wr ds a) -> ~ In p (wr ds b)).
    { intros a b Ha Hb Hab [j mu] Hpa Hpb. apply in_map_iff in Ha as (ia & <- & Ha). apply in_map_iff in Hb as (ib & <- & Hb).
      apply (wr_In ds k Hk) in Hpa as (Hmu & ba & Ba & Ja). apply (wr_In ds k Hk) in Hpb as (_ & bb & Bb & Jb).
      assert (Hne : ia <> ib) by congruence. rewrite Forall_forall in Hl. unfold sh in *.
      destruct (bk_total ds _ mu Hok Hmu (Hl ia Ha)) as (ba' & Q1 & _ & Q3). rewrite Ba in Q1. injection Q1 as <-.
      destruct (bk_total ds _ mu Hok Hmu (Hl ib Hb)) as (bb' & Q4 & _ & Q6). rewrite Bb in Q4. injection Q4 as <-.
      destruct Ja as [->| ->]; destruct Jb as [Jb|Jb].
      - congruence.
      - rewrite <- Jb in Q6. exact (Hnb ia ib mu Ha Hb Hne Hmu Q6).
      - rewrite Jb in Q3. exact (Hnb ib ia mu Hb Ha (not_eq_sym Hne) Hmu Q3).
      - subst. congruence. }
    intros a b Ha Hb Hab. split; [|split].
    + apply Hdisj; assumption.
    + apply Hdisj; assumption.
    + apply Hdisj; try assumption. congruence.
  - apply FinFun.Injective_map_NoDup; [intros a b Hab; unfold sh in Hab; lia|exact Hd].
Qed.

(* Landau gauge fixing: OR_iteration_th over the whole lattice (t = 0) *)
Theorem or_landau_schedule {A S} ds (G : list A -> S) ML MR DIMS nc sq c s s' f :
  lattice_ok ds -> (DIMS <= length ds)%nat -> race_free_extents ds ->
  init_cb ds (lvolume ds) (length ds) = Some (CbOk nc sq) -> nth_error sq c = Some s -> Permutation s s' ->
  exists f1 f2, or_color ds G ML MR DIMS 0 s f = Some f1 /\ or_color ds G ML MR DIMS 0 s' f = Some f2 /\
    forall i nu, f1 i nu = f2 i nu.
Proof.
  intros Hok HD Hrf Hcb Hs HP.
  assert (Hall : firstn (length ds) ds = ds) by apply firstn_all.
  rewrite lvolume_prod in Hcb by assumption. rewrite <- Hall in Hcb at 2.
  assert (Hl : Forall (fun i => 0 <= i < lvolume ds) s).
  { apply Forall_forall. intros i Hi. destruct (cb_class ds (length ds) Hok (le_n _) nc sq c s i Hcb Hs Hi) as (B & _).
    rewrite Hall in B. rewrite lvolume_prod by assumption. exact B. }
  apply or_color_perm; try assumption.
  - eapply Forall_impl; [|exact Hl]. cbn. intros. lia.
  - eapply class_NoDup; [exact Hok|apply le_n|exact Hcb|exact Hs].
  - intros i j mu Hi Hj Hij Hmu. rewrite Forall_forall in Hl.
    pose proof (cb_not_neighbours ds (length ds) nc sq c s i j 0 Hok (le_n _)) as H.
    rewrite Hall, Z.mul_0_r, !Z.add_0_r in H. rewrite Hall in Hcb. rewrite Z.mul_0_r, !Z.add_0_r.
    apply H; try assumption; try lia; apply Hl; assumption.
Qed.

Lemma removelast_firstn_len {A} (l : list A) : removelast l = firstn (length l - 1) l.
Proof.
  induction l as [|a [|b l] IH]; [reflexivity|reflexivity|].
  rewrite removelast_cons2, IH. cbn [length]. rewrite !Nat.sub_succ, !Nat.sub_0_r. reflexivity.
Qed.

Lemma lcu_prod ds : lattice_ok ds -> lcu ds = prodZ (removelast ds).
Proof.
  intros Hok. pose proof Hok as (Hne & Hd & Hp). unfold lcu, lvolume.
  rewrite lvolume_prod_gen; [lia|lia|apply Forall_removelast, ok_pos; assumption|unfold two31, two64 in *; lia].
Qed.

(* Coulomb gauge fixing: OR_iteration_th on time slice t *)
Theorem or_coulomb_schedule {A S} ds (G : list A -> S) ML MR DIMS t T nc sq c s s' f :
  lattice_ok ds -> (DIMS <= length ds)%nat -> race_free_extents (removelast ds) ->
  nth_error ds (length ds - 1) = Some T -> 0 <= t < T ->
  init_cb ds (lcu ds) (length ds - 1) = Some (CbOk nc sq) -> nth_error sq c = Some s -> Permutation s s' ->
  exists f1 f2, or_color ds G ML MR DIMS t s f = Some f1 /\ or_color ds G ML MR DIMS t s' f = Some f2 /\
    forall i nu, f1 i nu = f2 i nu.
Proof.
  intros Hok HD Hrf HT Ht Hcb Hs HP.
  pose proof (lcu_prod ds Hok) as EL. rewrite removelast_firstn_len in EL, Hrf.
  set (k := (length ds - 1)%nat) in *. assert (Hk : (k <= length ds)%nat) by (unfold k; lia).
  rewrite EL in Hcb.
  assert (HV : lvolume ds = lcu ds * T).
  { rewrite lvolume_prod by assumption. rewrite EL. pose proof Hok as (Hne & _).
    rewrite (app_removelast_last 0 Hne) at 1. rewrite prodZ_app, removelast_firstn_len. fold k. f_equal.
    assert (last ds 0 = T) as ->; [|unfold prodZ; cbn; lia].
    destruct (exists_last Hne) as (l & a & E). subst ds. rewrite last_last. unfold k in HT.
    rewrite app_length in HT. cbn [length] in HT. replace (length l + 1 - 1)%nat with (length l) in HT by lia.
    rewrite nth_error_app2, Nat.sub_diag in HT by lia. injection HT as ->. reflexivity. }
  assert (HP0 : 0 < prodZ (firstn k ds)).
  { destruct Hok as (_ & Hd & _). apply prodZ_pos, Forall_firstn, ok_pos; assumption. }
  assert (Hl : Forall (fun i => 0 <= i + lcu ds * t < lvolume ds) s).
  { apply Forall_forall. intros i Hi. destruct (cb_class ds k Hok Hk nc sq c s i Hcb Hs Hi) as (B & _).
    rewrite HV, EL. nia. }
  apply or_color_perm; try assumption.
  - eapply class_NoDup; [exact Hok|exact Hk|exact Hcb|exact Hs].
  - intros i j mu Hi Hj Hij Hmu. rewrite Forall_forall in Hl.
    pose proof (Hl i Hi) as Bi. pose proof (Hl j Hj) as Bj. rewrite EL in *.
    eapply (cb_not_neighbours ds k nc sq c s i j t); try eassumption; lia.
Qed.

(* an odd extent of the form 3n+1: neighbouring sites 6 and 0 share colour 0 *)
Lemma cb_race_seven :
  exists sq s, init_cb [7;2] 14 2 = Some (CbOk 3 sq) /\ nth_error sq 0 = Some s /\
    In 6 s /\ In 0 s /\ neighbor [7;2] 6 0 = Some 0.
Proof. eexists _, _. split; [vm_compute; reflexivity|]. split; [reflexivity|]. cbn. auto 10. Qed.
