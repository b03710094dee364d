From Coq Require Import Sorted.
From Verif Require Import CInt Lib ByteModel ByteSpec ByteProofs GeomModel GeomSpec GeomProofs GeomProofs2 CutsModel CutsSpec.

(* ---- generic list facts ---- *)
Lemma mapo_total {A B} (f : A -> option B) (g : A -> B) l :
  (forall a, In a l -> f a = Some (g a)) -> mapo f l = Some (map g l).
Proof.
  induction l as [|a l IH]; intros H; [reflexivity|]. cbn [mapo]. rewrite H by now left. cbn [bindo].
  rewrite IH by (intros; apply H; now right). reflexivity.
Qed.
Lemma keep_total vec safe v is : (forall i, In i is -> vec i = Some (v i)) ->
  keep_loop vec safe is = Some (filter (fun i => safe (v i)) is).
Proof.
  induction is as [|i r IH]; intros H; [reflexivity|]. cbn [keep_loop filter]. rewrite H by now left.
  cbn [bindo]. rewrite IH by (intros; apply H; now right). cbn [bindo]. reflexivity.
Qed.
Lemma in_zrange n i : In i (zrange n) <-> 0 <= i < n.
Proof.
  unfold zrange. rewrite in_map_iff. split.
  - intros (k & <- & Hk). apply in_seq in Hk. lia.
  - intros H. exists (Z.to_nat i). split; [lia|]. apply in_seq. lia.
Qed.
Lemma zrange_sorted n : StronglySorted Z.lt (zrange n).
Proof.
  unfold zrange. generalize (Z.to_nat n). intros k. generalize 0%nat.
  induction k; intros s; cbn [seq map]; constructor; [apply IHk|].
  apply Forall_forall. intros x Hx. apply in_map_iff in Hx. destruct Hx as (j & <- & Hj). apply in_seq in Hj. lia.
Qed.
Lemma sorted_filter {A} (R : A -> A -> Prop) f l : StronglySorted R l -> StronglySorted R (filter f l).
Proof.
  induction 1 as [|a l H IH Ha]; cbn [filter]; [constructor|]. destruct (f a); [|assumption].
  constructor; [assumption|]. apply Forall_forall. intros x Hx. apply filter_In in Hx.
  rewrite Forall_forall in Ha. now apply Ha.
Qed.
Lemma sorted_map {A B} (R : A -> A -> Prop) (S : B -> B -> Prop) (f : A -> B) l :
  (forall a b, In a l -> In b l -> R a b -> S (f a) (f b)) -> StronglySorted R l -> StronglySorted S (map f l).
Proof.
  intros H HS. induction HS as [|a l HS IH Ha]; cbn [map]; constructor.
  - apply IH. intros; apply H; try now right. assumption.
  - apply Forall_forall. intros x Hx. apply in_map_iff in Hx. destruct Hx as (y & <- & Hy).
    rewrite Forall_forall in Ha. apply H; [now left|now right|now apply Ha].
Qed.
Lemma sorted_unique {A} (R : A -> A -> Prop) : (forall a, ~ R a a) -> (forall a b c, R a b -> R b c -> R a c) ->
  forall l l', StronglySorted R l -> StronglySorted R l' -> (forall a, In a l <-> In a l') -> l = l'.
Proof.
  intros Irr Tr l l' H. revert l'. induction H as [|a l H IH Ha]; intros l' H' E.
  - destruct l' as [|b l']; [reflexivity|]. destruct (proj2 (E b)); now left.
  - destruct l' as [|b l']; [destruct (proj1 (E a)); now left|]. inversion H' as [|? ? H1 H2]; subst.
    rewrite Forall_forall in Ha, H2.
    assert (a = b) as <-.
    { destruct (proj1 (E a) (or_introl eq_refl)) as [?|Ab]; [congruence|].
      destruct (proj2 (E b) (or_introl eq_refl)) as [?|Bb]; [congruence|].
      destruct (Irr a). eapply Tr; [apply Ha; exact Bb|apply H2; exact Ab]. }
    f_equal. apply IH; [assumption|]. intros x. split; intros Hx.
    + destruct (proj1 (E x) (or_intror Hx)) as [<-|?]; [|assumption]. destruct (Irr a). now apply Ha.
    + destruct (proj2 (E x) (or_intror Hx)) as [<-|?]; [|assumption]. destruct (Irr a). now apply H2.
Qed.
Lemma sorted_app {A} (R : A -> A -> Prop) l x : StronglySorted R l -> Forall (fun a => R a x) l -> StronglySorted R (l ++ [x]).
Proof.
  induction 1 as [|a l H IH Ha]; intros HF; cbn [app]; [repeat constructor|]. inversion HF; subst.
  constructor; [now apply IH|]. apply Forall_app. split; [assumption|]. now repeat constructor.
Qed.
Lemma sorted_rev {A} (R : A -> A -> Prop) l : StronglySorted R l -> StronglySorted (fun a b => R b a) (rev l).
Proof.
  induction 1 as [|a l H IH Ha]; cbn [rev]; [constructor|]. apply sorted_app; [assumption|].
  apply Forall_rev. exact Ha.
Qed.

Lemma nth_error_rev' {A} (l : list A) i : (i < length l)%nat -> nth_error (rev l) (length l - 1 - i) = nth_error l i.
Proof.
  intros H. destruct l as [|d l0] eqn:El; [cbn in H; lia|]. rewrite <- El in *.
  rewrite (nth_error_nth' (rev l) d) by (rewrite rev_length; lia). rewrite rev_nth by lia.
  replace (length l - S (length l - 1 - i))%nat with i by lia. symmetry. now apply nth_error_nth'.
Qed.

(* ---- rlex ---- *)
Lemma rlex_irrefl p : ~ rlex p p.
Proof. induction p as [|a p IH]; cbn; [tauto|]. intros [H|[_ H]]; [tauto|lia]. Qed.
Lemma rlex_trans p : forall q r, rlex p q -> rlex q r -> rlex p r.
Proof.
  induction p as [|a p IH]; intros [|b q] [|c r]; cbn; try tauto.
  intros [H|[-> H]] [K|[-> K]]; [left; eauto|left; assumption|left; assumption|right; split; [reflexivity|lia]].
Qed.
Lemma rlex_app p : forall q r, rlex p q -> rlex (p ++ r) (q ++ r).
Proof.
  induction p as [|a p IH]; intros [|b q] r; cbn [rlex app]; try tauto.
  intros [H|[-> H]]; [left; now apply IH|right; split; [reflexivity|assumption]].
Qed.
Lemma rlex_opp p : forall q, rlex p q -> rlex (map Z.opp q) (map Z.opp p).
Proof.
  induction p as [|a p IH]; intros [|b q]; cbn [rlex map]; try tauto.
  intros [H|[-> H]]; [left; now apply IH|right; split; [reflexivity|lia]].
Qed.
Lemma digits_rlex ds : Forall (fun L => 0 < L) ds -> forall i j, 0 <= i < j -> j < prodZ ds ->
  rlex (digits ds i) (digits ds j).
Proof.
  induction 1 as [|d ds Hd H IH]; intros i j Hij Hj.
  - unfold prodZ in Hj. cbn in Hj. lia.
  - cbn [digits rlex]. rewrite prodZ_cons in Hj.
    assert (H0 : 0 <= i / d) by (apply Z.div_pos; lia).
    assert (H1 : i / d <= j / d) by (apply Z.div_le_mono; lia).
    destruct (Z.eq_dec (i / d) (j / d)) as [E|NE].
    + right. rewrite E. split; [reflexivity|].
      pose proof (Z.div_mod i d ltac:(lia)). pose proof (Z.div_mod j d ltac:(lia)). rewrite E in *. lia.
    + left. apply IH; [lia|]. apply Z.div_lt_upper_bound; lia.
Qed.

(* ---- the momentum of site i ---- *)
Definition pp (ds : list Z) (i : Z) : list Z :=
  map (fun p => fst p - Z.shiftr (snd p) 1) (combine (digits ds i) ds).

Lemma pp_rlex ds : Forall (fun L => 0 < L) ds -> forall i j, 0 <= i < j -> j < prodZ ds -> rlex (pp ds i) (pp ds j).
Proof.
  intros Hd i j Hij Hj. pose proof (digits_rlex ds Hd i j Hij Hj) as H. unfold pp.
  pose proof (digits_length ds i) as L1. pose proof (digits_length ds j) as L2.
  revert L1 L2 H. generalize (digits ds i) (digits ds j). clear. induction ds as [|d ds IH]; intros [|a p] [|b q] L1 L2; cbn in *; try tauto; try discriminate.
  intros [H|[-> H]]; [left; apply IH; congruence|right; split; [reflexivity|lia]].
Qed.
Lemma pp_zone ds i : Forall (fun L => 0 < L) ds -> zone ds (pp ds i).
Proof.
  intros H. revert i. unfold zone, pp. induction H as [|d ds Hd H IH]; intros i; cbn [digits combine map fst snd]; constructor; [|apply IH].
  rewrite Z.shiftr_div_pow2 by lia. change (2^1) with 2. pose proof (Z.mod_pos_bound i d). lia.
Qed.
Lemma pp_inv ds q : Forall (fun L => 0 < L) ds -> zone ds q ->
  exists i, 0 <= i < prodZ ds /\ pp ds i = q.
Proof.
  intros Hd Hz. exists (horner ds (map (fun x => snd x + fst x / 2) (combine ds q))).
  assert (Hb : in_box ds (map (fun x => snd x + fst x / 2) (combine ds q))).
  { clear Hd. induction Hz as [|L c ds q Hc Hz IH]; cbn [combine map fst snd]; constructor; [lia|exact IH]. }
  split; [now apply horner_bound|]. unfold pp. rewrite digits_horner by assumption.
  clear Hb Hd. induction Hz as [|L c ds q Hc Hz IH]; [reflexivity|]. cbn [combine map fst snd]. f_equal; [|exact IH].
  rewrite Z.shiftr_div_pow2 by lia. change (2^1) with 2. lia.
Qed.

(* get_mom_pipi with the last direction left out *)
Lemma mom_pipi_app ds ts : forall mu i s DIMS, (length ts <= 1)%nat ->
  Forall (fun L => 0 < L < two31) ds -> 0 < s -> s * prodZ ds < two64 ->
  (mu + length ds = DIMS)%nat -> 0 <= i ->
  mom_pipi_loop (ds ++ ts) mu i s DIMS =
  Some (pp ds (i / s) ++ zeros ts).
Proof.
  intros mu i s DIMS Ht Hd. revert mu i s. induction Hd as [|d ds Hd0 Hds IH]; intros mu i s Hs Hp HD Hi.
  - cbn [length app] in *. destruct ts as [|t [|]]; [reflexivity| |cbn in Ht; lia].
    cbn [mom_pipi_loop]. replace (mu =? DIMS)%nat with true by (symmetry; apply Nat.eqb_eq; lia). reflexivity.
  - pose proof (mom_pipi_digits [d] mu i s DIMS) as H1. rewrite prodZ_cons in Hp.
    assert (0 < prodZ ds) by (apply prodZ_pos, ok_pos; assumption).
    cbn [length] in *. change ((d :: ds) ++ ts) with (d :: (ds ++ ts)).
    assert (Hsd : s * prodZ [d] < two64) by (unfold prodZ in *; cbn [fold_right] in *; nia).
    specialize (H1 ltac:(repeat constructor; lia) Hs Hsd ltac:(lia) Hi).
    cbn [mom_pipi_loop] in *.
    replace (mu =? DIMS)%nat with false in * by (symmetry; apply Nat.eqb_neq; lia).
    replace ((s =? 0) || (d =? 0)) with false in * by lia. cbv zeta in *. cbn [bindo] in H1.
    assert (0 < s * d) by nia. rewrite u64_id by nia.
    rewrite IH; [|lia|nia|lia|lia]. cbn [bindo].
    injection H1 as H1. rewrite H1. unfold pp. cbn [digits combine map fst snd app].
    rewrite Z.div_div by lia. reflexivity.
Qed.
Lemma mom_pipi_ok ds ts i : (length ts <= 1)%nat -> Forall (fun L => 0 < L < two31) ds -> prodZ ds < two64 -> 0 <= i ->
  get_mom_pipi (ds ++ ts) i (length ds) = Some (pp ds i ++ zeros ts).
Proof.
  intros. unfold get_mom_pipi. rewrite mom_pipi_app; try assumption; try lia. now rewrite Z.div_1_r.
Qed.

(* get_site_pipiBZ on a zone momentum: the congruent site *)
Lemma site_pipi_app ds ts : (length ts <= 1)%nat -> Forall (fun L => 0 < L < two31) ds ->
  forall p, zone ds p -> forall mu DIMS, (mu + length ds = DIMS)%nat ->
  site_pipiBZ_temp (ds ++ ts) (p ++ zeros ts) mu DIMS = residues ds p ++ zeros ts.
Proof.
  intros Ht Hd p Hz. revert Hd. induction Hz as [|d c ds p Hc Hz IH]; intros Hd mu DIMS HD.
  - cbn [app residues combine map length] in *. destruct ts as [|t [|]]; [reflexivity| |cbn in Ht; lia].
    cbn. replace (mu =? DIMS)%nat with true by (symmetry; apply Nat.eqb_eq; lia). reflexivity.
  - inversion Hd as [|? ? Hd0 Hds]; subst. cbn [length app site_pipiBZ_temp residues combine map fst snd] in *.
    f_equal; [|apply IH; [assumption|lia]].
    replace (mu =? mu + S (length ds))%nat with false by (symmetry; apply Nat.eqb_neq; lia).
    destruct (half_bounds d Hd0) as (Hh & Hh').
    destruct (Z.ltb_spec c 0).
    + unfold u64 at 2. replace c with (c + two64 + (-1) * two64) at 1 by ring.
      rewrite Z.mod_add by (unfold two64; lia). rewrite (Z.mod_small (c + two64)) by (unfold two31, two64 in *; lia).
      unfold u64. replace (c + two64 + d) with (c + d + 1 * two64) by ring.
      rewrite Z.mod_add by (unfold two64; lia). rewrite (Z.mod_small (c + d)) by (unfold two31, two64 in *; lia).
      rewrite i32_id by (unfold two31 in *; lia).
      replace c with (c + d + (-1) * d) at 2 by ring. rewrite Z.mod_add by lia. rewrite Z.mod_small by lia. reflexivity.
    + rewrite Z.mod_small by lia. reflexivity.
Qed.
Lemma residues_box ds p : Forall (fun L => 0 < L) ds -> length p = length ds -> in_box ds (residues ds p).
Proof.
  intros H. revert p. induction H as [|d ds Hd H IH]; intros [|c p] E; cbn in *; try discriminate; constructor.
  - apply Z.mod_pos_bound. lia.
  - apply IH. lia.
Qed.
Lemma zone_length ds p : zone ds p -> length p = length ds.
Proof. intros H. symmetry. now apply Forall2_length in H || induction H; cbn; congruence. Qed.

(* ---- C39: the momentum list ---- *)
Definition lat_ok (ds ts : list Z) : Prop :=
  (length ts <= 1)%nat /\ ds <> [] /\ Forall (fun L => 0 < L < two31) (ds ++ ts) /\ prodZ (ds ++ ts) < two64.

Lemma prodZ_app a b : prodZ (a ++ b) = prodZ a * prodZ b.
Proof. induction a as [|x a IH]; [unfold prodZ; cbn [fold_right app]; lia|]. cbn [app]. rewrite !prodZ_cons, IH. ring. Qed.

Lemma lat_ok_ds ds ts : lat_ok ds ts -> Forall (fun L => 0 < L < two31) ds /\ 0 < prodZ ds /\ prodZ ds < two64.
Proof.
  intros (Ht & Hn & Hf & Hp). apply Forall_app in Hf. destruct Hf as (Hd & Hts).
  assert (0 < prodZ ds) by (apply prodZ_pos, ok_pos; assumption).
  assert (0 < prodZ ts) by (apply prodZ_pos, ok_pos; assumption).
  rewrite prodZ_app in Hp. repeat split; try assumption. nia.
Qed.
Lemma LOOP_prod ds ts : lat_ok ds ts -> LOOP (ds ++ ts) (length ds) = prodZ ds.
Proof.
  intros H. destruct (lat_ok_ds _ _ H) as (Hd & Hp & Hp2). unfold LOOP.
  rewrite firstn_app, Nat.sub_diag, firstn_all, firstn_O, app_nil_r. unfold lvolume.
  rewrite lvolume_prod_gen; [lia|lia|apply ok_pos; assumption|lia].
Qed.

Definition site_of (ds ts p : list Z) : Z := index_of (ds ++ ts) (residues ds p ++ zeros ts).

Lemma in_box_app a b x y : in_box a x -> in_box b y -> in_box (a ++ b) (x ++ y).
Proof. intros H K. induction H; [exact K|]. cbn [app]. constructor; assumption. Qed.
Lemma zeros_box ts : Forall (fun L => 0 < L < two31) ts -> in_box ts (zeros ts).
Proof. induction 1; cbn; constructor; [lia|assumption]. Qed.

Lemma site_pipi_ok ds ts p : lat_ok ds ts -> zone ds p ->
  get_site_pipiBZ (ds ++ ts) (p ++ zeros ts) (length ds) = Some (site_of ds ts p).
Proof.
  intros H Hz. destruct (lat_ok_ds _ _ H) as (Hd & Hp & Hp2). destruct H as (Ht & Hn & Hf & Hpp).
  unfold get_site_pipiBZ. rewrite site_pipi_app; try assumption; [|lia].
  assert (Hb : in_box (ds ++ ts) (residues ds p ++ zeros ts)).
  { apply in_box_app; [apply residues_box; [apply ok_pos; assumption|now apply zone_length]|].
    apply zeros_box. apply Forall_app in Hf. tauto. }
  rewrite gen_site_horner; [|intros E; apply app_eq_nil in E; tauto|assumption|assumption].
  unfold site_of. f_equal. symmetry. apply index_of_horner. now apply in_box_length in Hb.
Qed.

Lemma mom_veclist_eq ds ts safe : lat_ok ds ts ->
  get_mom_veclist (ds ++ ts) (length ds) safe =
  Some (map (fun i => (site_of ds ts (pp ds i), pp ds i ++ zeros ts))
            (filter (fun i => safe (pp ds i ++ zeros ts)) (zrange (prodZ ds)))).
Proof.
  intros H. destruct (lat_ok_ds _ _ H) as (Hd & Hp & Hp2). unfold get_mom_veclist. rewrite LOOP_prod by assumption.
  rewrite (keep_total _ _ (fun i => pp ds i ++ zeros ts)).
  2:{ intros i Hi. apply in_zrange in Hi. apply mom_pipi_ok; try assumption; [apply H|lia]. }
  cbn [bindo]. apply mapo_total. intros i Hi. apply filter_In in Hi. destruct Hi as (Hi & _). apply in_zrange in Hi.
  rewrite mom_pipi_ok; [|apply H|assumption|assumption|lia]. cbn [bindo].
  rewrite site_pipi_ok; [|assumption|apply pp_zone, ok_pos; assumption]. reflexivity.
Qed.

Theorem mom_veclist_ok : forall ds ts safe, lat_ok ds ts ->
  exists l, get_mom_veclist (ds ++ ts) (length ds) safe = Some l /\
    increasing_by (fun a b => rlex (snd a) (snd b)) l /\
    forall s p, In (s, p) l <->
      exists q, zone ds q /\ p = q ++ zeros ts /\ safe p = true /\ s = index_of (ds ++ ts) (residues ds q ++ zeros ts).
Proof.
  intros ds ts safe H. destruct (lat_ok_ds _ _ H) as (Hd & Hp & Hp2).
  eexists. split; [now apply mom_veclist_eq|]. split.
  - apply (sorted_map Z.lt); [|apply sorted_filter, zrange_sorted].
    intros i j Hi Hj Hij. apply filter_In in Hi, Hj. destruct Hi as (Hi & _), Hj as (Hj & _).
    apply in_zrange in Hi, Hj. cbn [snd]. apply rlex_app. apply pp_rlex; [apply ok_pos; assumption|lia|lia].
  - intros s p. rewrite in_map_iff. split.
    + intros (i & E & Hi). apply filter_In in Hi. destruct Hi as (Hi & Hs). injection E as <- <-.
      exists (pp ds i). repeat split; [apply pp_zone, ok_pos; assumption|assumption].
    + intros (q & Hz & -> & Hs & ->). destruct (pp_inv ds q) as (i & Hi & E); [apply ok_pos; assumption|assumption|].
      exists i. rewrite E. split; [reflexivity|]. apply filter_In. rewrite E. split; [now apply in_zrange|assumption].
Qed.

(* ---- C40: reflection ---- *)
Definition vneg (p : list Z) : list Z := map Z.opp p.
Lemma vneg_invol p : vneg (vneg p) = p.
Proof. unfold vneg. rewrite map_map. rewrite <- (map_id p) at 2. apply map_ext. intros. lia. Qed.
Lemma zeros_neg ts : vneg (zeros ts) = zeros ts.
Proof. unfold vneg, zeros. rewrite map_map. reflexivity. Qed.
Lemma zone_neg ds p : zone ds p -> ~ edge ds p -> zone ds (vneg p).
Proof.
  intros Hz. induction Hz as [|L c ds p Hc Hz IH]; intros He; cbn [vneg map]; constructor.
  - destruct (Z.even L) eqn:Ev.
    + assert (L mod 2 = 0) by (rewrite Zmod_even, Ev; reflexivity).
      pose proof (Z.div_mod L 2 ltac:(lia)).
      assert (c <> - (L / 2)) by (intros ->; apply He; exists 0%nat, L; cbn; auto). lia.
    + assert (L mod 2 = 1) by (rewrite Zmod_even, Ev; reflexivity).
      pose proof (Z.div_mod L 2 ltac:(lia)). lia.
  - apply IH. intros (mu & L' & E). apply He. exists (S mu), L'. exact E.
Qed.
Lemma edge_neg_out ds p : Forall (fun L => 0 < L) ds -> edge ds p -> zone ds p -> ~ zone ds (vneg p).
Proof.
  intros Hp (mu & L & E1 & E2 & Ev) Hz Hz'. revert p mu Hz Hz' E1 E2. induction Hp as [|d ds Hd Hds IH]; intros p mu Hz Hz' E1 E2.
  - destruct mu; discriminate.
  - inversion Hz; subst. cbn [vneg map] in Hz'. inversion Hz'; subst. destruct mu as [|mu].
    + injection E1 as ->. injection E2 as ->.
      assert (L mod 2 = 0) by (rewrite Zmod_even, Ev; reflexivity).
      pose proof (Z.div_mod L 2 ltac:(lia)). lia.
    + cbn in E1, E2. apply (IH l' mu); assumption.
Qed.

Theorem mom_veclist_mirror : forall ds ts safe l, lat_ok ds ts ->
  (forall p, safe (vneg p) = safe p) ->
  get_mom_veclist (ds ++ ts) (length ds) safe = Some l ->
  ((forall s p, In (s, p) l -> ~ edge ds p) <->
   (forall i a b, nth_error l i = Some a -> nth_error l (length l - 1 - i) = Some b -> snd b = vneg (snd a))).
Proof.
  intros ds ts safe l H Hsym E. destruct (mom_veclist_ok ds ts safe H) as (l' & E' & Hs & Hin).
  rewrite E in E'. injection E' as <-. destruct (lat_ok_ds _ _ H) as (Hd & _).
  assert (Hedge : forall q, length q = length ds -> edge ds (q ++ zeros ts) <-> edge ds q).
  { intros q Lq. split; intros (mu & L & E1 & E2 & Ev); exists mu, L; repeat split; try assumption.
    - rewrite nth_error_app1 in E2; [assumption|]. rewrite Lq. apply nth_error_Some. congruence.
    - rewrite nth_error_app1; [assumption|]. rewrite Lq. apply nth_error_Some. congruence. }
  split.
  - intros Hne.
    assert (K : map snd l = rev (map vneg (map snd l))).
    { apply (sorted_unique rlex); [apply rlex_irrefl|intros a b c; apply rlex_trans| | |].
      - apply (sorted_map (fun a b => rlex (snd a) (snd b))); [tauto|exact Hs].
      - rewrite <- map_rev. apply (sorted_map (fun a b => rlex b a)).
        + intros a b _ _. apply rlex_opp.
        + apply sorted_rev. apply (sorted_map (fun a b => rlex (snd a) (snd b))); [tauto|exact Hs].
      - assert (Hx : forall p, In p (map snd l) -> In (vneg p) (map snd l)).
        { intros p Hp. apply in_map_iff in Hp. destruct Hp as ([s p'] & E1 & Hp). cbn in E1. subst p'.
          pose proof (Hne _ _ Hp) as Hnep. apply Hin in Hp. destruct Hp as (q & Hz & -> & Hsafe & _).
          rewrite Hedge in Hnep by now apply zone_length.
          apply in_map_iff. exists (index_of (ds ++ ts) (residues ds (vneg q) ++ zeros ts), vneg (q ++ zeros ts)).
          split; [reflexivity|]. apply Hin. exists (vneg q). repeat split.
          - now apply zone_neg.
          - unfold vneg. rewrite map_app. f_equal. apply zeros_neg.
          - rewrite Hsym. assumption. }
        intros p. rewrite <- in_rev, (in_map_iff vneg). split.
        + intros Hp. exists (vneg p). split; [apply vneg_invol|now apply Hx].
        + intros (p' & <- & Hp'). now apply Hx. }
    intros i a b Ha Hb.
    assert (Hil : (i < length l)%nat) by (apply nth_error_Some; congruence).
    assert (Hb' : nth_error (map snd l) (length l - 1 - i) = Some (snd b)) by (now apply map_nth_error).
    rewrite K in Hb'.
    assert (Ha' : nth_error (rev (map vneg (map snd l))) (length l - 1 - i) = Some (vneg (snd a))).
    { replace (length l) with (length (map vneg (map snd l))) by (now rewrite !map_length).
      rewrite nth_error_rev'; [now apply map_nth_error, map_nth_error|]. rewrite !map_length. exact Hil. }
    congruence.
  - intros Hm s p Hp He. apply In_nth_error in Hp as Hp'. destruct Hp' as (i & Hi).
    assert (Hil : (i < length l)%nat) by (apply nth_error_Some; congruence).
    destruct (nth_error_lt l (length l - 1 - i)) as (b & Hb); [lia|].
    specialize (Hm _ _ _ Hi Hb). cbn [snd] in Hm.
    apply Hin in Hp. destruct Hp as (q & Hz & -> & _ & _). rewrite Hedge in He by now apply zone_length.
    apply nth_error_In in Hb. destruct b as [s' p']. apply Hin in Hb. destruct Hb as (q' & Hz' & -> & _ & _).
    cbn [snd] in Hm. unfold vneg in Hm. rewrite map_app in Hm.
    apply (edge_neg_out ds q (ok_pos _ Hd) He Hz).
    assert (q' = vneg q) as <-; [|exact Hz'].
    apply (f_equal (firstn (length ds))) in Hm. rewrite !firstn_app in Hm.
    rewrite (zone_length _ _ Hz') in Hm. rewrite map_length, (zone_length _ _ Hz), !Nat.sub_diag in Hm.
    rewrite !firstn_O, !app_nil_r in Hm.
    rewrite <- (zone_length _ _ Hz') in Hm at 1. rewrite firstn_all in Hm.
    rewrite <- (zone_length _ _ Hz) in Hm. rewrite <- (map_length Z.opp q), firstn_all in Hm. exact Hm.
Qed.

(* odd extents have no edge *)
Lemma odd_no_edge ds p : Forall (fun L => Z.even L = false) ds -> ~ edge ds p.
Proof.
  intros H (mu & L & E1 & _ & Ev). rewrite Forall_forall in H. rewrite (H L) in Ev; [discriminate|].
  eapply nth_error_In; eassumption.
Qed.

(* the middle entry of a list of odd length that mirrors is the zero momentum *)
Lemma mirror_middle (l : list veclist) :
  (forall i a b, nth_error l i = Some a -> nth_error l (length l - 1 - i) = Some b -> snd b = vneg (snd a)) ->
  Nat.odd (length l) = true ->
  exists a, nth_error l ((length l - 1) / 2) = Some a /\ Forall (fun c => c = 0) (snd a).
Proof.
  intros H Ho. apply Nat.odd_spec in Ho. destruct Ho as (m & Hm).
  assert (E : ((length l - 1) / 2 = m)%nat).
  { rewrite Hm. replace (2 * m + 1 - 1)%nat with (m * 2)%nat by lia. apply Nat.div_mul. lia. }
  rewrite E. destruct (nth_error_lt l m) as (a & Ha); [lia|]. exists a. split; [assumption|].
  specialize (H m a a Ha). replace (length l - 1 - m)%nat with m in H by lia. specialize (H Ha).
  clear -H. induction (snd a) as [|c p IH]; constructor; cbn in H; injection H as H1 H2; [lia|now apply IH].
Qed.
