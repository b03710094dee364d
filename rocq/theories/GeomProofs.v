(* Proofs about the lattice geometry model. *)
From Verif Require Import CInt GeomModel GeomSpec.
From Coq Require Import ZifyBool Permutation.

Lemma u64_id z : 0 <= z < two64 -> u64 z = z.
Proof. intros H. unfold u64. apply Z.mod_small; exact H. Qed.
Lemma i32_id z : - two31 <= z < two31 -> i32 z = z.
Proof. intros H. unfold i32. rewrite Z.mod_small; unfold two31, two32 in *; lia. Qed.
Lemma u64_range z : 0 <= u64 z < two64.
Proof. unfold u64, two64. apply Z.mod_pos_bound. lia. Qed.

Lemma prodZ_pos l : Forall (fun L => 0 < L) l -> 0 < prodZ l.
Proof. induction 1; [reflexivity|]. change (0 < x * prodZ l). apply Z.mul_pos_pos; assumption. Qed.
Lemma prodZ_cons a l : prodZ (a :: l) = a * prodZ l.
Proof. reflexivity. Qed.
Lemma prodZ_app a b : prodZ (a ++ b) = prodZ a * prodZ b.
Proof. induction a; cbn [app]; rewrite ?prodZ_cons; [change (prodZ b = 1 * prodZ b); lia|rewrite IHa; ring]. Qed.

(* little-endian mixed radix value *)
Fixpoint horner (ds xs : list Z) : Z :=
  match ds, xs with
  | d :: ds', x :: xs' => x + d * horner ds' xs'
  | _, _ => 0
  end.

Lemma index_of_gen (ds xs : list Z) : forall pre,
  length xs = length ds ->
  fold_right Z.add 0
    (map (fun mu => nth mu xs 0 * prodZ (pre ++ firstn mu ds)) (seq 0 (length ds)))
  = prodZ pre * horner ds xs.
Proof.
  revert xs. induction ds as [|d ds IH]; intros xs pre Hl; destruct xs as [|x xs]; try discriminate.
  - simpl. lia.
  - cbn [length seq map fold_right]. rewrite <- seq_shift, map_map.
    cbn [firstn nth horner].
    erewrite map_ext; [rewrite (IH xs (pre ++ [d]))|].
    + rewrite app_nil_r, prodZ_app, prodZ_cons. unfold prodZ at 3. simpl. ring.
    + simpl in Hl; lia.
    + intros a. cbn [nth firstn]. rewrite <- app_assoc. reflexivity.
Qed.
Lemma index_of_horner ds xs : length xs = length ds -> index_of ds xs = horner ds xs.
Proof.
  intros H. unfold index_of. pose proof (index_of_gen ds xs [] H) as E. cbn [app] in E.
  rewrite E. change (prodZ []) with 1. lia.
Qed.

Lemma in_box_length ds xs : in_box ds xs -> length xs = length ds.
Proof. induction 1; simpl; congruence. Qed.

Lemma horner_bound ds xs : in_box ds xs -> 0 <= horner ds xs < prodZ ds.
Proof.
  induction 1 as [|d x ds xs Hx _ IH]; [unfold prodZ; simpl; lia|].
  rewrite prodZ_cons. cbn [horner]. nia.
Qed.

Lemma horner_inj ds xs ys : in_box ds xs -> in_box ds ys -> horner ds xs = horner ds ys -> xs = ys.
Proof.
  intros Hx; revert ys. induction Hx as [|d x ds xs Hx _ IH]; intros ys Hy E; inversion Hy; subst; [reflexivity|].
  cbn [horner] in E.
  destruct (Z.mod_unique_pos (x + d * horner ds xs) d (horner ds xs) x) as []; try lia.
  destruct (Z.mod_unique_pos (x + d * horner ds xs) d (horner ds l') y) as []; try lia.
  assert (E1 : horner ds xs = (x + d * horner ds xs) / d) by (apply (Z.div_unique_pos _ _ _ x); lia).
  assert (E2 : horner ds l' = (x + d * horner ds xs) / d) by (apply (Z.div_unique_pos _ _ _ y); lia).
  assert (Eh : horner ds xs = horner ds l') by congruence.
  rewrite Eh in E. f_equal; [lia|]. apply IH; assumption.
Qed.

(* mixed radix digits of i *)
Fixpoint digits (ds : list Z) (i : Z) : list Z :=
  match ds with
  | [] => []
  | d :: ds' => i mod d :: digits ds' (i / d)
  end.
Lemma digits_in_box ds i : Forall (fun L => 0 < L) ds -> in_box ds (digits ds i).
Proof.
  intros H. revert i. induction H as [|d ds Hd _ IH]; intros i; constructor; [|apply IH].
  apply Z.mod_pos_bound; lia.
Qed.
Lemma horner_digits ds i : Forall (fun L => 0 < L) ds -> 0 <= i < prodZ ds -> horner ds (digits ds i) = i.
Proof.
  intros H. revert i. induction H as [|d ds Hd Hds IH]; intros i Hi.
  - unfold prodZ in Hi. simpl in *. lia.
  - cbn [digits horner]. rewrite prodZ_cons in Hi. rewrite IH.
    + rewrite Z.add_comm. symmetry. rewrite Z.add_comm. rewrite Z.add_comm. apply Z.div_mod. lia.
    + split; [apply Z.div_pos; lia|]. apply Z.div_lt_upper_bound; lia.
Qed.
Lemma digits_horner ds xs : in_box ds xs -> digits ds (horner ds xs) = xs.
Proof.
  induction 1 as [|d x ds xs Hx H IH]; [reflexivity|]. cbn [horner digits].
  rewrite Z.mul_comm, Z.mod_add, Z.div_add by lia.
  rewrite Z.mod_small, Z.div_small by lia. rewrite Z.add_0_l, IH. reflexivity.
Qed.
Lemma digits_length ds i : length (digits ds i) = length ds.
Proof. revert i; induction ds; intros; simpl; congruence. Qed.

(* gen_site on in-range coordinates *)
Lemma ok_pos ds : Forall (fun L => 0 < L < two31) ds -> Forall (fun L => 0 < L) ds.
Proof. apply Forall_impl. intros; lia. Qed.

Lemma gen_site_horner ds xs :
  ds <> [] -> in_box ds xs -> prodZ ds < two64 -> gen_site ds xs = Some (horner ds xs).
Proof.
  intros Hne H. induction H as [|d x ds xs Hx H IH]; intros Hp; [congruence|].
  rewrite prodZ_cons in Hp.
  assert (Hpos : 0 < prodZ ds).
  { clear -H. induction H; unfold prodZ in *; cbn [fold_right]; nia. }
  pose proof (horner_bound _ _ H) as Hb.
  destruct H as [|d' x' ds xs Hx' H].
  - cbn [gen_site horner]. f_equal. rewrite u64_id; [lia|]. unfold prodZ in Hp; simpl in Hp. lia.
  - assert (E: gen_site (d' :: ds) (x' :: xs) = Some (horner (d'::ds) (x'::xs)))
      by (apply IH; [discriminate|nia]).
    change (gen_site (d :: d' :: ds) (x :: x' :: xs))
      with (do res <- gen_site (d'::ds) (x'::xs); Some (u64 (d*res+x))).
    rewrite E. cbn [bindo]. f_equal.
    change (horner (d :: d' :: ds) (x :: x' :: xs)) with (x + d * horner (d'::ds) (x'::xs)).
    rewrite u64_id; [lia|nia].
Qed.

(* the digit extraction ((i - i%s)/s) % L *)
Lemma sub_mod_div i s : 0 < s -> (i - i mod s) / s = i / s.
Proof.
  intros H. rewrite (Z.div_mod i s) at 1 by lia.
  replace (s * (i / s) + i mod s - i mod s) with ((i/s) * s) by ring. apply Z.div_mul; lia.
Qed.

(* get_mom_2piBZ when no direction is masked *)
Lemma removelast_cons2 {A} (a b : A) l : removelast (a :: b :: l) = a :: removelast (b :: l).
Proof. reflexivity. Qed.

Lemma mom_loop_all ds : forall mu i s DIMS,
  Forall (fun L => 0 < L < two31) ds -> 0 < s -> s * prodZ (removelast ds) < two31 ->
  (mu + length ds <= DIMS)%nat -> 0 <= i ->
  mom_2piBZ_loop ds mu i s DIMS = Some (digits ds (i / s)).
Proof.
  induction ds as [|d ds IH]; intros mu i s DIMS Hd Hs Hp HD Hi; [reflexivity|].
  inversion Hd as [|? ? Hd0 Hds]; subst.
  assert (Hs31 : s < two31).
  { assert (0 < prodZ (removelast (d :: ds))).
    { apply prodZ_pos. apply Forall_forall. intros y Hy.
      assert (In y (d::ds)).
      { clear -Hy. revert Hy. generalize (d::ds). intros l. induction l as [|a [|b l] IHl]; simpl in *; tauto. }
      rewrite Forall_forall in Hd. specialize (Hd y H). lia. }
    nia. }
  assert (Hu : u64 s = s) by (apply u64_id; unfold two31, two64 in *; lia).
  cbn [mom_2piBZ_loop]. cbn [length] in HD.
  replace (mu =? DIMS)%nat with false by (symmetry; apply Nat.eqb_neq; lia).
  cbv zeta. rewrite Hu.
  replace ((s =? 0) || (d =? 0)) with false by lia.
  rewrite sub_mod_div by lia.
  assert (Hm : 0 <= (i / s) mod d < d) by (apply Z.mod_pos_bound; lia).
  rewrite (i32_id ((i / s) mod d)) by (unfold two31 in *; lia).
  destruct ds as [|d' ds].
  - reflexivity.
  - rewrite removelast_cons2, prodZ_cons in Hp.
    assert (0 < prodZ (removelast (d' :: ds))).
    { apply prodZ_pos. apply Forall_forall. intros y Hy.
      assert (In y (d'::ds)).
      { clear -Hy. revert Hy. generalize (d'::ds). intros l. induction l as [|a [|b l] IHl]; simpl in *; tauto. }
      rewrite Forall_forall in Hds. specialize (Hds y H). lia. }
    assert (Hsd : 0 < s * d < two31) by nia.
    rewrite (u64_id (s*d)) by (unfold two31, two64 in *; lia).
    rewrite i32_id by (unfold two31 in *; lia).
    rewrite IH; [|assumption|lia|lia|simpl in *; lia|lia].
    cbn [bindo]. change (digits (d :: d' :: ds) (i/s)) with ((i/s) mod d :: digits (d'::ds) ((i/s)/d)).
    rewrite Z.div_div by lia. reflexivity.
Qed.

Lemma ok_volume ds : lattice_ok ds -> 0 < prodZ ds < two64.
Proof.
  intros (Hne & Hd & Hp).
  assert (E : ds = removelast ds ++ [last ds 0]) by (apply app_removelast_last; assumption).
  split; [apply prodZ_pos, ok_pos; assumption|].
  rewrite E in Hd. apply Forall_app in Hd as [Hd1 Hd2]. inversion Hd2; subst.
  rewrite E, prodZ_app. unfold prodZ at 2. simpl fold_right.
  assert (0 < prodZ (removelast ds)) by (apply prodZ_pos, ok_pos; assumption).
  assert (two31 * two31 <= two64) by (unfold two31, two64; lia). nia.
Qed.

Lemma lvolume_prod_gen ds : forall a, 0 <= a -> Forall (fun L => 0 < L) ds -> a * prodZ ds < two64 ->
  fold_left (fun a d => u64 (a * d)) ds a = a * prodZ ds.
Proof.
  induction ds as [|d ds IH]; intros a Ha Hd Hp.
  - unfold prodZ; simpl. lia.
  - cbn [fold_left]. rewrite prodZ_cons in *. inversion Hd; subst.
    pose proof (prodZ_pos ds H2).
    rewrite u64_id by nia. rewrite IH; [ring|nia|assumption|nia].
Qed.
Lemma lvolume_prod ds : lattice_ok ds -> lvolume ds = prodZ ds.
Proof.
  intros H. pose proof (ok_volume ds H) as Hv. destruct H as (Hne & Hd & Hp).
  unfold lvolume. rewrite lvolume_prod_gen; [lia|lia|apply ok_pos; assumption|lia].
Qed.

Lemma get_mom_digits ds i DIMS : lattice_ok ds -> (length ds <= DIMS)%nat -> 0 <= i ->
  get_mom_2piBZ ds i DIMS = Some (digits ds i).
Proof.
  intros (Hne & Hd & Hp) HD Hi. unfold get_mom_2piBZ.
  rewrite mom_loop_all; [rewrite Z.div_1_r; reflexivity|assumption|lia|lia|lia|lia].
Qed.

(* ---- C01 ---- *)
Theorem coords_of_site ds i :
  lattice_ok ds -> 0 <= i < lvolume ds ->
  exists x, get_mom_2piBZ ds i (length ds) = Some x /\ in_box ds x /\
            index_of ds x = i /\ gen_site ds x = Some i.
Proof.
  intros Hok Hi. rewrite lvolume_prod in Hi by assumption.
  pose proof (ok_volume ds Hok) as Hv. pose proof Hok as (Hne & Hd & Hp).
  exists (digits ds i).
  assert (HB : in_box ds (digits ds i)) by (apply digits_in_box, ok_pos; assumption).
  assert (HE : horner ds (digits ds i) = i) by (apply horner_digits; [apply ok_pos; assumption|assumption]).
  repeat split.
  - apply get_mom_digits; [assumption|lia|lia].
  - assumption.
  - rewrite index_of_horner by (apply digits_length). assumption.
  - rewrite gen_site_horner; [congruence|assumption|assumption|lia].
Qed.

Theorem site_of_coords ds x :
  lattice_ok ds -> in_box ds x ->
  exists i, gen_site ds x = Some i /\ i = index_of ds x /\ 0 <= i < lvolume ds /\
            get_mom_2piBZ ds i (length ds) = Some x.
Proof.
  intros Hok Hx. pose proof (ok_volume ds Hok) as Hv. pose proof Hok as (Hne & Hd & Hp).
  exists (horner ds x). rewrite lvolume_prod by assumption.
  pose proof (horner_bound ds x Hx).
  repeat split; try lia.
  - apply gen_site_horner; [assumption|assumption|lia].
  - rewrite index_of_horner; [reflexivity|apply in_box_length; assumption].
  - rewrite get_mom_digits by (try lia; assumption). f_equal. apply digits_horner; assumption.
Qed.

(* ---- list update ---- *)
Lemma set_nth_Some {A} (l : list A) k v : (k < length l)%nat ->
  exists l', set_nth l k v = Some l' /\ length l' = length l /\
    (forall j, nth_error l' j = if Nat.eqb j k then Some v else nth_error l j).
Proof.
  revert k. induction l as [|h t IH]; intros k Hk; simpl in Hk; [lia|].
  destruct k as [|k].
  - exists (v :: t). repeat split. intros [|j]; reflexivity.
  - destruct (IH k) as (t' & E & Hl & Hn); [lia|]. exists (h :: t').
    cbn [set_nth]. rewrite E. repeat split; [simpl; congruence|].
    intros [|j]; [reflexivity|]. cbn [nth_error Nat.eqb]. apply Hn.
Qed.

Lemma in_box_nth ds x : in_box ds x <->
  length x = length ds /\
  (forall k L c, nth_error ds k = Some L -> nth_error x k = Some c -> 0 <= c < L).
Proof.
  split.
  - intros H; split; [apply in_box_length; assumption|].
    induction H as [|d c ds x Hc H IH]; intros k L c' HL Hc'; destruct k; simpl in *; try discriminate.
    + congruence.
    + eapply IH; eassumption.
  - revert x. induction ds as [|d ds IH]; intros [|c x] (Hl & Hn); try discriminate; constructor.
    + apply (Hn 0%nat); reflexivity.
    + apply IH. split; [simpl in Hl; lia|]. intros k L c' HL Hc'. apply (Hn (S k)); assumption.
Qed.

Lemma nth_error_ext_Z (l l' : list Z) : (forall k, nth_error l k = nth_error l' k) -> l = l'.
Proof.
  revert l'. induction l as [|a l IH]; intros [|b l'] H; auto.
  - specialize (H 0%nat); discriminate.
  - specialize (H 0%nat); discriminate.
  - pose proof (H 0%nat) as H0. simpl in H0. inversion H0; subst. f_equal.
    apply IH. intros k. apply (H (S k)).
Qed.

Lemma stepped_in_box ds x y mu s :
  Forall (fun L => 0 < L) ds -> in_box ds x -> stepped ds x y mu s -> in_box ds y.
Proof.
  intros Hpos Hx (Hl & Hn). apply in_box_nth. apply in_box_nth in Hx as (Hlx & Hx).
  split; [congruence|]. intros k L c HL Hc. rewrite Hn in Hc.
  destruct (Nat.eqb k mu).
  - rewrite HL in Hc. destruct (nth_error x k); [|discriminate].
    injection Hc as <-. apply Z.mod_pos_bound.
    rewrite Forall_forall in Hpos. apply Hpos. eapply nth_error_In; eassumption.
  - eapply Hx; eassumption.
Qed.

Lemma gen_shift_fwd ds x mu : lattice_ok ds -> in_box ds x -> (mu < length ds)%nat ->
  exists y, stepped ds x y mu 1 /\ in_box ds y /\
    neighbor ds (horner ds x) mu = Some (horner ds y).
Proof.
  intros Hok Hx Hmu. pose proof (ok_volume ds Hok) as Hv. pose proof Hok as (Hne & Hd & Hp).
  pose proof (in_box_length _ _ Hx) as Hlen. pose proof (horner_bound _ _ Hx) as Hb.
  destruct (nth_error x mu) as [c|] eqn:Ec; [|apply nth_error_None in Ec; lia].
  destruct (nth_error ds mu) as [L|] eqn:EL; [|apply nth_error_None in EL; lia].
  pose proof (proj1 (in_box_nth ds x) Hx) as (_ & Hn).
  pose proof (Hn mu L c EL Ec) as Hc.
  assert (HL : 0 < L < two31).
  { rewrite Forall_forall in Hd. apply Hd. eapply nth_error_In; eassumption. }
  assert (Hv1 : i32 (u64 (c + 1) mod L) = (c + 1) mod L).
  { rewrite u64_id by (unfold two31, two64 in *; lia).
    apply i32_id. pose proof (Z.mod_pos_bound (c+1) L). unfold two31 in *; lia. }
  destruct (set_nth_Some x mu ((c+1) mod L)) as (y & Ey & Hyl & Hyn); [lia|].
  assert (Hst : stepped ds x y mu 1).
  { split; [assumption|]. intros k. rewrite Hyn. destruct (Nat.eqb_spec k mu); [|reflexivity].
    subst. rewrite Ec, EL. reflexivity. }
  assert (Hby : in_box ds y) by (eapply stepped_in_box; eauto using ok_pos).
  exists y. repeat split; try assumption; try apply Hst.
  unfold neighbor, gen_shift.
  rewrite get_mom_digits by (try lia; assumption). rewrite digits_horner by assumption.
  cbn [bindo]. replace (Z.of_nat mu >=? 0) with true by lia. rewrite Nat2Z.id.
  cbv zeta. rewrite Ec, EL. cbn [bindo]. replace (L =? 0) with false by lia.
  rewrite Hv1, Ey. cbn [bindo]. apply gen_site_horner; [assumption|assumption|lia].
Qed.

Lemma gen_shift_bck ds x mu : lattice_ok ds -> in_box ds x -> (mu < length ds)%nat ->
  exists y, stepped ds x y mu (-1) /\ in_box ds y /\
    back ds (horner ds x) mu = Some (horner ds y).
Proof.
  intros Hok Hx Hmu. pose proof (ok_volume ds Hok) as Hv. pose proof Hok as (Hne & Hd & Hp).
  pose proof (in_box_length _ _ Hx) as Hlen. pose proof (horner_bound _ _ Hx) as Hb.
  destruct (nth_error x mu) as [c|] eqn:Ec; [|apply nth_error_None in Ec; lia].
  destruct (nth_error ds mu) as [L|] eqn:EL; [|apply nth_error_None in EL; lia].
  pose proof (proj1 (in_box_nth ds x) Hx) as (_ & Hn).
  pose proof (Hn mu L c EL Ec) as Hc.
  assert (HL : 0 < L < two31).
  { rewrite Forall_forall in Hd. apply Hd. eapply nth_error_In; eassumption. }
  destruct (set_nth_Some x mu ((c + -1) mod L)) as (y & Ey & Hyl & Hyn); [lia|].
  assert (Hst : stepped ds x y mu (-1)).
  { split; [assumption|]. intros k. rewrite Hyn. destruct (Nat.eqb_spec k mu); [|reflexivity].
    subst. rewrite Ec, EL. reflexivity. }
  assert (Hby : in_box ds y) by (eapply stepped_in_box; eauto using ok_pos).
  exists y. repeat split; try assumption; try apply Hst.
  unfold back, gen_shift.
  rewrite get_mom_digits by (try lia; assumption). rewrite digits_horner by assumption.
  cbn [bindo]. replace (- Z.of_nat mu - 1 >=? 0) with false by lia.
  replace (- (- Z.of_nat mu - 1) - 1) with (Z.of_nat mu) by lia. rewrite Nat2Z.id.
  cbv zeta. rewrite Ec, EL. cbn [bindo].
  destruct (Z.eqb_spec c 0) as [->|Hc0].
  - assert (E1 : i32 (u64 (0 - 1 + L)) = (0 + -1) mod L).
    { rewrite u64_id by (unfold two31, two64 in *; lia). rewrite i32_id by (unfold two31 in *; lia).
      apply (Z.mod_unique_pos _ _ (-1)); lia. }
    rewrite E1, Ey. cbn [bindo]. apply gen_site_horner; [assumption|assumption|lia].
  - replace (L =? 0) with false by lia.
    assert (E1 : i32 (u64 (c - 1) mod L) = (c + -1) mod L).
    { rewrite u64_id by (unfold two31, two64 in *; lia).
      replace (c - 1) with (c + -1) by lia.
      apply i32_id. pose proof (Z.mod_pos_bound (c + -1) L). unfold two31 in *; lia. }
    rewrite E1, Ey. cbn [bindo]. apply gen_site_horner; [assumption|assumption|lia].
Qed.

Lemma stepped_unique ds x y z mu s : stepped ds x y mu s -> stepped ds x z mu s -> y = z.
Proof.
  intros (_ & H1) (_ & H2). apply nth_error_ext_Z. intros k. rewrite H1, H2. reflexivity.
Qed.

Lemma stepped_inverse ds x y mu s : in_box ds x -> stepped ds x y mu s -> stepped ds y x mu (- s).
Proof.
  intros Hx (Hl & Hn). apply in_box_nth in Hx as (Hlx & Hx). split; [congruence|].
  intros k. rewrite Hn. destruct (Nat.eqb_spec k mu); [|reflexivity].
  destruct (nth_error x k) as [c|] eqn:Ec; [|reflexivity].
  destruct (nth_error ds k) as [L|] eqn:EL.
  - f_equal. pose proof (Hx k L c EL Ec). 
    rewrite Z.add_mod_idemp_l by lia. replace (c + s + - s) with c by lia.
    rewrite Z.mod_small; lia.
  - apply nth_error_None in EL. assert (k < length x)%nat by (apply nth_error_Some; congruence). lia.
Qed.

Lemma stepped_commute ds x y z w mu s nu t : 
  stepped ds x y mu s -> stepped ds y z nu t ->
  stepped ds x w nu t -> stepped ds w z mu s.
Proof.
  intros (L1 & H1) (L2 & H2) (L3 & H3). split; [congruence|]. intros k.
  rewrite H2, H1, H3.
  destruct (Nat.eqb_spec k nu), (Nat.eqb_spec k mu); subst; try reflexivity.
  destruct (nth_error x mu) as [c|], (nth_error ds mu) as [L|]; try reflexivity.
  f_equal. destruct (Z.eq_dec L 0) as [->|].
  - rewrite !Zmod_0_r. lia.
  - rewrite !Z.add_mod_idemp_l by assumption. f_equal; lia.
Qed.

Lemma stepped_add ds x y z mu s t : Forall (fun L => 0 < L) ds ->
  stepped ds x y mu s -> stepped ds y z mu t -> stepped ds x z mu (s + t).
Proof.
  intros Hpos (L1 & H1) (L2 & H2). split; [congruence|]. intros k. rewrite H2, H1.
  destruct (Nat.eqb_spec k mu); [|reflexivity].
  destruct (nth_error x k), (nth_error ds k) eqn:E; try reflexivity. f_equal.
  assert (0 < z1) by (rewrite Forall_forall in Hpos; apply Hpos; eapply nth_error_In; eassumption).
  rewrite Z.add_mod_idemp_l by lia. f_equal; lia.
Qed.
Lemma stepped_0 ds x mu : in_box ds x -> stepped ds x x mu 0.
Proof.
  intros Hx. apply in_box_nth in Hx as (Hlx & Hx). split; [reflexivity|].
  intros k. destruct (Nat.eqb_spec k mu); [|reflexivity].
  destruct (nth_error x k) as [c|] eqn:Ec; [|reflexivity].
  destruct (nth_error ds k) as [L|] eqn:EL.
  - f_equal. pose proof (Hx k L c EL Ec). rewrite Z.add_0_r, Z.mod_small; lia.
  - apply nth_error_None in EL. assert (k < length x)%nat by (apply nth_error_Some; congruence). lia.
Qed.

Lemma iter_fwd ds mu : lattice_ok ds -> (mu < length ds)%nat -> forall n x, in_box ds x ->
  exists y, stepped ds x y mu (Z.of_nat n) /\ in_box ds y /\
  iter_opt n (fun i => neighbor ds i mu) (horner ds x) = Some (horner ds y).
Proof.
  intros Hok Hmu. induction n as [|n IH]; intros x Hx.
  - exists x. repeat split; try assumption. apply (stepped_0 ds x mu Hx).
  - destruct (gen_shift_fwd ds x mu Hok Hx Hmu) as (y & Hs & Hy & E).
    destruct (IH y Hy) as (z & Hs' & Hz & E').
    exists z. split; [|split; [assumption|]].
    + replace (Z.of_nat (S n)) with (1 + Z.of_nat n) by lia.
      eapply stepped_add; eauto. destruct Hok as (_ & Hd & _). apply ok_pos; assumption.
    + cbn [iter_opt]. rewrite E. exact E'.
Qed.

Lemma site_coords ds i : lattice_ok ds -> 0 <= i < lvolume ds ->
  in_box ds (digits ds i) /\ horner ds (digits ds i) = i.
Proof.
  intros Hok Hi. rewrite lvolume_prod in Hi by assumption. destruct Hok as (_ & Hd & _).
  split; [apply digits_in_box, ok_pos; assumption|apply horner_digits; [apply ok_pos; assumption|assumption]].
Qed.

(* ---- C02 ---- *)
Theorem neighbor_step ds i mu x : lattice_ok ds -> (mu < length ds)%nat -> in_box ds x -> index_of ds x = i ->
  exists j y, neighbor ds i mu = Some j /\ 0 <= j < lvolume ds /\
              in_box ds y /\ index_of ds y = j /\ stepped ds x y mu 1.
Proof.
  intros Hok Hmu Hx <-. destruct (gen_shift_fwd ds x mu Hok Hx Hmu) as (y & Hs & Hy & E).
  exists (horner ds y), y. rewrite index_of_horner by (apply in_box_length; assumption).
  rewrite lvolume_prod by assumption. pose proof (horner_bound _ _ Hy).
  rewrite index_of_horner by (apply in_box_length; assumption). auto.
Qed.
Theorem back_step ds i mu x : lattice_ok ds -> (mu < length ds)%nat -> in_box ds x -> index_of ds x = i ->
  exists j y, back ds i mu = Some j /\ 0 <= j < lvolume ds /\
              in_box ds y /\ index_of ds y = j /\ stepped ds x y mu (-1).
Proof.
  intros Hok Hmu Hx <-. destruct (gen_shift_bck ds x mu Hok Hx Hmu) as (y & Hs & Hy & E).
  exists (horner ds y), y. rewrite index_of_horner by (apply in_box_length; assumption).
  rewrite lvolume_prod by assumption. pose proof (horner_bound _ _ Hy).
  rewrite index_of_horner by (apply in_box_length; assumption). auto.
Qed.

Theorem back_neighbor ds i mu : lattice_ok ds -> (mu < length ds)%nat -> 0 <= i < lvolume ds ->
  (do j <- neighbor ds i mu; back ds j mu) = Some i /\
  (do j <- back ds i mu; neighbor ds j mu) = Some i.
Proof.
  intros Hok Hmu Hi. destruct (site_coords ds i Hok Hi) as (Hx & E).
  split; rewrite <- E at 1.
  - destruct (gen_shift_fwd ds _ mu Hok Hx Hmu) as (y & Hs & Hy & E1). rewrite E1. cbn [bindo].
    destruct (gen_shift_bck ds _ mu Hok Hy Hmu) as (z & Hs' & Hz & E2). rewrite E2.
    replace z with (digits ds i); [congruence|].
    eapply stepped_unique; [|exact Hs']. apply (stepped_inverse _ _ _ _ 1); assumption.
  - destruct (gen_shift_bck ds _ mu Hok Hx Hmu) as (y & Hs & Hy & E1). rewrite E1. cbn [bindo].
    destruct (gen_shift_fwd ds _ mu Hok Hy Hmu) as (z & Hs' & Hz & E2). rewrite E2.
    replace z with (digits ds i); [congruence|].
    eapply stepped_unique; [|exact Hs']. apply (stepped_inverse _ _ _ _ (-1)); assumption.
Qed.

Theorem neighbors_commute ds i mu nu : lattice_ok ds -> (mu < length ds)%nat -> (nu < length ds)%nat ->
  0 <= i < lvolume ds ->
  (do j <- neighbor ds i mu; neighbor ds j nu) = (do j <- neighbor ds i nu; neighbor ds j mu) /\
  (do j <- neighbor ds i mu; back ds j nu) = (do j <- back ds i nu; neighbor ds j mu).
Proof.
  intros Hok Hmu Hnu Hi. destruct (site_coords ds i Hok Hi) as (Hx & E). rewrite <- E.
  destruct (gen_shift_fwd ds _ mu Hok Hx Hmu) as (y & Hs & Hy & E1). rewrite E1. cbn [bindo].
  split.
  - destruct (gen_shift_fwd ds _ nu Hok Hy Hnu) as (z & Hs' & Hz & E2). rewrite E2.
    destruct (gen_shift_fwd ds _ nu Hok Hx Hnu) as (w & Hs'' & Hw & E3). rewrite E3. cbn [bindo].
    destruct (gen_shift_fwd ds _ mu Hok Hw Hmu) as (v & Hs3 & Hv & E4). rewrite E4.
    replace v with z; [reflexivity|]. eapply stepped_unique; [|exact Hs3].
    exact (stepped_commute _ _ _ _ _ _ _ _ _ Hs Hs' Hs'').
  - destruct (gen_shift_bck ds _ nu Hok Hy Hnu) as (z & Hs' & Hz & E2). rewrite E2.
    destruct (gen_shift_bck ds _ nu Hok Hx Hnu) as (w & Hs'' & Hw & E3). rewrite E3. cbn [bindo].
    destruct (gen_shift_fwd ds _ mu Hok Hw Hmu) as (v & Hs3 & Hv & E4). rewrite E4.
    replace v with z; [reflexivity|]. eapply stepped_unique; [|exact Hs3].
    exact (stepped_commute _ _ _ _ _ _ _ _ _ Hs Hs' Hs'').
Qed.

Theorem neighbor_period ds i mu L : lattice_ok ds -> nth_error ds mu = Some L -> 0 <= i < lvolume ds ->
  iter_opt (Z.to_nat L) (fun j => neighbor ds j mu) i = Some i /\
  (forall n, (0 < n < Z.to_nat L)%nat -> iter_opt n (fun j => neighbor ds j mu) i <> Some i).
Proof.
  intros Hok HL Hi. destruct (site_coords ds i Hok Hi) as (Hx & E).
  assert (Hmu : (mu < length ds)%nat) by (apply nth_error_Some; congruence).
  assert (HLp : 0 < L).
  { destruct Hok as (_ & Hd & _). rewrite Forall_forall in Hd. apply Hd. eapply nth_error_In; eassumption. }
  pose proof (proj1 (in_box_nth _ _) Hx) as (Hlen & Hn).
  destruct (nth_error (digits ds i) mu) as [c|] eqn:Ec; [|apply nth_error_None in Ec; lia].
  pose proof (Hn mu L c HL Ec) as Hc.
  split.
  - destruct (iter_fwd ds mu Hok Hmu (Z.to_nat L) _ Hx) as (y & (Hl & Hs) & Hy & E1).
    rewrite <- E at 1. rewrite E1. f_equal. transitivity (horner ds (digits ds i)); [|exact E]. f_equal.
    apply nth_error_ext_Z. intros k. rewrite Hs. destruct (Nat.eqb_spec k mu) as [->|]; [|reflexivity].
    rewrite Ec, HL. f_equal. rewrite Z2Nat.id by lia.
    replace (c + L) with (c + 1 * L) by lia. rewrite Z.mod_add by lia. apply Z.mod_small; lia.
  - intros n Hlt Hcontra.
    destruct (iter_fwd ds mu Hok Hmu n _ Hx) as (y & (Hl & Hs) & Hy & E1).
    rewrite E in E1. rewrite E1 in Hcontra. injection Hcontra as Hy'.
    rewrite <- E in Hy'. rewrite E in Hy'. assert (Hy2 : horner ds y = horner ds (digits ds i)) by congruence.
    clear Hy'. rename Hy2 into Hy'. apply horner_inj in Hy'; [|assumption|assumption].
    specialize (Hs mu). rewrite Nat.eqb_refl, Hy', Ec, HL in Hs. injection Hs as Hs.
    destruct (Z.lt_ge_cases (c + Z.of_nat n) L).
    + rewrite Z.mod_small in Hs; lia.
    + replace (c + Z.of_nat n) with (c + Z.of_nat n - L + 1 * L) in Hs by lia.
      rewrite Z.mod_add, Z.mod_small in Hs by lia. lia.
Qed.

(* the same coordinates are not produced twice once the time-slice volume
   exceeds the range of "int subvol" *)
Lemma large_lattice_collision :
  let ds := [65536; 32768; 2; 2] in
  Forall (fun L => 0 < L < two31) ds /\ 2147483648 < prodZ ds /\
  get_mom_2piBZ ds 0 4 = get_mom_2piBZ ds 2147483648 4.
Proof.
  cbv zeta. split; [|split].
  - unfold two31. repeat constructor; lia.
  - reflexivity.
  - vm_compute; reflexivity.
Qed.
