(** Slabs and slices of the lattice, as numbered by Qslab.c and Qmoments.c. *)
From Coq Require Import Permutation Setoid.
From Verif Require Import CInt GeomModel GeomSpec GeomProofs GeomProofs2 Cplx CMat Arr FftModel FftProofs QtopModel QtopSpec.
Local Open Scope Z_scope.

(** * Sums *)
Lemma sum_cons p x l : sum_over p (x :: l) = (p x + sum_over p l)%R. Proof. reflexivity. Qed.
Lemma sum_nil p : sum_over p [] = 0%R. Proof. reflexivity. Qed.
Lemma sum_over_app p a b : sum_over p (a ++ b) = (sum_over p a + sum_over p b)%R.
Proof. induction a as [|x a IH]; cbn [app]; rewrite ?sum_nil, ?sum_cons; [ring|]. rewrite IH. ring. Qed.
Lemma sum_over_perm p a b : Permutation a b -> sum_over p a = sum_over p b.
Proof. induction 1; rewrite ?sum_cons; lra. Qed.
Lemma sum_over_map p (g : nat -> nat) l : sum_over p (map g l) = sum_over (fun i => p (g i)) l.
Proof. induction l as [|x l IH]; [reflexivity|]. cbn [map]. now rewrite !sum_cons, IH. Qed.
Lemma sum_over_ext p q l : (forall i, In i l -> p i = q i) -> sum_over p l = sum_over q l.
Proof. induction l as [|x l IH]; intro H; [reflexivity|]. rewrite !sum_cons, IH, (H x); auto using in_eq, in_cons. Qed.
Lemma sum_over_mul c p l : sum_over (fun i => c * p i)%R l = (c * sum_over p l)%R.
Proof. induction l as [|x l IH]; rewrite ?sum_nil, ?sum_cons; [ring|]. rewrite IH. ring. Qed.
Lemma sum_over_plus p q l : sum_over (fun i => p i + q i)%R l = (sum_over p l + sum_over q l)%R.
Proof. induction l as [|x l IH]; rewrite ?sum_nil, ?sum_cons; [ring|]. rewrite IH. ring. Qed.
Lemma sum_over_0 l : sum_over (fun _ => 0%R) l = 0%R.
Proof. induction l as [|x l IH]; [reflexivity|]. rewrite sum_cons, IH. ring. Qed.
Lemma sum_over_swap (f : nat -> nat -> R) a b : sum_over (fun i => sum_over (f i) b) a = sum_over (fun j => sum_over (fun i => f i j) a) b.
Proof.
  induction a as [|x a IH]; [symmetry; apply sum_over_0|].
  rewrite sum_cons, IH, <- sum_over_plus. reflexivity.
Qed.
Lemma sum_over_filter p (c : nat -> bool) l : sum_over p (filter c l) = sum_over (fun i => if c i then p i else 0%R) l.
Proof. induction l as [|x l IH]; [reflexivity|]. cbn [filter]. rewrite sum_cons, <- IH. destruct (c x); [reflexivity|ring]. Qed.

Lemma for_ok {A} (f : nat -> A -> A) (g : nat -> A -> A) n s : (forall i t, (i < n)%nat -> f i t = g i t) -> for_ n f s = for_ n g s.
Proof. induction n as [|n IH]; intro H; [reflexivity|]. cbn [for_]. rewrite IH by (intros; apply H; lia). apply H. lia. Qed.
Lemma for_some n f (v : nat -> R) : (forall i, (i < n)%nat -> f i = Some (v i)) -> total n f = Some (sum_over v (seq 0 n)).
Proof.
  unfold total. induction n as [|n IH]; intro H; [reflexivity|]. cbn [for_]. rewrite IH by (intros; apply H; lia). cbn [bindo].
  rewrite H by lia. cbn [bindo]. f_equal. rewrite seq_S, sum_over_app. cbn. ring.
Qed.
Lemma csum_real n (v : nat -> R) : csum n (fun i => RtoC (v i)) = RtoC (sum_over v (seq 0 n)).
Proof.
  induction n as [|n IH]; [reflexivity|]. cbn [csum]. rewrite IH, <- RtoC_add. f_equal. rewrite seq_S, sum_over_app. cbn. ring.
Qed.

Lemma fill_ok order f v : (forall i, In i order -> f i = Some (v i)) ->
  forall a, exists a', fill order f a = Some a' /\ (forall i, In i order -> a' i = v i) /\ (forall i, ~ In i order -> a' i = a i).
Proof.
  unfold fill. induction order as [|x order IH]; intros H a.
  - exists a. split; [reflexivity|]. split; [intros i []|reflexivity].
  - cbn [fold_left bindo]. rewrite (H x) by apply in_eq. cbn [bindo].
    destruct (IH (fun i Hi => H i (in_cons _ _ _ Hi)) (upd a x (v x))) as (a' & E & F & G). exists a'. split; [exact E|]. split.
    + intros i [->|Hi]; [|now apply F]. destruct (in_dec Nat.eq_dec i order) as [Y|N]; [now apply F|]. rewrite G by assumption. apply upd_eq.
    + intros i Hi. rewrite G by (intro; apply Hi; now right). apply upd_neq. intros ->. apply Hi. now left.
Qed.
Lemma fill_range order n f v : Permutation order (seq 0 n) -> (forall i, (i < n)%nat -> f i = Some (v i)) ->
  forall a, exists a', fill order f a = Some a' /\ (forall i, (i < n)%nat -> a' i = v i) /\ (forall i, (n <= i)%nat -> a' i = a i).
Proof.
  intros P H a. assert (In1 : forall i, In i order <-> (i < n)%nat).
  { intro i. split; intro K; [apply (Permutation_in _ P), in_seq in K; lia|apply (Permutation_in _ (Permutation_sym P)), in_seq; lia]. }
  destruct (fill_ok order f v (fun i Hi => H i (proj1 (In1 i) Hi)) a) as (a' & E & F & G). exists a'. split; [exact E|]. split.
  - intros i Hi. apply F, In1, Hi.
  - intros i Hi. apply G. rewrite In1. lia.
Qed.

(** * Coordinates *)
Lemma nth_digits ds : Forall (fun L => 0 < L) ds -> forall mu i, 0 <= i -> (mu < length ds)%nat -> nth mu (digits ds i) 0 = (i / prodZ (firstn mu ds)) mod nth mu ds 1.
Proof.
  induction 1 as [|L ds HL Hds IH]; intros [|mu] i Hi Hm; cbn [length] in Hm; try lia.
  - cbn. now rewrite Z.div_1_r.
  - cbn [digits nth firstn]. rewrite IH by (try lia; apply Z.div_pos; lia). rewrite prodZ_cons.
    assert (0 < prodZ (firstn mu ds)). { apply prodZ_pos. apply Forall_forall. intros x Hx. rewrite Forall_forall in Hds. apply Hds. rewrite <- (firstn_skipn mu ds); apply in_or_app; now left. }
    now rewrite Z.div_div by lia.
Qed.
Lemma coord_digits ds mu i : Forall (fun L => 0 < L) ds -> (mu < length ds)%nat -> coord ds mu i = nth mu (digits ds (Z.of_nat i)) 0.
Proof. intros. unfold coord. rewrite nth_digits by (assumption || lia). reflexivity. Qed.
Lemma coords_digits ds i : Forall (fun L => 0 < L) ds -> coords ds i = digits ds (Z.of_nat i).
Proof.
  intro Hd. unfold coords. apply nth_ext with (d := 0) (d' := 0).
  - now rewrite map_length, seq_length, digits_length.
  - intros n Hn. rewrite map_length, seq_length in Hn. rewrite (nth_indep _ 0 (coord ds 0 i)) by (now rewrite map_length, seq_length).
    rewrite (map_nth (fun mu => coord ds mu i)), seq_nth by assumption. now apply coord_digits.
Qed.
Lemma plus_site_shift ds x r : Forall (fun L => 0 < L) ds -> plus_site ds x r = shift ds x r.
Proof.
  intro Hd. unfold plus_site, shift. rewrite !coords_digits by assumption. rewrite index_of_horner; [reflexivity|].
  apply in_box_length, translate_box; [assumption|now apply digits_in_box|apply digits_length].
Qed.
Lemma nsites_size ds : nsites ds = fft_size ds. Proof. reflexivity. Qed.

(** replacing one coordinate *)
Fixpoint put (l : list Z) (k : nat) (v : Z) : list Z :=
  match l, k with [], _ => [] | _ :: l, O => v :: l | a :: l, S k => a :: put l k v end.
Lemma put_length l : forall k v, length (put l k v) = length l.
Proof. induction l as [|a l IH]; intros [|k] v; cbn; auto. Qed.
Lemma set_nth_put {l : list Z} : forall k v, (k < length l)%nat -> set_nth l k v = Some (put l k v).
Proof. induction l as [|a l IH]; intros [|k] v H; cbn in *; try lia; [reflexivity|]. rewrite IH by lia. reflexivity. Qed.
Lemma put_put l : forall k u v, put (put l k u) k v = put l k v.
Proof. induction l as [|a l IH]; intros [|k] u v; cbn; [reflexivity..|]. now rewrite IH. Qed.
Lemma put_same l d : forall k, put l k (nth k l d) = l.
Proof. induction l as [|a l IH]; intros [|k]; cbn; [reflexivity..|]. now rewrite IH. Qed.
Lemma nth_put l d : forall k v, (k < length l)%nat -> nth k (put l k v) d = v.
Proof. induction l as [|a l IH]; intros [|k] v H; cbn in *; try lia; apply IH; lia. Qed.
Lemma slab_dims_put ds dir T : forall mu, slab_dims ds dir T mu = if Nat.ltb dir mu then ds else put ds (dir - mu) T.
Proof.
  induction ds as [|L ds IH]; intro mu; cbn [slab_dims]; [now destruct (Nat.ltb dir mu)|]. rewrite IH.
  destruct (Nat.eqb_spec mu dir) as [->|N].
  - rewrite Nat.ltb_irrefl, Nat.sub_diag. replace (dir <? S dir)%nat with true by (symmetry; apply Nat.ltb_lt; lia). reflexivity.
  - destruct (Nat.ltb_spec dir mu).
    + replace (dir <? S mu)%nat with true by (symmetry; apply Nat.ltb_lt; lia). reflexivity.
    + replace (dir <? S mu)%nat with false by (symmetry; apply Nat.ltb_ge; lia). replace (dir - mu)%nat with (S (dir - S mu)) by lia. reflexivity.
Qed.
Lemma slab_dims_0 ds dir T : slab_dims ds dir T 0 = put ds dir T.
Proof. rewrite slab_dims_put. cbn. now rewrite Nat.sub_0_r. Qed.
Lemma in_box_put ds x T v : in_box ds x -> 0 <= v < T -> forall k, in_box (put ds k T) (put x k v).
Proof.
  intros Hx Hv. induction Hx as [|L c ds x Hc Hx IH]; intros [|k]; cbn; try constructor; try assumption; apply IH.
Qed.
Lemma in_box_nth' ds x k : in_box ds x -> (k < length ds)%nat -> 0 <= nth k x 0 < nth k ds 1.
Proof.
  intro Hx. revert k. induction Hx as [|L c ds x Hc Hx IH]; intros [|k] H; cbn in *; try lia. apply IH; lia.
Qed.
Lemma put_pos ds k T : Forall (fun L => 0 < L) ds -> 0 < T -> Forall (fun L => 0 < L) (put ds k T).
Proof. intros Hd HT. revert k. induction Hd as [|L ds HL Hd IH]; intros [|k]; cbn; constructor; auto. Qed.
Lemma put_removelast l : forall k v, removelast (put l k v) = put (removelast l) k v.
Proof.
  induction l as [|a l IH]; intros k v; [reflexivity|]. destruct l as [|b l]; [now destruct k|].
  destruct k as [|k]; [reflexivity|].
  change (put (a :: b :: l) (S k) v) with (a :: put (b :: l) k v).
  change (put (removelast (a :: b :: l)) (S k) v) with (a :: put (removelast (b :: l)) k v). rewrite <- IH.
  destruct k; reflexivity.
Qed.
Lemma prodZ_put ds : Forall (fun L => 0 < L) ds -> forall k T, 0 < T <= nth k ds T -> prodZ (put ds k T) <= prodZ ds.
Proof.
  induction 1 as [|L ds HL Hds IH]; intros [|k] T HT; cbn [put nth] in *; rewrite ?prodZ_cons; try lia.
  - pose proof (prodZ_pos ds Hds). nia.
  - specialize (IH k T HT). nia.
Qed.
Lemma nth_removelast {A} (l : list A) d : forall k, nth k (removelast l) d = nth k l d \/ (nth k (removelast l) d = d).
Proof.
  induction l as [|a l IH]; intro k; [now left|]. destruct l as [|b l]; [cbn; destruct k; now right|].
  cbn [removelast]. destruct k; [now left|]. apply IH.
Qed.
Lemma lattice_ok_put ds k T : lattice_ok ds -> (k < length ds)%nat -> 1 <= T <= nth k ds 1 -> lattice_ok (put ds k T).
Proof.
  intros (Hne & Hd & Hp) Hk HT. split; [|split].
  - intro E. apply (f_equal (@length Z)) in E. rewrite put_length in E. cbn in E. lia.
  - assert (T < two31) by (rewrite Forall_forall in Hd; specialize (Hd _ (nth_In ds 1 Hk)); lia).
    clear - Hd HT H. revert k HT. induction Hd as [|L ds HL Hd IH]; intros [|k] HT; cbn in *; constructor; try assumption; try lia. now apply IH.
  - rewrite put_removelast.
    assert (P : Forall (fun L => 0 < L) (removelast ds)) by (apply Forall_removelast, ok_pos, Hd).
    eapply Z.le_lt_trans; [|exact Hp]. apply prodZ_put; [assumption|]. split; [lia|].
    destruct (nth_removelast ds T k) as [E|E]; rewrite E; [rewrite (nth_indep _ T 1) by assumption; lia|lia].
Qed.
Lemma put_inj x y k u v : length x = length y -> (k < length x)%nat -> put x k u = put y k v -> nth k x 0 = nth k y 0 -> x = y.
Proof.
  revert y k. induction x as [|a x IH]; intros [|b y] [|k] Hl Hk E H; cbn in *; try lia; [injection E; congruence|].
  injection E as -> E. f_equal. eapply IH; eauto; lia.
Qed.

Lemma NoDup_map_in {A B} (f : A -> B) l : (forall x y, In x l -> In y l -> f x = f y -> x = y) -> NoDup l -> NoDup (map f l).
Proof.
  induction l as [|a l IH]; intros H N; [constructor|]. inversion_clear N. cbn [map]. constructor.
  - rewrite in_map_iff. intros (y & E & Hy). assert (y = a) by (apply H; [now right|now left|exact E]). now subst.
  - apply IH; [|assumption]. intros x y Hx Hy. apply H; now right.
Qed.

(** * The sites of a slab *)
Section Slab.
Variables (ds : list Z) (dir : nat) (T0 T1 : Z).
Hypothesis Hok : lattice_ok ds.
Hypothesis Hdir : (dir < length ds)%nat.
Let L := nth dir ds 1.
Hypothesis HT0 : 0 <= T0 < L.
Hypothesis HT1 : 1 <= T1 <= L.
Let sd := put ds dir T1.
Let Pos : Forall (fun L => 0 < L) ds. Proof. destruct Hok as (_ & H & _). now apply ok_pos. Qed.
Let LP : 0 < L < two31. Proof. destruct Hok as (_ & H & _). rewrite Forall_forall in H. apply H. apply nth_In, Hdir. Qed.
Let SdOk : lattice_ok sd. Proof. apply lattice_ok_put; [exact Hok|exact Hdir|exact HT1]. Qed.
Let SdPos : Forall (fun L => 0 < L) sd. Proof. apply put_pos; [exact Pos|lia]. Qed.

Definition bump (x : list Z) : list Z := put x dir ((nth dir x 0 + T0) mod L).
Definition slab_site (i : nat) : nat := Z.to_nat (horner ds (bump (digits sd (Z.of_nat i)))).
Lemma put_ds : put sd dir L = ds. Proof. unfold sd. rewrite put_put. unfold L. apply put_same. Qed.
Lemma bump_box x : in_box sd x -> in_box ds (bump x).
Proof. intro Hx. rewrite <- put_ds. apply in_box_put; [exact Hx|]. apply Z.mod_pos_bound; lia. Qed.
Lemma slab_site_lt i : (slab_site i < nsites ds)%nat.
Proof.
  unfold slab_site, nsites. pose proof (horner_bound ds _ (bump_box _ (digits_in_box sd (Z.of_nat i) SdPos))). lia.
Qed.
Lemma sd_nth x : in_box sd x -> 0 <= nth dir x 0 < T1.
Proof.
  intro Hx. pose proof (in_box_nth' sd x dir Hx) as H. unfold sd in H. rewrite put_length, nth_put in H by assumption. auto.
Qed.
Lemma sd_len x : in_box sd x -> length x = length ds.
Proof. intro Hx. rewrite (in_box_length _ _ Hx). apply put_length. Qed.

Lemma slab_idx_ok i : slab_idx ds sd dir T0 (Z.of_nat i) = Some (Z.of_nat (slab_site i)).
Proof.
  unfold slab_idx, get_mom_2piBZ_slab. fold (get_mom_2piBZ sd (Z.of_nat i) (length ds)).
  rewrite get_mom_digits; [|exact SdOk|unfold sd; rewrite put_length; lia|lia]. cbn [bindo].
  set (x := digits sd (Z.of_nat i)). assert (Hx : in_box sd x) by (now apply digits_in_box).
  pose proof (sd_nth x Hx) as Hn. pose proof (sd_len x Hx) as Hl.
  rewrite (nth_error_nth' x 0) by lia. cbn [bindo].
  rewrite (nth_error_nth' ds 1) by assumption. cbn [bindo]. fold L.
  replace (L =? 0) with false by lia.
  rewrite set_nth_put by lia. cbn [bindo].
  rewrite !u64_id by (unfold two31, two64 in *; rewrite ?u64_id; unfold two64; lia).
  pose proof (Z.mod_pos_bound (nth dir x 0 + T0) L).
  rewrite i32_id by (unfold two31 in *; lia). fold (bump x).
  pose proof (bump_box x Hx) as B. pose proof (horner_bound _ _ B). pose proof (ok_volume ds Hok).
  destruct Hok as (Hne & Hd & _). rewrite gen_site_horner; [|exact Hne|exact B|lia]. f_equal. unfold slab_site. fold x. lia.
Qed.
Lemma slab_perm : Permutation (map slab_site (seq 0 (fft_size sd))) (slab ds dir T0 T1).
Proof.
  assert (Dig : forall i, (i < fft_size sd)%nat -> digits ds (Z.of_nat (slab_site i)) = bump (digits sd (Z.of_nat i))).
  { intros i Hi. apply (site_horner ds); [exact Pos|apply slab_site_lt|apply bump_box, digits_in_box, SdPos|reflexivity]. }
  apply NoDup_Permutation.
  - apply NoDup_map_in; [|apply seq_NoDup]. intros i j Hi Hj E. apply in_seq in Hi. apply in_seq in Hj.
    assert (Eb : bump (digits sd (Z.of_nat i)) = bump (digits sd (Z.of_nat j))) by (rewrite <- !Dig by lia; now rewrite E).
    set (x := digits sd (Z.of_nat i)) in *. set (y := digits sd (Z.of_nat j)) in *.
    assert (Hx : in_box sd x) by (now apply digits_in_box). assert (Hy : in_box sd y) by (now apply digits_in_box).
    pose proof (sd_nth x Hx). pose proof (sd_nth y Hy). pose proof (sd_len x Hx). pose proof (sd_len y Hy).
    assert (x = y).
    { unfold bump in Eb. refine (put_inj x y dir _ _ _ _ Eb _); [congruence|lia|].
      apply (f_equal (fun l => nth dir l 0)) in Eb. rewrite !nth_put in Eb by lia.
      assert (K : (nth dir x 0 - nth dir y 0) mod L = 0).
      { replace (nth dir x 0 - nth dir y 0) with ((nth dir x 0 + T0) - (nth dir y 0 + T0)) by lia.
        rewrite Zminus_mod, Eb, Z.sub_diag. apply Z.mod_0_l. lia. }
      apply Z.mod_divide in K; [|lia]. destruct K as [q K]. assert (q = 0) by nia. lia. }
    apply (f_equal (horner sd)) in H3. unfold x, y in H3. unfold fft_size in *. pose proof (prodZ_pos sd SdPos).
    rewrite !horner_digits in H3 by (assumption || lia). lia.
  - apply NoDup_filter, seq_NoDup.
  - intro k. unfold slab, sites. rewrite filter_In, in_map_iff, in_seq. fold L. split.
    + intros (i & <- & Hi). apply in_seq in Hi. split; [pose proof (slab_site_lt i); lia|].
      rewrite coord_digits by (exact Pos || exact Hdir). rewrite Dig by lia.
      set (x := digits sd (Z.of_nat i)). assert (Hx : in_box sd x) by (now apply digits_in_box).
      unfold bump. rewrite nth_put by (rewrite (sd_len x Hx); exact Hdir).
      pose proof (sd_nth x Hx). rewrite Zminus_mod_idemp_l. replace (nth dir x 0 + T0 - T0) with (nth dir x 0) by lia.
      rewrite Z.mod_small by lia. lia.
    + intros [Hk H]. apply Z.ltb_lt in H. rewrite coord_digits in H by (exact Pos || exact Hdir).
      set (y := digits ds (Z.of_nat k)) in *. assert (Hy : in_box ds y) by (apply digits_in_box, Pos).
      pose proof (in_box_nth' ds y dir Hy Hdir) as Hn. fold L in Hn.
      set (c := (nth dir y 0 - T0) mod L) in *. assert (Hc : 0 <= c < L) by (apply Z.mod_pos_bound; lia).
      set (x := put y dir c). assert (Hx : in_box sd x) by (apply in_box_put; [exact Hy|lia]).
      pose proof (horner_bound sd x Hx) as Hb.
      exists (Z.to_nat (horner sd x)). split; [|apply in_seq; unfold fft_size; lia].
      unfold slab_site. rewrite Z2Nat.id by lia. rewrite digits_horner by exact Hx.
      assert (E : bump x = y).
      { unfold bump, x. rewrite put_put, nth_put by (rewrite (in_box_length _ _ Hy); exact Hdir). unfold c.
        rewrite Zplus_mod_idemp_l. replace (nth dir y 0 - T0 + T0) with (nth dir y 0) by lia. rewrite Z.mod_small by exact Hn. apply put_same. }
      rewrite E. unfold y. unfold nsites in Hk. rewrite horner_digits by (exact Pos || lia). lia.
Qed.
Lemma slab_total p : sum_over (fun i => p (slab_site i)) (seq 0 (fft_size sd)) = sum_over p (slab ds dir T0 T1).
Proof. rewrite <- sum_over_map. apply sum_over_perm, slab_perm. Qed.
End Slab.
