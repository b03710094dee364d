(* Proofs for C06: the draughtboard. *)
From Coq Require Import Permutation.
From Verif Require Import CInt GeomModel GeomSpec GeomProofs GeomProofs2 DraughtModel.

(* ---- coordinates restricted to the first DIMS directions ---- *)
Lemma mom_loop_firstn ds : forall mu i s DIMS,
  Forall (fun L => 0 < L < two31) ds -> 0 < s -> s * prodZ (removelast ds) < two31 -> 0 <= i ->
  exists r, mom_2piBZ_loop ds mu i s DIMS = Some r /\ length r = length ds /\
    ((mu <= DIMS)%nat -> firstn (DIMS - mu) r = digits (firstn (DIMS - mu) ds) (i / s)).
Proof.
  induction ds as [|d ds IH]; intros mu i s DIMS Hd Hs Hp Hi.
  - exists []. repeat split. intros _. rewrite !firstn_nil. reflexivity.
  - inversion Hd as [|? ? Hd0 Hds]; subst.
    assert (Hrl : 0 < prodZ (removelast (d :: ds))) by (apply prodZ_pos, Forall_removelast, ok_pos; assumption).
    assert (Hrl' : 0 < prodZ (removelast ds)) by (apply prodZ_pos, Forall_removelast, ok_pos; assumption).
    assert (Hs31 : s < two31) by nia.
    cbn [mom_2piBZ_loop]. destruct (Nat.eqb_spec mu DIMS) as [->|Hne].
    + destruct (IH (S DIMS) i s DIMS Hds Hs) as (r & Er & Hl & _); [|assumption|].
      { destruct ds as [|d' ds]; [change (prodZ (removelast [])) with 1; lia|].
        rewrite removelast_cons2, prodZ_cons in Hp. nia. }
      rewrite Er. cbn [bindo]. exists (0 :: r). repeat split; [cbn [length]; congruence|].
      intros _. rewrite Nat.sub_diag. reflexivity.
    + assert (Hu : u64 s = s) by (apply u64_id; unfold two31, two64 in *; lia).
      cbv zeta. rewrite Hu. replace ((s =? 0) || (d =? 0)) with false by lia.
      rewrite sub_mod_div by lia.
      assert (Hm : 0 <= (i / s) mod d < d) by (apply Z.mod_pos_bound; lia).
      rewrite (i32_id ((i / s) mod d)) by (unfold two31 in *; lia).
      destruct ds as [|d' ds].
      * cbn [mom_2piBZ_loop bindo]. exists [(i/s) mod d]. repeat split. intros Hmu.
        destruct (DIMS - mu)%nat as [|k] eqn:Ek; [reflexivity|]. cbn [firstn]. rewrite firstn_nil. reflexivity.
      * rewrite removelast_cons2, prodZ_cons in Hp.
        assert (Hsd : 0 < s * d < two31) by nia.
        rewrite (u64_id (s*d)) by (unfold two31, two64 in *; lia).
        rewrite (i32_id (s*d)) by (unfold two31 in *; lia).
        destruct (IH (S mu) i (s*d) DIMS Hds) as (r & Er & Hl & Hf); [lia|lia|assumption|].
        rewrite Er. cbn [bindo]. exists ((i/s) mod d :: r). repeat split; [cbn [length] in *; congruence|].
        intros Hmu. specialize (Hf ltac:(lia)).
        replace (DIMS - mu)%nat with (S (DIMS - S mu)) by lia. cbn [firstn digits].
        rewrite Hf. rewrite Z.div_div by lia. reflexivity.
Qed.

Lemma get_mom_firstn ds i DIMS : lattice_ok ds -> 0 <= i ->
  exists r, get_mom_2piBZ ds i DIMS = Some r /\ length r = length ds /\
            firstn DIMS r = digits (firstn DIMS ds) i.
Proof.
  intros (Hne & Hd & Hp) Hi. unfold get_mom_2piBZ.
  destruct (mom_loop_firstn ds 0 i 1 DIMS Hd) as (r & Er & Hl & Hf); [lia|lia|assumption|].
  exists r. rewrite Nat.sub_0_r, Z.div_1_r in Hf. auto with arith.
Qed.

(* ---- the colour as a function of the coordinates ---- *)
Fixpoint evs (ds x : list Z) : Z :=
  match ds, x with
  | L :: ds, c :: x => (if L mod 2 =? 0 then c else 0) + evs ds x
  | _, _ => 0
  end.
Fixpoint ods (ds x : list Z) : Z :=
  match ds, x with
  | L :: ds, c :: x => (if L mod 2 =? 0 then 0 else c) + ods ds x
  | _, _ => 0
  end.
Definition colour (ds x : list Z) (nc : Z) : Z := (evs ds x mod 2 + ods ds x) mod nc.

Lemma evod_bound ds x : in_box ds x -> 0 <= evs ds x /\ 0 <= ods ds x /\ evs ds x + ods ds x <= prodZ ds - 1.
Proof.
  induction 1 as [|d c ds x Hc Hx IH].
  - change (prodZ []) with 1. cbn. lia.
  - rewrite prodZ_cons. cbn [evs ods]. destruct (d mod 2 =? 0); nia.
Qed.

Lemma parity_sums_spec ds : forall n k e o, length n = length ds -> (k <= length ds)%nat ->
  in_box (firstn k ds) (firstn k n) -> 0 <= e -> 0 <= o ->
  e + o + evs (firstn k ds) (firstn k n) + ods (firstn k ds) (firstn k n) < two64 ->
  parity_sums ds n k e o =
    Some (e + evs (firstn k ds) (firstn k n), o + ods (firstn k ds) (firstn k n)).
Proof.
  induction ds as [|d ds IH]; intros [|c n] k e o Hl Hk Hb He Ho Hsum; try discriminate.
  - destruct k; [|simpl in Hk; lia]. cbn. rewrite !Z.add_0_r. reflexivity.
  - destruct k as [|k]; [cbn; rewrite !Z.add_0_r; reflexivity|].
    cbn [firstn] in *. inversion Hb as [|? ? ? ? Hc Hx]; subst. cbn [evs ods] in Hsum. cbn [parity_sums evs ods].
    pose proof (evod_bound _ _ Hx) as (B1 & B2 & _). cbn [length] in *.
    destruct (d mod 2 =? 0).
    + rewrite (u64_id c) by lia. rewrite u64_id by lia. rewrite IH; [do 2 f_equal; lia|lia|lia|assumption|lia|lia|lia].
    + rewrite (u64_id c) by lia. rewrite u64_id by lia. rewrite IH; [do 2 f_equal; lia|lia|lia|assumption|lia|lia|lia].
Qed.

Lemma prodZ_firstn_le ds k : Forall (fun L => 0 < L) ds -> 0 < prodZ (firstn k ds) <= prodZ ds.
Proof.
  intros H. revert k. induction H as [|d ds Hd H IH]; intros [|k].
  - change (prodZ (firstn 0 [])) with 1. change (prodZ []) with 1. lia.
  - change (prodZ (firstn (S k) [])) with 1. change (prodZ []) with 1. lia.
  - rewrite prodZ_cons. change (prodZ (firstn 0 (d :: ds))) with 1. specialize (IH 0%nat).
    change (prodZ (firstn 0 ds)) with 1 in IH. nia.
  - cbn [firstn]. rewrite !prodZ_cons. specialize (IH k). nia.
Qed.

Lemma Forall_firstn {A} (P : A -> Prop) l k : Forall P l -> Forall P (firstn k l).
Proof. intros H. revert k. induction H; intros [|k]; cbn; constructor; auto. Qed.

Lemma get_midx_colour ds i k nc : lattice_ok ds -> (k <= length ds)%nat -> 0 <= i -> 0 < nc ->
  get_midx ds i k nc = Some (colour (firstn k ds) (digits (firstn k ds) i) nc).
Proof.
  intros Hok Hk Hi Hnc. pose proof (ok_volume ds Hok) as Hv. pose proof Hok as (Hne & Hd & Hp).
  pose proof (ok_pos _ Hd) as Hpos.
  destruct (get_mom_firstn ds i k Hok Hi) as (r & Er & Hl & Hf).
  unfold get_midx. rewrite Er. cbn [bindo].
  pose proof (prodZ_firstn_le ds k Hpos) as Hle.
  assert (Hb : in_box (firstn k ds) (firstn k r)).
  { rewrite Hf. apply digits_in_box. apply Forall_firstn; assumption. }
  pose proof (evod_bound _ _ Hb) as (B1 & B2 & B3).
  rewrite parity_sums_spec; [|assumption|assumption|assumption|lia|lia|lia].
  cbn [bindo]. rewrite !Z.add_0_l. replace (nc =? 0) with false by lia. rewrite Hf in *.
  assert (0 <= evs (firstn k ds) (digits (firstn k ds) i) mod 2 < 2) by (apply Z.mod_pos_bound; lia).
  rewrite u64_id by lia. reflexivity.
Qed.

(* ---- the counting and filling loops ---- *)
Lemma set_nth_spec {A} (l : list A) k v : (k < length l)%nat ->
  exists l', set_nth l k v = Some l' /\ length l' = length l /\
    forall j, nth_error l' j = if Nat.eqb j k then Some v else nth_error l j.
Proof.
  revert k. induction l as [|a l IH]; intros k Hk; [simpl in Hk; lia|].
  destruct k as [|k].
  - exists (v :: l). repeat split. intros [|j]; reflexivity.
  - cbn [length] in Hk. destruct (IH k) as (l' & E & Hl & Hn); [lia|].
    cbn [set_nth]. rewrite E. exists (a :: l'). repeat split; [cbn; congruence|].
    intros [|j]; [reflexivity|]. cbn [nth_error]. rewrite Hn. reflexivity.
Qed.

Definition has (f : Z -> Z) (c : nat) (l : list Z) : list Z := filter (fun i => f i =? Z.of_nat c) l.

Lemma count_loop_spec midx f l : forall ns,
  (forall i, In i l -> midx i = Some (f i) /\ 0 <= f i < Z.of_nat (length ns)) ->
  (forall c v, nth_error ns c = Some v -> 0 <= v /\ v + Z.of_nat (length l) < two64) ->
  exists ns', count_loop midx l ns = Some ns' /\ length ns' = length ns /\
    forall c, nth_error ns' c = option_map (fun v => v + Z.of_nat (length (has f c l))) (nth_error ns c).
Proof.
  induction l as [|i l IH]; intros ns Hm Hv.
  - exists ns. repeat split. intros c. cbn. destruct (nth_error ns c); cbn; [rewrite Z.add_0_r|]; reflexivity.
  - destruct (Hm i (or_introl eq_refl)) as (Em & Hr). cbn [count_loop]. rewrite Em. cbn [bindo].
    destruct (nth_error ns (Z.to_nat (f i))) as [v|] eqn:Ev; [|apply nth_error_None in Ev; lia].
    cbn [bindo]. pose proof (Hv _ _ Ev) as Hvb. cbn [length] in Hvb.
    rewrite u64_id by lia.
    destruct (set_nth_spec ns (Z.to_nat (f i)) (v + 1)) as (n1 & E1 & L1 & N1); [lia|].
    rewrite E1. cbn [bindo]. destruct (IH n1) as (n2 & E2 & L2 & N2).
    + intros j Hj. rewrite L1. apply Hm. right; assumption.
    + intros c w Hw. rewrite N1 in Hw. destruct (Nat.eqb c (Z.to_nat (f i))).
      * injection Hw as <-. lia.
      * apply Hv in Hw. cbn [length] in Hw. lia.
    + exists n2. rewrite E2. repeat split; [congruence|]. intros c. rewrite N2, N1. unfold has. cbn [filter].
      destruct (Nat.eqb_spec c (Z.to_nat (f i))) as [->|Hne].
      * rewrite Ev. cbn [option_map]. replace (f i =? Z.of_nat (Z.to_nat (f i))) with true by lia.
        cbn [length]. f_equal. lia.
      * replace (f i =? Z.of_nat c) with false by lia. reflexivity.
Qed.

Lemma fill_loop_spec midx f l : forall caps sq,
  length caps = length sq ->
  (forall i, In i l -> midx i = Some (f i) /\ 0 <= f i < Z.of_nat (length sq)) ->
  (forall c v s, nth_error caps c = Some v -> nth_error sq c = Some s ->
      Z.of_nat (length s) + Z.of_nat (length (has f c l)) <= v) ->
  exists sq', fill_loop midx l caps sq = Some sq' /\ length sq' = length sq /\
    forall c, nth_error sq' c = option_map (fun s => s ++ has f c l) (nth_error sq c).
Proof.
  induction l as [|i l IH]; intros caps sq Hl Hm Hv.
  - exists sq. repeat split. intros c. cbn. destruct (nth_error sq c); cbn; [rewrite app_nil_r|]; reflexivity.
  - destruct (Hm i (or_introl eq_refl)) as (Em & Hr). cbn [fill_loop]. rewrite Em. cbn [bindo].
    destruct (nth_error caps (Z.to_nat (f i))) as [v|] eqn:Ev; [|apply nth_error_None in Ev; lia].
    destruct (nth_error sq (Z.to_nat (f i))) as [s|] eqn:Es; [|apply nth_error_None in Es; lia].
    cbn [bindo]. pose proof (Hv _ _ _ Ev Es) as Hvb. unfold has in Hvb. cbn [filter] in Hvb.
    replace (f i =? Z.of_nat (Z.to_nat (f i))) with true in Hvb by lia. cbn [length] in Hvb.
    replace (Z.of_nat (length s) <? v) with true by lia.
    destruct (set_nth_spec sq (Z.to_nat (f i)) (s ++ [i])) as (n1 & E1 & L1 & N1); [lia|].
    rewrite E1. cbn [bindo]. destruct (IH caps n1) as (n2 & E2 & L2 & N2).
    + congruence.
    + intros j Hj. rewrite L1. apply Hm. right; assumption.
    + intros c w s' Hw Hs'. rewrite N1 in Hs'. destruct (Nat.eqb_spec c (Z.to_nat (f i))) as [->|Hne].
      * injection Hs' as <-. rewrite Hw in Ev. injection Ev as ->. rewrite app_length. cbn [length].
        unfold has. lia.
      * specialize (Hv _ _ _ Hw Hs'). unfold has in Hv. cbn [filter] in Hv.
        replace (f i =? Z.of_nat c) with false in Hv by lia. unfold has. lia.
    + exists n2. rewrite E2. repeat split; [congruence|]. intros c. rewrite N2, N1. unfold has. cbn [filter].
      destruct (Nat.eqb_spec c (Z.to_nat (f i))) as [->|Hne].
      * rewrite Es. cbn [option_map]. replace (f i =? Z.of_nat (Z.to_nat (f i))) with true by lia.
        rewrite <- app_assoc. reflexivity.
      * replace (f i =? Z.of_nat c) with false by lia. reflexivity.
Qed.

Lemma zseq_In n i : In i (zseq n) <-> 0 <= i < n.
Proof.
  unfold zseq. rewrite in_map_iff. split.
  - intros (k & <- & Hk). apply in_seq in Hk. lia.
  - intros H. exists (Z.to_nat i). split; [lia|]. apply in_seq. lia.
Qed.
Lemma zseq_NoDup n : NoDup (zseq n).
Proof. apply FinFun.Injective_map_NoDup; [intros a b; lia|apply seq_NoDup]. Qed.
Lemma zseq_length n : 0 <= n -> Z.of_nat (length (zseq n)) = n.
Proof. intros. unfold zseq. rewrite map_length, seq_length. lia. Qed.

Lemma nth_error_3 {A} (l : list A) : length l = 3%nat -> exists a b c, l = [a;b;c].
Proof. destruct l as [|a [|b [|c [|d l]]]]; try discriminate. eauto. Qed.
Lemma nth_error_2 {A} (l : list A) : length l = 2%nat -> exists a b, l = [a;b].
Proof. destruct l as [|a [|b [|c l]]]; try discriminate. eauto. Qed.

Lemma has_perm2 f l : (forall i, In i l -> 0 <= f i < 2) ->
  Permutation (has f 0 l ++ has f 1 l) l.
Proof.
  induction l as [|a l IH]; intros H; [constructor|].
  specialize (IH (fun i Hi => H i (or_intror Hi))). pose proof (H a (or_introl eq_refl)) as Ha.
  unfold has in *. cbn [filter]. destruct (Z.eq_dec (f a) 0) as [E|E].
  - rewrite E. cbn. constructor. exact IH.
  - replace (f a) with 1 by lia. cbn. rewrite <- Permutation_middle. constructor. exact IH.
Qed.
Lemma has_perm3 f l : (forall i, In i l -> 0 <= f i < 3) ->
  Permutation (has f 0 l ++ has f 1 l ++ has f 2 l) l.
Proof.
  induction l as [|a l IH]; intros H; [constructor|].
  specialize (IH (fun i Hi => H i (or_intror Hi))). pose proof (H a (or_introl eq_refl)) as Ha.
  unfold has in *. cbn [filter]. destruct (Z.eq_dec (f a) 0) as [E|E]; [|destruct (Z.eq_dec (f a) 1) as [E1|E1]].
  - rewrite E. cbn. constructor. exact IH.
  - rewrite E1. cbn. rewrite <- Permutation_middle. constructor. exact IH.
  - replace (f a) with 2 by lia. cbn. rewrite app_assoc, <- Permutation_middle, <- app_assoc. constructor. exact IH.
Qed.

Lemma colour_range ds x nc : 0 < nc -> 0 <= colour ds x nc < nc.
Proof. intros. apply Z.mod_pos_bound. lia. Qed.

(* two colours suffice exactly when no odd extent exceeds 1 *)
Definition small_odd (ds : list Z) : Prop := Forall (fun L => L mod 2 = 0 \/ L = 1) ds.

Lemma small_odd_ods ds x : small_odd ds -> in_box ds x -> ods ds x = 0.
Proof.
  intros Hs Hx. induction Hx as [|d c ds x Hc Hx IH]; [reflexivity|]. inversion Hs; subst.
  cbn [ods]. rewrite IH by assumption. destruct (Z.eqb_spec (d mod 2) 0); lia.
Qed.

Lemma small_odd_dec ds : {small_odd ds} + {exists p q L, ds = p ++ L :: q /\ L mod 2 <> 0 /\ L <> 1}.
Proof.
  induction ds as [|d ds [IH|IH]].
  - left; constructor.
  - destruct (Z.eq_dec (d mod 2) 0); [left; constructor; auto|].
    destruct (Z.eq_dec d 1); [left; constructor; auto|]. right. exists [], ds, d. auto.
  - right. destruct IH as (p & q & L & -> & H). exists (d :: p), q, L. auto.
Qed.

Lemma zeros_box ds : Forall (fun L => 0 < L) ds -> in_box ds (map (fun _ => 0) ds).
Proof. induction 1; constructor; auto; lia. Qed.
Lemma evs_zeros ds : evs ds (map (fun _ => 0) ds) = 0 /\ ods ds (map (fun _ => 0) ds) = 0.
Proof. induction ds as [|d ds (IH1 & IH2)]; [auto|]. cbn [map evs ods]. rewrite IH1, IH2. destruct (d mod 2 =? 0); auto. Qed.

(* the coordinates with c in the middle and zero elsewhere *)
Definition spike (p q : list Z) (c : Z) : list Z := map (fun _ => 0) p ++ c :: map (fun _ => 0) q.
Lemma spike_box p q L c : Forall (fun L => 0 < L) (p ++ L :: q) -> 0 <= c < L -> in_box (p ++ L :: q) (spike p q c).
Proof.
  intros H Hc. apply Forall_app in H as [H1 H2]. inversion H2; subst.
  apply Forall2_app; [apply zeros_box; assumption|]. constructor; [assumption|apply zeros_box; assumption].
Qed.
Lemma evs_app a b x y : length x = length a -> evs (a ++ b) (x ++ y) = evs a x + evs b y /\ ods (a ++ b) (x ++ y) = ods a x + ods b y.
Proof.
  revert x. induction a as [|d a IH]; intros [|c x] H; try discriminate; [cbn; lia|].
  cbn [app evs ods]. destruct (IH x) as (-> & ->); [simpl in H; lia|]. lia.
Qed.
Lemma evs_spike p q L c : evs (p ++ L :: q) (spike p q c) = (if L mod 2 =? 0 then c else 0) /\
                          ods (p ++ L :: q) (spike p q c) = (if L mod 2 =? 0 then 0 else c).
Proof.
  unfold spike. destruct (evs_app p (L :: q) (map (fun _ => 0) p) (c :: map (fun _ => 0) q)) as (-> & ->); [apply map_length|].
  destruct (evs_zeros p) as (-> & ->). cbn [evs ods]. destruct (evs_zeros q) as (-> & ->). lia.
Qed.

Section Init.
Variables (ds : list Z) (k : nat).
Hypothesis Hok : lattice_ok ds.
Hypothesis Hk : (k <= length ds)%nat.
Let dk := firstn k ds.
Let n := prodZ dk.
Let col (nc : Z) (i : Z) : Z := colour dk (digits dk i) nc.

Lemma dk_pos : Forall (fun L => 0 < L) dk.
Proof. destruct Hok as (_ & Hd & _). apply Forall_firstn, ok_pos. exact Hd. Qed.
Lemma n_bound : 0 < n < two64.
Proof.
  pose proof (ok_volume ds Hok). destruct Hok as (_ & Hd & _).
  pose proof (prodZ_firstn_le ds k (ok_pos _ Hd)). unfold n, dk. lia.
Qed.
Lemma midx_col nc i : 0 < nc -> In i (zseq n) -> get_midx ds i k nc = Some (col nc i) /\ 0 <= col nc i < nc.
Proof.
  intros Hnc Hi. apply zseq_In in Hi. split; [apply get_midx_colour; [assumption|assumption|lia|assumption]|].
  apply colour_range; assumption.
Qed.

Lemma has_empty f c l : length (has f c l) = 0%nat -> forall i, In i l -> f i <> Z.of_nat c.
Proof.
  intros H i Hi E. assert (In i (has f c l)) by (apply filter_In; split; [assumption|lia]).
  destruct (has f c l); [contradiction|discriminate].
Qed.

Lemma site_of_box x : in_box dk x -> In (horner dk x) (zseq n) /\ digits dk (horner dk x) = x.
Proof.
  intros Hx. split; [apply zseq_In, horner_bound; assumption|apply digits_horner; assumption].
Qed.

Lemma no_third_small_odd : (forall i, In i (zseq n) -> col 3 i <> 2) -> small_odd dk.
Proof.
  intros H. destruct (small_odd_dec dk) as [|(p & q & L & E & HL & HL1)]; [assumption|exfalso].
  pose proof dk_pos as Hp. rewrite E in Hp.
  assert (HL0 : 0 < L) by (apply Forall_app in Hp as [_ Hp]; inversion Hp; assumption).
  assert (HL3 : 3 <= L). { destruct (Z.eq_dec L 2); [subst; contradiction HL; reflexivity|lia]. }
  pose proof (spike_box p q L 2 Hp ltac:(lia)) as Hb. rewrite <- E in Hb.
  destruct (site_of_box _ Hb) as (Hi & Hd). apply (H _ Hi). unfold col. rewrite Hd, E. unfold colour.
  destruct (evs_spike p q L 2) as (-> & ->). destruct (Z.eqb_spec (L mod 2) 0); [contradiction|reflexivity].
Qed.

Lemma small_odd_col i : small_odd dk -> In i (zseq n) -> col 2 i = col 3 i /\ col 3 i < 2.
Proof.
  intros Hs Hi. apply zseq_In in Hi. pose proof (digits_in_box dk i dk_pos) as Hb.
  unfold col, colour. rewrite (small_odd_ods _ _ Hs Hb).
  pose proof (Z.mod_pos_bound (evs dk (digits dk i)) 2 ltac:(lia)).
  rewrite Z.add_0_r. set (e := evs dk (digits dk i) mod 2) in *. clearbody e. rewrite !Z.mod_small by lia. lia.
Qed.

Lemma origin_col nc : 0 < nc -> In 0 (zseq n) /\ col nc 0 = 0.
Proof.
  intros Hnc. pose proof (zeros_box dk dk_pos) as Hb. destruct (site_of_box _ Hb) as (Hi & Hd).
  assert (E : horner dk (map (fun _ => 0) dk) = 0).
  { clear. induction dk as [|d l IH]; [reflexivity|]. cbn [map horner]. rewrite IH. lia. }
  rewrite E in *. split; [assumption|]. unfold col, colour. rewrite Hd. destruct (evs_zeros dk) as (-> & ->).
  apply Z.mod_0_l; lia.
Qed.

Lemma unit_col nc : 2 <= nc -> 1 < n -> exists i, In i (zseq n) /\ col nc i = 1.
Proof.
  intros Hnc Hn.
  assert (exists p q L, dk = p ++ L :: q /\ 2 <= L) as (p & q & L & E & HL).
  { pose proof dk_pos as Hp. unfold n in Hn. clear -Hp Hn. induction Hp as [|d l Hd Hp IH].
    - change (prodZ []) with 1 in Hn. lia.
    - destruct (Z.eq_dec d 1) as [->|].
      + rewrite prodZ_cons in Hn. destruct IH as (p & q & L & -> & HL); [lia|]. exists (1 :: p), q, L. auto.
      + exists [], l, d. split; [reflexivity|lia]. }
  pose proof dk_pos as Hp. rewrite E in Hp.
  pose proof (spike_box p q L 1 Hp ltac:(lia)) as Hb. rewrite <- E in Hb.
  destruct (site_of_box _ Hb) as (Hi & Hd). exists (horner dk (spike p q 1)). split; [assumption|].
  unfold col, colour. rewrite Hd, E. destruct (evs_spike p q L 1) as (-> & ->).
  destruct (L mod 2 =? 0); cbn; apply Z.mod_small; lia.
Qed.

Definition three : bool := negb (Nat.eqb (length (has (col 3) 2 (zseq n))) 0).

Lemma init_cb_eq :
  init_cb ds n k = Some (if n =? 1 then CbFailure else
     let nc := if three then 3%nat else 2%nat in
     CbOk nc (map (fun c => has (col (Z.of_nat nc)) c (zseq n)) (seq 0 nc))) /\
  (three = false -> small_odd dk).
Proof.
  pose proof n_bound as Hn.
  assert (Hsmall : three = false -> small_odd dk).
  { intros H3. apply no_third_small_odd. unfold three in H3. apply Bool.negb_false_iff, Nat.eqb_eq in H3.
    intros i Hi. apply (has_empty _ _ _ H3 i Hi). }
  split; [|exact Hsmall].
  destruct (count_loop_spec (fun i => get_midx ds i k 3) (col 3) (zseq n) [0;0;0]) as (ns & E & Hl & Hc).
  - intros i Hi. apply (midx_col 3); [lia|assumption].
  - intros c v Hv. rewrite zseq_length by lia. destruct c as [|[|[|c]]]; cbn in Hv; try (injection Hv as <-; lia).
    destruct c; discriminate.
  - destruct (nth_error_3 ns Hl) as (a & b & c & ->).
    pose proof (Hc 0%nat) as H0. pose proof (Hc 1%nat) as H1. pose proof (Hc 2%nat) as H2.
    cbn [nth_error option_map] in H0, H1, H2. injection H0 as H0. injection H1 as H1. injection H2 as H2.
    unfold init_cb. rewrite E. cbn [bindo nth_error].
    assert (Ha : a <> 0).
    { destruct (origin_col 3 ltac:(lia)) as (Hi & Ho). intros ->.
      apply (has_empty (col 3) 0 (zseq n) ltac:(lia) 0 Hi). exact Ho. }
    assert (Hb : b = 0 <-> n = 1).
    { split.
      - intros ->. destruct (Z.eq_dec n 1); [assumption|exfalso].
        destruct (unit_col 3 ltac:(lia) ltac:(lia)) as (i & Hi & Ei).
        apply (has_empty (col 3) 1 (zseq n) ltac:(lia) i Hi). exact Ei.
      - intros En. rewrite H1. rewrite En. unfold zseq. change (Z.to_nat 1) with 1%nat. cbn [seq map].
        destruct (origin_col 3 ltac:(lia)) as (_ & Ho). unfold has. cbn [filter]. change (Z.of_nat 0) with 0.
        rewrite Ho. reflexivity. }
    assert (Hc2 : (c =? 0) = negb three).
    { unfold three. rewrite Bool.negb_involutive. destruct (Nat.eqb_spec (length (has (col 3) 2 (zseq n))) 0); lia. }
    cbv zeta. rewrite Hc2. destruct three eqn:E3; cbn [negb].
    + assert (c <> 0) by lia. cbn [firstn existsb].
      replace (a =? 0) with false by lia. replace (c =? 0) with false by lia. cbn [orb].
      destruct (Z.eqb_spec b 0) as [Eb|Eb].
      * replace (n =? 1) with true by (symmetry; apply Z.eqb_eq; tauto). reflexivity.
      * replace (n =? 1) with false by (symmetry; apply Z.eqb_neq; tauto). cbn [orb].
        change (Z.of_nat 3) with 3.
        destruct (fill_loop_spec (fun i => get_midx ds i k 3) (col 3) (zseq n) [a;b;c] [[];[];[]]) as (sq & Es & Hsl & Hs).
        -- reflexivity.
        -- intros i Hi. apply (midx_col 3); [lia|assumption].
        -- intros cc v s Hv Hs. destruct cc as [|[|[|cc]]]; cbn in Hv, Hs; try (injection Hv as <-; injection Hs as <-; cbn [length]; lia).
           destruct cc; discriminate.
        -- change (repeat [] 3) with ([[];[];[]] : list (list Z)). rewrite Es. cbn [bindo]. do 2 f_equal.
           destruct (nth_error_3 sq Hsl) as (x & y & z & ->).
           pose proof (Hs 0%nat) as G0. pose proof (Hs 1%nat) as G1. pose proof (Hs 2%nat) as G2.
           cbn [nth_error option_map app] in G0, G1, G2. injection G0 as ->. injection G1 as ->. injection G2 as ->. reflexivity.
    + specialize (Hsmall eq_refl). assert (c = 0) by lia. cbn [firstn existsb].
      replace (a =? 0) with false by lia. cbn [orb].
      assert (Hh : forall cc, has (col 2) cc (zseq n) = has (col 3) cc (zseq n)).
      { intros cc. unfold has. apply filter_ext_in. intros i Hi. destruct (small_odd_col i Hsmall Hi) as (-> & _). reflexivity. }
      destruct (Z.eqb_spec b 0) as [Eb|Eb].
      * replace (n =? 1) with true by (symmetry; apply Z.eqb_eq; tauto). reflexivity.
      * replace (n =? 1) with false by (symmetry; apply Z.eqb_neq; tauto). cbn [orb].
        change (Z.of_nat 2) with 2.
        destruct (fill_loop_spec (fun i => get_midx ds i k 2) (col 2) (zseq n) [a;b] [[];[]]) as (sq & Es & Hsl & Hs).
        -- reflexivity.
        -- intros i Hi. apply (midx_col 2); [lia|assumption].
        -- intros cc v s Hv Hs. rewrite Hh. destruct cc as [|[|cc]]; cbn in Hv, Hs; try (injection Hv as <-; injection Hs as <-; cbn [length]; lia).
           destruct cc; discriminate.
        -- change (repeat [] 2) with ([[];[]] : list (list Z)). rewrite Es. cbn [bindo]. do 2 f_equal.
           destruct (nth_error_2 sq Hsl) as (x & y & ->).
           pose proof (Hs 0%nat) as G0. pose proof (Hs 1%nat) as G1.
           cbn [nth_error option_map app] in G0, G1. injection G0 as ->. injection G1 as ->. reflexivity.
Qed.

Lemma cb_partition_ok : 1 < n ->
  exists nc sq, init_cb ds n k = Some (CbOk nc sq) /\ length sq = nc /\ (nc = 2 \/ nc = 3)%nat /\
    Permutation (concat sq) (zseq n) /\ Forall (fun s => s <> []) sq.
Proof.
  intros Hn. destruct init_cb_eq as (E & Hsm). replace (n =? 1) with false in E by lia.
  eexists _, _. split; [exact E|]. split; [rewrite map_length, seq_length; reflexivity|].
  split; [destruct three; auto|].
  assert (Hne : forall nc c, 2 <= nc -> (c < 2)%nat -> has (col nc) c (zseq n) <> []).
  { intros nc c Hnc Hc E0. destruct c as [|[|c]]; [| |lia].
    - destruct (origin_col nc ltac:(lia)) as (Hi & Ho). apply (has_empty (col nc) 0 (zseq n)) with (i := 0); [rewrite E0; reflexivity|assumption|exact Ho].
    - destruct (unit_col nc Hnc ltac:(lia)) as (i & Hi & Ei).
      apply (has_empty (col nc) 1 (zseq n)) with (i := i); [rewrite E0; reflexivity|assumption|exact Ei]. }
  destruct three eqn:E3.
  - split.
    + cbn [seq map concat]. rewrite app_nil_r. change (Z.of_nat 3) with 3. apply has_perm3.
      intros i Hi. apply midx_col; [lia|assumption].
    + cbn [seq map]. repeat constructor; [apply Hne; lia|apply Hne; lia|].
      intros E0. unfold three in E3. change (Z.of_nat 3) with 3 in E0. rewrite E0 in E3. discriminate.
  - split.
    + cbn [seq map concat]. rewrite app_nil_r. change (Z.of_nat 2) with 2. apply has_perm2.
      intros i Hi. apply midx_col; [lia|assumption].
    + cbn [seq map]. repeat constructor; apply Hne; lia.
Qed.

Lemma cb_single : n = 1 -> init_cb ds n k = Some CbFailure.
Proof. intros Hn. destruct init_cb_eq as (E & _). rewrite E, Hn. reflexivity. Qed.

Lemma cb_class nc sq c s i : init_cb ds n k = Some (CbOk nc sq) -> nth_error sq c = Some s -> In i s ->
  0 <= i < n /\ colour dk (digits dk i) (Z.of_nat nc) = Z.of_nat c /\ (nc = 3 \/ nc = 2 /\ small_odd dk)%nat.
Proof.
  destruct init_cb_eq as (E & Hsm). rewrite E. destruct (n =? 1); [discriminate|].
  cbv zeta. intros H. injection H as Hnc <-. intros Hs Hi. rewrite nth_error_map in Hs.
  destruct (nth_error (seq 0 _) c) as [c'|] eqn:Ec; [|discriminate]. cbn in Hs. injection Hs as <-.
  assert (c' = c).
  { assert (Hlt : (c < (if three then 3 else 2))%nat).
    { assert (Hn : nth_error (seq 0 (if three then 3%nat else 2%nat)) c <> None) by congruence. apply nth_error_Some in Hn. rewrite seq_length in Hn. exact Hn. }
    rewrite (nth_error_nth' _ 0%nat) in Ec by (rewrite seq_length; exact Hlt).
    rewrite seq_nth in Ec by exact Hlt. injection Ec as <-. reflexivity. }
  subst c'. apply filter_In in Hi as (Hi & Hc). apply zseq_In in Hi. split; [assumption|].
  rewrite <- Hnc. split; [unfold col in Hc; lia|]. destruct three; [auto|right; auto].
Qed.
End Init.
