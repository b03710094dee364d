From Coq Require Import Sorted.
From Verif Require Import CInt Lib TripModel.

(* ---- the box of momenta in odometer order ---- *)
Definition zvals (r : Z) : list Z := map (fun k => Z.of_nat k - r) (seq 0 (Z.to_nat (2 * r + 1))).
Fixpoint enum (r : Z) (n : nat) : list (list Z) :=
  match n with
  | O => [[]]
  | S m => flat_map (fun a => map (cons a) (enum r m)) (zvals r)
  end.

Lemma in_zvals r c : 0 <= r -> (In c (zvals r) <-> - r <= c <= r).
Proof.
  intros Hr. unfold zvals. rewrite in_map_iff. split.
  - intros (k & <- & Hk). apply in_seq in Hk. lia.
  - intros H. exists (Z.to_nat (c + r)). split; [lia|]. apply in_seq. lia.
Qed.
Lemma in_enum r n p : 0 <= r -> (In p (enum r n) <-> length p = n /\ Forall (fun c => - r <= c <= r) p).
Proof.
  intros Hr. revert p. induction n as [|n IH]; intros p; cbn [enum].
  - split; [intros [<-|[]]; auto|]. intros (H & _). destruct p; [now left|discriminate].
  - rewrite in_flat_map. split.
    + intros (a & Ha & Hp). apply in_map_iff in Hp. destruct Hp as (q & <- & Hq). apply IH in Hq. apply in_zvals in Ha; [|assumption].
      cbn. destruct Hq as (-> & Hq). split; [reflexivity|]. now constructor.
    + intros (Hl & Hf). destruct p as [|a q]; [discriminate|]. inversion Hf; subst. injection Hl as Hl.
      exists a. split; [now apply in_zvals|]. apply in_map, IH. auto.
Qed.
Lemma NoDup_map_inj {A B} (f : A -> B) l : (forall a b, f a = f b -> a = b) -> NoDup l -> NoDup (map f l).
Proof.
  intros Hf H. induction H as [|a l Ha H IH]; cbn; constructor; [|assumption].
  intros Hi. apply in_map_iff in Hi. destruct Hi as (b & E & Hb). apply Hf in E. now subst.
Qed.
Lemma NoDup_flat_map {A B} (f : A -> list B) l : NoDup l -> (forall a, In a l -> NoDup (f a)) ->
  (forall a b x, In a l -> In b l -> In x (f a) -> In x (f b) -> a = b) -> NoDup (flat_map f l).
Proof.
  intros H. induction H as [|a l Ha H IH]; intros H1 H2; cbn [flat_map]; [constructor|].
  apply NoDup_app_intro; [apply H1; now left|apply IH|].
  - intros; apply H1; now right.
  - intros b c x Hb Hc. apply H2; now right.
  - intros x Hx Hx'. apply in_flat_map in Hx'. destruct Hx' as (b & Hb & Hx').
    apply Ha. rewrite (H2 a b x); auto; [now left|now right].
Qed.
Lemma zvals_NoDup r : NoDup (zvals r).
Proof. apply NoDup_map_inj; [intros; lia|apply seq_NoDup]. Qed.
Lemma enum_NoDup r n : NoDup (enum r n).
Proof.
  induction n as [|n IH]; cbn [enum]; [repeat constructor; auto|]. apply NoDup_flat_map; [apply zvals_NoDup| |].
  - intros a _. apply NoDup_map_inj; [congruence|assumption].
  - intros a b x _ _ Ha Hb. apply in_map_iff in Ha, Hb. destruct Ha as (? & <- & _), Hb as (? & E & _). congruence.
Qed.
Lemma enum_length r n : 0 <= r -> length (enum r n) = states r n.
Proof.
  intros Hr. unfold states. induction n as [|n IH]; [reflexivity|]. cbn [enum].
  assert (E : forall l, length (flat_map (fun a : Z => map (cons a) (enum r n)) l) = (length l * length (enum r n))%nat).
  { induction l as [|a l IHl]; [reflexivity|]. cbn [flat_map length]. rewrite app_length, map_length, IHl. lia. }
  rewrite E, IH. unfold zvals. rewrite map_length, seq_length. rewrite <- Z2Nat.inj_mul by (try lia; apply Z.pow_nonneg; lia).
  f_equal. rewrite Nat2Z.inj_succ, Z.pow_succ_r by lia. ring.
Qed.

(* ---- the odometer visits the box ---- *)
Inductive visits (r : Z) : list Z -> list (list Z) -> Prop :=
| v_last p : bump r p = None -> visits r p [p]
| v_next p p' l : bump r p = Some p' -> visits r p' l -> visits r p (p :: l).

Lemma visits_end r q W a : visits r q W -> a = r -> visits r (a :: q) (map (cons a) W).
Proof.
  intros H Ha. induction H as [p E|p p' l E H IH]; cbn [map].
  - apply v_last. cbn [bump]. rewrite E. destruct (Z.ltb_spec a r); [lia|reflexivity].
  - eapply v_next; [|exact IH]. cbn [bump]. now rewrite E.
Qed.
Lemma bump_length r p : forall p', bump r p = Some p' -> length p' = length p.
Proof.
  induction p as [|a q IH]; intros p' E; cbn in E; [discriminate|]. destruct (bump r q) as [q'|].
  - injection E as <-. cbn. f_equal. now apply IH.
  - destruct (a <? r); [|discriminate]. injection E as <-. cbn. now rewrite map_length.
Qed.
Lemma repeat_map {A B} (x : B) (l : list A) : map (fun _ => x) l = repeat x (length l).
Proof. induction l; cbn; congruence. Qed.
Lemma visits_step r q W a l' : visits r q W -> a < r -> visits r (a + 1 :: repeat (- r) (length q)) l' ->
  visits r (a :: q) (map (cons a) W ++ l').
Proof.
  intros H Ha Hn. induction H as [p E|p p' l E H IH]; cbn [map app].
  - eapply v_next; [|exact Hn]. cbn [bump]. rewrite E. destruct (Z.ltb_spec a r); [|lia]. f_equal. f_equal. apply repeat_map.
  - eapply v_next; [|apply IH]. { cbn [bump]. now rewrite E. }
    now rewrite (bump_length _ _ _ E).
Qed.
Lemma visits_enum r n : 0 <= r -> visits r (repeat (- r) n) (enum r n).
Proof.
  intros Hr. induction n as [|n IH]; cbn [repeat enum]; [now apply v_last|].
  assert (K : forall k, (k <= Z.to_nat (2 * r))%nat ->
    visits r (r - Z.of_nat k :: repeat (- r) n)
      (flat_map (fun a => map (cons a) (enum r n)) (map (fun j => Z.of_nat j - r) (seq (Z.to_nat (2 * r) - k) (S k))))).
  { induction k as [|k IHk]; intros Hk.
    - cbn [seq map flat_map]. rewrite app_nil_r. replace (Z.of_nat (Z.to_nat (2 * r) - 0) - r) with (r - Z.of_nat 0) by lia.
      apply visits_end; [assumption|lia].
    - remember (S k) as k1 eqn:E1. cbn [seq map flat_map].
      replace (Z.of_nat (Z.to_nat (2 * r) - k1) - r) with (r - Z.of_nat k1) by lia.
      apply visits_step; [assumption|lia|]. rewrite repeat_length.
      replace (r - Z.of_nat k1 + 1) with (r - Z.of_nat k) by lia.
      replace (S (Z.to_nat (2 * r) - k1))%nat with (Z.to_nat (2 * r) - k)%nat by lia. subst k1. apply IHk. lia. }
  specialize (K (Z.to_nat (2 * r)) ltac:(lia)).
  replace (r - Z.of_nat (Z.to_nat (2 * r))) with (- r) in K by lia.
  unfold zvals. replace (Z.to_nat (2 * r + 1)) with (S (Z.to_nat (2 * r))) by lia.
  rewrite Nat.sub_diag in K. exact K.
Qed.

(* ---- the inner recursion ---- *)
Definition inner (nn : Z) (p1 p2 : list Z) : bool := (sq p2 =? nn) && (sq (vadd p1 p2) =? nn).

Lemma p2_first rat mom nn r tri p1 p2 l : visits r p2 l -> forall fuel count check, (length l <= fuel)%nat ->
  recurse_p2 fuel rat mom nn r true tri p1 p2 count check =
  Some (tri, check + Z.of_nat (length (filter (inner nn p1) l))).
Proof.
  intros H. induction H as [p E|p p' l E H IH]; intros [|fuel] count check Hf; cbn [length] in Hf; try lia;
    cbn [recurse_p2]; fold (inner nn p1 p); cbn [filter]; destruct (inner nn p1 p); cbn [bindo]; rewrite E;
    try rewrite IH by lia; cbn [length filter]; f_equal; f_equal; lia.
Qed.
Lemma set_nth_mid {A} (a : list A) b c v : set_nth (a ++ b :: c) (length a) v = Some (a ++ v :: c).
Proof. induction a as [|x a IH]; [reflexivity|]. cbn. now rewrite IH. Qed.
Lemma p2_fill rat mom nn r p1 p2 l : visits r p2 l -> forall fuel count check A B C, (length l <= fuel)%nat ->
  length B = length (filter (inner nn p1) l) -> count + check = Z.of_nat (length A) ->
  recurse_p2 fuel rat mom nn r false (A ++ B ++ C) p1 p2 count check =
  Some (A ++ map (fun q => Some (entry rat mom p1 q)) (filter (inner nn p1) l) ++ C, check + Z.of_nat (length (filter (inner nn p1) l))).
Proof.
  intros H. induction H as [p E|p p' l E H IH]; intros [|fuel] count check A B C Hf HB HA; cbn [length] in Hf; try lia;
    cbn [recurse_p2]; fold (inner nn p1 p); cbn [filter] in *; destruct (inner nn p1 p); cbn [bindo].
  - destruct B as [|b [|]]; try discriminate. rewrite HA, Nat2Z.id. cbn [app]. rewrite set_nth_mid. cbn [bindo]. rewrite E.
    cbn [map app length]. f_equal.
  - destruct B; try discriminate. rewrite E. cbn [map app length]. f_equal. f_equal. lia.
  - destruct B as [|b B]; try discriminate. rewrite HA, Nat2Z.id. cbn [app]. rewrite set_nth_mid. cbn [bindo]. rewrite E.
    replace (A ++ Some (entry rat mom p1 p) :: B ++ C) with ((A ++ [Some (entry rat mom p1 p)]) ++ B ++ C) by (rewrite <- app_assoc; reflexivity).
    rewrite IH; [|lia|cbn in HB; lia|rewrite app_length; cbn [length]; lia].
    cbn [map app length]. rewrite <- app_assoc. cbn [app]. f_equal. f_equal. lia.
  - rewrite E. apply IH; [lia|assumption|assumption].
Qed.

(* ---- the outer recursion ---- *)
Definition found (nn : Z) (l : list (list Z)) (E : list (list Z)) : list (list Z * list Z) :=
  flat_map (fun p1 => if sq p1 =? nn then map (pair p1) (filter (inner nn p1) E) else []) l.

Lemma p1_first rat mom nn r tri n p1 l : 0 <= r -> visits r p1 l -> length p1 = n -> forall fuel count, (length l <= fuel)%nat ->
  recurse_p fuel rat mom nn r true tri p1 count =
  Some (tri, count + Z.of_nat (length (found nn l (enum r n)))).
Proof.
  intros Hr H. induction H as [p E|p p' l E H IH]; intros Hn [|fuel] count Hf; cbn [length] in Hf; try lia;
    cbn [recurse_p]; rewrite repeat_map, Hn; rewrite (p2_first rat mom nn r tri p _ _ (visits_enum r n Hr)) by (rewrite enum_length by assumption; lia);
    unfold found; cbn [flat_map]; destruct (sq p =? nn); cbn [bindo]; rewrite E.
  - rewrite app_nil_r, map_length. f_equal.
  - cbn. f_equal. f_equal. lia.
  - rewrite IH; [|rewrite (bump_length _ _ _ E); assumption|lia]. rewrite app_length, map_length. f_equal. f_equal. unfold found. lia.
  - rewrite IH; [|rewrite (bump_length _ _ _ E); assumption|lia]. reflexivity.
Qed.
Lemma p1_fill rat mom nn r n p1 l : 0 <= r -> visits r p1 l -> length p1 = n -> forall fuel count A B C, (length l <= fuel)%nat ->
  length B = length (found nn l (enum r n)) -> count = Z.of_nat (length A) ->
  recurse_p fuel rat mom nn r false (A ++ B ++ C) p1 count =
  Some (A ++ map (fun p => Some (entry rat mom (fst p) (snd p))) (found nn l (enum r n)) ++ C,
        count + Z.of_nat (length (found nn l (enum r n)))).
Proof.
  intros Hr H. induction H as [p E|p p' l E H IH]; intros Hn [|fuel] count A B C Hf HB HA; cbn [length] in Hf; try lia;
    cbn [recurse_p]; rewrite repeat_map, Hn; unfold found in *; cbn [flat_map] in *; destruct (sq p =? nn).
  - rewrite app_nil_r in *. rewrite map_length in HB.
    rewrite (p2_fill rat mom nn r p _ _ (visits_enum r n Hr)) by (rewrite ?enum_length by assumption; lia).
    cbn [bindo]. rewrite E, map_map, map_length. cbn [fst snd]. f_equal.
  - destruct B; [|discriminate]. cbn [bindo app flat_map map length]. rewrite E. f_equal. f_equal. lia.
  - rewrite app_length, map_length in HB.
    set (M := filter (inner nn p) (enum r n)) in *.
    rewrite <- (firstn_skipn (length M) B). rewrite <- !app_assoc.
    assert (HM : length (firstn (length M) B) = length M) by (rewrite firstn_length; lia).
    rewrite (p2_fill rat mom nn r p _ _ (visits_enum r n Hr)); [|rewrite enum_length by assumption; lia|assumption|lia].
    fold M. cbn [bindo]. rewrite E. rewrite app_assoc.
    rewrite IH; [|rewrite (bump_length _ _ _ E); assumption|lia|rewrite skipn_length; lia|rewrite app_length, map_length; lia].
    rewrite map_app, map_map, app_length, map_length. cbn [fst snd]. rewrite <- !app_assoc. f_equal. f_equal. lia.
  - cbn [bindo]. rewrite E. rewrite IH; [reflexivity|rewrite (bump_length _ _ _ E); assumption|lia|assumption|assumption].
Qed.

(* ---- the two passes ---- *)
Definition triplets (n : nat) (nn : Z) : list (list Z * list Z) :=
  found nn (enum (Z.sqrt nn) n) (enum (Z.sqrt nn) n).
Fixpoint all_triplets (n : nat) (steps : nat) (nn : Z) : list (list Z * list Z) :=
  match steps with O => [] | S s => triplets n nn ++ all_triplets n s (nn + 2) end.

(* every extent is a multiple of the smallest *)
Definition commensurate (dims : list Z) : Prop := Forall (fun L => L mod smallest dims = 0) dims.

Lemma start_repeat dims r : commensurate dims -> start dims r = repeat (- r) (length dims).
Proof.
  intros H. unfold start. rewrite <- repeat_map. apply map_ext_in. intros L HL. unfold commensurate in H. rewrite Forall_forall in H.
  rewrite H by assumption. reflexivity.
Qed.
Lemma fill_loop dims mom : commensurate dims -> forall steps nn A B C,
  length B = length (all_triplets (length dims) steps nn) ->
  triplet_loop steps dims mom nn (A ++ B ++ C) (Z.of_nat (length A)) =
  Some (A ++ map (fun p => Some (entry (int_rats dims) mom (fst p) (snd p))) (all_triplets (length dims) steps nn) ++ C).
Proof.
  intros Hc. induction steps as [|s IH]; intros nn A B C HB; cbn [triplet_loop all_triplets] in *.
  - destruct B; [|discriminate]. reflexivity.
  - rewrite start_repeat by assumption. set (r := Z.sqrt nn). assert (Hr : 0 <= r) by apply Z.sqrt_nonneg.
    rewrite app_length in HB. set (T := triplets (length dims) nn) in *.
    rewrite <- (firstn_skipn (length T) B). rewrite <- (app_assoc (firstn (length T) B)).
    assert (HT : length (firstn (length T) B) = length T) by (rewrite firstn_length; lia).
    rewrite (p1_fill _ _ _ _ (length dims) _ _ Hr (visits_enum r (length dims) Hr)).
    2:{ apply repeat_length. } 2:{ rewrite enum_length by assumption. lia. } 2:{ exact HT. } 2:{ reflexivity. }
    change (found nn (enum r (length dims)) (enum r (length dims))) with T.
    cbn [bindo]. rewrite app_assoc.
    replace (Z.of_nat (length A) + Z.of_nat (length T)) with (Z.of_nat (length (A ++ map (fun p => Some (entry (int_rats dims) mom (fst p) (snd p))) T)))
      by (rewrite app_length, map_length; lia).
    rewrite IH by (rewrite skipn_length; lia). rewrite map_app, <- !app_assoc. reflexivity.
Qed.
Fixpoint counts (n steps : nat) (nn : Z) : list Z :=
  match steps with O => [] | S s => Z.of_nat (length (triplets n nn)) :: counts n s (nn + 2) end.
Lemma count_loop dims : commensurate dims -> forall steps A B count,
  length B = steps ->
  trip_loop steps dims (2 * Z.of_nat (length A)) (A ++ B) count =
  Some (A ++ counts (length dims) steps (2 * Z.of_nat (length A))).
Proof.
  intros Hc. induction steps as [|s IH]; intros A B count HB; cbn [trip_loop counts].
  - destruct B; [|discriminate]. reflexivity.
  - rewrite start_repeat by assumption. set (nn := 2 * Z.of_nat (length A)). set (r := Z.sqrt nn).
    assert (Hr : 0 <= r) by apply Z.sqrt_nonneg.
    rewrite (p1_first _ _ _ _ _ (length dims) _ _ Hr (visits_enum r (length dims) Hr)); [|apply repeat_length|rewrite enum_length by assumption; lia].
    cbn [bindo]. change (found nn (enum r (length dims)) (enum r (length dims))) with (triplets (length dims) nn).
    destruct B as [|b B]; [discriminate|]. injection HB as HB.
    replace (Z.to_nat (nn / 2)) with (length A).
    2:{ unfold nn. rewrite Z.mul_comm, Z.div_mul by lia. lia. }
    rewrite set_nth_mid. cbn [bindo].
    match goal with |- context [A ++ ?v :: B] => replace (A ++ v :: B) with ((A ++ [v]) ++ B) by (rewrite <- app_assoc; reflexivity) end.
    replace (nn + 2) with (2 * Z.of_nat (length (A ++ [Z.of_nat (length (triplets (length dims) nn))])))
      by (rewrite app_length; cbn [length]; unfold nn; lia).
    replace (count + Z.of_nat (length (triplets (length dims) nn)) - count) with (Z.of_nat (length (triplets (length dims) nn))) by lia.
    rewrite IH by assumption. rewrite <- app_assoc. reflexivity.
Qed.
Lemma fold_add_acc l : forall a, fold_left Z.add l a = a + fold_left Z.add l 0.
Proof. induction l as [|x l IH]; intros a; cbn; [lia|]. rewrite IH, (IH x). lia. Qed.
Lemma counts_total n : forall steps nn, fold_left Z.add (counts n steps nn) 0 = Z.of_nat (length (all_triplets n steps nn)).
Proof.
  induction steps as [|s IH]; intros nn; cbn [counts all_triplets fold_left]; [reflexivity|].
  rewrite fold_add_acc, IH, app_length. lia.
Qed.

(* ---- what is in the list ---- *)
Lemma sq_acc p : forall a, fold_left (fun s c => s + c * c) p a = a + sq p.
Proof. unfold sq. induction p as [|c p IH]; intros a; cbn; [lia|]. rewrite IH, (IH (c * c)). lia. Qed.
Lemma sq_cons c p : sq (c :: p) = c * c + sq p.
Proof. unfold sq at 1. cbn [fold_left]. rewrite sq_acc. lia. Qed.
Lemma sq_nonneg p : 0 <= sq p.
Proof. induction p; [reflexivity|]. rewrite sq_cons. nia. Qed.
Lemma sq_bound p nn : sq p = nn -> Forall (fun c => - Z.sqrt nn <= c <= Z.sqrt nn) p.
Proof.
  intros H. apply Forall_forall. intros c Hc.
  assert (Hle : c * c <= nn).
  { subst nn. induction p as [|d p IH]; [destruct Hc|]. rewrite sq_cons. pose proof (sq_nonneg p).
    destruct Hc as [->|Hc]; [lia|]. specialize (IH Hc). nia. }
  assert (0 <= nn) by (subst; apply sq_nonneg).
  assert (Z.abs c <= Z.sqrt nn) by (apply Z.sqrt_le_square; nia). lia.
Qed.
Lemma in_triplets n nn p1 p2 :
  In (p1, p2) (triplets n nn) <-> length p1 = n /\ length p2 = n /\ sq p1 = nn /\ sq p2 = nn /\ sq (vadd p1 p2) = nn.
Proof.
  assert (Hr : 0 <= Z.sqrt nn) by apply Z.sqrt_nonneg.
  unfold triplets, found. rewrite in_flat_map. split.
  - intros (q & Hq & Hi). destruct (Z.eqb_spec (sq q) nn); [|destruct Hi].
    apply in_map_iff in Hi. destruct Hi as (q2 & E & Hi). injection E as -> ->. apply filter_In in Hi. destruct Hi as (Hi & T).
    unfold inner in T. apply andb_true_iff in T. destruct T as (T1 & T2). apply Z.eqb_eq in T1, T2.
    apply in_enum in Hq, Hi; try assumption. tauto.
  - intros (L1 & L2 & E1 & E2 & E3). exists p1. split; [apply in_enum; [assumption|split; [assumption|now apply sq_bound]]|].
    destruct (Z.eqb_spec (sq p1) nn); [|contradiction]. apply in_map, filter_In.
    split; [apply in_enum; [assumption|split; [assumption|now apply sq_bound]]|].
    unfold inner. apply andb_true_iff. split; now apply Z.eqb_eq.
Qed.
Lemma triplets_NoDup n nn : NoDup (triplets n nn).
Proof.
  unfold triplets, found. apply NoDup_flat_map; [apply enum_NoDup| |].
  - intros a _. destruct (sq a =? nn); [|constructor]. apply NoDup_map_inj; [congruence|]. apply NoDup_filter, enum_NoDup.
  - intros a b x _ _ Ha Hb. destruct (sq a =? nn); [|destruct Ha]. destruct (sq b =? nn); [|destruct Hb].
    apply in_map_iff in Ha, Hb. destruct Ha as (? & <- & _), Hb as (? & E & _). congruence.
Qed.
Lemma in_all n p : forall steps nn, In p (all_triplets n steps nn) <->
  exists k, (k < steps)%nat /\ In p (triplets n (nn + 2 * Z.of_nat k)).
Proof.
  induction steps as [|s IH]; intros nn; cbn [all_triplets].
  - split; [intros []|]. intros (k & H & _). lia.
  - rewrite in_app_iff, IH. split.
    + intros [H|(k & Hk & H)]; [exists 0%nat|exists (S k)]; (split; [lia|]).
      * replace (nn + 2 * Z.of_nat 0) with nn by lia. assumption.
      * replace (nn + 2 * Z.of_nat (S k)) with (nn + 2 + 2 * Z.of_nat k) by lia. assumption.
    + intros ([|k] & Hk & H).
      * left. replace (nn + 2 * Z.of_nat 0) with nn in H by lia. assumption.
      * right. exists k. split; [lia|]. replace (nn + 2 + 2 * Z.of_nat k) with (nn + 2 * Z.of_nat (S k)) by lia. assumption.
Qed.
Lemma all_NoDup n : forall steps nn, NoDup (all_triplets n steps nn).
Proof.
  induction steps as [|s IH]; intros nn; cbn [all_triplets]; [constructor|].
  apply NoDup_app_intro; [apply triplets_NoDup|apply IH|]. intros [p1 p2] H1 H2.
  apply in_all in H2. destruct H2 as (k & _ & H2). apply in_triplets in H1, H2. lia.
Qed.
(* squares of three momenta adding to zero with equal length: the length is even *)
Lemma sq_vadd_parity p : forall q, length p = length q -> exists m, sq (vadd p q) = sq p + sq q + 2 * m.
Proof.
  induction p as [|a p IH]; intros [|b q] H; try discriminate; [exists 0; reflexivity|].
  injection H as H. destruct (IH q H) as (m & E). exists (m + a * b).
  change (vadd (a :: p) (b :: q)) with (a + b :: vadd p q). rewrite !sq_cons, E. ring.
Qed.

(* the k-th count, and the order of the list *)
Lemma counts_nth n : forall steps nn k, (k < steps)%nat ->
  nth_error (counts n steps nn) k = Some (Z.of_nat (length (triplets n (nn + 2 * Z.of_nat k)))).
Proof.
  induction steps as [|s IH]; intros nn [|k] H; try lia; cbn [counts nth_error].
  - do 4 f_equal. lia.
  - rewrite IH by lia. do 4 f_equal. lia.
Qed.
Lemma counts_length n : forall steps nn, length (counts n steps nn) = steps.
Proof. induction steps; intros; cbn; congruence. Qed.
Definition level (v : Z) (p : list Z * list Z) : bool := sq (fst p) =? v.
Lemma level_same n nn v : filter (level v) (triplets n nn) = if nn =? v then triplets n nn else [].
Proof.
  assert (H : forall p, In p (triplets n nn) -> sq (fst p) = nn) by (intros [p1 p2] H; apply in_triplets in H; tauto).
  revert H. generalize (triplets n nn). intros l H. induction l as [|p l IH]; [now destruct (nn =? v)|].
  cbn [filter]. unfold level at 1. rewrite (H p) by now left. rewrite IH by (intros; apply H; now right).
  now destruct (nn =? v).
Qed.
Lemma level_all n : forall steps nn k, (k < steps)%nat ->
  filter (level (nn + 2 * Z.of_nat k)) (all_triplets n steps nn) = triplets n (nn + 2 * Z.of_nat k).
Proof.
  assert (Z0 : forall steps nn v, v < nn -> filter (level v) (all_triplets n steps nn) = []).
  { induction steps as [|s IH]; intros nn v H; [reflexivity|]. cbn [all_triplets]. rewrite filter_app, level_same, IH by lia.
    destruct (Z.eqb_spec nn v); [lia|reflexivity]. }
  induction steps as [|s IH]; intros nn [|k] H; try lia; cbn [all_triplets]; rewrite filter_app, level_same.
  - rewrite Z0 by lia. replace (nn + 2 * Z.of_nat 0) with nn by lia. rewrite Z.eqb_refl. apply app_nil_r.
  - destruct (Z.eqb_spec nn (nn + 2 * Z.of_nat (S k))); [lia|].
    replace (nn + 2 * Z.of_nat (S k)) with (nn + 2 + 2 * Z.of_nat k) by lia. apply IH. lia.
Qed.
Lemma sorted_app {A} (R : A -> A -> Prop) l1 l2 : StronglySorted R l1 -> StronglySorted R l2 ->
  (forall a b, In a l1 -> In b l2 -> R a b) -> StronglySorted R (l1 ++ l2).
Proof.
  intros H1 H2 H. induction H1 as [|a l1 H1 IH Ha]; [assumption|]. cbn. constructor.
  - apply IH. intros; apply H; [now right|assumption].
  - apply Forall_app. split; [assumption|]. apply Forall_forall. intros b Hb. apply H; [now left|assumption].
Qed.
Lemma all_sorted n : forall steps nn, StronglySorted (fun a b => sq (fst a) <= sq (fst b)) (all_triplets n steps nn).
Proof.
  induction steps as [|s IH]; intros nn; cbn [all_triplets]; [constructor|]. apply sorted_app; [|apply IH|].
  - assert (H : forall p, In p (triplets n nn) -> sq (fst p) = nn) by (intros [p1 p2] H; apply in_triplets in H; tauto).
    revert H. generalize (triplets n nn). intros l H. induction l as [|p l IHl]; constructor.
    + apply IHl. intros; apply H; now right.
    + apply Forall_forall. intros q Hq. rewrite (H p), (H q); [lia|now right|now left].
  - intros [p1 p2] [q1 q2] H1 H2. apply in_all in H2. destruct H2 as (k & _ & H2). apply in_triplets in H1, H2. cbn [fst]. lia.
Qed.

Theorem generate_ok : forall dims mom nnmax, commensurate dims -> 0 <= nnmax -> Z.even nnmax = true ->
  exists pairs trip t,
    generate dims mom nnmax = Some (trip, t) /\
    NoDup pairs /\
    StronglySorted (fun a b => sq (fst a) <= sq (fst b)) pairs /\
    (forall p1 p2, In (p1, p2) pairs <->
       length p1 = length dims /\ length p2 = length dims /\
       exists n, n < nnmax /\ sq p1 = n /\ sq p2 = n /\ sq (vadd p1 p2) = n) /\
    fold_left Z.add trip 0 = Z.of_nat (length pairs) /\
    length trip = Z.to_nat (nnmax / 2) /\
    (forall k, (k < Z.to_nat (nnmax / 2))%nat -> nth_error trip k = Some (Z.of_nat (length (filter (level (2 * Z.of_nat k)) pairs)))) /\
    t = map (fun p => Some (entry (int_rats dims) mom (fst p) (snd p))) pairs ++ [None].
Proof.
  intros dims mom nnmax Hc Hn He.
  assert (Em : nnmax mod 2 = 0) by (rewrite Zmod_even, He; reflexivity).
  assert (Ed : nnmax = 2 * (nnmax / 2)) by (pose proof (Z.div_mod nnmax 2 ltac:(lia)); lia).
  assert (Es : nsteps nnmax = Z.to_nat (nnmax / 2)).
  { unfold nsteps. f_equal. rewrite Ed at 1. rewrite Z.add_comm, Z.mul_comm, Z.div_add by lia. change (1 / 2) with 0. lia. }
  set (n := length dims). set (pairs := all_triplets n (nsteps nnmax) 0).
  exists pairs, (counts n (nsteps nnmax) 0), (map (fun p => Some (entry (int_rats dims) mom (fst p) (snd p))) pairs ++ [None]).
  split; [|split; [|split; [|split; [|split; [|split; [|split]]]]]].
  - unfold generate, get_trip, get_triplet. rewrite <- Es.
    pose proof (count_loop dims Hc (nsteps nnmax) [] (repeat 0 (nsteps nnmax)) 0 (repeat_length _ _)) as K1.
    change (2 * Z.of_nat (length [])) with 0 in K1. cbn [app] in K1. rewrite K1.
    cbn [bindo]. rewrite fold_add_acc, counts_total. fold n pairs.
    replace (Z.to_nat (1 + Z.of_nat (length pairs))) with (length pairs + 1)%nat by lia. rewrite repeat_app.
    pose proof (fill_loop dims mom Hc (nsteps nnmax) 0 [] (repeat None (length pairs)) (repeat None 1) (repeat_length _ _)) as K2.
    change (Z.of_nat (length [])) with 0 in K2. cbn [app] in K2. rewrite K2. reflexivity.
  - apply all_NoDup.
  - apply all_sorted.
  - intros p1 p2. unfold pairs. rewrite in_all. split.
    + intros (k & Hk & H). apply in_triplets in H. destruct H as (L1 & L2 & E1 & E2 & E3).
      repeat split; try assumption. exists (0 + 2 * Z.of_nat k). repeat split; try assumption.
      rewrite Es in Hk. lia.
    + intros (L1 & L2 & m & Hm & E1 & E2 & E3).
      destruct (sq_vadd_parity p1 p2) as (j & Ej); [congruence|].
      pose proof (sq_nonneg p1).
      exists (Z.to_nat (- j)). rewrite Es. split; [lia|].
      apply in_triplets. replace (0 + 2 * Z.of_nat (Z.to_nat (- j))) with m by lia. auto.
  - apply counts_total.
  - rewrite <- Es. apply counts_length.
  - intros k Hk. rewrite <- Es in Hk. rewrite counts_nth by assumption. unfold pairs.
    change (2 * Z.of_nat k) with (0 + 2 * Z.of_nat k) at 2. rewrite level_all by assumption. reflexivity.
  - reflexivity.
Qed.

(* the extra cell makes every look-up of all first momenta fail *)
Lemma kall_none mom cells : kall mom (cells ++ [None]) = None.
Proof. induction cells as [|c r IH]; [reflexivity|]. cbn [app kall]. destruct (first_momentum mom c); [|reflexivity]. cbn [bindo]. now rewrite IH. Qed.

(* ---- the stored entries ---- *)
Lemma get_posit_found p mom : forall k, In p mom -> 0 <= k ->
  exists i, get_posit p mom k = k + Z.of_nat i /\ nth_error mom i = Some p.
Proof.
  induction mom as [|m r IH]; intros k H Hk; [destruct H|]. cbn [get_posit].
  destruct (list_eq_dec Z.eq_dec m p) as [->|Hn].
  - exists 0%nat. split; [lia|reflexivity].
  - destruct H as [->|H]; [contradiction|]. destruct (IH (k + 1) H ltac:(lia)) as (i & E & Hi).
    exists (S i). split; [rewrite E; lia|assumption].
Qed.
Lemma get_posit_lost p mom : forall k, ~ In p mom -> get_posit p mom k = -1.
Proof.
  induction mom as [|m r IH]; intros k H; [reflexivity|]. cbn [get_posit].
  destruct (list_eq_dec Z.eq_dec m p) as [->|Hn]; [destruct H; now left|]. apply IH. intros Hi. apply H. now right.
Qed.
Theorem entry_ok : forall rat mom p1 p2, length p1 = length rat -> length p2 = length rat ->
  let q1 := vscale rat p1 in let q2 := vscale rat p2 in let q3 := map Z.opp (vscale rat (vadd p1 p2)) in
  In q1 mom -> In q2 mom -> In q3 mom ->
  exists i1 i2 i3, entry rat mom p1 p2 = [Z.of_nat i1; Z.of_nat i2; Z.of_nat i3] /\
    nth_error mom i1 = Some q1 /\ nth_error mom i2 = Some q2 /\ nth_error mom i3 = Some q3 /\
    vadd (vadd q1 q2) q3 = map (fun _ => 0) rat.
Proof.
  intros rat mom p1 p2 L1 L2 q1 q2 q3 H1 H2 H3.
  destruct (get_posit_found q1 mom 0 H1 ltac:(lia)) as (i1 & E1 & N1).
  destruct (get_posit_found q2 mom 0 H2 ltac:(lia)) as (i2 & E2 & N2).
  destruct (get_posit_found q3 mom 0 H3 ltac:(lia)) as (i3 & E3 & N3).
  exists i1, i2, i3. split; [unfold entry; fold q1 q2 q3; rewrite E1, E2, E3; reflexivity|].
  repeat split; try assumption. unfold q1, q2, q3. clear -L1 L2. revert p1 p2 L1 L2.
  induction rat as [|c rat IH]; intros [|a p1] [|b p2] L1 L2; try discriminate; [reflexivity|].
  injection L1 as L1. injection L2 as L2. unfold vadd, vscale in *. cbn [combine map fst snd]. f_equal; [ring|].
  apply IH; assumption.
Qed.
