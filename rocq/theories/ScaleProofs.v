From Coq Require Import ZArith Reals List PeanoNat Lia Lra.
From Verif Require Import CInt Cplx Arr ProjModel NumModel NumProofs NumProofs2 ScaleModel.
Import ListNotations.
Local Open Scope R_scope.

(** ** the crossing *)
Lemma crossing_ok : forall y scale k, (k <= length y)%nat ->
  let up := crossing y scale k in
  (up < k \/ up = 0)%nat /\
  (up <> 0%nat -> exists a b, nth_error y (up - 1) = Some a /\ nth_error y up = Some b /\ a < scale < b) /\
  (forall i a b, (up < i < k)%nat -> nth_error y (i - 1) = Some a -> nth_error y i = Some b -> ~ (a < scale < b)).
Proof.
  intros y scale. induction k as [|k IH]; intro Hk.
  - cbn. split; [now right|]. split; [easy|]. intros; lia.
  - destruct (IH ltac:(lia)) as (A & B & C). cbv zeta in *.
    assert (Keep : crossing y scale (S k) = crossing y scale k ->
      (forall a b, (0 < k)%nat -> nth_error y (k - 1) = Some a -> nth_error y k = Some b -> ~ (a < scale < b)) ->
      let up := crossing y scale (S k) in (up < S k \/ up = 0)%nat /\
      (up <> 0%nat -> exists a b, nth_error y (up - 1) = Some a /\ nth_error y up = Some b /\ a < scale < b) /\
      (forall i a b, (up < i < S k)%nat -> nth_error y (i - 1) = Some a -> nth_error y i = Some b -> ~ (a < scale < b))).
    { intros E N. cbv zeta. rewrite E. split; [lia|]. split; [exact B|]. intros i a b Hi Ha Hb.
      destruct (Nat.eq_dec i k) as [->|Ni]; [apply (N a b); [lia|assumption|assumption]|apply (C i); [lia|assumption|assumption]]. }
    destruct k as [|k]; [apply Keep; [reflexivity|intros; lia]|].
    destruct (nth_error y (S k)) as [b|] eqn:Eb; [|apply nth_error_None in Eb; lia].
    destruct (nth_error y (S k - 1)) as [a|] eqn:Ea; [|apply nth_error_None in Ea; lia].
    assert (E : crossing y scale (S (S k)) = if Rlt_dec scale b then (if Rlt_dec a scale then S k else crossing y scale (S k)) else crossing y scale (S k)).
    { change (crossing y scale (S (S k))) with (match nth_error y (S k), nth_error y (S k - 1) with
        | Some b, Some a => if Rlt_dec scale b then (if Rlt_dec a scale then S k else crossing y scale (S k)) else crossing y scale (S k)
        | _, _ => crossing y scale (S k) end). now rewrite Eb, Ea. }
    destruct (Rlt_dec scale b) as [L1|L1]; [destruct (Rlt_dec a scale) as [L2|L2]|].
    + rewrite E. split; [lia|]. split; [intros _; exists a, b; rewrite Ea, Eb; repeat split; assumption|]. intros; lia.
    + apply Keep; [exact E|]. intros a' b' _ Ha' Hb'. injection Ha' as <-. injection Hb' as <-. lra.
    + apply Keep; [exact E|]. intros a' b' _ Ha' Hb'. injection Ha' as <-. injection Hb' as <-. lra.
Qed.

(** ** what solve_spline returns lies in the interval *)
Lemma solve_in : forall x y der mu up s, solve_spline x y der mu up = Some s -> s <> -1 ->
  exists a b, rd2 x up = Some (a, b) /\ a < s < b.
Proof.
  intros x y der mu up s H N. unfold solve_spline in H. destruct (up =? 0)%Z; [injection H as <-; now destruct N|].
  destruct (rd2 x up) as [[a b]|]; [|discriminate]. destruct (rd2 y up) as [[y0 y1]|]; [|discriminate]. destruct (rd2 der up) as [[d0 d1]|]; [|discriminate].
  cbv zeta in H. destruct (cubic_solve _ _ _ _ _) as [[[z0 z1] z2]|]; [|discriminate].
  exists a, b. split; [reflexivity|].
  repeat match type of H with context [Rlt_dec ?p ?q] => destruct (Rlt_dec p q) end; injection H as <-; first [split; assumption | now destruct N].
Qed.
Lemma rd2_nth : forall x up a b, rd2 x (Z.of_nat up) = Some (a, b) -> nth_error x (up - 1) = Some a /\ nth_error x up = Some b.
Proof.
  intros x up a b H. unfold rd2, rd in H. destruct (Z.ltb_spec (Z.of_nat up - 1) 0) as [L|L]; [discriminate|].
  destruct (Z.ltb_spec (Z.of_nat up) 0); [lia|]. rewrite Nat2Z.id in H. replace (Z.to_nat (Z.of_nat up - 1)) with (up - 1)%nat in H by lia.
  destruct (nth_error x (up - 1)); [|discriminate]. destruct (nth_error x up); [|discriminate]. injection H as <- <-. now split.
Qed.
Lemma evaluate_in : forall x y N scale s, (N <= length y)%nat -> evaluate_scale x y N scale = Some s -> s <> -1 ->
  exists i x0 x1 y0 y1, (i + 1 < N)%nat /\ nth_error x i = Some x0 /\ nth_error x (S i) = Some x1 /\
    nth_error y i = Some y0 /\ nth_error y (S i) = Some y1 /\ y0 < scale < y1 /\ x0 < s < x1 /\
    (forall j a b, (i < j)%nat -> (j + 1 < N)%nat -> nth_error y j = Some a -> nth_error y (S j) = Some b -> ~ (a < scale < b)).
Proof.
  intros x y N scale s L H Ns. unfold evaluate_scale in H. cbv zeta in H.
  destruct (crossing_ok y scale N L) as (A & B & C). cbv zeta in *. set (up := crossing y scale N) in *. clearbody up.
  destruct (Nat.eqb_spec up 0) as [E|E]; [injection H as <-; now destruct Ns|].
  destruct (ders x y N N) as [der|]; [|discriminate].
  destruct (solve_in _ _ _ _ _ _ H Ns) as (x0 & x1 & Hx & Hs). apply rd2_nth in Hx. destruct Hx as [Hx0 Hx1].
  destruct (B E) as (y0 & y1 & Hy0 & Hy1 & Hy).
  exists (up - 1)%nat, x0, x1, y0, y1. replace (S (up - 1)) with up by lia.
  split; [lia|]. repeat (split; [assumption|]). intros j a b Hj Hn Ha Hb. apply (C (S j)); [lia| |exact Hb]. now replace (S j - 1)%nat with j by lia.
Qed.
Lemma evaluate_none : forall x y N scale, (N <= length y)%nat ->
  (forall i a b, (i + 1 < N)%nat -> nth_error y i = Some a -> nth_error y (S i) = Some b -> ~ (a < scale < b)) ->
  evaluate_scale x y N scale = Some (-1).
Proof.
  intros x y N scale L H. unfold evaluate_scale. cbv zeta. destruct (crossing_ok y scale N L) as (A & B & C). cbv zeta in *.
  destruct (Nat.eqb_spec (crossing y scale N) 0) as [E|E]; [reflexivity|]. exfalso.
  destruct (B E) as (y0 & y1 & Hy0 & Hy1 & Hy). set (up := crossing y scale N) in *. clearbody up.
  apply (H (up - 1)%nat y0 y1); [lia|assumption| |assumption]. now replace (S (up - 1)) with up by lia.
Qed.

(** ** order of the measurements *)
Definition newest_first (l : list meas) : Prop :=
  forall i j a b, (i < j)%nat -> nth_error l i = Some a -> nth_error l j = Some b -> m_time b < m_time a.
Lemma nf_cons : forall m l, newest_first l -> (forall a, In a l -> m_time a < m_time m) -> newest_first (m :: l).
Proof.
  intros m l H A i j a b L Ha Hb. destruct j as [|j]; [lia|]. cbn in Hb. destruct i as [|i].
  - injection Ha as <-. apply A. now apply nth_error_In in Hb.
  - apply (H i j); [lia|assumption|assumption].
Qed.
Lemma nth_rev : forall (A : Type) (l : list A) i, (i < length l)%nat -> nth_error (rev l) i = nth_error l (length l - 1 - i).
Proof.
  intros A. induction l as [|a l IH]; intros i H; [cbn in H; lia|]. cbn [rev length] in *.
  destruct (Nat.eq_dec i (length l)) as [->|N].
  - rewrite nth_error_app2 by (rewrite rev_length; lia). rewrite rev_length, Nat.sub_diag. replace (S (length l) - 1 - length l)%nat with 0%nat by lia. reflexivity.
  - rewrite nth_error_app1 by (rewrite rev_length; lia). rewrite IH by lia. replace (S (length l) - 1 - i)%nat with (S (length l - 1 - i)) by lia. reflexivity.
Qed.
Lemma nf_rev : forall l, newest_first l -> increasing (map m_time (rev l)).
Proof.
  intros l H i j a b L Ha Hb. rewrite nth_error_map in Ha, Hb.
  destruct (nth_error (rev l) i) as [u|] eqn:Eu; [|discriminate]. destruct (nth_error (rev l) j) as [v|] eqn:Ev; [|discriminate].
  injection Ha as <-. injection Hb as <-.
  assert (Li : (i < length l)%nat) by (rewrite <- (rev_length l); apply nth_error_Some; congruence).
  assert (Lj : (j < length l)%nat) by (rewrite <- (rev_length l); apply nth_error_Some; congruence).
  rewrite nth_rev in Eu, Ev by assumption. refine (H _ _ _ _ _ Ev Eu). lia.
Qed.

Section Flow.
Variables (delta_t : R) (smiters : nat) (START STOP W0STOP : R) (obs : nat -> R * R) (obsc : R * R).
Hypothesis pos : 0 < delta_t.
Let loop := flow_loop delta_t smiters START STOP W0STOP obs.

Definition inv (count meas_count : nat) (head : list meas) : Prop :=
  newest_first head /\ length head = S meas_count /\ (forall a, In a head -> 0 <= m_time a <= INR count * delta_t) /\
  (forall a, In a head -> exists k, (k <= count)%nat /\ m_time a = INR k * delta_t /\ m_Gt a = fst (obs k) /\ m_plaq a = snd (obs k)) /\
  (forall k, (1 <= k <= count)%nat -> START <= INR k * delta_t -> exists a, In a head /\ m_time a = INR k * delta_t).

Lemma loop_ok : forall fuel count mc flow w head c' mc' head', inv count mc head -> loop fuel count mc flow w head = Some (c', mc', head') -> inv c' mc' head' /\ (count < c')%nat.
Proof.
  induction fuel as [|f IH]; intros count mc flow w head c' mc' head' I H; [discriminate|].
  unfold loop in H. cbn [flow_loop] in H. fold loop in H.
  assert (P : INR (S count) * delta_t = INR count * delta_t + delta_t) by (rewrite S_INR; ring).
  assert (P0 : 0 <= INR count * delta_t) by (apply Rmult_le_pos; [apply pos_INR|lra]).
  destruct I as (I1 & I2 & I3 & I4 & I5).
  destruct (Rle_dec START (INR (S count) * delta_t)) as [L|L].
  - set (m := rec (INR (S count) * delta_t) (obs (S count))) in *.
    assert (J : inv (S count) (S mc) (m :: head)).
    { repeat split.
      - apply nf_cons; [assumption|]. intros a Ha. apply I3 in Ha. unfold m, rec. cbn [m_time]. lra.
      - cbn [length]. now rewrite I2.
      - destruct H0 as [<-|Ha]; [unfold m, rec; cbn [m_time]; lra|apply I3 in Ha; lra].
      - destruct H0 as [<-|Ha]; [unfold m, rec; cbn [m_time]; lra|apply I3 in Ha; lra].
      - intros a [<-|Ha]; [exists (S count); repeat split; lia|]. destruct (I4 a Ha) as (k & K1 & K2). exists k. split; [lia|assumption].
      - intros k Hk Hs. destruct (Nat.eq_dec k (S count)) as [->|Nk]; [exists m; split; [now left|reflexivity]|].
        destruct (I5 k ltac:(lia) Hs) as (a & A1 & A2). exists a. split; [now right|assumption]. }
    match type of H with (if ?b then _ else _) = _ => destruct b end.
    + destruct (Rlt_dec (INR (S count) * delta_t) STOP) as [_|_].
      * destruct (IH _ _ _ _ _ _ _ _ J H) as [J' C]. split; [assumption|lia].
      * injection H as <- <- <-. split; [assumption|lia].
    + injection H as <- <- <-. split; [assumption|lia].
  - assert (J : inv (S count) mc head).
    { repeat split; try assumption.
      - apply I3 in H0; lra.
      - apply I3 in H0; lra.
      - intros a Ha. destruct (I4 a Ha) as (k & K1 & K2). exists k. split; [lia|assumption].
      - intros k Hk Hs. destruct (Nat.eq_dec k (S count)) as [->|Nk]; [now destruct L|]. apply I5; [lia|assumption]. }
    match type of H with (if ?b then _ else _) = _ => destruct b end.
    + destruct (Rlt_dec (INR (S count) * delta_t) STOP) as [_|_].
      * destruct (IH _ _ _ _ _ _ _ _ J H) as [J' C]. split; [assumption|lia].
      * injection H as <- <- <-. split; [assumption|lia].
    + injection H as <- <- <-. split; [assumption|lia].
Qed.
Lemma inv0 : inv 0 0 [rec 0 (obs 0)].
Proof.
  repeat split.
  - intros i j a b L Ha Hb. destruct j as [|[|j]]; [lia|discriminate|discriminate].
  - destruct H as [<-|[]]. cbn. lra.
  - destruct H as [<-|[]]. cbn. lra.
  - intros a [<-|[]]. exists 0%nat. repeat split; [lia|]. cbn. lra.
  - intros k Hk. lia.
Qed.
Lemma loop_ends : forall fuel count mc flow w head, (smiters - count < fuel)%nat -> exists r, loop fuel count mc flow w head = Some r.
Proof.
  induction fuel as [|f IH]; intros count mc flow w head H; [lia|]. unfold loop. cbn [flow_loop]. fold loop.
  destruct (Rle_dec START (INR (S count) * delta_t)).
  - destruct (Rlt_dec _ (W0STOP * (3/2))); [|eexists; reflexivity]. destruct (Nat.ltb_spec (S count) smiters); [|eexists; reflexivity].
    destruct (Rlt_dec _ STOP); [apply IH; lia|eexists; reflexivity].
  - destruct (Rlt_dec _ (W0STOP * (3/2))); [|eexists; reflexivity]. destruct (Nat.ltb_spec (S count) smiters); [|eexists; reflexivity].
    destruct (Rlt_dec _ STOP); [apply IH; lia|eexists; reflexivity].
Qed.

(** the list handed to scaleset *)
Lemma flow_ok : forall fuel, (smiters < fuel)%nat -> exists l mc c,
  flow_RK3 delta_t smiters START STOP W0STOP obs obsc fuel = Some (l, mc, c) /\ length l = S mc /\
  increasing (firstn mc (map m_time (rev l))) /\
  (INR c * delta_t <= STOP -> increasing (map m_time (rev l)) /\
    forall k, (1 <= k <= c)%nat -> START <= INR k * delta_t -> In (rec (INR k * delta_t) (obs k)) l).
Proof.
  intros fuel Hf. unfold flow_RK3. destruct (loop_ends fuel 0 0 0 0 [rec 0 (obs 0)] ltac:(lia)) as ([[c mc] head] & E).
  unfold loop in E. rewrite E. destruct (loop_ok _ _ _ _ _ _ _ _ _ inv0 E) as [(I1 & I2 & I3 & I4 & I5) C].
  assert (AllIn : forall k, (1 <= k <= c)%nat -> START <= INR k * delta_t -> In (rec (INR k * delta_t) (obs k)) head).
  { intros k Hk Hs. destruct (I5 k Hk Hs) as (a & Ha & Ta). destruct (I4 a Ha) as (k' & K1 & K2 & K3 & K4).
    assert (k' = k) as ->. { rewrite K2 in Ta. apply Rmult_eq_reg_r in Ta; [|lra]. now apply INR_eq. }
    replace (rec (INR k * delta_t) (obs k)) with a; [assumption|]. destruct a as [u v w]. cbn in *. unfold rec. now rewrite Ta, K3, K4. }
  destruct (Rlt_dec STOP (INR c * delta_t)) as [L|L].
  - exists (rec (INR c * delta_t) obsc :: head), (S mc), (S c). split; [reflexivity|]. split; [cbn; now rewrite I2|]. split.
    + cbn [rev]. rewrite map_app. rewrite firstn_app. rewrite map_length, rev_length, I2, Nat.sub_diag. change (firstn 0 (map m_time [rec (INR c * delta_t) obsc])) with (@nil R). rewrite app_nil_r.
      rewrite firstn_all2 by (rewrite map_length, rev_length; lia). now apply nf_rev.
    + intro Hs. rewrite S_INR in Hs. lra.
  - exists head, mc, c. split; [reflexivity|]. split; [assumption|]. split.
    + intros i j a b Hij Ha Hb. pose proof (nf_rev _ I1) as J.
      assert (K : forall q v, nth_error (firstn mc (map m_time (rev head))) q = Some v -> nth_error (map m_time (rev head)) q = Some v).
      { intros q v Hq. rewrite <- (firstn_skipn mc (map m_time (rev head))). rewrite nth_error_app1; [assumption|]. apply nth_error_Some. congruence. }
      apply (J i j); [assumption|now apply K|now apply K].
    + intros _. split; [now apply nf_rev|assumption].
Qed.
End Flow.
