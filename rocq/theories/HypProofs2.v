(** Hypercubic smearing: the window of 4D_fast.c and the slices of HYP.c. *)
From Coq Require Import PeanoNat List Reals Lia Lra Permutation Bool.
From Verif Require Import CMat MatSpec MatModel FieldModel FieldProofs SmearModel SmearProofs HypModel HypProofs.
Import ListNotations.
Local Open Scope nat_scope.

Lemma swap1 : forall {L} D (g : bool) b i (lat lat3 lat2 : field L),
  exists lat' lat3', for_ D (fun mu '((lat, lat3) : field L * field L) =>
             let lat := if g then lat else putf lat (b + i) mu (lat3 i mu) in
             (lat, putf lat3 i mu (lat2 i mu))) (lat, lat3) = (lat', lat3') /\
    (forall mu, mu < D -> lat3' i mu = lat2 i mu) /\ (forall j mu, j <> i \/ D <= mu -> lat3' j mu = lat3 j mu) /\
    (forall mu, mu < D -> lat' (b + i) mu = if g then lat (b + i) mu else lat3 i mu) /\
    (forall j mu, j <> b + i \/ D <= mu -> lat' j mu = lat j mu).
Proof.
  intros L D g b i lat lat3 lat2. induction D as [|D (l & l3 & E & H1 & H2 & H3 & H4)].
  - exists lat, lat3. split; [reflexivity|]. repeat split; intros; try lia; auto.
  - cbv zeta in E. cbn [for_]. rewrite E. do 2 eexists. split; [reflexivity|]. repeat split.
    + intros mu Hm. unfold putf. rewrite Nat.eqb_refl. destruct (Nat.eqb_spec mu D) as [X|X]; cbn [andb]; [now rewrite X|]. apply H1. lia.
    + intros j mu X. unfold putf. destruct (Nat.eqb_spec j i), (Nat.eqb_spec mu D); cbn [andb]; try lia; apply H2; lia.
    + intros mu Hm. destruct g.
      * destruct (Nat.eq_dec mu D) as [X|X]; [subst mu; apply H4; lia|apply H3; lia].
      * unfold putf. rewrite Nat.eqb_refl. destruct (Nat.eqb_spec mu D) as [X|X]; cbn [andb]; [subst mu; apply H2; lia|]. rewrite H3 by lia. reflexivity.
    + intros j mu X. destruct g; [apply H4; lia|]. unfold putf. destruct (Nat.eqb_spec j (b + i)), (Nat.eqb_spec mu D); cbn [andb]; try lia; apply H4; lia.
Qed.
Lemma put_row : forall {L} D s (lat v : field L) i,
  let r := for_ D (fun mu lat => putf lat (s + i) mu (v i mu)) lat in
  (forall mu, mu < D -> r (s + i) mu = v i mu) /\ (forall j mu, j <> s + i \/ D <= mu -> r j mu = lat j mu).
Proof.
  intros L D s lat v i. cbv zeta. induction D as [|D (H1 & H2)]; cbn [for_]; [split; [lia|reflexivity]|]. split.
  - intros mu Hm. unfold putf at 1. rewrite Nat.eqb_refl. destruct (Nat.eqb_spec mu D) as [X|X]; cbn [andb]; [now rewrite X|]. apply H1. lia.
  - intros j mu X. unfold putf at 1. destruct (Nat.eqb_spec j (s + i)), (Nat.eqb_spec mu D); cbn [andb]; try lia; apply H2; lia.
Qed.

Section Fast.
Variables (project : projection) (junk : nat -> arr) (stap : nat -> nat -> arr) (al be : R).
Variables (LCU T : nat) (lat0 nw : field arr).
Hypothesis HL : 0 < LCU.
Let V := LCU * T.
Hypothesis Hnw : forall j mu, j < V -> mu < 4 -> project (junk 3) (stap j mu) (lat0 j mu) al be = Some (nw j mu).

Lemma first_ok : forall ord src lat4, NoDup ord -> (forall i, In i ord -> src + i < V) ->
  exists a4, mfor ord (fun i lat4 => last_level project junk stap al be i (src + i) lat0 lat4 4) lat4 = Some a4 /\
    forall i mu, In i ord -> mu < 4 -> a4 i mu = nw (src + i) mu.
Proof.
  intros ord src lat4 Nd Hs.
  match goal with |- context[mfor ?l ?f ?s] => destruct (mfor_ind (fun (pre : list nat) d => forall i mu, In i pre -> mu < 4 -> d i mu = nw (src + i) mu) l f s) as (d & E & H) end.
  - intros i mu [].
  - intros pre i post d Eo I. destruct (split_notin ord pre post i Nd Eo) as [Ni Ii].
    destruct (last_level_ok project junk stap al be i (src + i) lat0 d 4 (nw (src + i))) as (d' & E & H1 & H2).
    { intros mu Hm. apply Hnw; auto. }
    exists d'. split; [exact E|]. intros j mu Hj Hm. apply in_app_iff in Hj. destruct (Nat.eq_dec j i) as [->|X]; [now apply H1|].
    destruct Hj as [Hj|[Hj|[]]]; [|congruence]. rewrite H2 by assumption. now apply I.
  - exists d. split; assumption.
Qed.

Lemma combined_ok : forall ord (g : bool) b src lat lat2 lat3, NoDup ord -> (forall i, In i ord -> src + i < V) ->
  (forall i mu, In i ord -> mu < 4 -> lat (src + i) mu = lat0 (src + i) mu) ->
  (g = false -> forall i i', In i ord -> In i' ord -> b + i <> src + i') ->
  exists lat' a2 a3, mfor ord (fun i '((lat, lat2, lat3) : field arr * field arr * field arr) =>
        match last_level project junk stap al be i (src + i) lat lat2 4 with
        | None => None
        | Some lat2 =>
            let '(lat, lat3) := for_ 4 (fun mu '((lat, lat3) : field arr * field arr) =>
               let lat := if g then lat else putf lat (b + i) mu (lat3 i mu) in
               (lat, putf lat3 i mu (lat2 i mu))) (lat, lat3) in
            Some (lat, lat2, lat3)
        end) (lat, lat2, lat3) = Some (lat', a2, a3) /\
    (forall i mu, In i ord -> mu < 4 -> a3 i mu = nw (src + i) mu) /\
    (forall i mu, In i ord -> mu < 4 -> lat' (b + i) mu = if g then lat (b + i) mu else lat3 i mu) /\
    (forall j mu, ~ (exists i, j = b + i /\ In i ord /\ mu < 4) -> lat' j mu = lat j mu).
Proof.
  intros ord g b src lat lat2 lat3 Nd Hs Hl Dj.
  match goal with |- context[mfor ?ll ?ff ?ss] => destruct (mfor_ind (fun (pre : list nat) (st : field arr * field arr * field arr) => let '(l, c2, c3) := st in
     (forall i mu, In i pre -> mu < 4 -> c3 i mu = nw (src + i) mu) /\ (forall i mu, ~ In i pre -> c3 i mu = lat3 i mu) /\
     (forall i mu, In i pre -> mu < 4 -> l (b + i) mu = if g then lat (b + i) mu else lat3 i mu) /\
     (forall j mu, ~ (exists i, j = b + i /\ In i pre /\ mu < 4) -> l j mu = lat j mu)) ll ff ss) as ([[l c2] c3] & E & H1 & H2 & H3 & H4) end.
  - repeat split; auto; intros i mu [].
  - intros pre i post [[l c2] c3] Eo (I1 & I2 & I3 & I4). destruct (split_notin ord pre post i Nd Eo) as [Ni Ii].
    assert (Hpre : forall j, In j pre -> In j ord) by (intros j Hj; rewrite Eo; apply in_app_iff; now left).
    assert (Own : forall mu, mu < 4 -> l (src + i) mu = lat0 (src + i) mu).
    { intros mu Hm. rewrite <- (Hl i mu Ii Hm). destruct g eqn:Eg.
      - destruct (le_lt_dec b (src + i)) as [Y|Y].
        + destruct (in_dec Nat.eq_dec (src + i - b) pre) as [Z|Z].
          * specialize (I3 (src + i - b) mu Z Hm). replace (b + (src + i - b)) with (src + i) in I3 by lia. exact I3.
          * apply I4. intros (i' & E1 & E2 & _). apply Z. replace (src + i - b) with i' by lia. assumption.
        + apply I4. intros (i' & E1 & _). lia.
      - apply I4. intros (i' & E1 & E2 & _). apply (Dj eq_refl i' i); auto. }
    destruct (last_level_ok project junk stap al be i (src + i) l c2 4 (nw (src + i))) as (d' & E & L1 & L2).
    { intros mu Hm. rewrite Own by assumption. apply Hnw; auto. }
    rewrite E. destruct (swap1 4 g b i l c3 d') as (l' & c3' & E3 & S1 & S2 & S3 & S4). rewrite E3.
    eexists. split; [reflexivity|]. cbv beta iota. repeat split.
    + intros j mu Hj Hm. apply in_app_iff in Hj. destruct (Nat.eq_dec j i) as [->|X]; [rewrite S1, L1 by assumption; reflexivity|].
      destruct Hj as [Hj|[Hj|[]]]; [|congruence]. rewrite S2 by auto. now apply I1.
    + intros j mu Hj. rewrite S2 by (left; intros ->; apply Hj, in_app_iff; right; now left). apply I2. intro X. apply Hj, in_app_iff. now left.
    + intros j mu Hj Hm. apply in_app_iff in Hj. destruct (Nat.eq_dec j i) as [->|X].
      * rewrite S3 by assumption. rewrite I2 by assumption. destruct g; [|reflexivity]. apply I4. intros (i' & E1 & E2 & _). apply Ni. replace i with i' by lia. assumption.
      * destruct Hj as [Hj|[Hj|[]]]; [|congruence]. rewrite S4 by lia. now apply I3.
    + intros j mu X. rewrite S4.
      * apply I4. intros (i' & E1 & E2 & E4). apply X. exists i'. split; [assumption|]. split; [apply in_app_iff; now left|assumption].
      * destruct (Nat.eq_dec j (b + i)) as [Y|Y]; [|now left]. right. destruct (le_lt_dec 4 mu); [assumption|]. exfalso. apply X. exists i.
        split; [assumption|]. split; [apply in_app_iff; right; now left|assumption].
  - exists l, c2, c3. auto.
Qed.

Lemma window_ok : forall (bk : nat -> nat) (h_slice : nat -> list nat) h_last lat2 lat3 lat4, 0 < T ->
  (forall t, t < T -> bk (LCU * t) = LCU * ((t + T - 1) mod T)) ->
  (forall t, t < T -> perm_of LCU (h_slice t)) -> perm_of LCU h_last ->
  (forall i mu, i < LCU -> mu < 4 -> lat4 i mu = nw (LCU * (T - 1) + i) mu) ->
  exists l c2 c3, mfor (seq 0 (T - 1)) (fun t '((lat, lat2, lat3) : field arr * field arr * field arr) =>
      let slice := LCU * t in
      let bck := bk slice in
      mfor (h_slice t) (fun i '((lat, lat2, lat3) : field arr * field arr * field arr) =>
        match last_level project junk stap al be i (slice + i) lat lat2 4 with
        | None => None
        | Some lat2 =>
            let '(lat, lat3) := for_ 4 (fun mu '((lat, lat3) : field arr * field arr) =>
               let lat := if Nat.eqb t 0 then lat else putf lat (bck + i) mu (lat3 i mu) in
               (lat, putf lat3 i mu (lat2 i mu))) (lat, lat3) in
            Some (lat, lat2, lat3)
        end) (lat, lat2, lat3)) (lat0, lat2, lat3) = Some (l, c2, c3) /\
    let r := fold_left (fun s i => for_ 4 (fun mu lat =>
         let lat := putf lat (bk (LCU * (T - 1)) + i) mu (c3 i mu) in
         putf lat (LCU * (T - 1) + i) mu (lat4 i mu)) s) h_last l in
    (forall j mu, j < V -> mu < 4 -> r j mu = nw j mu) /\ (forall j mu, ~ (j < V /\ mu < 4) -> r j mu = lat0 j mu).
Proof.
  intros bk h_slice h_last lat2 lat3 lat4 HT Hbk P3 P2 A1.
  match goal with |- context[mfor (seq 0 (T - 1)) ?f ?s] => destruct (mfor_ind (S := field arr * field arr * field arr) (fun (pre : list nat) st =>
     let '(l, c2, c3) := st in let k := length pre in
     (forall j mu, j < V -> mu < 4 -> slice_of LCU j + 1 < k -> l j mu = nw j mu) /\
     (forall j mu, ~ (j < V /\ mu < 4 /\ slice_of LCU j + 1 < k) -> l j mu = lat0 j mu) /\
     (0 < k -> forall i mu, i < LCU -> mu < 4 -> c3 i mu = nw (LCU * (k - 1) + i) mu))
     (seq 0 (T - 1)) f s) as ([[l c2] c3] & E & I1 & I2 & I3) end.
  - cbn [length]. split; [intros; lia|]. split; [reflexivity|lia].
  - intros pre k post [[l c2] c3] Es (I1 & I2 & I3).
    assert (Ek : k = length pre /\ k < T - 1).
    { assert (Hk : k < T - 1 /\ nth_error (seq 0 (T-1)) (length pre) = Some k).
      { split; [assert (X : In k (seq 0 (T-1))) by (rewrite Es; apply in_app_iff; right; now left); apply in_seq in X; lia|].
        rewrite Es, nth_error_app2, Nat.sub_diag by lia. reflexivity. }
      destruct Hk as [Hk Hn]. assert (Hp : length pre < T - 1) by (rewrite <- (seq_length (T-1) 0); apply nth_error_Some; congruence).
      apply nth_error_nth with (d := 0) in Hn. rewrite seq_nth in Hn by assumption. lia. }
    destruct Ek as [Ek Hk]. rewrite <- Ek in *. rewrite app_length, <- Ek. cbn [length]. cbv zeta.
    pose proof (P3 k ltac:(lia)) as Pb.
    assert (Bk : 0 < k -> (k + T - 1) mod T = k - 1).
    { intro. replace (k + T - 1) with (k - 1 + 1 * T) by lia. rewrite Nat.mod_add, Nat.mod_small by lia. reflexivity. }
    destruct (combined_ok (h_slice k) (Nat.eqb k 0) (bk (LCU * k)) (LCU * k) l c2 c3) as (l' & c2' & c3' & E2 & D1 & D2 & D3).
    { eapply perm_nodup; eassumption. }
    { intros i Hi. rewrite (perm_in _ _ _ Pb) in Hi. unfold V. nia. }
    { intros i mu Hi Hm. rewrite (perm_in _ _ _ Pb) in Hi. apply I2. rewrite (slice_at LCU T HL k i) by assumption. lia. }
    { intros Eg i i' Hi Hi'. apply (perm_in _ _ _ Pb) in Hi, Hi'. destruct (Nat.eqb_spec k 0) as [|K0]; [discriminate|].
      rewrite Hbk, Bk by lia. intro X. apply (off_eq LCU T HL) in X; lia. }
    exists (l', c2', c3'). split; [exact E2|]. cbv beta iota. rewrite Hbk in D2, D3 by lia.
    split; [|split].
    + intros j mu Hj Hm X. destruct (slice_dec LCU T HL j) as (i & Hi & Ej).
      destruct (Nat.eq_dec (slice_of LCU j + 1) k) as [Y|Y].
      * assert (K0 : 0 < k) by lia. rewrite Bk in D2 by assumption. rewrite Ej. replace (slice_of LCU j) with (k - 1) by lia.
        rewrite D2 by (try rewrite (perm_in _ _ _ Pb); assumption). destruct (Nat.eqb_spec k 0); [lia|]. apply I3; assumption.
      * rewrite D3; [apply I1; [assumption|assumption|lia]|]. intros (i' & Ej' & Hi' & _). rewrite (perm_in _ _ _ Pb) in Hi'.
        rewrite Bk in Ej' by lia. rewrite Ej in Ej'. apply (off_eq LCU T HL) in Ej'; [lia|assumption|assumption].
    + intros j mu X. destruct (Nat.eqb_spec k 0) as [K|K].
      * destruct (in_dec Nat.eq_dec (j - LCU * ((k + T - 1) mod T)) (h_slice k)) as [Y|Y].
        -- destruct (le_lt_dec (LCU * ((k + T - 1) mod T)) j) as [Z1|Z1].
           ++ destruct (lt_dec mu 4) as [Hm|Hm].
              ** specialize (D2 (j - LCU * ((k + T - 1) mod T)) mu Y Hm). replace (LCU * ((k + T - 1) mod T) + (j - LCU * ((k + T - 1) mod T))) with j in D2 by lia.
                 rewrite D2. apply I2. lia.
              ** rewrite D3; [apply I2; tauto|]. intros (i' & _ & _ & Z2). lia.
           ++ rewrite D3; [apply I2; lia|]. intros (i' & Z2 & _). lia.
        -- rewrite D3; [apply I2; lia|]. intros (i' & Z2 & Z3 & _). apply Y. replace (j - _) with i' by lia. assumption.
      * rewrite D3; [apply I2; intuition lia|]. intros (i' & Ej & Hi' & Hm). rewrite (perm_in _ _ _ Pb) in Hi'. rewrite Bk in Ej by lia.
        apply X. subst j. rewrite (slice_at LCU T HL) by assumption. split; [unfold V; nia|]. split; [assumption|lia].
    + intros _ i mu Hi Hm. rewrite D1 by (try rewrite (perm_in _ _ _ Pb); assumption). now replace (k + 1 - 1) with k by lia.
  - exists l, c2, c3. split; [exact E|]. clear E. rewrite seq_length in *.
    rewrite Hbk by lia. cbv zeta. set (ws := [(LCU * ((T - 1 + T - 1) mod T), c3); (LCU * (T - 1), lat4)]).
    destruct (last_ok 4 LCU ws h_last l P2) as [F1 F2].
    { intros o v o' v' Ho Ho' i i' Hi Hi' Eo. cbn in Ho, Ho'.
      destruct Ho as [Ho|[Ho|[]]], Ho' as [Ho'|[Ho'|[]]]; injection Ho as Ho1 Ho2; injection Ho' as Ho1' Ho2'; subst o o';
        apply (off_eq LCU T HL) in Eo; tauto. }
    change (fold_left _ h_last l) with (fold_left (fun s i => for_ 4 (fun mu lat => puts ws lat i mu) s) h_last l).
    set (r := fold_left _ _ _) in *. clearbody r. split.
    + intros j mu Hj Hm. pose proof (slice_lt LCU T HL j Hj) as Hs. destruct (slice_dec LCU T HL j) as (i & Hi & Ej).
      destruct (Nat.eq_dec (slice_of LCU j) (T - 1)) as [Y|Y].
      * rewrite (F1 i j mu Hi Hm). 2:{ exists (LCU * (T - 1)), lat4. split; [right; now left|]. now rewrite <- Y. }
        cbn [ws lastw]. rewrite <- Y, <- Ej, Nat.eqb_refl. rewrite A1 by assumption. rewrite <- Y, <- Ej. reflexivity.
      * destruct (Nat.eq_dec (slice_of LCU j + 1) (T - 1)) as [W|W].
        -- assert (Bt : (T - 1 + T - 1) mod T = T - 2) by (replace (T - 1 + T - 1) with (T - 2 + 1 * T) by lia; rewrite Nat.mod_add, Nat.mod_small; lia).
           rewrite (F1 i j mu Hi Hm).
           2:{ exists (LCU * (T - 2)), c3. split; [left; now rewrite Bt|]. replace (T - 2) with (slice_of LCU j) by lia. assumption. }
           cbn [ws lastw]. rewrite Bt. replace (T - 2) with (slice_of LCU j) by lia. rewrite <- Ej, Nat.eqb_refl.
           destruct (Nat.eqb_spec j (LCU * (T - 1) + i)) as [X|X]; [rewrite Ej in X; apply (off_eq LCU T HL) in X; [lia|assumption|assumption]|].
           rewrite I3 by (assumption || lia). replace (T - 1 - 1) with (slice_of LCU j) by lia. now rewrite <- Ej.
        -- rewrite F2; [apply I1; [assumption|assumption|lia]|]. intros (i' & o & v & Ho & Ej' & Hi' & _).
           assert (Bt : 1 < T -> (T - 1 + T - 1) mod T = T - 2) by (intro; replace (T - 1 + T - 1) with (T - 2 + 1 * T) by lia; rewrite Nat.mod_add, Nat.mod_small; lia).
           cbn in Ho. destruct Ho as [Ho|[Ho|[]]]; injection Ho as Ho _; subst o; rewrite Ej in Ej'; apply (off_eq LCU T HL) in Ej'; try assumption; try lia.
    + intros j mu X. rewrite F2; [apply I2; intuition lia|]. intros (i & o & v & Ho & Ej & Hi & Hm). apply X.
      split; [|assumption]. cbn in Ho. subst j. destruct Ho as [Ho|[Ho|[]]]; injection Ho as Ho _; subst o; unfold V.
      * pose proof (Nat.mod_upper_bound (T - 1 + T - 1) T ltac:(lia)). nia.
      * nia.
Qed.
End Fast.
