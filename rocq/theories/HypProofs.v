(** Hypercubic smearing: the levels. *)
From Coq Require Import PeanoNat List Reals Lia Lra Permutation Bool.
From Verif Require Import CMat MatSpec MmulModel MmulProofs MatModel MatProofs MatProofs2 Det MatEx ProjModel ProjProofs ExpModel FieldModel FieldProofs FieldProofs2 ExpProofs2 SmearModel SmearProofs HypModel HypSpec.
Import ListNotations.
Local Open Scope C_scope.

Lemma shaped_add : forall n A B, shaped n A -> shaped n B -> shaped n (madd A B).
Proof. intros n A B HA HB E. apply quat_add; [now apply HA|now apply HB]. Qed.
Lemma shaped_SUn : forall n A, SUn n A -> shaped n A.
Proof. intros n A H E. subst n. now apply quat_SU2. Qed.
Lemma shaped_ext : forall n A B, meq n A B -> shaped n B -> shaped n A.
Proof. intros n A B E H En. subst n. eapply quat_ext; [exact E|now apply H]. Qed.
Lemma shaped_zero : forall n, shaped n mzero.
Proof. intros n E. apply quat_zero. Qed.
Lemma shaped_sum : forall {A} n (l : list A) f, (forall a, In a l -> shaped n (f a)) -> shaped n (msum l f).
Proof.
  intros A n l f. induction l as [|a l IH]; intro H; cbn [msum fold_right]; [apply shaped_zero|].
  apply shaped_add; [apply H; now left|]. apply IH. intros b Hb. apply H. now right.
Qed.
Lemma msum_ext : forall {A} n (l : list A) f g, (forall a, In a l -> meq n (f a) (g a)) -> meq n (msum l f) (msum l g).
Proof.
  intros A n l f g. induction l as [|a l IH]; intro H; cbn [msum fold_right]; [reflexivity|].
  intros i j Hi Hj. unfold madd. rewrite (H a (or_introl eq_refl)) by assumption.
  f_equal. apply IH; [intros b Hb; apply H; now right|assumption|assumption].
Qed.
Lemma madd_assoc' : forall n A B D, meq n (madd (madd A B) D) (madd A (madd B D)).
Proof. intros n A B D i j _ _. unfold madd. ring. Qed.

(** fields of matrices held by fields of arrays *)
Definition isf (n V : nat) (A : nat -> arr) (A' : nat -> mat) : Prop := forall s, (s < V)%nat -> meq n (mx n (A s)) (A' s) /\ SUn n (A' s).

Section Levels.
Variables (n V : nat) (geo : lattice) (junk : nat -> arr) (ND : nat).
Hypothesis G : geom_ok ND V geo.
Let nb (i mu : nat) := nbr (geo i) mu.
Let bk (i mu : nat) := bck (geo i) mu.

Lemma around_ok : forall A B A' B' i mu nu, isf n V A A' -> isf n V B B' -> (i < V)%nat -> (mu < ND)%nat -> (nu < ND)%nat ->
  let M1 := mmul n (mmul n (A' i) (B' (nb i nu))) (dag (A' (nb i mu))) in
  let M2 := mmul n (mmul n (dag (A' (bk i nu))) (B' (bk i nu))) (A' (nb (bk i nu) mu)) in
  meq n (mx n (upper n junk geo A B i mu nu)) M1 /\ meq n (mx n (lower n junk geo A B i mu nu)) M2 /\ SUn n M1 /\ SUn n M2.
Proof.
  intros A B A' B' i mu nu HA HB Hi Hm Hn M1 M2.
  assert (Ha : forall s, (s < V)%nat -> SUn n (mx n (A s)) /\ SUn n (A' s)).
  { intros s Hs. destruct (HA s Hs) as [E S]. split; [|assumption]. eapply SUn_ext; [symmetry; exact E|exact S]. }
  assert (Hb : forall s, (s < V)%nat -> SUn n (mx n (B s)) /\ SUn n (B' s)).
  { intros s Hs. destruct (HB s Hs) as [E S]. split; [|assumption]. eapply SUn_ext; [symmetry; exact E|exact S]. }
  assert (V1 : (nb i nu < V)%nat) by now apply (g_nbr _ _ _ G).
  assert (V2 : (nb i mu < V)%nat) by now apply (g_nbr _ _ _ G).
  assert (V3 : (bk i nu < V)%nat) by now apply (g_bck _ _ _ G).
  assert (V4 : (nb (bk i nu) mu < V)%nat) by now apply (g_nbr _ _ _ G).
  unfold upper, lower. fold (nb i nu) (nb i mu) (bk i nu). fold (nb (bk i nu) mu).
  assert (S1 : SUn n (mmul n (A' i) (B' (nb i nu)))) by (apply SUn_mmul; [now apply Ha|now apply Hb]).
  assert (S2 : SUn n (mmul n (dag (A' (bk i nu))) (B' (bk i nu)))) by (apply SUn_mmul; [apply SUn_dag; now apply Ha|now apply Hb]).
  assert (S3 : SUn n M1) by (apply SUn_mmul; [assumption|apply SUn_dag; now apply Ha]).
  assert (S4 : SUn n M2) by (apply SUn_mmul; [assumption|now apply Ha]).
  split; [|split; [|split; assumption]].
  - destruct (multab_suNC_ok n (junk 0%nat) (A i) (B (nb i nu)) (proj1 (Ha _ Hi)) (proj1 (Hb _ V1))) as [E1 _].
    rewrite (proj1 (HA _ Hi)), (proj1 (HB _ V1)) in E1. set (a := multab_suNC n _ _ _) in *.
    assert (Sa : SUn n (mx n a)) by (eapply SUn_ext; [symmetry; exact E1|exact S1]).
    destruct (multab_dag_suNC_ok n (junk 1%nat) a (A (nb i mu)) Sa (proj1 (Ha _ V2))) as [E2 _].
    rewrite E2, E1, (proj1 (HA _ V2)). reflexivity.
  - destruct (multabdag_suNC_ok n (junk 0%nat) (A (bk i nu)) (B (bk i nu)) (proj1 (Ha _ V3)) (proj1 (Hb _ V3))) as [E1 _].
    rewrite (proj1 (HA _ V3)), (proj1 (HB _ V3)) in E1. set (a := multabdag_suNC n _ _ _) in *.
    assert (Sa : SUn n (mx n a)) by (eapply SUn_ext; [symmetry; exact E1|exact S2]).
    destruct (multab_suNC_ok n (junk 1%nat) a (A (nb (bk i nu) mu)) Sa (proj1 (Ha _ V4))) as [E2 _].
    rewrite E2, E1, (proj1 (HA _ V4)). reflexivity.
Qed.
Lemma add2_ok : forall A B A' B' i mu nu st, isf n V A A' -> isf n V B B' -> (i < V)%nat -> (mu < ND)%nat -> (nu < ND)%nat ->
  meq n (mx n (a_plus_b n (a_plus_b n st (upper n junk geo A B i mu nu)) (lower n junk geo A B i mu nu)))
        (madd (mx n st) (around n nb bk A' B' i mu nu)) /\ shaped n (around n nb bk A' B' i mu nu).
Proof.
  intros A B A' B' i mu nu st HA HB Hi Hm Hn. destruct (around_ok A B A' B' i mu nu HA HB Hi Hm Hn) as (E1 & E2 & S1 & S2).
  split.
  - destruct (a_plus_b_ok n (a_plus_b n st (upper n junk geo A B i mu nu)) (lower n junk geo A B i mu nu)) as [F1 _].
    destruct (a_plus_b_ok n st (upper n junk geo A B i mu nu)) as [F2 _]. rewrite F1, F2, E1, E2. apply madd_assoc'.
  - apply shaped_add; now apply shaped_SUn.
Qed.
Lemma pair_ok : forall A B A' B' i mu nu, isf n V A A' -> isf n V B B' -> (i < V)%nat -> (mu < ND)%nat -> (nu < ND)%nat ->
  meq n (mx n (a_plus_b n (upper n junk geo A B i mu nu) (lower n junk geo A B i mu nu))) (around n nb bk A' B' i mu nu) /\
  shaped n (around n nb bk A' B' i mu nu).
Proof.
  intros A B A' B' i mu nu HA HB Hi Hm Hn. destruct (around_ok A B A' B' i mu nu HA HB Hi Hm Hn) as (E1 & E2 & S1 & S2).
  split; [|apply shaped_add; now apply shaped_SUn].
  destruct (a_plus_b_ok n (upper n junk geo A B i mu nu) (lower n junk geo A B i mu nu)) as [F1 _]. now rewrite F1, E1, E2.
Qed.
Lemma sum_loop : forall (skip : nat -> bool) (f : arr -> nat -> arr) (M : nat -> mat) l st,
  (forall s d, In d l -> skip d = false -> meq n (mx n (f s d)) (madd (mx n s) (M d))) ->
  meq n (mx n (fold_left (fun s d => if skip d then s else f s d) l st)) (madd (mx n st) (msum (filter (fun d => negb (skip d)) l) M)).
Proof.
  intros skip f M l. induction l as [|d l IH]; intros st H; cbn [fold_left filter].
  - intros i j _ _. unfold madd, msum, fold_right, mzero. ring.
  - rewrite IH by (intros s e He; apply H; now right). destruct (skip d) eqn:Es; cbn [negb]; [reflexivity|].
    rewrite (H st d (or_introl eq_refl) Es). cbn [msum fold_right]. apply madd_assoc'.
Qed.
Lemma sum_loop0 : forall (skip : nat -> bool) (f : arr -> nat -> arr) (M : nat -> mat) l,
  (forall s d, In d l -> skip d = false -> meq n (mx n (f s d)) (madd (mx n s) (M d))) ->
  meq n (mx n (fold_left (fun s d => if skip d then s else f s d) l (MatModel.zero_mat n (junk 2%nat)))) (msum (filter (fun d => negb (skip d)) l) M).
Proof.
  intros skip f M l H. rewrite sum_loop by exact H. destruct (zero_mat_ok n (junk 2%nat)) as [Z _]. rewrite Z. apply madd_0_l.
Qed.
End Levels.

(** a level: one matrix for every pair of different directions *)
Lemma dirs2_at : forall D mu nu, (D = 3 \/ D = 4)%nat -> (mu < D)%nat -> (nu < D)%nat -> mu <> nu ->
  nth_error (dirs2 D) (step D mu nu) = Some (mu, nu).
Proof.
  intros D mu nu [E|E] Hm Hn Hne; subst D.
  - destruct mu as [|[|[|?]]]; try lia; destruct nu as [|[|[|?]]]; try lia; reflexivity.
  - destruct mu as [|[|[|[|?]]]]; try lia; destruct nu as [|[|[|[|?]]]]; try lia; reflexivity.
Qed.
Lemma dirs2_in : forall D mu nu, In (mu, nu) (dirs2 D) -> (mu < D)%nat /\ (nu < D)%nat /\ mu <> nu.
Proof.
  intros D mu nu H. unfold dirs2 in H. apply in_flat_map in H. destruct H as (x & Hx & H). apply in_map_iff in H. destruct H as (y & E & H).
  injection E as -> ->. apply filter_In in H. destruct H as [H1 H2]. apply in_seq in Hx, H1. destruct (Nat.eqb_spec nu mu); [discriminate|]. lia.
Qed.
Lemma level_ok : forall D order (val : nat -> nat -> nat -> arr -> option arr) (P : nat -> nat -> nat -> arr -> Prop) lev,
  (D = 3 \/ D = 4)%nat -> NoDup order ->
  (forall i mu nu sl, In i order -> (mu < D)%nat -> (nu < D)%nat -> mu <> nu -> exists r, val i mu nu sl = Some r /\ P i mu nu r) ->
  exists lev', mfor order (fun i lev => match mfor (dirs2 D) (fun '(mu, nu) '((lev, j) : field arr * nat) =>
        match val i mu nu (lev i j) with None => None | Some r => Some (putf lev i j r, S j) end) (lev, 0%nat) with
      | None => None | Some (lev, _) => Some lev end) lev = Some lev' /\
    forall i mu nu, In i order -> (mu < D)%nat -> (nu < D)%nat -> mu <> nu -> P i mu nu (lev' i (step D mu nu)).
Proof.
  intros D order val P lev HD Nd Hv.
  destruct (mfor_ind (fun (pre : list nat) lev' => forall i mu nu, In i pre -> (mu < D)%nat -> (nu < D)%nat -> mu <> nu -> P i mu nu (lev' i (step D mu nu)))
    order (fun i lev => match mfor (dirs2 D) (fun '(mu, nu) '((lev, j) : field arr * nat) =>
        match val i mu nu (lev i j) with None => None | Some r => Some (putf lev i j r, S j) end) (lev, 0%nat) with
      | None => None | Some (lev, _) => Some lev end) lev) as (lev' & E & H).
  - intros i mu nu [].
  - intros pre i post l Eo I. destruct (split_notin order pre post i Nd Eo) as [Ni Ii].
    destruct (mfor_ind (fun (q : list (nat * nat)) (s : field arr * nat) => snd s = length q /\
       (forall k mu nu, nth_error q k = Some (mu, nu) -> P i mu nu (fst s i k)) /\ forall i' j, i' <> i -> fst s i' j = l i' j)
       (dirs2 D) (fun '(mu, nu) '((lev, j) : field arr * nat) =>
        match val i mu nu (lev i j) with None => None | Some r => Some (putf lev i j r, S j) end) (l, 0%nat)) as ([l' j'] & E' & J1 & J2 & J3).
    + split; [reflexivity|]. split; [|reflexivity]. intros k mu nu X. destruct k; discriminate X.
    + intros q [mu nu] q' [l1 j1] Ed (J1 & J2 & J3). cbn [fst snd] in *.
      destruct (dirs2_in D mu nu) as (D1 & D2 & D3); [rewrite Ed; apply in_app_iff; right; now left|].
      destruct (Hv i mu nu (l1 i j1) Ii D1 D2 D3) as (r & Er & Pr). rewrite Er. eexists. split; [reflexivity|]. cbn [fst snd].
      split; [rewrite app_length; cbn [length]; lia|]. split.
      * intros k mu' nu' X. destruct (Nat.lt_ge_cases k (length q)) as [Hk|Hk].
        -- rewrite nth_error_app1 in X by assumption. unfold putf. rewrite Nat.eqb_refl. destruct (Nat.eqb_spec k j1); [lia|]. cbn [andb]. now apply J2.
        -- rewrite nth_error_app2 in X by assumption. assert (k = length q) by (destruct (k - length q)%nat as [|[|m]] eqn:Ek; cbn in X; try discriminate; lia).
           subst k. rewrite Nat.sub_diag in X. cbn in X. injection X as <- <-. unfold putf. rewrite J1, !Nat.eqb_refl. exact Pr.
      * intros i' j Hi. unfold putf. destruct (Nat.eqb_spec i' i); [contradiction|]. cbn [andb]. now apply J3.
    + rewrite E'. cbn [fst snd] in *. exists l'. split; [reflexivity|]. intros i' mu nu Hi' Hm Hn Hne. apply in_app_iff in Hi'.
      destruct (Nat.eq_dec i' i) as [->|Ne].
      * apply J2. now apply dirs2_at.
      * destruct Hi' as [Hi'|[Hi'|[]]]; [|congruence]. rewrite J3 by assumption. now apply I.
  - exists lev'. split; [exact E|exact H].
Qed.

(** ** The last level and the combined loop of 4D_fast.c *)
Lemma last_level_ok : forall project junk stap a b i it (lat dst : field arr) D (nw : nat -> arr),
  (forall mu, (mu < D)%nat -> project (junk 3%nat) (stap it mu) (lat it mu) a b = Some (nw mu)) ->
  exists dst', last_level project junk stap a b i it lat dst D = Some dst' /\
    (forall mu, (mu < D)%nat -> dst' i mu = nw mu) /\ (forall j mu, j <> i -> dst' j mu = dst j mu).
Proof.
  intros project junk stap a b i it lat dst D nw H. unfold last_level.
  match goal with |- context[mfor ?l ?f ?s] => destruct (mfor_ind (fun (pre : list nat) d => (forall mu, (mu < length pre)%nat -> d i mu = nw mu) /\ (forall j mu, j <> i -> d j mu = dst j mu)) l f s) as (d & E & H1 & H2) end.
  - split; [intros mu X; inversion X|reflexivity].
  - intros pre mu post d Es [I1 I2].
    assert (Em : mu = length pre /\ (mu < D)%nat).
    { assert (X : nth_error (seq 0 D) (length pre) = Some mu) by (rewrite Es, nth_error_app2, Nat.sub_diag by lia; reflexivity).
      assert (L : (length pre < D)%nat) by (rewrite <- (seq_length D 0); apply nth_error_Some; congruence).
      apply nth_error_nth with (d := 0%nat) in X. rewrite seq_nth in X by assumption. lia. }
    destruct Em as [Em HD]. rewrite (H mu HD). eexists. split; [reflexivity|]. rewrite app_length. cbn [length]. split.
    + intros m Hm. unfold putf. rewrite Nat.eqb_refl. destruct (Nat.eqb_spec m mu) as [->|X]; cbn [andb]; [reflexivity|]. apply I1. lia.
    + intros j m Hj. unfold putf. destruct (Nat.eqb_spec j i); [contradiction|]. cbn [andb]. now apply I2.
  - exists d. split; [exact E|]. rewrite seq_length in H1. split; [exact H1|exact H2].
Qed.
