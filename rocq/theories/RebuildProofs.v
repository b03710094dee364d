(** A site written in any of the three layouts is put back together. *)
From Coq Require Import PeanoNat Lia Setoid Morphisms List Reals Lra.
From Verif Require Import CMat Det Arr MatSpec MmulModel MmulProofs MatModel MatProofs InvModel InvProofs InvProofs2 GramModel GramProofs ProjModel ProjProofs RebuildModel.
Local Open Scope C_scope.

Lemma SUn_ext : forall n A B, meq n A B -> SUn n A -> SUn n B.
Proof. intros n A B E [U D]. split; [now rewrite <- E|now rewrite <- (mdet_ext n A B E)]. Qed.

(** * Specification: the real numbers that stand for a link *)
Definition stored (NC : nat) (l : layout) (U : arr) (k : nat) : R :=
  match l with
  | SMALL => shorten NC (fun _ => 0%R) U k
  | _ => if Nat.even k then re (U (k / 2)%nat) else im (U (k / 2)%nat)
  end.

(** * The writer *)
Lemma shorten_tmp : forall NC tmp U k, (2 <= NC < 4)%nat -> (k < NC*NC - 1)%nat -> shorten NC tmp U k = stored NC SMALL U k.
Proof.
  intros NC tmp U k H Hk. unfold stored. destruct NC as [|[|[|[|NC]]]]; try lia; cbn in Hk |- *.
  - do 3 (destruct k as [|k]; [reflexivity|]). lia.
  - do 8 (destruct k as [|k]; [reflexivity|]). lia.
Qed.
Lemma run_copy : forall n (f : nat -> R) chunk val,
  exists chunk', for_ n (fun j '(chunk, val) => (rupd chunk val (f j), S val)) (chunk, val) = (chunk', (val + n)%nat) /\
    forall k, chunk' k = if andb (Nat.leb val k) (Nat.ltb k (val + n)) then f (k - val)%nat else chunk k.
Proof.
  induction n as [|n IH]; intros f chunk val.
  - exists chunk. cbn [for_]. split; [f_equal; lia|]. intro k. destruct (Nat.leb_spec val k), (Nat.ltb_spec k (val + 0)); cbn; try reflexivity; lia.
  - destruct (IH f chunk val) as (c & E & H). cbn [for_]. rewrite E. eexists. split; [f_equal; lia|].
    intro k. unfold rupd. destruct (Nat.eqb_spec k (val + n)) as [->|N].
    + rewrite (proj2 (Nat.leb_le val (val + n))), (proj2 (Nat.ltb_lt (val + n) (val + S n))) by lia. cbn. f_equal. lia.
    + rewrite H. destruct (Nat.leb_spec val k), (Nat.ltb_spec k (val + n)), (Nat.ltb_spec k (val + S n)); cbn; try reflexivity; lia.
Qed.
Lemma run_pairs : forall n (U : arr) chunk val,
  exists chunk', for_ n (fun j '(chunk, val) =>
        let '(chunk, val) := (rupd chunk val (re (U j)), S val) in
        (rupd chunk val (im (U j)), S val)) (chunk, val) = (chunk', (val + 2*n)%nat) /\
    forall k, chunk' k = if andb (Nat.leb val k) (Nat.ltb k (val + 2*n))
                         then (if Nat.even (k - val) then re (U ((k - val)/2)%nat) else im (U ((k - val)/2)%nat)) else chunk k.
Proof.
  induction n as [|n IH]; intros U chunk val.
  - exists chunk. cbn [for_]. split; [f_equal; lia|]. intro k. destruct (Nat.leb_spec val k), (Nat.ltb_spec k (val + 2*0)); cbn; try reflexivity; lia.
  - destruct (IH U chunk val) as (c & E & H). cbn [for_]. rewrite E. eexists. split; [f_equal; lia|].
    intro k. unfold rupd.
    assert (D0 : (2*n/2 = n)%nat) by (rewrite Nat.mul_comm, Nat.div_mul; lia).
    assert (D1 : ((2*n+1)/2 = n)%nat) by (rewrite Nat.add_comm, Nat.mul_comm, Nat.div_add; cbn; lia).
    destruct (Nat.eqb_spec k (S (val + 2*n))) as [->|N1].
    + rewrite (proj2 (Nat.leb_le _ _)), (proj2 (Nat.ltb_lt _ _)) by lia. cbn [andb].
      replace (S (val + 2*n) - val)%nat with (2*n+1)%nat by lia. rewrite D1, Nat.even_add, Nat.even_mul. reflexivity.
    + destruct (Nat.eqb_spec k (val + 2*n)) as [->|N0].
      * rewrite (proj2 (Nat.leb_le _ _)), (proj2 (Nat.ltb_lt _ _)) by lia. cbn [andb].
        replace (val + 2*n - val)%nat with (2*n)%nat by lia. rewrite D0, Nat.even_mul. reflexivity.
      * rewrite H. destruct (Nat.leb_spec val k), (Nat.ltb_spec k (val + 2*n)), (Nat.ltb_spec k (val + 2 * S n)); cbn [andb]; try reflexivity; lia.
Qed.
Lemma grab_link_ok : forall NC l tmp U chunk val, (2 <= NC)%nat -> (l = SMALL -> (NC < 4)%nat) ->
  exists chunk', grab_link NC l tmp U (chunk, val) = Some (chunk', (val + LOOP_VAR NC l)%nat) /\
    forall k, chunk' k = if andb (Nat.leb val k) (Nat.ltb k (val + LOOP_VAR NC l)) then stored NC l U (k - val) else chunk k.
Proof.
  intros NC l tmp U chunk val Hn Hs.
  assert (P : forall m, LOOP_VAR NC l = (2*m)%nat -> l <> SMALL -> exists chunk', grab_link NC l tmp U (chunk, val) = Some (chunk', (val + LOOP_VAR NC l)%nat) /\
    forall k, chunk' k = if andb (Nat.leb val k) (Nat.ltb k (val + LOOP_VAR NC l)) then stored NC l U (k - val) else chunk k).
  { intros m E N. destruct (run_pairs m U chunk val) as (c & R & H). exists c. rewrite E.
    assert (D : (2*m/2 = m)%nat) by (rewrite Nat.mul_comm, Nat.div_mul; lia).
    split.
    - unfold grab_link. destruct l; [congruence| |]; rewrite E, D, R; reflexivity.
    - intro k. rewrite H. destruct l; [congruence| |]; reflexivity. }
  destruct l.
  - specialize (Hs eq_refl). unfold grab_link. rewrite (proj2 (Nat.ltb_lt NC 4) Hs).
    destruct (run_copy (LOOP_VAR NC SMALL) (shorten NC tmp U) chunk val) as (c & R & H). exists c. rewrite R. split; [reflexivity|].
    intro k. rewrite H. destruct (Nat.leb_spec val k), (Nat.ltb_spec k (val + LOOP_VAR NC SMALL)); cbn [andb]; try reflexivity.
    apply shorten_tmp; [lia|]. cbn [LOOP_VAR] in *. lia.
  - apply (P ((NC-1)*NC)%nat); [unfold LOOP_VAR; lia|discriminate].
  - apply (P (NC*NC)%nat); [reflexivity|discriminate].
Qed.
Lemma grab_sitedata_ok : forall ND NC l tmp O chunk, (2 <= NC)%nat -> (l = SMALL -> (NC < 4)%nat) ->
  exists ch, grab_sitedata ND NC l tmp O chunk = Some ch /\
    (forall mu j, (mu < ND)%nat -> (j < LOOP_VAR NC l)%nat -> ch (j + LOOP_VAR NC l * mu)%nat = stored NC l (O mu) j) /\
    (forall k, (ND * LOOP_VAR NC l <= k)%nat -> ch k = chunk k).
Proof.
  intros ND NC l tmp O chunk Hn Hs. unfold grab_sitedata. set (L := LOOP_VAR NC l).
  match goal with |- context[for_ ND ?b ?s0] => set (body := b); assert (K : exists ch, for_ ND body s0 = Some (ch, (L * ND)%nat) /\
    (forall mu j, (mu < ND)%nat -> (j < L)%nat -> ch (j + L * mu)%nat = stored NC l (O mu) j) /\
    (forall k, (ND * L <= k)%nat -> ch k = chunk k)) end.
  { apply (for_ind (fun q s => exists ch, s = Some (ch, (L * q)%nat) /\
      (forall mu j, (mu < q)%nat -> (j < L)%nat -> ch (j + L * mu)%nat = stored NC l (O mu) j) /\
      (forall k, (q * L <= k)%nat -> ch k = chunk k))).
    - exists chunk. repeat split; try (intros; lia). do 2 f_equal. lia.
    - intros q s Hq (ch & -> & H1 & H2). unfold body.
      destruct (grab_link_ok NC l (tmp q) (O q) ch (L * q) Hn Hs) as (c & -> & H). fold L in H.
      exists c. split; [do 2 f_equal; fold L; lia|]. split.
      + intros mu j Hmu Hj. rewrite H. destruct (Nat.eq_dec mu q) as [->|N].
        * rewrite (proj2 (Nat.leb_le _ _)), (proj2 (Nat.ltb_lt _ _)) by lia. cbn [andb]. f_equal. lia.
        * rewrite (proj2 (Nat.leb_gt _ _)) by nia. cbn [andb]. apply H1; lia.
      + intros k Hk. rewrite H, (proj2 (Nat.ltb_ge _ _)) by nia. rewrite Bool.andb_false_r. apply H2. nia. }
  destruct K as (ch & -> & H1 & H2). exists ch. auto.
Qed.

(** * The reader *)
Lemma memcpy_c_ok : forall k O u x, memcpy_c k O u x = if Nat.ltb x k then (u (2*x)%nat, u (2*x+1)%nat) else O x.
Proof.
  intros k O u x. unfold memcpy_c.
  apply (for_ind (fun q (V : arr) => V x = if Nat.ltb x q then (u (2*x)%nat, u (2*x+1)%nat) else O x)); [reflexivity|].
  intros q V Hq H. unfold upd. destruct (Nat.eqb_spec x q) as [->|N].
  - now rewrite (proj2 (Nat.ltb_lt q (S q))) by lia.
  - rewrite H. destruct (Nat.ltb_spec x q), (Nat.ltb_spec x (S q)); try reflexivity; lia.
Qed.
Lemma stored_pair : forall NC l U x, l <> SMALL -> (stored NC l U (2*x), stored NC l U (2*x+1)) = U x.
Proof.
  intros NC l U x N.
  assert (D0 : (2*x/2 = x)%nat) by (rewrite Nat.mul_comm, Nat.div_mul; lia).
  assert (D1 : ((2*x+1)/2 = x)%nat) by (rewrite Nat.add_comm, Nat.mul_comm, Nat.div_add; cbn; lia).
  assert (E0 : Nat.even (2*x) = true) by (rewrite Nat.even_mul; reflexivity).
  assert (E1 : Nat.even (2*x+1) = false) by (rewrite Nat.even_add, Nat.even_mul; reflexivity).
  unfold stored. destruct l; [congruence| |]; rewrite E0, E1, D0, D1; now destruct (U x).
Qed.
(** the rows above the last come from the data, the last row from the minors *)
Lemma complete_top_n_ok : forall m V, (0 < m)%nat -> let n := S m in
  frame (n*n) (complete_top_n n V) V /\
  (forall i c, (i < m)%nat -> (c < n)%nat -> mx n (complete_top_n n V) i c = mx n V i c) /\
  (forall c, (c < n)%nat -> mx n (complete_top_n n V) m c = conj (cofactor n (mx n V) m c)).
Proof.
  intros m V Hm n. unfold complete_top_n.
  set (P := fun q (W : arr) => (forall i c, (i < m)%nat -> (c < n)%nat -> mx n W i c = mx n V i c) /\ frame (n*n) W V /\
    (forall c, (c < q)%nat -> mx n W m c = conj (cofactor n (mx n V) m c))).
  match goal with |- context[for_ n ?b V] => set (body := b); assert (K : P n (for_ n body V)) end.
  { apply (for_ind P).
    - split; [reflexivity|]. split; [intros x _; reflexivity|intros; lia].
    - intros c W Hc (P1 & P2 & P3). unfold body. cbv zeta. pose proof (mulfact_sgn m c) as MF. fold n in MF. rewrite MF. clear MF.
      replace (n-1)%nat with m by (unfold n; lia).
      assert (E : LU_det m (pack_bottom n W (n*n - n + c)) = mdet m (minor m c (mx n V))).
      { rewrite LU_det_ok by assumption. apply mdet_ext. unfold n. rewrite pack_bottom_ok by assumption.
        intros i j Hi Hj. unfold minor. replace (skip m i) with i by (unfold skip; now rewrite (proj2 (Nat.ltb_lt i m)) by assumption).
        assert (skip c j < S m)%nat by now apply skip_lt. now apply P1. }
      rewrite E. replace (n*n - n + c)%nat with (c + n*m)%nat by (unfold n; lia).
      split; [|split].
      + intros i c' Hi Hc'. unfold mx at 1. rewrite upd_neq; [now apply P1|]. intro X. apply idx_inj in X; lia.
      + intros x Hx. rewrite upd_neq by (unfold n in *; nia). now apply P2.
      + intros c' Hc'. unfold mx at 1. destruct (Nat.eq_dec c' c) as [->|N].
        * rewrite upd_eq. f_equal. unfold cofactor. replace (n-1)%nat with m by (unfold n; lia). f_equal.
          unfold sgn. destruct (Nat.even (m + c)); [reflexivity|]. apply C_eq; cunfold; lra.
        * rewrite upd_neq; [apply P3; lia|]. intro X. apply idx_inj in X; unfold n in *; lia. }
  destruct K as (K1 & K2 & K3). auto.
Qed.
Lemma cofactor_2 : forall V, cofactor 2 V 1 0 = - V 0%nat 1%nat /\ cofactor 2 V 1 1 = V 0%nat 0%nat.
Proof. intro V. unfold cofactor, sgn, minor, skip. cbn. unfold sgn. cbn. split; ring. Qed.
Lemma cofactor_3 : forall V,
  cofactor 3 V 2 0 = V 0%nat 1%nat * V 1%nat 2%nat - V 0%nat 2%nat * V 1%nat 1%nat /\
  cofactor 3 V 2 1 = V 0%nat 2%nat * V 1%nat 0%nat - V 0%nat 0%nat * V 1%nat 2%nat /\
  cofactor 3 V 2 2 = V 0%nat 0%nat * V 1%nat 1%nat - V 0%nat 1%nat * V 1%nat 0%nat.
Proof. intro V. unfold cofactor, minor. cbn. unfold sgn, minor, skip. cbn. repeat split; ring. Qed.

Lemma complete_top_ok : forall n O u, (2 <= n)%nat ->
  frame (n*n) (complete_top n O u) O /\
  (forall i c, (i < n-1)%nat -> (c < n)%nat -> mx n (complete_top n O u) i c = (u (2*(c+n*i))%nat, u (2*(c+n*i)+1)%nat)) /\
  (forall c, (c < n)%nat -> mx n (complete_top n O u) (n-1)%nat c = conj (cofactor n (mx n (complete_top n O u)) (n-1)%nat c)).
Proof.
  intros n O u Hn. unfold complete_top. set (V := memcpy_c (n*n-n) O u).
  assert (T : forall x, (x < n*n - n)%nat -> V x = (u (2*x)%nat, u (2*x+1)%nat)).
  { intros x Hx. unfold V. rewrite memcpy_c_ok. now rewrite (proj2 (Nat.ltb_lt _ _)) by assumption. }
  assert (F : frame (n*n) V O).
  { intros x Hx. unfold V. rewrite memcpy_c_ok. now rewrite (proj2 (Nat.ltb_ge _ _)) by lia. }
  clearbody V.
  destruct n as [|[|[|[|n]]]]; try lia.
  - change (2-1)%nat with 1%nat. unfold complete_top_2. split; [|split].
    + intros x Hx. rewrite !upd_neq by lia. now apply F.
    + intros i c Hi Hc. replace i with 0%nat by lia. unfold mx. rewrite !upd_neq by lia. apply T. lia.
    + intros c Hc. destruct (cofactor_2 (mx 2 (upd (upd V 2 (- conj (V 1%nat))) 3 (conj (upd V 2 (- conj (V 1%nat)) 0%nat))))) as [E0 E1].
      destruct c as [|[|c]]; [rewrite E0|rewrite E1|lia]; unfold mx, upd; cbn [Nat.add Nat.mul Nat.eqb].
      * apply C_eq; cunfold; ring.
      * reflexivity.
  - change (3-1)%nat with 2%nat. set (W := complete_top_3 V). split; [|split].
    + intros x Hx. unfold W, complete_top_3. rewrite !upd_neq by lia. now apply F.
    + intros i c Hi Hc. unfold mx, W, complete_top_3. rewrite !upd_neq by lia. apply T. lia.
    + intros c Hc. destruct (cofactor_3 (mx 3 W)) as (E0 & E1 & E2).
      destruct c as [|[|[|c]]]; [rewrite E0|rewrite E1|rewrite E2|lia]; unfold W, complete_top_3, mx, upd; cbn [Nat.add Nat.mul Nat.eqb]; reflexivity.
  - set (m := S (S (S n))) in *. change (S m) with (S m) in *. replace (S m - 1)%nat with m in * by lia.
    destruct (complete_top_n_ok m V ltac:(unfold m; lia)) as (A & B & D). split; [|split].
    + intros x Hx. rewrite A by assumption. now apply F.
    + intros i c Hi Hc. rewrite B by assumption. unfold mx. apply T. nia.
    + intros c Hc. rewrite D by assumption. f_equal. unfold cofactor. f_equal. apply mdet_ext. replace (S m - 1)%nat with m by lia.
      intros i j Hi Hj. unfold minor. replace (skip m i) with i by (unfold skip; now rewrite (proj2 (Nat.ltb_lt i m)) by assumption).
      symmetry. apply B; [assumption|now apply skip_lt].
Qed.

(** reading the top rows of an orthonormal set gives the group element with these rows *)
Lemma complete_top_group : forall n O u U, (2 <= n)%nat -> (forall j, (j < 2*(n-1)*n)%nat -> u j = stored n GAUGE U j) ->
  orthonormal (n-1) n (mx n U) ->
  SUn n (mx n (complete_top n O u)) /\ (forall i c, (i < n-1)%nat -> (c < n)%nat -> mx n (complete_top n O u) i c = mx n U i c).
Proof.
  intros n O u U Hn Hu Ho. destruct (complete_top_ok n O u Hn) as (_ & B & D).
  assert (E : forall i c, (i < n-1)%nat -> (c < n)%nat -> mx n (complete_top n O u) i c = mx n U i c).
  { intros i c Hi Hc. rewrite B by assumption.
    assert (c + n*i < (n-1)*n)%nat by nia.
    rewrite !Hu by nia. rewrite stored_pair by discriminate. reflexivity. }
  split; [|exact E]. destruct n as [|m]; [lia|]. replace (S m - 1)%nat with m in * by lia. apply complete_row; [|exact D].
  intros i j Hi Hj. rewrite (dot_ext (S m) _ _ (mx (S m) U i) (mx (S m) U j)) by (intros; now apply E). now apply Ho.
Qed.
Lemma complete_top_restores : forall n O u U, (2 <= n)%nat -> (forall j, (j < 2*(n-1)*n)%nat -> u j = stored n GAUGE U j) ->
  orthonormal (n-1) n (mx n U) ->
  (meq n (mx n (complete_top n O u)) (mx n U) <-> SUn n (mx n U)).
Proof.
  intros n O u U Hn Hu Ho. destruct (complete_top_group n O u U Hn Hu Ho) as [G E].
  split; [intro H; now apply (SUn_ext n _ _ H)|]. intro G'.
  destruct n as [|m]; [lia|]. replace (S m - 1)%nat with m in * by lia.
  intros i c Hi Hc. destruct (Nat.eq_dec i m) as [->|N]; [|apply E; lia].
  rewrite (SUn_last_row m _ c G), (SUn_last_row m _ c G') by assumption. f_equal. unfold cofactor. f_equal. apply mdet_ext.
  intros a b Ha Hb. replace (S m - 1)%nat with m in Ha, Hb by lia. unfold minor.
  replace (skip m a) with a by (unfold skip; now rewrite (proj2 (Nat.ltb_lt a m)) by assumption).
  apply E; [assumption|now apply skip_lt].
Qed.

(** * SMALL *)
Definition generic (n : nat) (U : arr) : Prop := n = 3%nat -> (DBL_MIN <= norm2 (U 1%nat) + norm2 (U 2%nat))%R.
Lemma rebuild_ext : forall n O u v k, (2 <= n < 4)%nat -> (forall j, (j < n*n - 1)%nat -> u j = v j) -> rebuild n O u k = rebuild n O v k.
Proof.
  intros n O u v k Hn H. destruct n as [|[|[|[|n]]]]; try lia; cbn in H.
  - unfold rebuild, rebuild_2. now rewrite !(H 0 ltac:(lia))%nat, !(H 1 ltac:(lia))%nat, !(H 2 ltac:(lia))%nat.
  - unfold rebuild, rebuild_3. cbv zeta.
    now rewrite !(H 0 ltac:(lia))%nat, !(H 1 ltac:(lia))%nat, !(H 2 ltac:(lia))%nat, !(H 3 ltac:(lia))%nat, !(H 4 ltac:(lia))%nat, !(H 5 ltac:(lia))%nat, !(H 6 ltac:(lia))%nat, !(H 7 ltac:(lia))%nat.
Qed.
Lemma rebuild_ok : forall n O p U, (2 <= n < 4)%nat -> SUn n (mx n U) -> generic n U -> holds n (rebuild n O (shorten n p U)) O (mx n U).
Proof.
  intros n O p U Hn G D. destruct n as [|[|[|[|n]]]]; try lia.
  - apply rebuild_2_ok. now apply SUn_2.
  - apply rebuild_3_ok; [now apply SUn_3|now apply D].
Qed.
Lemma exhume_ok : forall n O u U, (2 <= n < 4)%nat -> (forall j, (j < n*n - 1)%nat -> u j = stored n SMALL U j) ->
  SUn n (mx n U) -> generic n U -> holds n (exhume_O n O u) O (mx n U).
Proof.
  intros n O u U Hn Hu G D. unfold exhume_O.
  destruct (gram_reunit_ok n (rebuild n O u) ltac:(lia)) as (F & _ & K).
  destruct (rebuild_ok n O (fun _ => 0%R) U Hn G D) as [E Fr].
  assert (X : forall k, rebuild n O u k = rebuild n O (shorten n (fun _ => 0%R) U) k) by (intro k; apply rebuild_ext; [assumption|exact Hu]).
  assert (E' : meq n (mx n (rebuild n O u)) (mx n U)).
  { intros i j Hi Hj. rewrite <- E by assumption. apply X. }
  split.
  - rewrite K; [exact E'|]. apply (SUn_ext n (mx n U)); [symmetry; exact E'|exact G].
  - intros x Hx. rewrite F by assumption. rewrite X. now apply Fr.
Qed.
Lemma exhume_degenerate : forall O u U, (forall j, (j < 8)%nat -> u j = stored 3 SMALL U j) ->
  (norm2 (U 1%nat) + norm2 (U 2%nat) < DBL_MIN)%R -> holds 3 (exhume_O 3 O u) O mid.
Proof.
  intros O u U Hu D. unfold exhume_O.
  destruct (gram_reunit_ok 3 (rebuild 3 O u) ltac:(lia)) as (F & _ & K).
  destruct (rebuild_3_degenerate O (fun _ => 0%R) U D) as [E Fr].
  assert (X : forall k, rebuild 3 O u k = rebuild_3 O (shorten_3 (fun _ => 0%R) U) k) by (intro k; apply (rebuild_ext 3); [lia|exact Hu]).
  assert (E' : meq 3 (mx 3 (rebuild 3 O u)) mid).
  { intros i j Hi Hj. rewrite <- E by assumption. apply X. }
  split.
  - rewrite K; [exact E'|]. apply (SUn_ext 3 mid); [symmetry; exact E'|apply SUn_mid].
  - intros x Hx. rewrite F by assumption. rewrite X. now apply Fr.
Qed.

(** * One link, any layout *)
Definition storable (n : nat) (l : layout) (U : arr) : Prop :=
  match l with
  | NCxNC => True
  | GAUGE => SUn n (mx n U)
  | SMALL => SUn n (mx n U) /\ (n < 4)%nat /\ generic n U
  end.
Lemma rebuild_lat_ok : forall n O u l U, (2 <= n)%nat -> storable n l U -> (forall j, (j < LOOP_VAR n l)%nat -> u j = stored n l U j) ->
  exists V, rebuild_lat n O u l = Some V /\ holds n V O (mx n U).
Proof.
  intros n O u l U Hn S Hu. destruct l; cbn [storable LOOP_VAR rebuild_lat] in *.
  - destruct S as (S1 & S2 & S3). rewrite (proj2 (Nat.ltb_lt n 4)) by assumption. eexists; split; [reflexivity|]. now apply exhume_ok.
  - eexists; split; [reflexivity|]. split.
    + apply complete_top_restores; [assumption|exact Hu| |exact S]. apply SUn_orthonormal; [assumption|lia].
    + now apply (complete_top_ok n O u Hn).
  - eexists; split; [reflexivity|]. split.
    + intros i j Hi Hj. unfold mx, complete_NCxNC. rewrite memcpy_c_ok, (proj2 (Nat.ltb_lt _ _)) by nia.
      rewrite !Hu by nia. now apply stored_pair.
    + intros x Hx. unfold complete_NCxNC. rewrite memcpy_c_ok. now rewrite (proj2 (Nat.ltb_ge _ _)) by lia.
Qed.
Lemma read_dir_ok : forall n l p u t, exists u', read_dir n l p u t = (u', (t + LOOP_VAR n l)%nat) /\
  forall j, (j < LOOP_VAR n l)%nat -> u' j = p (t + j)%nat.
Proof.
  intros n l p u t. unfold read_dir.
  apply (for_ind (fun q s => exists u', s = (u', (t + q)%nat) /\ forall j, (j < q)%nat -> u' j = p (t + j)%nat)).
  - exists u. split; [f_equal; lia|intros; lia].
  - intros q s Hq (v & -> & H). eexists. split; [f_equal; lia|]. intros j Hj. unfold rupd.
    destruct (Nat.eqb_spec j q) as [->|N]; [reflexivity|apply H; lia].
Qed.
Lemma read_site_ok : forall ND n l p i u0 O0 O, (2 <= n)%nat ->
  (forall mu, (mu < ND)%nat -> storable n l (O mu)) ->
  (forall mu j, (mu < ND)%nat -> (j < LOOP_VAR n l)%nat -> p (ND * LOOP_VAR n l * i + (j + LOOP_VAR n l * mu))%nat = stored n l (O mu) j) ->
  exists O1, read_site ND n l p i u0 O0 = Some O1 /\
    (forall mu, (mu < ND)%nat -> holds n (O1 mu) (O0 mu) (mx n (O mu))) /\
    (forall mu, (ND <= mu)%nat -> O1 mu = O0 mu).
Proof.
  intros ND n l p i u0 O0 O Hn S Hp. unfold read_site. set (L := LOOP_VAR n l) in *. set (t0 := (ND * L * i)%nat) in *.
  match goal with |- context[for_ ND ?b ?s0] => set (body := b); assert (K : exists O1 u, for_ ND body s0 = Some (O1, u, (t0 + L * ND)%nat) /\
    (forall mu, (mu < ND)%nat -> holds n (O1 mu) (O0 mu) (mx n (O mu))) /\ (forall mu, (ND <= mu)%nat -> O1 mu = O0 mu)) end.
  { apply (for_ind (fun q s => exists O1 u, s = Some (O1, u, (t0 + L * q)%nat) /\
      (forall mu, (mu < q)%nat -> holds n (O1 mu) (O0 mu) (mx n (O mu))) /\ (forall mu, (q <= mu)%nat -> O1 mu = O0 mu))).
    - exists O0, u0. split; [do 2 f_equal; lia|]. split; [intros; lia|reflexivity].
    - intros q s Hq (O1 & u & -> & H1 & H2). unfold body.
      destruct (read_dir_ok n l p u (t0 + L * q)) as (u' & -> & Hu). fold L in Hu |- *.
      destruct (rebuild_lat_ok n (O1 q) u' l (O q) Hn (S q Hq)) as (V & -> & HV).
      { intros j Hj. fold L in Hj. rewrite Hu by assumption. rewrite <- Hp by assumption. f_equal. lia. }
      eexists _, u'. split; [do 2 f_equal; lia|]. split.
      + intros mu Hmu. cbv beta. destruct (Nat.eqb_spec mu q) as [->|N]; [|apply H1; lia].
        rewrite (H2 q) in HV by lia. exact HV.
      + intros mu Hmu. cbv beta. rewrite (proj2 (Nat.eqb_neq mu q)) by lia. apply H2. lia. }
  destruct K as (O1 & u & -> & H1 & H2). exists O1. auto.
Qed.
