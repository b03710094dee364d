(** The LU determinant and the cofactors, for every NC. *)
From Coq Require Import PeanoNat Lia Setoid Morphisms List Reals Lra.
From Verif Require Import CMat Det Arr MatSpec MmulModel MmulProofs MatModel MatProofs InvModel.
Local Open Scope C_scope.

Lemma cprod_mul : forall f p, cprod f p = f * p.
Proof. intros. unfold cprod. apply creal_cimag_mul. Qed.
Lemma abs2_norm : forall z, abs2 z = norm2 z.
Proof. reflexivity. Qed.

(** a loop that rewrites the entries lo..n-1 of row j *)
Lemma for_row : forall n lo j (f : nat -> arr -> C) (v : nat -> C) (a : arr),
  (forall k u, (lo <= k < n)%nat ->
     (forall x, (forall c, (lo <= c < k)%nat -> x <> (c + j*n)%nat) -> u x = a x) -> f k u = v k) ->
  let r := for_ (n - lo) (fun h u => upd u ((lo+h) + j*n) (f (lo+h)%nat u)) a in
  (forall c, (lo <= c < n)%nat -> r (c + j*n)%nat = v c) /\
  (forall x, (forall c, (lo <= c < n)%nat -> x <> (c + j*n)%nat) -> r x = a x).
Proof.
  intros n lo j f v a Hf r.
  assert (G : (forall c, (lo <= c < lo + (n-lo))%nat -> r (c + j*n)%nat = v c) /\
              (forall x, (forall c, (lo <= c < lo + (n-lo))%nat -> x <> (c + j*n)%nat) -> r x = a x)).
  { unfold r. apply (for_ind (fun q r => (forall c, (lo <= c < lo + q)%nat -> r (c + j*n)%nat = v c) /\
              (forall x, (forall c, (lo <= c < lo + q)%nat -> x <> (c + j*n)%nat) -> r x = a x))).
    - split; [intros; lia|reflexivity].
    - intros q u Hq [U1 U2]. split.
      + intros c Hc. destruct (Nat.eq_dec c (lo+q)) as [->|N].
        * rewrite upd_eq. apply Hf; [lia|]. exact U2.
        * rewrite upd_neq by lia. apply U1; lia.
      + intros x Hx. rewrite upd_neq; [|apply Hx; lia]. apply U2. intros c Hc. apply Hx; lia. }
  destruct G as [G1 G2]. split.
  - intros c Hc. apply G1; lia.
  - intros x Hx. apply G2. intros c Hc. apply Hx; lia.
Qed.

Lemma idx_inj' : forall n i j i' j', (j < n)%nat -> (j' < n)%nat ->
  (j + i*n = j' + i'*n)%nat -> i = i' /\ j = j'.
Proof. intros n i j i' j' Hj Hj' E. apply (idx_inj n); try assumption. lia. Qed.
Lemma mx' : forall n (a : arr) i j, a (j + i*n)%nat = mx n a i j.
Proof. intros. unfold mx. now rewrite (Nat.mul_comm i n). Qed.
Lemma mx'' : forall n (a : arr) i j, a (i*n + j)%nat = mx n a i j.
Proof. intros. unfold mx. f_equal. lia. Qed.
Lemma mxd : forall n (a : arr) i, a (i*(n+1))%nat = mx n a i i.
Proof. intros. unfold mx. f_equal. lia. Qed.

(** * Elimination and the determinant *)
Definition sub (i : nat) (A : mat) : mat := fun r c => A (i+r)%nat (i+c)%nat.

Lemma mdet_elim : forall m S (f : nat -> C), S 0%nat 0%nat <> C0 ->
  (forall r, (r < m)%nat -> f r = S (Datatypes.S r) 0%nat / S 0%nat 0%nat) ->
  mdet (Datatypes.S m) S =
  S 0%nat 0%nat * mdet m (fun r c => S (Datatypes.S r) (Datatypes.S c) - f r * S 0%nat (Datatypes.S c)).
Proof.
  intros m S f H0 Hf.
  set (T := fun k => (fun r c => if andb (Nat.ltb 0 r) (Nat.leb r k) then S r c - f (r-1)%nat * S 0%nat c else S r c) : mat).
  assert (G : forall k, (k <= m)%nat -> mdet (Datatypes.S m) (T k) = mdet (Datatypes.S m) S).
  { induction k; intro Hk.
    - apply mdet_ext. intros i j _ _. unfold T. destruct i; reflexivity.
    - rewrite <- IHk by lia. rewrite <- (mdet_addrow _ (T k) 0 (Datatypes.S k) (- f k)) by lia.
      apply mdet_ext. intros i j Hi Hj. unfold setrow, T.
      destruct (Nat.eqb_spec i (Datatypes.S k)) as [->|N].
      + replace (Nat.leb (Datatypes.S k) (Datatypes.S k)) with true by (symmetry; apply Nat.leb_refl).
        replace (Nat.leb (Datatypes.S k) k) with false by (symmetry; apply Nat.leb_gt; lia).
        cbn [andb Nat.ltb Nat.leb]. replace (Datatypes.S k - 1)%nat with k by lia. ring.
      + destruct (Nat.leb_spec i (Datatypes.S k)), (Nat.leb_spec i k); try lia; reflexivity. }
  rewrite <- (G m) by lia. rewrite mdet_S, (csum_single (Datatypes.S m) 0); [|lia|].
  - unfold T at 1. cbn [andb Nat.ltb Nat.leb]. unfold sgn. cbn [Nat.even].
    rewrite (mdet_ext m (minor 0 0 (T m)) (fun r c => S (Datatypes.S r) (Datatypes.S c) - f r * S 0%nat (Datatypes.S c))); [ring|].
    intros i j Hi Hj. unfold minor, T. cbn [skip Nat.ltb]. change (skip 0 i) with (Datatypes.S i). change (skip 0 j) with (Datatypes.S j).
    replace (Nat.leb (Datatypes.S i) m) with true by (symmetry; apply Nat.leb_le; lia). cbn [andb Nat.ltb Nat.leb].
    replace (Datatypes.S i - 1)%nat with i by lia. reflexivity.
  - intros i Hi Ni. unfold T at 1. destruct i as [|i]; [lia|].
    replace (Nat.leb (Datatypes.S i) m) with true by (symmetry; apply Nat.leb_le; lia). cbn [andb Nat.ltb Nat.leb].
    replace (Datatypes.S i - 1)%nat with i by lia. rewrite Hf by lia. field. exact H0.
Qed.
Lemma mdet_zerocol : forall m S, (forall r, (r < Datatypes.S m)%nat -> S r 0%nat = C0) -> mdet (Datatypes.S m) S = C0.
Proof.
  intros m S H. rewrite mdet_S. rewrite (csum_ext _ _ (fun _ => C0)); [apply csum_0|].
  intros i Hi. rewrite H by assumption. ring.
Qed.

(** * LU.c *)
Lemma lu_eliminate_ok : forall n U i, (i < n)%nat ->
  (forall r c, (r < n)%nat -> (c < n)%nat -> mx n (lu_eliminate n U i) r c =
    if andb (Nat.ltb i r) (Nat.ltb i c) then mx n U r c - mx n U r i * (C1 / mx n U i i) * mx n U i c else mx n U r c).
Proof.
  intros n U i Hi. unfold lu_eliminate. cbv zeta. rewrite mxd.
  set (dt := C1 / mx n U i i).
  set (V := fun g => (fun r c => if andb (Nat.leb (n-g) r) (Nat.ltb i c) then mx n U r c - mx n U r i * dt * mx n U i c else mx n U r c) : mat).
  match goal with |- context[for_ (n-1-i) ?b U] => assert (G : meq n (mx n (for_ (n-1-i) b U)) (V (n-1-i)%nat)) end.
  { apply (for_ind (fun g u => meq n (mx n u) (V g))).
    - intros r c Hr Hc. unfold V. replace (Nat.leb (n-0) r) with false by (symmetry; apply Nat.leb_gt; lia). reflexivity.
    - intros g u Hg HU. set (j := (n-1-g)%nat).
      assert (Uji : mx n u j i = mx n U j i).
      { rewrite (HU j i) by (unfold j; lia). unfold V. rewrite Nat.ltb_irrefl. now rewrite Bool.andb_false_r. }
      assert (Ui : forall c, (c < n)%nat -> mx n u i c = mx n U i c).
      { intros c Hc. rewrite (HU i c) by lia. unfold V. replace (Nat.leb (n-g) i) with false by (symmetry; apply Nat.leb_gt; lia). reflexivity. }
      destruct (for_row n (i+1) j
        (fun l U0 => U0 (l + j*n)%nat - cprod (u (i + j*n)%nat * dt) (U0 (i*n + l)%nat))
        (fun l => mx n u j l - mx n u j i * dt * mx n u i l) u) as [F1 F2].
      { intros k w Hk Hw. rewrite cprod_mul, !Hw.
        - rewrite mx', mx', mx''. reflexivity.
        - intros c Hc E. rewrite Nat.add_comm in E. apply idx_inj' in E; unfold j in *; lia.
        - intros c Hc E. apply idx_inj' in E; unfold j in *; lia. }
      intros r c Hr Hc. fold j. unfold mx at 1. rewrite (Nat.mul_comm n r).
      destruct (Nat.eq_dec r j) as [->|Nr]; [destruct (Nat.ltb_spec i c) as [Lc|Lc]|].
      + rewrite F1 by lia. unfold V. replace (Nat.leb (n - S g) j) with true by (symmetry; apply Nat.leb_le; unfold j; lia).
        replace (Nat.ltb i c) with true by (symmetry; apply Nat.ltb_lt; lia). cbn [andb].
        rewrite Uji, Ui by assumption. rewrite (HU j c) by (unfold j; lia). unfold V.
        replace (Nat.leb (n - g) j) with false by (symmetry; apply Nat.leb_gt; unfold j; lia). reflexivity.
      + rewrite F2 by (intros c' Hc' E; apply idx_inj' in E; lia). rewrite mx', (HU j c) by (unfold j; lia). unfold V.
        replace (Nat.ltb i c) with false by (symmetry; apply Nat.ltb_ge; lia). rewrite !Bool.andb_false_r. reflexivity.
      + rewrite F2 by (intros c' Hc' E; apply idx_inj' in E; lia). rewrite mx', (HU r c) by assumption. unfold V.
        replace (Nat.leb (n - S g) r) with (Nat.leb (n-g) r); [reflexivity|].
        destruct (Nat.leb_spec (n-g) r), (Nat.leb_spec (n - S g) r); unfold j in *; lia. }
  intros r c Hr Hc. rewrite (G r c Hr Hc). unfold V.
  replace (Nat.leb (n - (n-1-i)) r) with (Nat.ltb i r); [reflexivity|].
  destruct (Nat.ltb_spec i r), (Nat.leb_spec (n - (n-1-i)) r); lia.
Qed.

Lemma lu_swap_ok : forall n U i piv, (i < n)%nat -> (piv < n)%nat -> i <> piv ->
  (forall r c, (r < n)%nat -> (c < n)%nat -> mx n (lu_swap n U i piv) r c =
     if Nat.leb i c then swaprows (mx n U) i piv r c else mx n U r c).
Proof.
  intros n U i piv Hi Hp N. unfold lu_swap.
  set (V := fun q => (fun r c => if andb (Nat.leb i c) (Nat.ltb c (i+q)) then swaprows (mx n U) i piv r c else mx n U r c) : mat).
  match goal with |- context[for_ (n-i) ?b U] => assert (G : meq n (mx n (for_ (n-i) b U)) (V (n-i)%nat)) end.
  { apply (for_ind (fun q u => meq n (mx n u) (V q))).
    - intros r c Hr Hc. unfold V. destruct (Nat.leb_spec i c), (Nat.ltb_spec c (i+0)); try lia; reflexivity.
    - intros q u Hq HU r c Hr Hc. cbv zeta. unfold mx at 1. rewrite (Nat.mul_comm n r).
      destruct (Nat.eq_dec c (i+q)) as [->|Nc].
      + replace (V (S q) r (i+q)%nat) with (swaprows (mx n U) i piv r (i+q)%nat)
          by (unfold V; replace (Nat.leb i (i+q)) with true by (symmetry; apply Nat.leb_le; lia);
              replace (Nat.ltb (i+q) (i + S q)) with true by (symmetry; apply Nat.ltb_lt; lia); reflexivity).
        assert (HV : forall x, (x < n)%nat -> mx n u x (i+q)%nat = mx n U x (i+q)%nat).
        { intros x Hx. rewrite (HU x) by lia. unfold V. rewrite Nat.ltb_irrefl, Bool.andb_false_r. reflexivity. }
        unfold swaprows.
        destruct (Nat.eqb_spec r i) as [->|Ni]; [|destruct (Nat.eqb_spec r piv) as [->|Np]].
        * rewrite upd_neq by (intro E; apply idx_inj' in E; lia). rewrite upd_eq, mx'. apply HV; assumption.
        * rewrite upd_eq, mx'. apply HV; assumption.
        * rewrite !upd_neq by (intro E; apply idx_inj' in E; lia). rewrite mx'. apply HV; assumption.
      + rewrite !upd_neq by (intro E; apply idx_inj' in E; lia). rewrite mx', (HU r c) by assumption. unfold V.
        replace (Nat.ltb c (i + S q)) with (Nat.ltb c (i+q)); [reflexivity|].
        destruct (Nat.ltb_spec c (i+q)), (Nat.ltb_spec c (i + S q)); lia. }
  intros r c Hr Hc. rewrite (G r c Hr Hc). unfold V.
  replace (Nat.ltb c (i + (n-i))) with true by (symmetry; apply Nat.ltb_lt; lia). now rewrite Bool.andb_true_r.
Qed.

Lemma lu_pivot_ok : forall n U i, (i < n)%nat ->
  let '(piv, best) := lu_pivot n U i in
  (i <= piv < n)%nat /\ best = norm2 (mx n U piv i) /\
  (forall j, (i <= j < n)%nat -> (norm2 (mx n U j i) <= best)%R).
Proof.
  intros n U i Hi. unfold lu_pivot. rewrite mxd.
  match goal with |- context[for_ _ ?b ?s] => set (body := b); set (s0 := s) end.
  assert (G : let '(piv, best) := for_ (n-(i+1)) body s0 in
    (i <= piv < i + 1 + (n-(i+1)))%nat /\ best = norm2 (mx n U piv i) /\
    (forall j, (i <= j < i + 1 + (n-(i+1)))%nat -> (norm2 (mx n U j i) <= best)%R)).
  { apply (for_ind (fun q (s : nat * R) => let '(piv, best) := s in
      (i <= piv < i + 1 + q)%nat /\ best = norm2 (mx n U piv i) /\
      (forall j, (i <= j < i + 1 + q)%nat -> (norm2 (mx n U j i) <= best)%R))).
    - unfold s0. split; [lia|split; [reflexivity|]]. intros j Hj. replace j with i by lia. apply Rle_refl.
    - intros q [piv best] Hq (H1 & H2 & H3). unfold body. cbv zeta. rewrite mx', abs2_norm.
      destruct (Rlt_dec best (norm2 (mx n U (i+1+q)%nat i))) as [L|L].
      + split; [lia|split; [reflexivity|]]. intros j Hj.
        destruct (Nat.eq_dec j (i+1+q)) as [->|N]; [apply Rle_refl|].
        apply Rle_trans with best; [apply H3; lia|lra].
      + split; [lia|split; [assumption|]]. intros j Hj.
        destruct (Nat.eq_dec j (i+1+q)) as [->|N]; [lra|apply H3; lia]. }
  destruct (for_ (n-(i+1)) body s0) as [piv best].
  replace (i + 1 + (n-(i+1)))%nat with n in G by lia. exact G.
Qed.

Lemma sub_sub : forall i A, forall r c, sub (S i) A r c = sub i A (S r) (S c).
Proof. intros. unfold sub. f_equal; lia. Qed.

Definition lu_inv (n : nat) (U0 : arr) (i : nat) (s : lu_state) : Prop :=
  match s with
  | Returned z => z = mdet n (mx n U0)
  | Running U d perms => sgn perms * d * mdet (n - i) (sub i (mx n U)) = mdet n (mx n U0)
  end.

Lemma lu_turn_ok : forall n U0 i s, (i < n - 1)%nat -> lu_inv n U0 i s -> lu_inv n U0 (S i) (lu_turn n i s).
Proof.
  intros n U0 i [z|U d perms] Hi H; [exact H|]. unfold lu_turn. cbn [lu_inv] in H.
  pose proof (lu_pivot_ok n U i ltac:(lia)) as P. destruct (lu_pivot n U i) as [piv best].
  destruct P as (P1 & P2 & P3).
  set (m := (n - i - 1)%nat). assert (Em : (n - i)%nat = S m) by (unfold m; lia).
  destruct (Req_EM_T best 0) as [Z|NZ].
  - cbn [lu_inv]. rewrite <- H, Em, mdet_zerocol; [ring|].
    intros r Hr. unfold sub. rewrite Nat.add_0_r. apply norm2_zero. apply Rle_antisym; [|apply norm2_nonneg].
    rewrite <- Z. apply P3. lia.
  - set (W := if Nat.eqb piv i then (U, perms) else (lu_swap n U i piv, S perms)).
    assert (HW : sgn (snd W) * d * mdet (n-i) (sub i (mx n (fst W))) = mdet n (mx n U0) /\ mx n (fst W) i i <> C0).
    { unfold W. destruct (Nat.eqb_spec piv i) as [E|E]; cbn [fst snd].
      - split; [exact H|]. intro Z. apply NZ. rewrite P2, E, Z. apply norm2_zero. reflexivity.
      - split.
        + rewrite <- H. rewrite sgn_S. rewrite (mdet_ext (n-i) _ (swaprows (sub i (mx n U)) 0 (piv - i))).
          * rewrite mdet_swap by lia. ring.
          * intros r c Hr Hc. unfold sub. rewrite lu_swap_ok by lia.
            replace (Nat.leb i (i+c)) with true by (symmetry; apply Nat.leb_le; lia).
            unfold swaprows. destruct (Nat.eqb_spec (i+r) i), (Nat.eqb_spec r 0); try lia.
            -- f_equal. lia.
            -- destruct (Nat.eqb_spec (i+r) piv), (Nat.eqb_spec r (piv-i)); try lia.
               ++ f_equal. lia.
               ++ reflexivity.
        + rewrite lu_swap_ok by lia. rewrite Nat.leb_refl. unfold swaprows. rewrite Nat.eqb_refl.
          intro Z. apply NZ. rewrite P2, Z. apply norm2_zero. reflexivity. }
    destruct W as [U1 perms1]. cbn [fst snd] in HW. destruct HW as [W1 W2].
    cbn [lu_inv]. rewrite mxd, lu_eliminate_ok by lia. rewrite Nat.ltb_irrefl. cbn [andb].
    rewrite <- W1, Em. rewrite (mdet_elim m (sub i (mx n U1)) (fun r => mx n U1 (i + S r)%nat i / mx n U1 i i)).
    + replace (n - S i)%nat with m by (unfold m; lia).
      replace (sub i (mx n U1) 0%nat 0%nat) with (mx n U1 i i) by (unfold sub; now rewrite Nat.add_0_r).
      rewrite (mdet_ext m (sub (S i) (mx n (lu_eliminate n U1 i)))
        (fun r c => sub i (mx n U1) (S r) (S c) - mx n U1 (i + S r)%nat i / mx n U1 i i * sub i (mx n U1) 0%nat (S c))).
      * ring.
      * intros r c Hr Hc. rewrite sub_sub. unfold sub. rewrite lu_eliminate_ok by lia.
        replace (Nat.ltb i (i + S r)) with true by (symmetry; apply Nat.ltb_lt; lia).
        replace (Nat.ltb i (i + S c)) with true by (symmetry; apply Nat.ltb_lt; lia). cbn [andb].
        rewrite Nat.add_0_r. field. exact W2.
    + unfold sub. now rewrite Nat.add_0_r.
    + intros r Hr. unfold sub. rewrite !Nat.add_0_r. reflexivity.
Qed.

Lemma LU_det_ok : forall n U, (0 < n)%nat -> LU_det n U = mdet n (mx n U).
Proof.
  intros n U Hn. unfold LU_det.
  assert (G : lu_inv n U (n-1) (for_ (n-1) (lu_turn n) (Running U C1 0))).
  { apply (for_ind (lu_inv n U)).
    - cbn [lu_inv]. rewrite Nat.sub_0_r. unfold sgn. cbn [Nat.even].
      rewrite (mdet_ext n (sub 0 (mx n U)) (mx n U)) by (intros i j _ _; reflexivity). ring.
    - intros i s Hi Hs. now apply lu_turn_ok. }
  destruct (for_ (n-1) (lu_turn n) (Running U C1 0)) as [z|V d perms]; cbn [lu_inv] in G; [exact G|].
  rewrite <- G. replace (n - (n-1))%nat with 1%nat by lia. cbn [mdet csum]. unfold sub.
  replace (n*n-1)%nat with ((n-1) + n*(n-1))%nat by nia. change (V ((n-1) + n*(n-1))%nat) with (mx n V (n-1)%nat (n-1)%nat).
  rewrite !Nat.add_0_r. unfold sgn. rewrite <- Nat.negb_odd. destruct (Nat.odd perms); cbn [negb Nat.even]; ring.
Qed.

Lemma det_ok : forall n U, (0 < n)%nat -> det n U = mdet n (mx n U) /\ speed_det n U = mdet n (mx n U).
Proof.
  intros n U Hn. destruct n as [|[|[|[|n]]]]; try lia.
  - split; now apply LU_det_ok.
  - rewrite mdet_2. split; lazy beta delta [det2 mx det det_2 speed_det speed_det_2 Nat.add Nat.mul] iota zeta; ring.
  - rewrite mdet_3. split; lazy beta delta [det3 mx det det_3 speed_det speed_det_3 Nat.add Nat.mul] iota zeta; ring.
  - split; apply LU_det_ok; lia.
Qed.

(** * Cofactors *)
Lemma for_flat : forall {S} n m (body : nat -> S -> S) s,
  for_ (n*m) body s = for_ n (fun i s => for_ m (fun j s => body (j + m*i)%nat s) s) s.
Proof.
  intros S n m body s. induction n; [reflexivity|]. cbn [for_]. rewrite <- IHn.
  replace (Datatypes.S n * m)%nat with (n*m + m)%nat by lia.
  assert (G : forall k, for_ (n*m + k) body s = for_ k (fun j s => body (j + m*n)%nat s) (for_ (n*m) body s)).
  { induction k; cbn [for_]; [now rewrite Nat.add_0_r|].
    rewrite Nat.add_succ_r. cbn [for_]. rewrite IHk. f_equal. lia. }
  apply G.
Qed.

Lemma mod_idx : forall n i j, (j < n)%nat -> ((j + n*i) mod n = j /\ (j + n*i) / n = i)%nat.
Proof.
  intros n i j Hj. rewrite (Nat.mul_comm n i). split.
  - rewrite Nat.mod_add by lia. apply Nat.mod_small; assumption.
  - rewrite Nat.div_add by lia. rewrite Nat.div_small by assumption. lia.
Qed.

Lemma pack_minor_ok : forall m b r c, (r < S m)%nat -> (c < S m)%nat ->
  meq m (mx m (pack_minor (S m) b (c + S m * r))) (minor r c (mx (S m) b)).
Proof.
  intros m b r c Hr Hc. unfold pack_minor. rewrite for_flat.
  destruct (mod_idx (S m) r c Hc) as [-> ->].
  set (rowpos := fun i => if Nat.leb i r then i else (i - 1)%nat).
  set (colpos := fun j => if Nat.leb j c then j else (j - 1)%nat).
  set (P := fun i (s : arr * nat) => snd s = (m * rowpos i)%nat /\
    forall a d, (a < m)%nat -> (d < m)%nat -> (skip r a < i)%nat -> fst s (d + m*a)%nat = minor r c (mx (S m) b) a d).
  match goal with |- context[for_ (S m) ?row (?a0, O)] => assert (G : P (S m) (for_ (S m) row (a0, O))) end.
  { apply (for_ind P).
    - split; [unfold rowpos; cbn; lia|]. intros; lia.
    - intros i s Hi [S1 S2]. destruct (Nat.eq_dec i r) as [->|N].
      + match goal with |- P _ ?t => assert (E : t = s) end.
        { rewrite (for_ext (S m) _ (fun _ s => s)).
          - generalize (S m). intro k. clear. induction k; cbn [for_]; [reflexivity|exact IHk].
          - intros j [u v] Hj. destruct (mod_idx (S m) r j Hj) as [-> ->]. rewrite Nat.eqb_refl.
            cbn [negb]. rewrite Bool.andb_false_r. reflexivity. }
        rewrite E. split.
        * rewrite S1. unfold rowpos. rewrite Nat.leb_refl. replace (Nat.leb (S r) r) with false by (symmetry; apply Nat.leb_gt; lia). lia.
        * intros a d Ha Hd L. apply S2; try assumption. pose proof (skip_neq r a). lia.
      + set (i' := rowpos i).
        assert (Hi' : (i' < m)%nat) by (unfold i', rowpos; destruct (Nat.leb_spec i r); lia).
        assert (Si : skip r i' = i) by (unfold i', rowpos; destruct (Nat.leb_spec i r); skips; lia).
        assert (Inj : forall a, skip r a = i -> a = i').
        { intros a Ha. unfold i', rowpos. destruct (Nat.leb_spec i r); unfold skip in Ha; destruct (Nat.ltb_spec a r); lia. }
        set (Q := fun j (t : arr * nat) => snd t = (m * i' + colpos j)%nat /\
          (forall a d, (a < m)%nat -> (d < m)%nat -> (skip r a < i)%nat -> fst t (d + m*a)%nat = minor r c (mx (S m) b) a d) /\
          (forall d, (d < m)%nat -> (skip c d < j)%nat -> fst t (d + m*i')%nat = minor r c (mx (S m) b) i' d)).
        match goal with |- P _ ?t => assert (H : Q (S m) t) end.
        { apply (for_ind Q).
          - split; [rewrite S1; unfold colpos; cbn; unfold i'; lia|]. split; [exact S2|intros; lia].
          - intros j [u v] Hj (T1 & T2 & T3). cbn [fst snd] in *. destruct (mod_idx (S m) i j Hj) as [-> ->].
            replace (Nat.eqb i r) with false by (symmetry; apply Nat.eqb_neq; assumption). cbn [negb].
            rewrite Bool.andb_true_r. destruct (Nat.eqb_spec j c) as [->|Nj]; cbn [negb].
            + split; [|split]; cbn [fst snd].
              * rewrite T1. unfold colpos. rewrite Nat.leb_refl.
                replace (Nat.leb (S c) c) with false by (symmetry; apply Nat.leb_gt; lia). lia.
              * exact T2.
              * intros d Hd L. apply T3; try assumption. pose proof (skip_neq c d). lia.
            + assert (Cj : skip c (colpos j) = j /\ (colpos j < m)%nat).
              { unfold colpos. destruct (Nat.leb_spec j c); skips; lia. }
              destruct Cj as [Cj1 Cj2].
              split; [|split]; cbn [fst snd].
              * rewrite T1. unfold colpos. destruct (Nat.leb_spec j c), (Nat.leb_spec (S j) c); lia.
              * intros a d Ha Hd L. rewrite upd_neq; [now apply T2|]. rewrite T1.
                intro E. assert (a = i') by (apply (idx_inj m a d i' (colpos j)); lia). subst a. lia.
              * intros d Hd L. destruct (Nat.eq_dec d (colpos j)) as [->|Nd].
                -- rewrite T1, Nat.add_comm, upd_eq. unfold minor. rewrite Si, Cj1. reflexivity.
                -- rewrite upd_neq by (rewrite T1; lia). apply T3; [assumption|].
                   assert (skip c d <> j); [|lia]. intro E. apply Nd. unfold colpos.
                   unfold skip in E. destruct (Nat.ltb_spec d c), (Nat.leb_spec j c); lia. }
        destruct H as (Q1 & Q2 & Q3). split.
        * rewrite Q1. unfold colpos. replace (Nat.leb (S m) c) with false by (symmetry; apply Nat.leb_gt; lia).
          unfold i', rowpos. destruct (Nat.leb_spec i r), (Nat.leb_spec (S i) r); try lia; nia.
        * intros a d Ha Hd L. destruct (Nat.eq_dec (skip r a) i) as [E|E].
          -- rewrite (Inj a E). apply Q3; [assumption|]. apply skip_lt; assumption.
          -- apply Q2; try assumption. lia. }
  destruct G as [_ G]. intros a d Ha Hd. unfold mx at 1. apply G; try assumption. now apply skip_lt.
Qed.

Lemma cofactor_transpose_n_ok : forall n a b, (2 <= n)%nat -> n <> 3%nat -> n <> 2%nat ->
  holds n (fst (cofactor_transpose_n n a b)) a (adj n (mx n b)) /\
  snd (cofactor_transpose_n n a b) = mdet n (mx n b).
Proof.
  intros n a b Hn N3 N2. unfold cofactor_transpose_n. cbv zeta. cbn [fst snd].
  match goal with |- context[for_ (n*n) ?f ?t0] => set (temp := for_ (n*n) f t0) end.
  assert (T : forall i j, (i < n)%nat -> (j < n)%nat -> temp (j + n*i)%nat = cofactor n (mx n b) i j).
  { intros i j Hi Hj. unfold temp.
    pose proof (fill1 (n*n) (fun k _ => (if Nat.odd (k / n + k mod n) then - C1 else C1) * LU_det (n-1) (pack_minor n b k))
      (fun _ => C0) (j + n*i)%nat) as F1. cbv beta in F1. rewrite F1. clear F1.
    replace (Nat.ltb (j + n*i) (n*n)) with true by (symmetry; apply Nat.ltb_lt; nia).
    destruct (mod_idx n i j Hj) as [-> ->]. unfold cofactor, sgn. rewrite <- Nat.negb_odd.
    rewrite LU_det_ok by lia. destruct n as [|m]; [lia|]. replace (S m - 1)%nat with m by lia.
    rewrite (mdet_ext m _ _ (pack_minor_ok m b i j Hi Hj)).
    destruct (Nat.odd (i + j)); reflexivity. }
  split.
  - destruct (transpose_ok n a temp) as [E F]. split; [|exact F]. rewrite E.
    intros i j Hi Hj. unfold mx, adj. now apply T.
  - rewrite for_csum. 
    transitivity (csum n (fun c => mx n b 0%nat c * cofactor n (mx n b) 0 c)).
    + apply csum_ext; intros c Hc. rewrite <- (T 0%nat c) by lia. unfold mx. rewrite Nat.mul_0_r, Nat.add_0_r. reflexivity.
    + rewrite mdet_expand_row by lia. unfold mid. cbn [Nat.eqb]. ring.
Qed.

Lemma cofactor_transpose_ok : forall n a b, (2 <= n)%nat ->
  holds n (fst (cofactor_transpose n a b)) a (adj n (mx n b)) /\
  snd (cofactor_transpose n a b) = mdet n (mx n b).
Proof.
  intros n a b Hn. destruct n as [|[|[|[|n]]]]; try lia.
  - split; [split; [|framed2]|rewrite mdet_2;
      lazy beta delta [det2 mx snd cofactor_transpose cofactor_transpose_2 upd Nat.eqb Nat.add Nat.mul] iota zeta; ring].
    split2; unfold adj, cofactor; lazy beta delta [Nat.sub Nat.add sgn Nat.even mdet csum minor skip Nat.ltb Nat.leb mx fst
      cofactor_transpose cofactor_transpose_2 upd Nat.eqb Nat.add Nat.mul] iota zeta; ring.
  - split; [split; [|framed]|rewrite mdet_3;
      lazy beta delta [det3 mx snd cofactor_transpose cofactor_transpose_3 upd Nat.eqb Nat.add Nat.mul] iota zeta; ring].
    split3; unfold adj, cofactor; lazy beta delta [Nat.sub Nat.add sgn Nat.even mdet csum minor skip Nat.ltb Nat.leb mx fst
      cofactor_transpose cofactor_transpose_3 upd Nat.eqb Nat.add Nat.mul] iota zeta; ring.
  - apply cofactor_transpose_n_ok; lia.
Qed.
