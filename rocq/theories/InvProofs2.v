(** Gauss-Jordan elimination inverts every non singular matrix and reports
    every singular one. *)
From Coq Require Import PeanoNat Lia Setoid Morphisms List Reals Lra.
From Verif Require Import CMat Det Arr MatSpec MmulModel MmulProofs MatModel MatProofs InvModel InvProofs.
Local Open Scope C_scope.

Lemma eliminate_column_ok : forall n a v i j, (i < n)%nat -> (j < n)%nat -> i <> j ->
  let fac := mx n a j i / mx n a i i in
  let '(a', v') := eliminate_column n a v i j in
  (forall r c, (r < n)%nat -> (c < n)%nat -> mx n a' r c =
     if andb (Nat.eqb r j) (Nat.ltb i c) then mx n a r c - fac * mx n a i c else mx n a r c) /\
  (forall r c, (r < n)%nat -> (c < n)%nat -> mx n v' r c =
     if Nat.eqb r j then mx n v r c - fac * mx n v i c else mx n v r c).
Proof.
  intros n a v i j Hi Hj N fac. unfold eliminate_column. cbv zeta. rewrite mx', mxd. fold fac.
  destruct (for_row n (i+1) j (fun k a => a (k + j*n)%nat - cprod fac (a (i*n + k)%nat))
    (fun k => mx n a j k - fac * mx n a i k) a) as [F1 F2].
  { intros k w Hk Hw. rewrite cprod_mul, !Hw.
    - now rewrite mx', mx''.
    - intros c Hc E. rewrite Nat.add_comm in E. apply idx_inj' in E; lia.
    - intros c Hc E. apply idx_inj' in E; lia. }
  destruct (for_row n 0 j (fun k a => a (k + j*n)%nat - cprod fac (a (i*n + k)%nat))
    (fun k => mx n v j k - fac * mx n v i k) v) as [H1 H2].
  { intros k w Hk Hw. rewrite cprod_mul, !Hw.
    - now rewrite mx', mx''.
    - intros c Hc E. rewrite Nat.add_comm in E. apply idx_inj' in E; lia.
    - intros c Hc E. apply idx_inj' in E; lia. }
  rewrite Nat.sub_0_r in H1, H2. cbn [Nat.add] in H1, H2.
  split; intros r c Hr Hc; unfold mx at 1; rewrite (Nat.mul_comm n r).
  - destruct (Nat.eqb_spec r j) as [->|Nr]; cbn [andb]; [destruct (Nat.ltb_spec i c)|].
    + now rewrite F1 by lia.
    + rewrite F2 by (intros c' Hc' E; apply idx_inj' in E; lia). apply mx'.
    + rewrite F2 by (intros c' Hc' E; apply idx_inj' in E; lia). apply mx'.
  - destruct (Nat.eqb_spec r j) as [->|Nr].
    + now rewrite H1 by lia.
    + rewrite H2 by (intros c' Hc' E; apply idx_inj' in E; lia). apply mx'.
Qed.

Lemma swap_rows_ok : forall n a v p q, (p < n)%nat -> (q < n)%nat -> p <> q ->
  let '(a', v') := swap_rows n a v p q in
  meq n (mx n a') (swaprows (mx n a) p q) /\ meq n (mx n v') (swaprows (mx n v) p q).
Proof.
  intros n a v p q Hp Hq N. unfold swap_rows.
  set (V := fun l (u : arr) => (fun r c => if Nat.ltb c l then swaprows (mx n u) p q r c else mx n u r c) : mat).
  match goal with |- context[for_ n ?b ?s] => set (body := b);
    assert (G : let '(a', v') := for_ n body s in meq n (mx n a') (V n a) /\ meq n (mx n v') (V n v)) end.
  { apply (for_ind (fun l (s : arr * arr) => let '(a', v') := s in meq n (mx n a') (V l a) /\ meq n (mx n v') (V l v))).
    - split; intros r c Hr Hc; reflexivity.
    - intros l [a' v'] Hl [A1 V1]. unfold body. cbv zeta.
      assert (K : forall u u', meq n (mx n u') (V l u) ->
        meq n (mx n (upd (upd u' (l + p*n) (u' (l + q*n)%nat)) (l + q*n) (u' (l + p*n)%nat))) (V (S l) u)).
      { intros u u' HU r c Hr Hc. unfold mx at 1. rewrite (Nat.mul_comm n r).
        destruct (Nat.eq_dec c l) as [->|Nc].
        - assert (HV : forall x, (x < n)%nat -> mx n u' x l = mx n u x l).
          { intros x Hx. rewrite (HU x l) by assumption. unfold V. now rewrite Nat.ltb_irrefl. }
          unfold V. replace (Nat.ltb l (S l)) with true by (symmetry; apply Nat.ltb_lt; lia). unfold swaprows.
          destruct (Nat.eqb_spec r p) as [->|Ni]; [|destruct (Nat.eqb_spec r q) as [->|Np]].
          + rewrite upd_neq by (intro E; apply idx_inj' in E; lia). rewrite upd_eq, mx'. now apply HV.
          + rewrite upd_eq, mx'. now apply HV.
          + rewrite !upd_neq by (intro E; apply idx_inj' in E; lia). rewrite mx'. now apply HV.
        - rewrite !upd_neq by (intro E; apply idx_inj' in E; lia). rewrite mx', (HU r c) by assumption. unfold V.
          replace (Nat.ltb c (S l)) with (Nat.ltb c l); [reflexivity|].
          destruct (Nat.ltb_spec c l), (Nat.ltb_spec c (S l)); lia. }
      split; now apply K. }
  destruct (for_ n body (a, v)) as [a' v']. destruct G as [G1 G2].
  split; [rewrite G1|rewrite G2]; intros r c Hr Hc; unfold V; now rewrite (proj2 (Nat.ltb_lt c n)).
Qed.

(** the pivot search of gauss_jordan *)
Lemma gj_pivot_ok : forall n (a : arr) i, (i < n)%nat ->
  let pivot := abs2 (a (i*(n+1))%nat) in
  let '(p, best) := for_ (n - (i+1)) (fun h '(col_piv, col_best) =>
      let j := (i+1+h)%nat in
      let col_attempt := abs2 (a (i + j*n)%nat) in
      if Rlt_dec col_best col_attempt then (j, col_attempt) else (col_piv, col_best))
      ((i*(n+1))%nat, pivot) in
  (forall j, (i <= j < n)%nat -> (norm2 (mx n a j i) <= best)%R) /\
  ((pivot < best)%R -> (i < p < n)%nat /\ best = norm2 (mx n a p i)) /\ (pivot <= best)%R.
Proof.
  intros n a i Hi. cbv zeta. rewrite mxd.
  match goal with |- context[for_ _ ?b ?s] => set (body := b); set (s0 := s) end.
  assert (G : let '(p, best) := for_ (n-(i+1)) body s0 in
    (forall j, (i <= j < i + 1 + (n-(i+1)))%nat -> (norm2 (mx n a j i) <= best)%R) /\
    ((abs2 (mx n a i i) < best)%R -> (i < p < i + 1 + (n-(i+1)))%nat /\ best = norm2 (mx n a p i)) /\
    (abs2 (mx n a i i) <= best)%R).
  { apply (for_ind (fun q (s : nat * R) => let '(p, best) := s in
      (forall j, (i <= j < i + 1 + q)%nat -> (norm2 (mx n a j i) <= best)%R) /\
      ((abs2 (mx n a i i) < best)%R -> (i < p < i + 1 + q)%nat /\ best = norm2 (mx n a p i)) /\
      (abs2 (mx n a i i) <= best)%R)).
    - unfold s0. split; [|split; [intro; lra|apply Rle_refl]].
      intros j Hj. replace j with i by lia. apply Rle_refl.
    - intros q [p best] Hq (H1 & H2 & H3). unfold body. cbv zeta. rewrite mx', abs2_norm.
      destruct (Rlt_dec best (norm2 (mx n a (i+1+q)%nat i))) as [L|L].
      + split; [|split; [intro; split; [lia|reflexivity]|lra]]. intros j Hj.
        destruct (Nat.eq_dec j (i+1+q)) as [->|N]; [apply Rle_refl|].
        apply Rle_trans with best; [apply H1; lia|lra].
      + split; [|split; [intro K; destruct (H2 K); split; [lia|assumption]|assumption]]. intros j Hj.
        destruct (Nat.eq_dec j (i+1+q)) as [->|N]; [lra|apply H1; lia]. }
  destruct (for_ (n-(i+1)) body s0) as [piv best].
  replace (i + 1 + (n-(i+1)))%nat with n in G by lia. exact G.
Qed.

(** the elimination below row i *)
Lemma gj_below_ok : forall n a v i, (i < n)%nat ->
  let fac := fun r => mx n a r i / mx n a i i in
  let '(a', v') := for_ (n - 1 - i) (fun g '(a, ainv) => eliminate_column n a ainv i (n - 1 - g)) (a, v) in
  (forall r c, (r < n)%nat -> (c < n)%nat -> mx n a' r c =
     if andb (Nat.ltb i r) (Nat.ltb i c) then mx n a r c - fac r * mx n a i c else mx n a r c) /\
  (forall r c, (r < n)%nat -> (c < n)%nat -> mx n v' r c =
     if Nat.ltb i r then mx n v r c - fac r * mx n v i c else mx n v r c).
Proof.
  intros n a v i Hi fac.
  match goal with |- context[for_ _ ?b ?s] => set (body := b);
  assert (G : let '(a', v') := for_ (n-1-i) body s in
    (forall r c, (r < n)%nat -> (c < n)%nat -> mx n a' r c =
       if andb (Nat.leb (n-(n-1-i)) r) (Nat.ltb i c) then mx n a r c - fac r * mx n a i c else mx n a r c) /\
    (forall r c, (r < n)%nat -> (c < n)%nat -> mx n v' r c =
       if Nat.leb (n-(n-1-i)) r then mx n v r c - fac r * mx n v i c else mx n v r c)) end.
  { apply (for_ind (fun g (s : arr * arr) => let '(a', v') := s in
    (forall r c, (r < n)%nat -> (c < n)%nat -> mx n a' r c =
       if andb (Nat.leb (n-g) r) (Nat.ltb i c) then mx n a r c - fac r * mx n a i c else mx n a r c) /\
    (forall r c, (r < n)%nat -> (c < n)%nat -> mx n v' r c =
       if Nat.leb (n-g) r then mx n v r c - fac r * mx n v i c else mx n v r c))).
    - split; intros r c Hr Hc; replace (Nat.leb (n-0) r) with false by (symmetry; apply Nat.leb_gt; lia); reflexivity.
    - intros g [a1 v1] Hg [A1 V1]. unfold body.
      pose proof (eliminate_column_ok n a1 v1 i (n-1-g) Hi ltac:(lia) ltac:(lia)) as E. cbv zeta in E.
      destruct (eliminate_column n a1 v1 i (n-1-g)) as [a2 v2]. destruct E as [E1 E2].
      assert (Fi : forall c, (c < n)%nat -> mx n a1 i c = mx n a i c).
      { intros c Hc. rewrite A1 by lia. replace (Nat.leb (n-g) i) with false by (symmetry; apply Nat.leb_gt; lia). reflexivity. }
      assert (Fv : forall c, (c < n)%nat -> mx n v1 i c = mx n v i c).
      { intros c Hc. rewrite V1 by lia. replace (Nat.leb (n-g) i) with false by (symmetry; apply Nat.leb_gt; lia). reflexivity. }
      assert (Fj : mx n a1 (n-1-g)%nat i / mx n a1 i i = fac (n-1-g)%nat).
      { rewrite Fi by assumption. rewrite A1 by lia. rewrite Nat.ltb_irrefl, Bool.andb_false_r. reflexivity. }
      rewrite Fj in E1, E2. clear Fj.
      split; intros r c Hr Hc.
      + rewrite E1 by assumption. rewrite A1 by assumption. rewrite Fi by assumption.
        destruct (Nat.eqb_spec r (n-1-g)) as [->|N]; cbn [andb].
        * replace (Nat.leb (n-g) (n-1-g)) with false by (symmetry; apply Nat.leb_gt; lia).
          replace (Nat.leb (n-S g) (n-1-g)) with true by (symmetry; apply Nat.leb_le; lia). reflexivity.
        * replace (Nat.leb (n-S g) r) with (Nat.leb (n-g) r); [reflexivity|].
          destruct (Nat.leb_spec (n-g) r), (Nat.leb_spec (n-S g) r); lia.
      + rewrite E2 by assumption. rewrite V1 by assumption. rewrite Fv by assumption.
        destruct (Nat.eqb_spec r (n-1-g)) as [->|N].
        * replace (Nat.leb (n-g) (n-1-g)) with false by (symmetry; apply Nat.leb_gt; lia).
          replace (Nat.leb (n-S g) (n-1-g)) with true by (symmetry; apply Nat.leb_le; lia). reflexivity.
        * replace (Nat.leb (n-S g) r) with (Nat.leb (n-g) r); [reflexivity|].
          destruct (Nat.leb_spec (n-g) r), (Nat.leb_spec (n-S g) r); lia. }
  destruct (for_ (n-1-i) body (a, v)) as [a' v'].
  assert (L : forall r, Nat.leb (n-(n-1-i)) r = Nat.ltb i r).
  { intro r. destruct (Nat.leb_spec (n-(n-1-i)) r), (Nat.ltb_spec i r); lia. }
  destruct G as [G1 G2]. split; intros r c Hr Hc; [rewrite G1|rewrite G2]; try assumption; now rewrite L.
Qed.

(** * The first loop *)
Definition clean (i : nat) (A : mat) : mat := fun r c => if andb (Nat.ltb c i) (Nat.ltb c r) then C0 else A r c.
Fixpoint cprodn (n : nat) (f : nat -> C) : C := match n with O => C1 | S m => cprodn m f * f m end.
Lemma cprodn_ext : forall n f g, (forall i, (i < n)%nat -> f i = g i) -> cprodn n f = cprodn n g.
Proof. induction n; intros f g H; cbn [cprodn]; [reflexivity|]. rewrite (IHn f g), H by (intros; try apply H; lia). reflexivity. Qed.

Definition gj_good (n : nat) (M : mat) (i : nat) (s : arr * arr) : Prop :=
  let '(a, v) := s in
  meq n (mmul n (mx n v) M) (clean i (mx n a)) /\
  (exists e, e * e = C1 /\ e * cprodn i (fun k => mx n a k k) * mdet (n - i) (sub i (mx n a)) = mdet n M) /\
  (forall k, (k < i)%nat -> mx n a k k <> C0).
Definition gj_bad (n : nat) (M : mat) (i : nat) (s : arr * arr) : Prop :=
  (exists k, (k < i)%nat /\ mx n (fst s) k k = C0) /\ mdet n M = C0.

(** the diagonal entries already passed are not touched *)
Lemma gj_turn_diag : forall n i s, (i < n)%nat -> forall k, (k < i)%nat -> mx n (fst (gj_turn n i s)) k k = mx n (fst s) k k.
Proof.
  intros n i [a v] Hi k Hk. unfold gj_turn. cbn [fst].
  pose proof (gj_pivot_ok n a i Hi) as P. cbv zeta in P.
  match type of P with context[for_ _ ?b ?s0] => destruct (for_ (n-(i+1)) b s0) as [p best] end.
  destruct P as (_ & P2 & _).
  set (W := if Rlt_dec (abs2 (a (i*(n+1))%nat)) best then swap_rows n a v p i else (a, v)).
  assert (HW : forall r c, (r < i)%nat -> (c < n)%nat -> mx n (fst W) r c = mx n a r c).
  { intros r c Hr Hc. unfold W. destruct (Rlt_dec (abs2 (a (i*(n+1))%nat)) best) as [L|L]; [|reflexivity].
    destruct (P2 L) as [[L1 L2] _]. pose proof (swap_rows_ok n a v p i ltac:(lia) ltac:(lia) ltac:(lia)) as S.
    destruct (swap_rows n a v p i) as [a' v']. destruct S as [S1 _]. cbn [fst]. rewrite S1 by lia. unfold swaprows.
    destruct (Nat.eqb_spec r p), (Nat.eqb_spec r i); try lia. reflexivity. }
  destruct W as [a1 v1]. cbn [fst] in HW.
  pose proof (gj_below_ok n a1 v1 i Hi) as B. cbv zeta in B.
  match type of B with context[for_ _ ?b ?s0] => destruct (for_ (n-1-i) b s0) as [a2 v2] end.
  destruct B as [B1 _]. cbn [fst]. rewrite B1 by lia.
  replace (Nat.ltb i k) with false by (symmetry; apply Nat.ltb_ge; lia). cbn [andb]. apply HW; lia.
Qed.

Lemma gj_turn_ok : forall n M i s, (i < n - 1)%nat ->
  gj_good n M i s \/ gj_bad n M i s -> gj_good n M (S i) (gj_turn n i s) \/ gj_bad n M (S i) (gj_turn n i s).
Proof.
  intros n M i s Hi [H|[(k & Hk & K) D]].
  2:{ right. split; [|exact D]. exists k. split; [lia|]. rewrite gj_turn_diag by lia. exact K. }
  pose proof (gj_turn_diag n i s ltac:(lia)) as DG.
  destruct s as [a v]. destruct H as (H1 & (e & He & H2) & H3). cbn [fst] in DG. revert DG. unfold gj_turn.
  pose proof (gj_pivot_ok n a i ltac:(lia)) as P. cbv zeta in P.
  match type of P with context[for_ _ ?b ?s0] => destruct (for_ (n-(i+1)) b s0) as [p best] end.
  destruct P as (P1 & P2 & P3). rewrite mxd in P2, P3.
  set (W := if Rlt_dec (abs2 (a (i*(n+1))%nat)) best then swap_rows n a v p i else (a, v)).
  assert (HW : meq n (mmul n (mx n (snd W)) M) (clean i (mx n (fst W))) /\
    (exists e, e * e = C1 /\ e * cprodn i (fun k => mx n (fst W) k k) * mdet (n - i) (sub i (mx n (fst W))) = mdet n M) /\
    norm2 (mx n (fst W) i i) = best).
  { unfold W. rewrite mxd. destruct (Rlt_dec (abs2 (mx n a i i)) best) as [L|L].
    - destruct (P2 L) as [[L1 L2] L3]. pose proof (swap_rows_ok n a v p i ltac:(lia) ltac:(lia) ltac:(lia)) as S.
      destruct (swap_rows n a v p i) as [a' v']. destruct S as [S1 S2]. cbn [fst snd].
      split; [|split].
      + rewrite S2. intros r c Hr Hc.
        assert (E : mmul n (swaprows (mx n v) p i) M r c = mmul n (mx n v) M (if Nat.eqb r p then i else if Nat.eqb r i then p else r) c) by reflexivity.
        rewrite E. rewrite H1 by (destruct (Nat.eqb r p); [lia|destruct (Nat.eqb r i); lia]).
        unfold clean. rewrite (S1 r c) by assumption. unfold swaprows.
        destruct (Nat.eqb_spec r p) as [->|N1]; [|destruct (Nat.eqb_spec r i) as [->|N2]; [|reflexivity]].
        * destruct (Nat.ltb_spec c i), (Nat.ltb_spec c p); cbn [andb]; try lia; reflexivity.
        * destruct (Nat.ltb_spec c i), (Nat.ltb_spec c p); cbn [andb]; try lia; reflexivity.
      + exists (- e). split; [rewrite <- He; ring|]. rewrite <- H2.
        rewrite (mdet_ext (n-i) (sub i (mx n a')) (swaprows (sub i (mx n a)) (p-i) 0)).
        * rewrite mdet_swap by lia. rewrite (cprodn_ext i _ (fun k => mx n a k k)); [ring|].
          intros k Hk. rewrite (S1 k k) by lia. unfold swaprows.
          destruct (Nat.eqb_spec k p), (Nat.eqb_spec k i); try lia; reflexivity.
        * intros r c Hr Hc. unfold sub. rewrite (S1 (i+r)%nat (i+c)%nat) by lia. unfold swaprows.
          destruct (Nat.eqb_spec (i+r) p), (Nat.eqb_spec r (p-i)); try lia.
          -- f_equal. lia.
          -- destruct (Nat.eqb_spec (i+r) i), (Nat.eqb_spec r 0); try lia; [f_equal; lia|reflexivity].
      + rewrite (S1 i i) by lia. unfold swaprows. destruct (Nat.eqb_spec i p); [lia|]. rewrite Nat.eqb_refl. symmetry. exact L3.
    - cbn [fst snd]. split; [exact H1|]. split; [exists e; split; assumption|]. rewrite abs2_norm in *. lra. }
  destruct W as [a1 v1]. cbn [fst snd] in HW. destruct HW as (W1 & (e' & He' & W2) & W3).
  pose proof (gj_below_ok n a1 v1 i ltac:(lia)) as B. cbv zeta in B.
  match type of B with context[for_ _ ?b ?s0] => destruct (for_ (n-1-i) b s0) as [a2 v2] end.
  destruct B as [B1 B2]. cbn [fst]. intro DG.
  assert (Dii : mx n a2 i i = mx n a1 i i) by (rewrite B1 by lia; rewrite Nat.ltb_irrefl; reflexivity).
  set (m := (n - i - 1)%nat). assert (Em : (n - i)%nat = S m) by (unfold m; lia).
  destruct (Req_EM_T (norm2 (mx n a1 i i)) 0) as [Z|NZ].
  - right. apply norm2_zero in Z. split.
    + exists i. split; [lia|]. cbn [fst]. now rewrite Dii.
    + rewrite <- H2, Em, mdet_zerocol; [ring|]. intros r Hr. unfold sub. rewrite Nat.add_0_r.
      apply norm2_zero. apply Rle_antisym; [|apply norm2_nonneg].
      assert (best = 0)%R by (rewrite <- W3, Z; apply norm2_zero; reflexivity).
      rewrite <- H. apply P1. lia.
  - left. assert (NZ' : mx n a1 i i <> C0) by (intro E; apply NZ; apply norm2_zero; exact E).
    split; [|split].
    + intros r c Hr Hc.
      assert (E : mmul n (mx n v2) M r c = if Nat.ltb i r then mmul n (mx n v1) M r c - mx n a1 r i / mx n a1 i i * mmul n (mx n v1) M i c
                                          else mmul n (mx n v1) M r c).
      { unfold mmul. destruct (Nat.ltb i r) eqn:Lr.
        - rewrite <- csum_mul_l, <- csum_sub. apply csum_ext; intros k Hk. rewrite B2 by assumption. rewrite Lr. ring.
        - apply csum_ext; intros k Hk. rewrite B2 by assumption. rewrite Lr. reflexivity. }
      rewrite E, !W1 by lia. unfold clean. rewrite B1 by assumption.
      destruct (Nat.ltb_spec i r) as [Lr|Lr].
      * destruct (Nat.lt_trichotomy c i) as [L|[->|L]].
        -- replace (Nat.ltb c i) with true by (symmetry; apply Nat.ltb_lt; lia).
           replace (Nat.ltb c r) with true by (symmetry; apply Nat.ltb_lt; lia).
           replace (Nat.ltb c (S i)) with true by (symmetry; apply Nat.ltb_lt; lia). cbn [andb]. ring.
        -- rewrite !Nat.ltb_irrefl. replace (Nat.ltb i (S i)) with true by (symmetry; apply Nat.ltb_lt; lia).
           replace (Nat.ltb i r) with true by (symmetry; apply Nat.ltb_lt; lia). cbn [andb]. field. exact NZ'.
        -- replace (Nat.ltb c i) with false by (symmetry; apply Nat.ltb_ge; lia).
           replace (Nat.ltb c (S i)) with false by (symmetry; apply Nat.ltb_ge; lia).
           replace (Nat.ltb i c) with true by (symmetry; apply Nat.ltb_lt; lia). reflexivity.
      * cbn [andb].
        destruct (Nat.ltb_spec c i), (Nat.ltb_spec c (S i)), (Nat.ltb_spec c r); cbn [andb]; try lia; reflexivity.
    + exists e'. split; [exact He'|]. rewrite <- W2, Em. cbn [cprodn]. rewrite Dii.
      rewrite (cprodn_ext i (fun k => mx n a2 k k) (fun k => mx n a1 k k)).
      2:{ intros k Hk. rewrite B1 by lia. replace (Nat.ltb i k) with false by (symmetry; apply Nat.ltb_ge; lia). reflexivity. }
      rewrite (mdet_elim m (sub i (mx n a1)) (fun r => mx n a1 (i + S r)%nat i / mx n a1 i i)).
      * replace (n - S i)%nat with m by (unfold m; lia).
        replace (sub i (mx n a1) 0%nat 0%nat) with (mx n a1 i i) by (unfold sub; now rewrite Nat.add_0_r).
        rewrite (mdet_ext m (sub (S i) (mx n a2))
          (fun r c => sub i (mx n a1) (S r) (S c) - mx n a1 (i + S r)%nat i / mx n a1 i i * sub i (mx n a1) 0%nat (S c))).
        -- ring.
        -- intros r c Hr Hc. rewrite sub_sub. unfold sub. rewrite B1 by lia.
           replace (Nat.ltb i (i + S r)) with true by (symmetry; apply Nat.ltb_lt; lia).
           replace (Nat.ltb i (i + S c)) with true by (symmetry; apply Nat.ltb_lt; lia). cbn [andb].
           rewrite Nat.add_0_r. reflexivity.
      * unfold sub. now rewrite Nat.add_0_r.
      * intros r Hr. unfold sub. rewrite !Nat.add_0_r. reflexivity.
    + intros k Hk. destruct (Nat.eq_dec k i) as [->|N]; [rewrite Dii; exact NZ'|].
      rewrite DG by lia. apply H3. lia.
Qed.

(** * The second loop *)
Lemma gj_upper_diag : forall n s k, (k < n)%nat -> mx n (fst (gj_upper n s)) k k = mx n (fst s) k k.
Proof.
  intros n s k Hk. unfold gj_upper.
  apply (for_ind (fun _ (t : arr * arr) => mx n (fst t) k k = mx n (fst s) k k)); [reflexivity|].
  intros g t Hg Ht. rewrite <- Ht. cbv zeta.
  apply (for_ind (fun _ (u : arr * arr) => mx n (fst u) k k = mx n (fst t) k k)); [reflexivity|].
  intros j [a v] Hj Hu. rewrite <- Hu.
  pose proof (eliminate_column_ok n a v (n-1-g) j ltac:(lia) ltac:(lia) ltac:(lia)) as E. cbv zeta in E.
  destruct (eliminate_column n a v (n-1-g) j) as [a' v']. destruct E as [E1 _]. cbn [fst].
  rewrite E1 by lia. destruct (Nat.eqb_spec k j), (Nat.ltb_spec (n-1-g) k); cbn [andb]; try lia; reflexivity.
Qed.

Lemma gj_upper_ok : forall n M s, (forall k, (k < n)%nat -> mx n (fst s) k k <> C0) ->
  meq n (mmul n (mx n (snd s)) M) (clean n (mx n (fst s))) ->
  meq n (mmul n (mx n (snd (gj_upper n s))) M) (fun r c => if Nat.eqb r c then mx n (fst s) r r else C0).
Proof.
  intros n M s Hd H.
  set (V := fun g (A : mat) => (fun r c => if orb (Nat.ltb c r) (andb (Nat.ltb (n-1-g) c) (Nat.ltb r c)) then C0 else A r c) : mat).
  assert (G : meq n (mmul n (mx n (snd (gj_upper n s))) M) (V (n-1)%nat (mx n (fst (gj_upper n s)))) /\
              (forall k, (k < n)%nat -> mx n (fst (gj_upper n s)) k k = mx n (fst s) k k)).
  { unfold gj_upper. apply (for_ind (fun g (t : arr * arr) => meq n (mmul n (mx n (snd t)) M) (V g (mx n (fst t))) /\
       (forall k, (k < n)%nat -> mx n (fst t) k k = mx n (fst s) k k))).
    - split; [|reflexivity]. rewrite H. intros r c Hr Hc. unfold clean, V.
      replace (Nat.ltb c n) with true by (symmetry; apply Nat.ltb_lt; lia).
      replace (Nat.ltb (n-1-0) c) with false by (symmetry; apply Nat.ltb_ge; lia).
      cbn [andb]. rewrite Bool.orb_false_r. reflexivity.
    - intros g t Hg [T1 T2]. cbv zeta. set (i := (n-1-g)%nat) in *.
      set (Q := fun j (u : arr * arr) =>
        (forall r c, (r < n)%nat -> (c < n)%nat -> mmul n (mx n (snd u)) M r c =
           if andb (Nat.ltb r j) (Nat.eqb c i) then C0 else V g (mx n (fst t)) r c) /\
        (forall r c, (r < n)%nat -> (c <= i)%nat -> mx n (fst u) r c = mx n (fst t) r c)).
      match goal with |- meq _ (mmul _ (mx _ (snd ?w)) _) _ /\ _ => assert (K : Q i w) end.
      { apply (for_ind Q).
        - split; [intros r c Hr Hc; rewrite T1 by assumption; reflexivity|reflexivity].
        - intros j [a v] Hj [Q1 Q2]. cbn [fst snd] in *.
          pose proof (eliminate_column_ok n a v i j ltac:(unfold i; lia) ltac:(unfold i in *; lia) ltac:(lia)) as E. cbv zeta in E.
          destruct (eliminate_column n a v i j) as [a' v']. destruct E as [E1 E2]. cbn [fst snd].
          assert (Hin : (i < n)%nat) by (unfold i; lia).
          assert (Dii : mx n a i i <> C0) by (rewrite Q2, T2 by lia; now apply Hd).
          split.
          + intros r c Hr Hc.
            assert (E : mmul n (mx n v') M r c = if Nat.eqb r j then mmul n (mx n v) M r c - mx n a j i / mx n a i i * mmul n (mx n v) M i c
                                                else mmul n (mx n v) M r c).
            { unfold mmul. destruct (Nat.eqb r j) eqn:Lr.
              - rewrite <- csum_mul_l, <- csum_sub. apply csum_ext; intros k Hk. rewrite E2 by assumption. rewrite Lr. ring.
              - apply csum_ext; intros k Hk. rewrite E2 by assumption. rewrite Lr. reflexivity. }
            cbn [snd]. rewrite E. rewrite !Q1 by assumption.
            destruct (Nat.eqb_spec r j) as [->|Nr].
            * rewrite Nat.ltb_irrefl. replace (Nat.ltb j (S j)) with true by (symmetry; apply Nat.ltb_lt; lia).
              replace (Nat.ltb i j) with false by (symmetry; apply Nat.ltb_ge; lia). cbn [andb]. unfold V. fold i.
              destruct (Nat.lt_trichotomy c i) as [L|[->|L]].
              -- replace (Nat.eqb c i) with false by (symmetry; apply Nat.eqb_neq; lia).
                 replace (Nat.ltb c i) with true by (symmetry; apply Nat.ltb_lt; lia). cbn [orb]. ring.
              -- rewrite Nat.eqb_refl, !Nat.ltb_irrefl.
                 replace (Nat.ltb i j) with false by (symmetry; apply Nat.ltb_ge; lia). cbn [orb andb].
                 rewrite (Q2 j i), (Q2 i i) by lia. field. rewrite <- Q2 by lia. exact Dii.
              -- replace (Nat.eqb c i) with false by (symmetry; apply Nat.eqb_neq; lia).
                 replace (Nat.ltb c i) with false by (symmetry; apply Nat.ltb_ge; lia).
                 replace (Nat.ltb c j) with false by (symmetry; apply Nat.ltb_ge; lia).
                 replace (Nat.ltb i c) with true by (symmetry; apply Nat.ltb_lt; lia).
                 replace (Nat.ltb j c) with true by (symmetry; apply Nat.ltb_lt; lia). cbn [orb andb]. ring.
            * replace (Nat.ltb r (S j)) with (Nat.ltb r j); [reflexivity|].
              destruct (Nat.ltb_spec r j), (Nat.ltb_spec r (S j)); lia.
          + intros r c Hr Hc. cbn [fst]. rewrite E1 by lia.
            replace (Nat.ltb i c) with false by (symmetry; apply Nat.ltb_ge; lia). rewrite Bool.andb_false_r. now apply Q2. }
      match goal with |- meq _ (mmul _ (mx _ (snd ?w)) _) _ /\ _ => set (u := w) in * end.
      assert (DU : forall k, (k < n)%nat -> mx n (fst u) k k = mx n (fst t) k k).
      { intros k Hk. unfold u. apply (for_ind (fun _ (u : arr * arr) => mx n (fst u) k k = mx n (fst t) k k)); [reflexivity|].
        intros j [a v] Hj Hu. rewrite <- Hu.
        pose proof (eliminate_column_ok n a v i j ltac:(unfold i; lia) ltac:(unfold i in *; lia) ltac:(lia)) as E. cbv zeta in E.
        destruct (eliminate_column n a v i j) as [a' v']. destruct E as [E1 _]. cbn [fst].
        rewrite E1 by assumption. destruct (Nat.eqb_spec k j), (Nat.ltb_spec i k); cbn [andb]; try lia; reflexivity. }
      split; [|intros k Hk; rewrite DU by assumption; now apply T2].
      destruct K as [K1 K2]. intros r c Hr Hc. rewrite K1 by assumption. unfold V. fold i.
      replace (n-1-S g)%nat with (i-1)%nat by (unfold i; lia).
      destruct (Nat.lt_trichotomy c r) as [L|[->|L]].
      + replace (Nat.ltb c r) with true by (symmetry; apply Nat.ltb_lt; lia). cbn [orb].
        destruct (andb (Nat.ltb r i) (Nat.eqb c i)); reflexivity.
      + rewrite Nat.ltb_irrefl, !Bool.andb_false_r. cbn [orb].
        destruct (Nat.ltb_spec r i), (Nat.eqb_spec r i); cbn [andb]; try lia; symmetry; now apply DU.
      + replace (Nat.ltb c r) with false by (symmetry; apply Nat.ltb_ge; lia).
        replace (Nat.ltb r c) with true by (symmetry; apply Nat.ltb_lt; lia). cbn [orb]. rewrite !Bool.andb_true_r.
        assert (1 <= i)%nat by (unfold i; lia).
        destruct (Nat.lt_trichotomy c i) as [M1|[->|M1]].
        * replace (Nat.eqb c i) with false by (symmetry; apply Nat.eqb_neq; lia). rewrite Bool.andb_false_r.
          replace (Nat.ltb i c) with false by (symmetry; apply Nat.ltb_ge; lia).
          replace (Nat.ltb (i-1) c) with false by (symmetry; apply Nat.ltb_ge; lia). symmetry. apply K2; lia.
        * rewrite Nat.eqb_refl. replace (Nat.ltb r i) with true by (symmetry; apply Nat.ltb_lt; lia).
          replace (Nat.ltb (i-1) i) with true by (symmetry; apply Nat.ltb_lt; lia). reflexivity.
        * replace (Nat.eqb c i) with false by (symmetry; apply Nat.eqb_neq; lia). rewrite Bool.andb_false_r.
          replace (Nat.ltb i c) with true by (symmetry; apply Nat.ltb_lt; lia).
          replace (Nat.ltb (i-1) c) with true by (symmetry; apply Nat.ltb_lt; lia). reflexivity. }
  destruct G as [G1 G2]. rewrite G1. intros r c Hr Hc. unfold V.
  replace (n - 1 - (n-1))%nat with 0%nat by lia.
  destruct (Nat.eqb_spec r c) as [->|N].
  - rewrite Nat.ltb_irrefl, Bool.andb_false_r. cbn [orb]. now apply G2.
  - destruct (Nat.ltb_spec c r), (Nat.ltb_spec r c), (Nat.ltb_spec 0 c); cbn [andb orb]; try lia; reflexivity.
Qed.

(** * The last loop *)
Lemma gj_scale_fails : forall n a v, (exists k, (k < n)%nat /\ mx n a k k = C0) -> gj_scale n a v = None.
Proof.
  intros n a v (k & Hk & K). unfold gj_scale.
  match goal with |- for_ n ?b _ = None => set (body := b) end.
  assert (N : forall j, body j None = None) by reflexivity.
  assert (G : forall q, (k < q)%nat -> for_ q body (Some v) = None).
  { induction q; intro Hq; [lia|]. cbn [for_]. destruct (Nat.eq_dec k q) as [->|Nk].
    - destruct (for_ q body (Some v)) as [w|]; [|reflexivity]. unfold body. rewrite mxd, K. cbn [re im C0 fst snd].
      destruct (Req_EM_T 0 0) as [_|E]; [reflexivity|now elim E].
    - rewrite IHq by lia. reflexivity. }
  now apply G.
Qed.
Lemma gj_scale_ok : forall n a v, (forall k, (k < n)%nat -> mx n a k k <> C0) ->
  exists w, gj_scale n a v = Some w /\ meq n (mx n w) (fun r c => mx n v r c * (C1 / mx n a r r)).
Proof.
  intros n a v Hd. unfold gj_scale.
  match goal with |- exists w, for_ n ?b _ = Some w /\ _ => set (body := b) end.
  assert (G : exists w, for_ n body (Some v) = Some w /\
     meq n (mx n w) (fun r c => if Nat.ltb r n then mx n v r c * (C1 / mx n a r r) else mx n v r c)).
  { apply (for_ind (fun q s => exists w, s = Some w /\
     meq n (mx n w) (fun r c => if Nat.ltb r q then mx n v r c * (C1 / mx n a r r) else mx n v r c))).
    - exists v. split; [reflexivity|]. intros r c _ _. reflexivity.
    - intros q s Hq (w & -> & Hw). cbn [body].
      destruct (for_row n 0 q (fun k u => cprod (u (k + q*n)%nat) (C1 / a (q*(n+1))%nat))
        (fun k => mx n v q k * (C1 / mx n a q q)) w) as [F1 F2].
      { intros k u Hk Hu. rewrite cprod_mul, mxd, Hu.
        - rewrite mx'. rewrite (Hw q k) by lia. now rewrite Nat.ltb_irrefl.
        - intros c Hc E. apply idx_inj' in E; lia. }
      rewrite Nat.sub_0_r in F1, F2. cbn [Nat.add] in F1, F2.
      match type of F1 with context[for_ n ?f w] => set (w' := for_ n f w) in * end.
      exists w'. split.
      + unfold body. fold w'. rewrite mxd.
        destruct (Req_EM_T (re (mx n a q q)) 0) as [E1|]; [|reflexivity].
        destruct (Req_EM_T (im (mx n a q q)) 0) as [E2|]; [|reflexivity].
        exfalso. apply (Hd q Hq). apply C_eq; assumption.
      + intros r c Hr Hc. unfold mx at 1. rewrite (Nat.mul_comm n r). destruct (Nat.eq_dec r q) as [->|Nr].
        * rewrite F1 by lia. now rewrite (proj2 (Nat.ltb_lt q (S q))) by lia.
        * rewrite F2 by (intros c' Hc' E; apply idx_inj' in E; lia). rewrite mx', (Hw r c) by assumption.
          replace (Nat.ltb r (S q)) with (Nat.ltb r q); [reflexivity|].
          destruct (Nat.ltb_spec r q), (Nat.ltb_spec r (S q)); lia. }
  destruct G as (w & G1 & G2). exists w. split; [exact G1|]. rewrite G2. intros r c Hr Hc.
  now rewrite (proj2 (Nat.ltb_lt r n)).
Qed.

(** * The whole function *)
Lemma copy_ok : forall n (M a0 : arr), holds n (for_ (n*n) (fun i a => upd a i (M i)) a0) a0 (mx n M).
Proof. intros n M a0. apply (fill1_holds n (fun i _ => M i)). intros; reflexivity. Qed.

Lemma gj_init : forall n, (0 < n)%nat ->
  meq n (mx n (for_ n (fun i ainv => upd ainv (i*(n+1)) C1) (for_ (n*n) (fun i a => upd a i C0) (fun _ => C0)))) mid.
Proof.
  intros n Hn.
  assert (Z : forall x, for_ (n*n) (fun i (a : arr) => upd a i C0) (fun _ => C0) x = C0).
  { intro x. pose proof (fill1 (n*n) (fun _ _ => C0) (fun _ => C0) x) as F. cbv beta in F. rewrite F. now destruct (Nat.ltb x (n*n)). }
  set (z := for_ (n*n) (fun i (a : arr) => upd a i C0) (fun _ => C0)) in *.
  intros r c Hr Hc. unfold mid, mx.
  assert (G : forall q, (q <= n)%nat -> for_ q (fun i ainv => upd ainv (i*(n+1)) C1) z (c + n*r)%nat =
     if andb (Nat.eqb r c) (Nat.ltb r q) then C1 else C0).
  { induction q; intro Hq; cbn [for_].
    - rewrite Bool.andb_false_r. apply Z.
    - destruct (Nat.eq_dec (c + n*r) (q*(n+1))) as [E|E].
      + replace (q*(n+1))%nat with (q + n*q)%nat in E by lia. apply idx_inj in E; [|assumption|lia]. destruct E as [-> ->].
        rewrite diag_index, upd_eq, Nat.eqb_refl. rewrite (proj2 (Nat.ltb_lt q (S q))) by lia. reflexivity.
      + rewrite upd_neq by assumption. rewrite IHq by lia. destruct (Nat.eqb_spec r c) as [->|]; [|reflexivity].
        cbn [andb]. destruct (Nat.ltb_spec c q), (Nat.ltb_spec c (S q)); try lia; try reflexivity.
        exfalso. apply E. replace c with q by lia. lia. }
  rewrite G by lia. rewrite (proj2 (Nat.ltb_lt r n)) by assumption. now rewrite Bool.andb_true_r.
Qed.

Lemma cprodn_zero : forall n f k, (k < n)%nat -> f k = C0 -> cprodn n f = C0.
Proof.
  induction n; intros f k Hk H; [lia|]. cbn [cprodn]. destruct (Nat.eq_dec k n) as [->|N]; [rewrite H; ring|].
  rewrite (IHn f k) by (try lia; assumption). ring.
Qed.
Lemma Cmul_neq_0 : forall x y, x <> C0 -> y <> C0 -> x * y <> C0.
Proof.
  intros x y Hx Hy E. apply Hx. transitivity (x * y * (C1 / y)); [field; exact Hy|]. rewrite E. ring.
Qed.
Lemma cprodn_neq_0 : forall n f, (forall k, (k < n)%nat -> f k <> C0) -> cprodn n f <> C0.
Proof.
  induction n; intros f H; cbn [cprodn]; [apply C1_neq_0|]. apply Cmul_neq_0; [apply IHn; intros; apply H; lia|apply H; lia].
Qed.

Lemma gauss_jordan_ok : forall n M_1 M, (0 < n)%nat ->
  match gauss_jordan n M_1 M with
  | None => mdet n (mx n M) = C0
  | Some r => mdet n (mx n M) <> C0 /\ frame (n*n) r M_1 /\
      meq n (mmul n (mx n r) (mx n M)) mid /\ meq n (mmul n (mx n M) (mx n r)) mid
  end.
Proof.
  intros n M_1 M Hn. unfold gauss_jordan.
  pose proof (copy_ok n M (fun _ => C0)) as [C _].
  pose proof (gj_init n Hn) as I0.
  set (a0 := for_ (n*n) (fun i a => upd a i (M i)) (fun _ => C0)) in *.
  set (v0 := for_ n (fun i ainv => upd ainv (i*(n+1)) C1) (for_ (n*n) (fun i a => upd a i C0) (fun _ => C0))) in *.
  assert (G : gj_good n (mx n M) (n-1) (for_ (n-1) (gj_turn n) (a0, v0)) \/ gj_bad n (mx n M) (n-1) (for_ (n-1) (gj_turn n) (a0, v0))).
  { apply (for_ind (fun i s => gj_good n (mx n M) i s \/ gj_bad n (mx n M) i s)).
    - left. split; [|split].
      + rewrite I0, mmul_1_l, <- C. intros r c _ _. reflexivity.
      + exists C1. split; [ring|]. rewrite Nat.sub_0_r. cbn [cprodn].
        rewrite (mdet_ext n (sub 0 (mx n a0)) (mx n M)); [ring|]. rewrite <- C. intros r c _ _; reflexivity.
      + intros; lia.
    - intros i s Hi. now apply gj_turn_ok. }
  destruct (for_ (n-1) (gj_turn n) (a0, v0)) as [a v]. cbv zeta.
  pose proof (gj_upper_diag n (a, v)) as UD. pose proof (gj_upper_ok n (mx n M) (a, v)) as UO.
  destruct (gj_upper n (a, v)) as [a' v']. cbn [fst snd] in *.
  assert (Cases : (exists k, (k < n)%nat /\ mx n a' k k = C0) /\ mdet n (mx n M) = C0 \/
                  (forall k, (k < n)%nat -> mx n a k k <> C0) /\ mdet n (mx n M) <> C0 /\
                  meq n (mmul n (mx n v) (mx n M)) (clean n (mx n a))).
  { destruct G as [(G1 & (e & He & G2) & G3)|[(k & Hk & K) D]].
    - assert (E : mdet n (mx n M) = e * cprodn n (fun k => mx n a k k)).
      { rewrite <- G2. replace (n - (n-1))%nat with 1%nat by lia.
        destruct n as [|m]; [lia|]. replace (S m - 1)%nat with m by lia. cbn [cprodn mdet csum]. unfold sub, sgn. cbn [Nat.even].
        rewrite Nat.add_0_r. ring. }
      destruct (Req_EM_T (norm2 (mx n a (n-1)%nat (n-1)%nat)) 0) as [Z|NZ].
      + left. apply norm2_zero in Z. split; [exists (n-1)%nat; split; [lia|]; rewrite UD by lia; exact Z|].
        rewrite E, (cprodn_zero n _ (n-1)%nat) by (try lia; assumption). ring.
      + right. assert (Hd : forall k, (k < n)%nat -> mx n a k k <> C0).
        { intros k Hk. destruct (Nat.eq_dec k (n-1)) as [->|N]; [|apply G3; lia].
          intro Z. apply NZ. rewrite Z. apply norm2_zero. reflexivity. }
        split; [exact Hd|]. split.
        * rewrite E. apply Cmul_neq_0; [|now apply cprodn_neq_0].
          intro Z. rewrite Z in He. apply C1_neq_0. rewrite <- He. ring.
        * rewrite G1. intros r c Hr Hc. unfold clean.
          destruct (Nat.ltb_spec c (n-1)), (Nat.ltb_spec c n), (Nat.ltb_spec c r); cbn [andb]; try lia; reflexivity.
    - left. split; [|exact D]. exists k. split; [lia|]. rewrite UD by lia. exact K. }
  destruct Cases as [[Bad D]|(Hd & D & G1)].
  - rewrite gj_scale_fails by assumption. exact D.
  - assert (Hd' : forall k, (k < n)%nat -> mx n a' k k <> C0) by (intros k Hk; rewrite UD by assumption; now apply Hd).
    destruct (gj_scale_ok n a' v' Hd') as (w & -> & Hw).
    destruct (copy_ok n w M_1) as [W F].
    assert (L : meq n (mmul n (mx n (for_ (n*n) (fun i M_2 => upd M_2 i (w i)) M_1)) (mx n M)) mid).
    { rewrite W, Hw. intros r c Hr Hc. unfold mmul.
      rewrite (csum_ext n _ (fun k => (C1 / mx n a' r r) * (mx n v' r k * mx n M k c))) by (intros; ring).
      rewrite csum_mul_l. specialize (UO Hd G1 r c Hr Hc). unfold mmul in UO. rewrite UO. unfold mid.
      destruct (Nat.eqb_spec r c) as [->|]; [|ring]. rewrite UD by assumption. field. now apply Hd. }
    split; [exact D|]. split; [exact F|]. split; [exact L|]. now apply left_inverse_right.
Qed.

Lemma inverse_ok : forall n M_1 M, (0 < n)%nat -> n <> 2%nat ->
  match inverse n M_1 M with
  | None => forall B, ~ meq n (mmul n B (mx n M)) mid
  | Some r => frame (n*n) r M_1 /\ meq n (mmul n (mx n r) (mx n M)) mid /\ meq n (mmul n (mx n M) (mx n r)) mid
  end.
Proof.
  intros n M_1 M Hn N2.
  assert (E : inverse n M_1 M = gauss_jordan n M_1 M) by (destruct n as [|[|[|n]]]; try lia; reflexivity).
  rewrite E. pose proof (gauss_jordan_ok n M_1 M Hn) as G. destruct (gauss_jordan n M_1 M) as [r|].
  - tauto.
  - intros B HB. destruct (det_of_inverse n _ _ HB) as [_ D]. contradiction.
Qed.
Lemma inverse_2_ok : forall M_1 M, mdet 2 (mx 2 M) <> C0 ->
  exists r, inverse 2 M_1 M = Some r /\ frame 4 r M_1 /\
  meq 2 (mmul 2 (mx 2 r) (mx 2 M)) mid /\ meq 2 (mmul 2 (mx 2 M) (mx 2 r)) mid.
Proof.
  intros M_1 M D. rewrite mdet_2 in D. eexists. split; [reflexivity|]. split; [framed2|].
  assert (E : det 2 M = det2 (mx 2 M)) by reflexivity. cbv zeta. rewrite E. clear E.
  assert (L : meq 2 (mmul 2 (mx 2 (upd (upd (upd (upd M_1 0 (M 3%nat * (C1 / det2 (mx 2 M)))) 1 (- M 1%nat * (C1 / det2 (mx 2 M))))
    2 (- M 2%nat * (C1 / det2 (mx 2 M)))) 3 (M 0%nat * (C1 / det2 (mx 2 M))))) (mx 2 M)) mid).
  { remember (C1 / det2 (mx 2 M)) as x. assert (X : x * det2 (mx 2 M) = C1) by (subst x; field; exact D). clear Heqx.
    unfold det2, mx in X. cbn [Nat.add Nat.mul] in X.
    split2; lazy beta delta [mmul csum mx mid upd Nat.eqb Nat.add Nat.mul] iota; try ring; rewrite <- X; ring. }
  split; [exact L|]. apply left_inverse_right. exact L.
Qed.
