(** The derivative, the accuracy and the direction. *)
From Coq Require Import Permutation Lia Lra.
From Verif Require Import CInt GeomModel Cplx CMat Det Arr MatModel MatSpec MatProofs MatProofs2 ProjModel ProjProofs GramModel GramProofs FieldModel FieldProofs FftModel QtopModel QtopProofs2 SmearModel GluonSpec GluonModel GluonProofs2 GluonProofs3 CfgSpec CfgProofs HypProofs LandauModel LandauSpec.
Local Open Scope C_scope.

Ltac pairs_ := repeat match goal with |- (_, _) = (_, _) => apply pair_equal_spec; split end.
Lemma off_bound n i h : (i < n - 1)%nat -> (h < n - i)%nat -> (off n i + h < HERMSIZE n)%nat.
Proof.
  intros Hi Hh. assert (E : forall k, (k <= n)%nat -> (2 * off n k + k * (k - 1) = 2 * n * k)%nat).
  { induction k; intro Hk; [cbn; lia|]. rewrite off_S. specialize (IHk ltac:(lia)). destruct k; [cbn [Nat.sub off] in *; nia|]. cbn [Nat.sub] in *. rewrite Nat.sub_0_r in *. nia. }
  pose proof (E (n - 1)%nat ltac:(lia)) as E1. pose proof (off_mono n (S i) (n - 1) ltac:(lia)) as M. rewrite off_S in M.
  unfold HERMSIZE. destruct n as [|[|n]]; [lia|lia|]. replace (S (S n) - 1)%nat with (S n) in * by lia.
  assert (D : (S (S n) * (S (S n) + 1) = (off (S (S n)) (S n) + 1) * 2)%nat) by (replace (S n - 1)%nat with n in E1 by lia; nia).
  rewrite D, Nat.div_mul by lia. lia.
Qed.

(** ** sums of packed matrices *)
Lemma for_upd_all n (f : nat -> C -> C) (a : arr) k : for_ n (fun mu a => upd a mu (f mu (a mu))) a k = if Nat.ltb k n then f k (a k) else a k.
Proof.
  revert k. induction n; intro k; [reflexivity|]. cbn [for_]. unfold upd at 1. rewrite !IHn. rewrite (Nat.ltb_irrefl n).
  destruct (Nat.eqb_spec k n) as [->|N]; [now rewrite (proj2 (Nat.ltb_lt n (S n))) by lia|].
  destruct (Nat.ltb_spec k n), (Nat.ltb_spec k (S n)); try lia; reflexivity.
Qed.
Lemma accumulate_ok n s p q M P Q : (2 <= n)%nat -> packed n s M -> packed n p P -> packed n q Q ->
  packed n (a_plus_Sxbminc_short n s 1 p q) (madd M (msub P Q)).
Proof.
  intros Hn Hs Hp Hq. destruct n as [|[|[|[|n]]]]; try lia.
  - destruct (packed2 _ _ Hs) as (S0 & S1). destruct (packed2 _ _ Hp) as (P0 & P1). destruct (packed2 _ _ Hq) as (Q0 & Q1).
    intros i j Hi Hj. destruct i; [|lia]. unfold madd, msub. destruct j as [|[|j]]; try lia; cbn [off Nat.sub Nat.add];
      unfold a_plus_Sxbminc_short, a_plus_Sxbminc_short_2; unfold upd; cbn [Nat.eqb]; rewrite ?S0, ?S1, ?P0, ?P1, ?Q0, ?Q1; cring.
  - destruct (packed3 _ _ Hs) as (S0 & S1 & S2 & S3 & S4). destruct (packed3 _ _ Hp) as (P0 & P1 & P2 & P3 & P4). destruct (packed3 _ _ Hq) as (Q0 & Q1 & Q2 & Q3 & Q4).
    intros i j Hi Hj. unfold madd, msub. destruct i as [|[|i]]; try lia; destruct j as [|[|[|j]]]; try lia; cbn [off Nat.sub Nat.add];
      unfold a_plus_Sxbminc_short, a_plus_Sxbminc_short_3; unfold upd; cbn [Nat.eqb];
      rewrite ?S0, ?S1, ?S2, ?S3, ?S4, ?P0, ?P1, ?P2, ?P3, ?P4, ?Q0, ?Q1, ?Q2, ?Q3, ?Q4; cring.
  - intros i j Hi Hj. unfold madd, msub. set (m := S (S (S (S n)))) in *. change (a_plus_Sxbminc_short m s 1 p q) with (a_plus_Sxbminc_short_n m s (RtoC 1) p q).
    unfold a_plus_Sxbminc_short_n. rewrite (for_upd_all (HERMSIZE m) (fun mu z => z + RtoC 1 * (p mu - q mu))).
    rewrite (proj2 (Nat.ltb_lt _ _)) by (apply off_bound; lia).
    rewrite (Hs i j Hi Hj), (Hp i j Hi Hj), (Hq i j Hi Hj). cring.
Qed.
Lemma packed_zero n : packed n (fun _ => C0) mzero. Proof. intros i j _ _. reflexivity. Qed.

Lemma trace_deriv_ok n s S0 : (2 <= n)%nat -> packed n s S0 -> hermitian n S0 -> traceless n S0 -> trace_deriv n s = (2 * re (mtr n (mmul n S0 S0)))%R.
Proof.
  intros Hn P H T. pose proof (trace_ab_herm_short_ok n s s S0 S0 ltac:(lia) P P H H T T) as E. apply (f_equal re) in E. cbn [re fst RtoC] in E. rewrite <- E.
  destruct n as [|[|[|[|m]]]]; try lia; [| |reflexivity]; unfold trace_deriv, trace_ab_herm_short, trace_ab_herm_short_2, trace_ab_herm_short_3; ring.
Qed.

Section Site.
Context (n ND V : nat) (lat : lattice) (Hn : (2 <= n)%nat) (F : group_field n ND V lat) (Geo : geom_ok ND V lat).
Definition part (k x : nat) : mat := msum k (fun mu => msub (trf n (herm (lnk n lat (bck (lat x) mu) mu))) (trf n (herm (lnk n lat x mu)))).
Lemma part_div x : part ND x = divergence n ND lat x. Proof. reflexivity. Qed.
Lemma part_S k x : part (S k) x = madd (part k x) (msub (trf n (herm (lnk n lat (bck (lat x) k) k))) (trf n (herm (lnk n lat x k)))).
Proof. reflexivity. Qed.
Lemma part_herm k x : hermitian n (part k x).
Proof.
  induction k. { intros i j Hi Hj. cbn. unfold dag, part, msum. cbn. cring. }
  rewrite part_S. intros i j Hi Hj. unfold dag, madd, msub. rewrite conj_add, conj_sub.
  pose proof (IHk i j Hi Hj) as A. unfold dag in A. rewrite A.
  pose proof (trf_herm_hermitian n (lnk n lat (bck (lat x) k) k) ltac:(lia) i j Hi Hj) as B. unfold dag in B.
  pose proof (trf_herm_hermitian n (lnk n lat x k) ltac:(lia) i j Hi Hj) as D. unfold dag in D.
  rewrite <- B, <- D. cring.
Qed.
Lemma part_traceless k x : traceless n (part k x).
Proof.
  induction k. { unfold traceless, mtr, part, msum. cbn. clear. induction n; [reflexivity|]. cbn [csum]. rewrite IHn0. cring. }
  rewrite part_S. unfold traceless, mtr, madd, msub in *. rewrite csum_add, csum_sub.
  pose proof (trf_traceless n (herm (lnk n lat (bck (lat x) k) k)) ltac:(lia)) as B. pose proof (trf_traceless n (herm (lnk n lat x k)) ltac:(lia)) as D.
  unfold traceless, mtr in B, D. rewrite IHk, B, D. cring.
Qed.

Lemma shaped_at x mu : (x < V)%nat -> (mu < ND)%nat -> shaped n (lnk n lat x mu) /\ shaped n (lnk n lat (bck (lat x) mu) mu).
Proof. intros Hx Hm. split; apply shaped_SUn, F; try assumption. now apply (g_bck _ _ _ Geo). Qed.
Lemma latt_deriv_ok tmp x s0 s v : (x < V)%nat -> (forall c, (c < HERMSIZE n)%nat -> s0 c = C0) -> latt_deriv n ND tmp lat x s0 = (s, v) ->
  packed n s (divergence n ND lat x) /\ v = (2 * re (mtr n (mmul n (divergence n ND lat x) (divergence n ND lat x))))%R.
Proof.
  intros Hx Z E. unfold latt_deriv in E. cbv zeta in E.
  match type of E with (?g, _) = _ => set (f := g) in E end. injection E as <- <-.
  assert (G : packed n f (divergence n ND lat x)).
  { unfold f. rewrite <- part_div. apply (for_ind (fun k a => packed n a (part k x))).
    - intros i j Hi Hj. rewrite Z by (apply off_bound; lia). reflexivity.
    - intros mu a Hm Ha. rewrite part_S. destruct (shaped_at x mu Hx Hm) as [A B].
      apply accumulate_ok; [exact Hn|exact Ha|apply Hermitian_proj_short_ok; [lia|exact B]|apply Hermitian_proj_short_ok; [lia|exact A]]. }
  split; [exact G|]. apply trace_deriv_ok; [exact Hn|exact G| |]; rewrite <- part_div; [apply part_herm|apply part_traceless].
Qed.
End Site.
(** the accuracy measured per site is 2 Tr D^2, and a quarter of that for SU(2) *)
Definition norm_of (n : nat) : R := match n with 2%nat => 1/2 | _ => 2 end.
Section Fast.
Context (ND V : nat) (lat : lattice) (Geo : geom_ok ND V lat).
Lemma fast_3_ok x s0 s v : group_field 3 ND V lat -> (x < V)%nat -> fast_deriv_3 ND lat x s0 = (s, v) ->
  packed 3 s (divergence 3 ND lat x) /\ v = (2 * re (mtr 3 (mmul 3 (divergence 3 ND lat x) (divergence 3 ND lat x))))%R.
Proof.
  intros F Hx E. unfold fast_deriv_3 in E.
  match type of E with (let '(_,_) := ?g in _) = _ => set (f := g) in E | context [for_ ND ?b ?z] => set (f := for_ ND b z) in E end.
  set (D := fun k => part 3 lat k x).
  assert (G : f = (3 * re (D ND 0%nat 0%nat), -2 * im (D ND 0%nat 1%nat), 2 * re (D ND 0%nat 1%nat), -2 * im (D ND 0%nat 2%nat), 2 * re (D ND 0%nat 2%nat),
    3 * re (D ND 1%nat 1%nat), -2 * im (D ND 1%nat 2%nat), 2 * re (D ND 1%nat 2%nat))%R).
  { unfold f. apply (for_ind (fun k st => st = (3 * re (D k 0%nat 0%nat), -2 * im (D k 0%nat 1%nat), 2 * re (D k 0%nat 1%nat), -2 * im (D k 0%nat 2%nat), 2 * re (D k 0%nat 2%nat),
    3 * re (D k 1%nat 1%nat), -2 * im (D k 1%nat 2%nat), 2 * re (D k 1%nat 2%nat))%R)).
    - unfold D, part, msum. cbn. pairs_; ring.
    - intros k st Hk ->. unfold D. rewrite part_S.
      set (P := part 3 lat k x). unfold fast_step_3.
      unfold madd, msub. rewrite !trf_herm_at by lia. unfold herm, aherm, mscale, msub, dag, lnk, mx, mid. cbn [Nat.add Nat.mul Nat.eqb rsum INR].
      generalize (O (lat x) k) (O (lat (bck (lat x) k)) k). intros q s1.
      pairs_; cunfold; cbn [fst snd]; field. }
  rewrite G in E. injection E as <- <-.
  pose proof (part_herm 3 lat ltac:(lia) ND x) as Hm. pose proof (part_traceless 3 lat ltac:(lia) ND x) as Ht. fold (D ND) in Hm, Ht.
  assert (D0 : im (D ND 0%nat 0%nat) = 0%R) by (pose proof (Hm 0 0 ltac:(lia) ltac:(lia))%nat as Q; unfold dag in Q; apply (f_equal im) in Q; unfold conj in Q; cbn [im fst snd] in Q; lra).
  assert (D1 : im (D ND 1%nat 1%nat) = 0%R) by (pose proof (Hm 1 1 ltac:(lia) ltac:(lia))%nat as Q; unfold dag in Q; apply (f_equal im) in Q; unfold conj in Q; cbn [im fst snd] in Q; lra).
  rewrite <- (part_div 3 ND lat x). fold (D ND).
  match goal with |- packed 3 ?a _ /\ _ => assert (P : packed 3 a (D ND)) end.
  { intros i j Hi Hj. destruct i as [|[|i]]; try lia; destruct j as [|[|[|j]]]; try lia; cbn [off Nat.sub Nat.add]; unfold upd; cbn [Nat.eqb].
    - transitivity (re (D ND 0%nat 0%nat), 0)%R; [unfold RtoC; f_equal; field|rewrite <- D0; symmetry; apply surjective_pairing].
    - transitivity (re (D ND 0%nat 1%nat), im (D ND 0%nat 1%nat))%R; [f_equal; field|symmetry; apply surjective_pairing].
    - transitivity (re (D ND 0%nat 2%nat), im (D ND 0%nat 2%nat))%R; [f_equal; field|symmetry; apply surjective_pairing].
    - transitivity (re (D ND 1%nat 1%nat), 0)%R; [unfold RtoC; f_equal; field|rewrite <- D1; symmetry; apply surjective_pairing].
    - transitivity (re (D ND 1%nat 2%nat), im (D ND 1%nat 2%nat))%R; [f_equal; field|symmetry; apply surjective_pairing]. }
  split; [exact P|]. rewrite <- (trace_deriv_ok 3 _ _ (le_S _ _ (le_n 2)) P Hm Ht). unfold trace_deriv, upd, VAL. cbn [Nat.eqb RtoC re im fst snd]. field.
Qed.
Lemma fast_2_ok x s0 s v : group_field 2 ND V lat -> (x < V)%nat -> fast_deriv_2 ND lat x s0 = (s, v) ->
  packed 2 s (divergence 2 ND lat x) /\ v = (1/2 * re (mtr 2 (mmul 2 (divergence 2 ND lat x) (divergence 2 ND lat x))))%R.
Proof.
  intros F Hx E. unfold fast_deriv_2 in E.
  match type of E with context [for_ ND ?b ?z] => set (f := for_ ND b z) in E end.
  set (D := fun k => part 2 lat k x).
  assert (G : f = (re (D ND 0%nat 0%nat), - im (D ND 0%nat 1%nat), re (D ND 0%nat 1%nat))%R).
  { unfold f. apply (for_ind (fun k st => st = (re (D k 0%nat 0%nat), - im (D k 0%nat 1%nat), re (D k 0%nat 1%nat))%R)).
    - unfold D, part, msum. cbn. pairs_; ring.
    - intros k st Hk ->. unfold D. rewrite part_S.
      set (P := part 2 lat k x). unfold madd, msub. rewrite !trf_herm_at by lia.
      destruct (shaped_at 2 ND V lat F Geo x k Hx Hk) as [A B]. destruct (A eq_refl) as [A1 A2]. destruct (B eq_refl) as [B1 B2].
      unfold herm, aherm, mscale, msub, dag, mid. cbn [Nat.eqb rsum INR]. rewrite A1, A2, B1, B2. unfold lnk, mx. cbn [Nat.add Nat.mul].
      generalize (O (lat x) k) (O (lat (bck (lat x) k)) k). intros q s1.
      pairs_; cunfold; cbn [fst snd]; field. }
  rewrite G in E. injection E as <- <-.
  pose proof (part_herm 2 lat ltac:(lia) ND x) as Hm. pose proof (part_traceless 2 lat ltac:(lia) ND x) as Ht. fold (D ND) in Hm, Ht.
  assert (D0 : im (D ND 0%nat 0%nat) = 0%R) by (pose proof (Hm 0 0 ltac:(lia) ltac:(lia))%nat as Q; unfold dag in Q; apply (f_equal im) in Q; unfold conj in Q; cbn [im fst snd] in Q; lra).
  rewrite <- (part_div 2 ND lat x). fold (D ND).
  match goal with |- packed 2 ?a _ /\ _ => assert (P : packed 2 a (D ND)) end.
  { intros i j Hi Hj. destruct i; try lia; destruct j as [|[|j]]; try lia; cbn [off Nat.sub Nat.add]; unfold upd; cbn [Nat.eqb].
    - unfold RtoC. rewrite <- D0. symmetry; apply surjective_pairing.
    - rewrite Ropp_involutive. symmetry; apply surjective_pairing. }
  split; [exact P|].
  assert (Q : trace_deriv 2 (upd (upd s0 0 (RtoC (re (D ND 0%nat 0%nat)))) 1 (re (D ND 0%nat 1%nat), - - im (D ND 0%nat 1%nat))%R) = (2 * re (mtr 2 (mmul 2 (D ND) (D ND))))%R)
    by (apply trace_deriv_ok; [lia|exact P|exact Hm|exact Ht]).
  replace (1/2 * re (mtr 2 (mmul 2 (D ND) (D ND))))%R with (1/4 * (2 * re (mtr 2 (mmul 2 (D ND) (D ND)))))%R by field. rewrite <- Q.
  unfold trace_deriv, upd. cbn [Nat.eqb RtoC re im fst snd]. field.
Qed.
End Fast.
Lemma fast_ok n ND V lat tmp x s0 s v : (2 <= n)%nat -> group_field n ND V lat -> geom_ok ND V lat -> (x < V)%nat -> fast_deriv n ND tmp lat x s0 = (s, v) ->
  packed n s (divergence n ND lat x) /\ v = (norm_of n * re (mtr n (mmul n (divergence n ND lat x) (divergence n ND lat x))))%R.
Proof.
  intros Hn F Geo Hx E. destruct n as [|[|[|[|m]]]]; try lia.
  - now apply (fast_2_ok ND V lat Geo x s0).
  - now apply (fast_3_ok ND V lat x s0).
  - apply (latt_deriv_ok _ ND V lat Hn F Geo tmp x _ s v Hx) in E; [exact E|].
    intros c Hc. rewrite (for_upd_all _ (fun _ _ => C0)). now rewrite (proj2 (Nat.ltb_lt _ _) Hc).
Qed.
