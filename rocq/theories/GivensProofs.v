(** Proofs about givens_reunit. *)
From Coq Require Import PeanoNat Lia List Reals Lra.
From Verif Require Import CMat Det Arr MatSpec MmulModel MatModel MmulProofs MatProofs InvProofs Su2Model Su2Proofs GramModel GramProofs FieldProofs AxialModel AxialProofs AxialProofs2.
Import ListNotations.
Local Open Scope C_scope.

(** * The SU(2) element *)
Lemma givens_su2_ok : forall s0 s1, match givens_su2 s0 s1 with
  | None => s0 = C0 /\ s1 = C0
  | Some (t0, t1) => let d := sqrt (norm2 s0 + norm2 s1) in (0 < d)%R /\ unit2 t0 t1 /\ s0 = RtoC d * t0 /\ s1 = RtoC d * t1
  end.
Proof.
  intros [p q] [r s]. unfold givens_su2. cunfold.
  destruct (Req_EM_T (p*p + q*q + r*r + s*s) 0) as [Z|N].
  - split; apply C_eq; cunfold; nra.
  - cbv zeta. unfold norm2. cunfold. replace (p*p + q*q + (r*r + s*s))%R with (p*p + q*q + r*r + s*s)%R by ring.
    assert (P : (0 < p*p + q*q + r*r + s*s)%R) by (pose proof (sq4_nonneg p q r s); lra).
    set (w := (p*p + q*q + r*r + s*s)%R) in *. pose proof (sqrt_lt_R0 w P) as Q. pose proof (sqrt_sqrt w ltac:(lra)) as QQ.
    split; [exact Q|]. split; [|split; apply C_eq; cunfold; field; lra].
    unfold unit2, norm2. cunfold.
    transitivity ((p*p + q*q + r*r + s*s) * (/ (sqrt w * sqrt w)))%R; [field; lra|]. rewrite QQ. unfold w. field. exact N.
Qed.

(** * One rotation *)
Definition rotates (n a b : nat) (r : arr -> arr -> option (arr * arr)) : Prop := forall U w,
  match givens_su2 (mx n U a a + conj (mx n U b b)) (mx n U a b - conj (mx n U b a)) with
  | None => r U w = None
  | Some (t0, t1) => exists U' w', r U w = Some (U', w') /\
      meq n (mx n U') (mmul n (mx n U) (dag (embed a b t0 t1))) /\
      meq n (mx n w') (mmul n (embed a b t0 t1) (mx n w))
  end.

Lemma mmul_embed_dag : forall n a b s0 s1 M, (a < n)%nat -> (b < n)%nat -> a <> b ->
  meq n (mmul n M (dag (embed a b s0 s1))) (fun i j =>
    if Nat.eqb j a then M i a * conj s0 + M i b * conj s1
    else if Nat.eqb j b then - M i a * s1 + M i b * s0 else M i j).
Proof.
  intros n a b s0 s1 M Ha Hb N i j Hi Hj.
  transitivity (conj (mmul n (embed a b s0 s1) (dag M) j i)).
  - unfold mmul. rewrite csum_conj. apply csum_ext. intros k _. unfold dag. autorewrite with conj. ring.
  - rewrite embed_mmul by assumption. unfold dag. eqbs; autorewrite with conj; ring.
Qed.

Ltac rot3 := 
  match goal with |- match ?g with _ => _ end => destruct g as [[t0 t1]|] end; [|reflexivity];
  do 2 eexists; split; [reflexivity|]; split;
  [ rewrite mmul_embed_dag by lia | rewrite embed_mmul by lia ]; split3;
  lazy beta delta [mx upd Nat.eqb Nat.add Nat.mul] zeta iota; ring.
Lemma rotation1_ok : rotates 3 0 1 rotation1.
Proof. intros U w. unfold rotation1. change (mx 3 U 0%nat 0%nat) with (U 0%nat). change (mx 3 U 1%nat 1%nat) with (U 4%nat).
  change (mx 3 U 0%nat 1%nat) with (U 1%nat). change (mx 3 U 1%nat 0%nat) with (U 3%nat). rot3. Qed.
Lemma rotation2_ok : rotates 3 1 2 rotation2.
Proof. intros U w. unfold rotation2. change (mx 3 U 1%nat 1%nat) with (U 4%nat). change (mx 3 U 2%nat 2%nat) with (U 8%nat).
  change (mx 3 U 1%nat 2%nat) with (U 5%nat). change (mx 3 U 2%nat 1%nat) with (U 7%nat). rot3. Qed.
Lemma rotation3_ok : rotates 3 2 0 rotation3.
Proof. intros U w. unfold rotation3. change (mx 3 U 2%nat 2%nat) with (U 8%nat). change (mx 3 U 0%nat 0%nat) with (U 0%nat).
  change (mx 3 U 2%nat 0%nat) with (U 6%nat). change (mx 3 U 0%nat 2%nat) with (U 2%nat). rot3. Qed.
Lemma rotation_n_ok : forall n k, (k < NSU2SUBGROUPS n)%nat ->
  rotates n (fst (su2_pair n k)) (snd (su2_pair n k)) (rotation_n n k).
Proof.
  intros n k Hk U w. unfold rotation_n. rewrite su2_data_is.
  pose proof (fun s0 s1 => su2_multiply_ok n w s0 s1 k Hk) as H1.
  pose proof (fun s0 s1 => su2_multiply_dag_ok n U s0 s1 k Hk) as H2.
  destruct (su2_pair n k) as [a b]. cbn [fst snd].
  change (mx n U a a) with (U (a + n*a)%nat). change (mx n U b b) with (U (b + n*b)%nat).
  change (mx n U a b) with (U (b + n*a)%nat). change (mx n U b a) with (U (a + n*b)%nat).
  destruct (givens_su2 _ _) as [[t0 t1]|]; [|reflexivity].
  do 2 eexists. split; [reflexivity|]. split; [apply H2|apply H1].
Qed.
Definition a_rotation (n : nat) (r : arr -> arr -> option (arr * arr)) : Prop :=
  exists a b, (a < n)%nat /\ (b < n)%nat /\ a <> b /\ rotates n a b r.
Lemma sweep_ok : forall n r, In r (sweep n) -> a_rotation n r.
Proof.
  intros n r H.
  assert (G : In r (map (rotation_n n) (seq 0 (NSU2SUBGROUPS n))) -> a_rotation n r).
  { intro J. apply in_map_iff in J. destruct J as (k & <- & Hk). apply in_seq in Hk.
    exists (fst (su2_pair n k)), (snd (su2_pair n k)). pose proof (su2_pair_lt n k ltac:(lia)).
    split; [lia|]. split; [lia|]. split; [lia|]. apply rotation_n_ok. lia. }
  destruct n as [|[|[|[|n]]]]; try (now apply G). clear G. cbn [sweep] in H.
  destruct H as [<-|[<-|[<-|[]]]].
  - exists 0%nat, 1%nat. split; [lia|]. split; [lia|]. split; [lia|]. apply rotation1_ok.
  - exists 1%nat, 2%nat. split; [lia|]. split; [lia|]. split; [lia|]. apply rotation2_ok.
  - exists 2%nat, 0%nat. split; [lia|]. split; [lia|]. split; [lia|]. apply rotation3_ok.
Qed.

(** * The overlap never decreases *)
Definition overlap (n : nat) (U W : mat) : R := re (mtr n (mmul n U (dag W))).
Lemma overlap_ext : forall n U W W', meq n W W' -> overlap n U W = overlap n U W'.
Proof. intros n U W W' E. unfold overlap. now rewrite E. Qed.

Lemma re_mtr_embed_dag : forall n a b t0 t1 T, (a < n)%nat -> (b < n)%nat -> a <> b ->
  let s0 := T a a + conj (T b b) in let s1 := T a b - conj (T b a) in
  re (mtr n (mmul n T (dag (embed a b t0 t1)))) = (re (mtr n T) - re s0 + re (conj t0 * s0 + conj t1 * s1)%C)%R.
Proof.
  intros n a b t0 t1 T Ha Hb N s0 s1. rewrite mtr_cyc.
  assert (E : meq n (dag (embed a b t0 t1)) (embed a b (conj t0) (- t1))) by (intros i j _ _; now apply embed_dag).
  rewrite E, re_mtr_embed by assumption. fold s0 s1. clearbody s0 s1. destruct s0, s1, t0, t1. cunfold. ring.
Qed.
Lemma rot_gain : forall s0 s1 t0 t1 d, unit2 t0 t1 -> s0 = RtoC d * t0 -> s1 = RtoC d * t1 ->
  re (conj t0 * s0 + conj t1 * s1) = d.
Proof.
  intros s0 s1 t0 t1 d H -> ->. unfold unit2, norm2 in H. destruct t0 as [c c0], t1 as [c1 c2]. cunfold.
  transitivity (d * (c*c + c0*c0 + (c1*c1 + c2*c2)))%R.
  - ring.
  - rewrite H. ring.
Qed.

(** the state of the loop: U holds U0 times the dagger of w *)
Definition tracks (n : nat) (U0 : mat) (U w : arr) : Prop :=
  SUn n (mx n w) /\ meq n (mx n U) (mmul n U0 (dag (mx n w))).
Lemma tracks_overlap : forall n U0 U w, tracks n U0 U w -> re (mtr n (mx n U)) = overlap n U0 (mx n w).
Proof. intros n U0 U w [_ E]. unfold overlap. now rewrite E. Qed.
Lemma re_le_norm : forall s0 s1, (re s0 <= sqrt (norm2 s0 + norm2 s1))%R.
Proof.
  intros [p q] [r s]. unfold norm2. cunfold. apply Rle_trans with (sqrt (p*p)).
  - change (p * p)%R with (Rsqr p). rewrite sqrt_Rsqr_abs. apply Rle_abs.
  - apply sqrt_le_1_alt. nra.
Qed.
Lemma rotate_tracks : forall n U0 r U w U' w', (2 <= n)%nat -> a_rotation n r -> tracks n U0 U w -> r U w = Some (U', w') ->
  tracks n U0 U' w' /\ (re (mtr n (mx n U)) <= re (mtr n (mx n U')))%R.
Proof.
  intros n U0 r U w U' w' Hn (a & b & Ha & Hb & N & R) [T1 T2] E. specialize (R U w).
  pose proof (givens_su2_ok (mx n U a a + conj (mx n U b b)) (mx n U a b - conj (mx n U b a))) as G.
  destruct (givens_su2 _ _) as [[t0 t1]|]; [|congruence]. destruct R as (U1 & w1 & R1 & R2 & R3).
  rewrite E in R1. injection R1 as <- <-. cbv zeta in G. destruct G as (D & U2 & G0 & G1).
  split; [split|].
  - apply (SUn_ext n (mmul n (embed a b t0 t1) (mx n w))); [now symmetry|]. apply SUn_mmul; [now apply embed_SUn|assumption].
  - rewrite R2, R3, T2, mmul_assoc. now rewrite dag_mmul.
  - rewrite R2, re_mtr_embed_dag by assumption.
    rewrite (rot_gain _ _ t0 t1 _ U2 G0 G1). 
    pose proof (re_le_norm (mx n U a a + conj (mx n U b b)) (mx n U a b - conj (mx n U b a))). lra.
Qed.
Lemma rotations_tracks : forall n U0 rs U w U' w', (2 <= n)%nat -> (forall r, In r rs -> a_rotation n r) -> tracks n U0 U w ->
  rotations rs U w = Some (U', w') ->
  tracks n U0 U' w' /\ (re (mtr n (mx n U)) <= re (mtr n (mx n U')))%R.
Proof.
  intros n U0 rs. induction rs as [|r rs IH]; intros U w U' w' Hn HR T E; cbn [rotations] in E.
  - injection E as <- <-. split; [assumption|lra].
  - destruct (r U w) as [[U1 w1]|] eqn:E1; [|discriminate].
    destruct (rotate_tracks n U0 r U w U1 w1 Hn (HR r (or_introl eq_refl)) T E1) as [T1 L1].
    destruct (IH U1 w1 U' w' Hn (fun r H => HR r (or_intror H)) T1 E) as [T2 L2]. split; [assumption|lra].
Qed.
Lemma givens_loop_ok : forall n tol fuel U0 old U w w', (2 <= n)%nat -> tracks n U0 U w ->
  givens_loop n tol fuel old U w = Some w' ->
  SUn n (mx n w') /\ (overlap n U0 (mx n w) <= overlap n U0 (mx n w'))%R.
Proof.
  intros n tol fuel U0. induction fuel as [|fuel IH]; intros old U w w' Hn T E; cbn [givens_loop] in E.
  - injection E as <-. split; [apply T|lra].
  - destruct (rotations (sweep n) U w) as [[U1 w1]|] eqn:E1; [|discriminate].
    destruct (rotations_tracks n U0 _ U w U1 w1 Hn (sweep_ok n) T E1) as [T1 L1].
    rewrite (tracks_overlap _ _ _ _ T), (tracks_overlap _ _ _ _ T1) in L1.
    assert (R : givens_loop n tol fuel (speed_trace_Re n U1) U1 w1 = Some w' -> SUn n (mx n w') /\ (overlap n U0 (mx n w) <= overlap n U0 (mx n w'))%R).
    { intro J. destruct (IH _ _ _ _ Hn T1 J). split; [assumption|lra]. }
    destruct (Req_EM_T (speed_trace_Re n U1) 0); [now apply R|].
    destruct (Rlt_dec _ _); [|now apply R]. injection E as <-. split; [apply T1|assumption].
Qed.

(** * givens_reunit *)
Lemma leading_ext : forall n U U', meq n U U' -> leading n U -> leading n U'.
Proof.
  assert (K : forall m n U U', (m <= n)%nat -> meq n U U' -> indep m n U -> indep m n U').
  { intros m n U U' Hm E I a H i Hi. apply I; [|assumption]. intros c Hc. rewrite <- (H c Hc). apply csum_ext.
    intros k Hk. rewrite E by lia. reflexivity. }
  intros n U U' E. destruct n as [|[|[|[|n]]]]; unfold leading; apply K; try lia; try assumption;
    intros i j Hi Hj; unfold tr_; now apply E.
Qed.
Lemma givens_start : forall n tmp U, (2 <= n)%nat -> leading n (mx n U) ->
  tracks n (mx n U) (multab_dag n U (equiv n tmp U) (gram_reunit n (equiv n tmp U))) (gram_reunit n (equiv n tmp U)).
Proof.
  intros n tmp U Hn L. destruct (equiv_ok n tmp U) as [E _].
  split; [apply gram_reunit_ok; [assumption|]|].
  - now apply (leading_ext n (mx n U)).
  - destruct (multab_dag_ok n U (equiv n tmp U) (gram_reunit n (equiv n tmp U))) as [M _]. now rewrite M, E.
Qed.

Lemma unit_case : forall n, (n = 2 \/ n <> 2)%nat. Proof. intro; lia. Qed.

(** one SU(2) update of the product, for two colours *)
Definition givens_two (tol : R) (tmp U : arr) : option arr :=
  let w := gram_reunit 2 (equiv 2 tmp U) in
  let U1 := multab_dag 2 U (equiv 2 tmp U) w in
  match givens_su2 (U1 0%nat + conj (U1 3%nat)) (U1 1%nat - conj (U1 2%nat)) with
  | None => None
  | Some (s0, s1) => Some (equiv 2 U (equiv 2 w (multab_suNC 2 tmp (upd (upd (upd (upd tmp 0 s0) 3 (conj s0)) 1 s1) 2 (- conj s1)) w)))
  end.
Lemma givens_two_is : forall tol tmp U, givens_reunit 2 tol tmp U = givens_two tol tmp U.
Proof. reflexivity. Qed.
Lemma rot_is : forall tmp s0 s1, meq 2 (mx 2 (upd (upd (upd (upd tmp 0 s0) 3 (conj s0)) 1 s1) 2 (- conj s1))) (embed 0 1 s0 s1).
Proof. intros. split2; reflexivity. Qed.
Lemma givens_two_tracks : forall tol tmp U, leading 2 (mx 2 U) ->
  let w := gram_reunit 2 (equiv 2 tmp U) in
  let T := mmul 2 (mx 2 U) (dag (mx 2 w)) in
  SUn 2 (mx 2 w) /\
  match givens_su2 (T 0%nat 0%nat + conj (T 1%nat 1%nat)) (T 0%nat 1%nat - conj (T 1%nat 0%nat)) with
  | None => givens_reunit 2 tol tmp U = None
  | Some (t0, t1) => exists r, givens_reunit 2 tol tmp U = Some r /\ frame 4 r U /\ unit2 t0 t1 /\
      meq 2 (mx 2 r) (mmul 2 (embed 0 1 t0 t1) (mx 2 w))
  end.
Proof.
  intros tol tmp U L w T. pose proof (givens_start 2 tmp U (le_n 2) L) as [W1 W2]. fold w in W1, W2.
  split; [exact W1|]. rewrite givens_two_is. unfold givens_two. fold w. fold T in W2.
  set (U1 := multab_dag 2 U (equiv 2 tmp U) w) in *.
  replace (T 0%nat 0%nat) with (U1 0%nat) by (apply (W2 0%nat 0%nat); lia).
  replace (T 1%nat 1%nat) with (U1 3%nat) by (apply (W2 1%nat 1%nat); lia).
  replace (T 0%nat 1%nat) with (U1 1%nat) by (apply (W2 0%nat 1%nat); lia).
  replace (T 1%nat 0%nat) with (U1 2%nat) by (apply (W2 1%nat 0%nat); lia).
  pose proof (givens_su2_ok (U1 0%nat + conj (U1 3%nat)) (U1 1%nat - conj (U1 2%nat))) as G.
  destruct (givens_su2 _ _) as [[t0 t1]|]; [|reflexivity]. cbv zeta in G. destruct G as (_ & U2 & _).
  eexists. split; [reflexivity|]. split; [apply (equiv_ok 2)|]. split; [exact U2|].
  etransitivity; [apply (equiv_ok 2)|]. etransitivity; [apply (equiv_ok 2)|].
  etransitivity; [apply multab_suNC_ok|].
  - apply (SUn_ext 2 (embed 0 1 t0 t1)); [symmetry; apply rot_is|]. apply embed_SUn; try lia; assumption.
  - assumption.
  - now rewrite rot_is.
Qed.

(** * The reunitarised matrix depends on the matrix alone *)
Definition agree (k : nat) (a b : arr) : Prop := forall x, (x < k)%nat -> a x = b x.
Lemma for_rel : forall {A B} (P : A -> B -> Prop) n f g a b, P a b ->
  (forall i a b, (i < n)%nat -> P a b -> P (f i a) (g i b)) -> P (for_ n f a) (for_ n g b).
Proof.
  intros A B P n f g a b H0 H. 
  assert (G : forall m, (m <= n)%nat -> P (for_ m f a) (for_ m g b)).
  { induction m; intro Hm; [exact H0|]. cbn [for_]. apply H; [lia|]. apply IHm. lia. }
  apply G. lia.
Qed.
Lemma agree_upd : forall k a b x v, agree k a b -> agree k (upd a x v) (upd b x v).
Proof. intros k a b x v H y Hy. unfold upd. destruct (Nat.eqb y x); [reflexivity|now apply H]. Qed.
Lemma agree_mx : forall n a b, meq n (mx n a) (mx n b) -> agree (n*n) a b.
Proof.
  intros n a b E x Hx. destruct (Nat.eq_dec n 0) as [->|Hn]; [lia|].
  pose proof (Nat.div_mod x n Hn) as D. pose proof (Nat.mod_upper_bound x n Hn) as M.
  assert (Q : (x / n < n)%nat) by (apply Nat.div_lt_upper_bound; assumption).
  specialize (E (x / n)%nat (x mod n)%nat Q M). unfold mx in E. now replace (x mod n + n * (x / n))%nat with x in E by lia.
Qed.
Lemma mx_agree : forall n a b, agree (n*n) a b -> meq n (mx n a) (mx n b).
Proof. intros n a b H i j Hi Hj. apply H. nia. Qed.
Lemma gram_reunit_agree : forall n U V, (2 <= n)%nat -> agree (n*n) U V -> agree (n*n) (gram_reunit n U) (gram_reunit n V).
Proof.
  intros n U V Hn H. 
  assert (G : agree (n*n) (gram_reunit_n n U) (gram_reunit_n n V)).
  { unfold gram_reunit_n.
    rewrite (for_ext (n-1) _ (fun i v => set_row v i (for_ n (fun j w => upd w j (V (j + n*i)%nat)) (v i))) (fun _ _ => C0)).
    2:{ intros i v Hi. f_equal. apply for_ext. intros j w Hj. rewrite H by nia. reflexivity. }
    set (v0 := for_ (n-1) (fun i v => set_row v i (for_ n (fun j w => upd w j (V (j + n*i)%nat)) (v i))) (fun _ _ => C0)).
    pose proof (for_rel (fun s t => fst s = fst t /\ agree (n*n) (snd s) (snd t)) (n-1) (gs_turn n) (gs_turn n) (v0, U) (v0, V)
      (Logic.conj eq_refl H)) as F.
    destruct F as [_ F].
    { intros i [v u] [v' u'] Hi [E1 E2]. cbn [fst snd] in E1, E2. subst v'. unfold gs_turn. cbn [fst snd]. split; [reflexivity|].
      apply (for_rel (agree (n*n))); [exact E2|]. intros j a b _ J. now apply agree_upd. }
    destruct (for_ (n-1) (gs_turn n) (v0, U)) as [v1 U1], (for_ (n-1) (gs_turn n) (v0, V)) as [v2 V1]. cbn [snd] in F.
    apply (for_rel (agree (n*n))); [exact F|]. intros h a b Hh J.
    replace (pack_bottom n a (n*n - n + h)) with (pack_bottom n b (n*n - n + h)); [now apply agree_upd|].
    unfold pack_bottom. f_equal. apply for_ext. intros j [ar idx] Hj. destruct (negb _); [|reflexivity].
    rewrite J; [reflexivity|]. nia. }
  destruct n as [|[|[|[|n]]]]; try lia; [| |exact G]; clear G.
  - cbn [gram_reunit]. unfold gram_reunit_2. rewrite !(H 0%nat), !(H 2%nat) by lia. cbv zeta. repeat apply agree_upd. exact H.
  - cbn [gram_reunit]. unfold gram_reunit_3.
    rewrite !(H 0%nat), !(H 1%nat), !(H 3%nat), !(H 4%nat), !(H 6%nat), !(H 7%nat) by lia. cbv zeta.
    repeat apply agree_upd. exact H.
Qed.
Lemma gram_equiv : forall n tmp U, (2 <= n)%nat -> meq n (mx n (gram_reunit n (equiv n tmp U))) (mx n (gram_reunit n U)).
Proof. intros n tmp U Hn. apply mx_agree, gram_reunit_agree; [assumption|]. apply agree_mx, equiv_ok. Qed.

(** * The results *)
(** the projection is in the group and at least as close as the reunitarised matrix *)
Lemma givens_reunit_group : forall n tol tmp U r, (2 <= n)%nat -> leading n (mx n U) -> givens_reunit n tol tmp U = Some r ->
  SUn n (mx n r) /\ frame (n*n) r U /\
  (overlap n (mx n U) (mx n (gram_reunit n U)) <= overlap n (mx n U) (mx n r))%R.
Proof.
  intros n tol tmp U r Hn L E. rewrite <- (overlap_ext n _ _ _ (gram_equiv n tmp U Hn)).
  destruct (unit_case n) as [->|N2].
  - destruct (givens_two_tracks tol tmp U L) as [W G]. set (w := gram_reunit 2 (equiv 2 tmp U)) in *.
    set (T := mmul 2 (mx 2 U) (dag (mx 2 w))) in *.
    pose proof (givens_su2_ok (T 0%nat 0%nat + conj (T 1%nat 1%nat)) (T 0%nat 1%nat - conj (T 1%nat 0%nat))) as K.
    destruct (givens_su2 _ _) as [[t0 t1]|]; [|congruence].
    destruct G as (r' & E' & F & U2 & M). rewrite E in E'. injection E' as <-. cbv zeta in K. destruct K as (D & _ & K0 & K1).
    split; [|split; [exact F|]].
    + apply (SUn_ext 2 (mmul 2 (embed 0 1 t0 t1) (mx 2 w))); [now symmetry|].
      apply SUn_mmul; [apply embed_SUn; try lia; assumption|assumption].
    + unfold overlap. fold T. rewrite M, dag_mmul, <- mmul_assoc. fold T.
      rewrite re_mtr_embed_dag by lia. rewrite (rot_gain _ _ t0 t1 _ U2 K0 K1).
      pose proof (re_le_norm (T 0%nat 0%nat + conj (T 1%nat 1%nat)) (T 0%nat 1%nat - conj (T 1%nat 0%nat))). lra.
  - pose proof (givens_start n tmp U Hn L) as T. set (w := gram_reunit n (equiv n tmp U)) in *.
    assert (E2 : exists w', givens_loop n tol 75 (speed_trace_Re n (multab_dag n U (equiv n tmp U) w)) (multab_dag n U (equiv n tmp U) w) w = Some w'
       /\ r = equiv n U w').
    { unfold givens_reunit in E. fold w in E. destruct n as [|[|[|n]]]; try lia;
      (destruct (givens_loop _ _ _ _ _ _) as [w'|]; [|discriminate]; exists w'; split; [reflexivity|now injection E as <-]). }
    destruct E2 as (w' & E2 & ->). destruct (givens_loop_ok n tol 75 _ _ _ _ _ Hn T E2) as [S Lo].
    destruct (equiv_ok n U w') as [Q F]. split; [now apply (SUn_ext n (mx n w'))|]. split; [exact F|].
    now rewrite (overlap_ext n _ _ _ Q).
Qed.

(** group elements are left alone *)
Lemma givens_su2_two : givens_su2 (C1 + conj C1) (C0 - conj C0) = Some (C1, C0).
Proof.
  unfold givens_su2. cunfold. destruct (Req_EM_T _ _) as [Z|N]; [lra|].
  match goal with |- context [sqrt ?x] => replace x with (2 * 2)%R by ring end.
  rewrite sqrt_square by lra. f_equal. f_equal; apply C_eq; cunfold; field.
Qed.
Lemma embed_one : forall n a b, meq n (embed a b C1 C0) mid.
Proof. intros n a b i j _ _. unfold embed, mid. eqbs; try reflexivity; cring. Qed.
Lemma rotate_id : forall n r U w, a_rotation n r -> meq n (mx n U) mid ->
  exists U' w', r U w = Some (U', w') /\ meq n (mx n U') mid /\ meq n (mx n w') (mx n w).
Proof.
  intros n r U w (a & b & Ha & Hb & N & R) E. specialize (R U w). rewrite !E in R by assumption.
  unfold mid in R. rewrite !Nat.eqb_refl, !(proj2 (Nat.eqb_neq _ _)) in R by lia.
  change (if true then C1 else C0) with C1 in R. change (if false then C1 else C0) with C0 in R.
  rewrite givens_su2_two in R. destruct R as (U' & w' & R1 & R2 & R3). exists U', w'. split; [exact R1|].
  rewrite embed_one in R2, R3. rewrite R2, R3, E. split; [|now rewrite mmul_1_l]. rewrite mmul_1_l. apply dag_mid.
Qed.
Lemma rotations_id : forall n rs U w, (forall r, In r rs -> a_rotation n r) -> meq n (mx n U) mid ->
  exists U' w', rotations rs U w = Some (U', w') /\ meq n (mx n U') mid /\ meq n (mx n w') (mx n w).
Proof.
  intros n rs. induction rs as [|r rs IH]; intros U w HR E; cbn [rotations]; [exists U, w; split; [reflexivity|split; [assumption|reflexivity]]|].
  destruct (rotate_id n r U w (HR r (or_introl eq_refl)) E) as (U1 & w1 & -> & E1 & E2).
  destruct (IH U1 w1 (fun r H => HR r (or_intror H)) E1) as (U2 & w2 & Q & E3 & E4).
  exists U2, w2. split; [exact Q|]. split; [exact E3|]. now rewrite E4.
Qed.
Lemma givens_loop_id : forall n tol fuel old U w, meq n (mx n U) mid ->
  exists w', givens_loop n tol fuel old U w = Some w' /\ meq n (mx n w') (mx n w).
Proof.
  intros n tol fuel. induction fuel as [|fuel IH]; intros old U w E; cbn [givens_loop]; [exists w; split; reflexivity|].
  destruct (rotations_id n (sweep n) U w (sweep_ok n) E) as (U1 & w1 & -> & E1 & E2).
  destruct (IH (speed_trace_Re n U1) U1 w1 E1) as (w2 & Q & E3).
  destruct (Req_EM_T _ _); [exists w2; split; [exact Q|now rewrite E3]|].
  destruct (Rlt_dec _ _); [now exists w1|exists w2; split; [exact Q|now rewrite E3]].
Qed.
Lemma givens_reunit_id : forall n tol tmp U, (2 <= n)%nat -> SUn n (mx n U) ->
  exists r, givens_reunit n tol tmp U = Some r /\ meq n (mx n r) (mx n U).
Proof.
  intros n tol tmp U Hn HU. pose proof (gram_equiv n tmp U Hn) as GE.
  destruct (gram_reunit_ok n U Hn) as (_ & _ & GI). specialize (GI HU). rewrite GI in GE.
  destruct (equiv_ok n tmp U) as [EU _].
  assert (M1 : meq n (mx n (multab_dag n U (equiv n tmp U) (gram_reunit n (equiv n tmp U)))) mid).
  { destruct (multab_dag_ok n U (equiv n tmp U) (gram_reunit n (equiv n tmp U))) as [-> _]. rewrite GE, EU. apply HU. }
  destruct (unit_case n) as [->|N2].
  - assert (L : leading 2 (mx 2 U)) by now apply leading_group.
    destruct (givens_two_tracks tol tmp U L) as [W G]. set (w := gram_reunit 2 (equiv 2 tmp U)) in *.
    assert (T1 : meq 2 (mmul 2 (mx 2 U) (dag (mx 2 w))) mid) by (rewrite GE; apply HU).
    rewrite !T1 in G by lia. change (mid 0%nat 0%nat) with C1 in G. change (mid 1%nat 1%nat) with C1 in G.
    change (mid 0%nat 1%nat) with C0 in G. change (mid 1%nat 0%nat) with C0 in G. rewrite givens_su2_two in G.
    destruct G as (r & E & _ & _ & M). exists r. split; [exact E|]. now rewrite M, embed_one, mmul_1_l.
  - set (w := gram_reunit n (equiv n tmp U)) in *.
    destruct (givens_loop_id n tol 75 (speed_trace_Re n (multab_dag n U (equiv n tmp U) w)) _ w M1) as (w' & E & Q).
    exists (equiv n U w'). split.
    + unfold givens_reunit. fold w. destruct n as [|[|[|n]]]; try lia; now rewrite E.
    + destruct (equiv_ok n U w') as [-> _]. now rewrite Q.
Qed.
