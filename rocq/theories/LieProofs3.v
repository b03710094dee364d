(** Four colours: the generators the code builds, and a set of generators that does meet the hypotheses. *)
From Coq Require Import List ZArith PeanoNat Lia Bool.
From Verif Require Import CInt Lib CMat Arr MatSpec MatModel MatProofs Det LieModel LieProofs LieProofs2.
Import ListNotations.
Local Open Scope nat_scope.
Local Open Scope C_scope.

(** * what init_generators leaves for four colours *)
Definition lam4 : nat -> arr := init_generators 4.
Definition big : R := IZR (u64 (-1)).
Definition half : C := RtoC (/ 2).
Lemma lam4_off : forall k, (k < 15)%nat -> k <> 0%nat -> k <> 1%nat -> lam4 k 1%nat = C0 /\ lam4 k 4%nat = C0.
Proof. intros k Hk H0 H1. do 15 (destruct k as [|k]; [try congruence; split; reflexivity|]). lia. Qed.
Lemma lam4_0 : lam4 0 1%nat = half /\ lam4 0 4%nat = half.
Proof. split; reflexivity. Qed.
Lemma lam4_1 : lam4 1 1%nat = - Ci * half /\ lam4 1 4%nat = Ci * half.
Proof. split; reflexivity. Qed.
Lemma lam4_2 : lam4 2 0%nat = RtoC (sqrt (1 / (2 * INR 2 * INR 1))) /\ lam4 2 5%nat = RtoC (sqrt (1 / (2 * INR 2 * INR 1)) * big).
Proof. split; reflexivity. Qed.
Lemma lam4_zero : forall g, (g < 2)%nat -> forall x, x <> 1%nat -> x <> 4%nat -> lam4 g x = C0.
Proof. intros g Hg x H1 H4. do 2 (destruct g as [|g]; [do 16 (destruct x as [|x]; [congruence || reflexivity|]); reflexivity|]). lia. Qed.

Definition exA : arr := fun x => match x with 1 => C1 | 4 => C1 | _ => C0 end%nat.
Definition exB : arr := fun x => match x with 1 => - Ci | 4 => Ci | _ => C0 end%nat.
Definition exD : arr := fun x => match x with 0 => C1 | 5 => - C1 | _ => C0 end%nat.
Lemma tr_A k : trace_ab 4 exA (lam4 k) = lam4 k 1%nat + lam4 k 4%nat.
Proof. rewrite trace_ab_ok. unfold mtr, mmul, mx. cbn [csum Nat.mul Nat.add exA]. ring. Qed.
Lemma tr_B k : trace_ab 4 exB (lam4 k) = Ci * (lam4 k 1%nat - lam4 k 4%nat).
Proof. rewrite trace_ab_ok. unfold mtr, mmul, mx. cbn [csum Nat.mul Nat.add exB]. ring. Qed.
Lemma tr_D k : trace_ab 4 exD (lam4 k) = lam4 k 0%nat - lam4 k 5%nat.
Proof. rewrite trace_ab_ok. unfold mtr, mmul, mx. cbn [csum Nat.mul Nat.add exD]. ring. Qed.
Lemma f_01 k : f_of 4 lam4 (0, 1, k)%nat = re (lam4 k 0%nat - lam4 k 5%nat).
Proof.
  unfold f_of, compute_f_and_d. cbn [fst]. rewrite !trace_abc_tr3. unfold tr3, mtr, mmul, mx. cbn [csum Nat.mul Nat.add].
  destruct lam4_0 as [-> ->], lam4_1 as [-> ->].
  repeat match goal with |- context [lam4 0 ?x] => rewrite (lam4_zero 0 (Nat.lt_0_2) x) by lia end.
  repeat match goal with |- context [lam4 1 ?x] => rewrite (lam4_zero 1 (Nat.lt_1_2) x) by lia end.
  remember half as h eqn:Eh. generalize (lam4 k). intros G. match goal with |- re (_ * (?x - ?y)) = _ => replace (x - y) with (Ci * (h * h + h * h) * (G 0%nat - G 5%nat)) by ring end.
  rewrite Eh. unfold half. destruct (G 0%nat) as [a b], (G 5%nat) as [c d]. cunfold. field.
Qed.
Lemma diag_others k : (k < 15)%nat -> k <> 2%nat -> lam4 k 0%nat - lam4 k 5%nat = C0.
Proof.
  intros Hk H. assert (E : lam4 k 0%nat = lam4 k 5%nat) by (do 15 (destruct k as [|k]; [congruence || reflexivity|]); lia).
  rewrite E. ring.
Qed.
Definition x2 : R := (/ 2 * (1 - big))%R.
Lemma lam4_2' : lam4 2 0%nat - lam4 2 5%nat = RtoC x2.
Proof.
  destruct lam4_2 as [-> ->]. assert (E : sqrt (1 / (2 * INR 2 * INR 1)) = (/ 2)%R).
  { replace (1 / (2 * INR 2 * INR 1))%R with (/ 2 * / 2)%R by (cbn [INR]; field). apply sqrt_square. lra. }
  rewrite E. unfold x2. apply C_eq; cunfold; ring.
Qed.
Lemma big_val : big = IZR 18446744073709551615. Proof. unfold big. reflexivity. Qed.
Lemma code4 : ifabc_ABC 4 lam4 exA exB exD = Ci * RtoC (8 * x2 * x2).
Proof.
  unfold ifabc_ABC, ftable. rewrite contract_table. change (4 * 4 - 1)%nat with 15%nat. cbn [lie_data]. unfold lie_data_n.
  rewrite (csum_single 15 0); [|lia|]; cycle 1.
  { intros a Ha H0. rewrite (csum_ext 15 _ (fun _ => C0)); [apply csum_0|]. intros b _.
    rewrite (csum_ext 15 _ (fun _ => C0)); [apply csum_0|]. intros c _. rewrite tr_A.
    destruct (Nat.eq_dec a 1) as [->|H1]; [destruct lam4_1 as [-> ->]|destruct (lam4_off a Ha H0 H1) as [-> ->]]; ring. }
  rewrite (csum_single 15 1); [|lia|]; cycle 1.
  { intros b Hb H1. rewrite (csum_ext 15 _ (fun _ => C0)); [apply csum_0|]. intros c _. rewrite tr_B.
    destruct (Nat.eq_dec b 0) as [->|H0]; [destruct lam4_0 as [-> ->]|destruct (lam4_off b Hb H0 H1) as [-> ->]]; ring. }
  rewrite (csum_single 15 2); [|lia|]; cycle 1.
  { intros c Hc H2. rewrite (tr_D c), (diag_others c Hc H2). ring. }
  rewrite tr_A, tr_B, tr_D, f_01, lam4_2'. destruct lam4_0 as [-> ->], lam4_1 as [-> ->].
  assert (K : kept 4 (re (RtoC x2)) = x2).
  { change (re (RtoC x2)) with x2. unfold kept, gt_tol. destruct (Rlt_dec _ _) as [|n]; [reflexivity|]. exfalso. apply n.
    assert (Hx : (x2 < -1)%R) by (unfold x2; rewrite big_val; lra). rewrite Rabs_left by lra.
    unfold PREC_TOL. cbn [INR]. assert (Hp : (10 <= 10 ^ 14)%R) by (cbn [pow]; lra).
    apply Rlt_trans with 1%R; [|lra]. apply Rmult_lt_reg_r with (10 ^ 14)%R; [lra|].
    rewrite Rmult_assoc, Rinv_l by lra. lra. }
  rewrite K. unfold half. apply C_eq; cunfold; field.
Qed.
Lemma expected4 : RtoC 2 * (tr3 4 (mx 4 exA) (mx 4 exB) (mx 4 exD) - tr3 4 (mx 4 exB) (mx 4 exA) (mx 4 exD)) = Ci * RtoC 8.
Proof. unfold tr3, mtr, mmul, mx. cbn [csum Nat.mul Nat.add exA exB exD]. assert (E : Ci * Ci = - C1) by cring. assert (E8 : RtoC 8 = RtoC 2 * (C1 + C1 + C1 + C1)) by cring. rewrite E8. ring [E]. Qed.

(** * a set of generators that meets the hypotheses of the general statement: products of two Pauli matrices *)
Definition gi : Type := (Z * Z)%type.
Definition gadd (x y : gi) : gi := (fst x + fst y, snd x + snd y)%Z.
Definition gmul (x y : gi) : gi := (fst x * fst y - snd x * snd y, fst x * snd y + snd x * fst y)%Z.
Definition gc (x : gi) : C := (IZR (fst x), IZR (snd x)).
Fixpoint gsum (n : nat) (f : nat -> gi) : gi := match n with O => (0, 0)%Z | S m => gadd (gsum m f) (f m) end.
Definition gmmul (n : nat) (A B : nat -> nat -> gi) (i j : nat) : gi := gsum n (fun k => gmul (A i k) (B k j)).
Definition gtr3 (n : nat) (A B D : nat -> nat -> gi) : gi := gsum n (fun i => gmmul n A (gmmul n B D) i i).

Definition pauli (m : nat) (i j : nat) : gi :=
  match m, i, j with
  | 0, 0, 0 => (1, 0)%Z | 0, 1, 1 => (1, 0)%Z
  | 1, 0, 1 => (1, 0)%Z | 1, 1, 0 => (1, 0)%Z
  | 2, 0, 1 => (0, -1)%Z | 2, 1, 0 => (0, 1)%Z
  | 3, 0, 0 => (1, 0)%Z | 3, 1, 1 => (-1, 0)%Z
  | _, _, _ => (0, 0)%Z
  end.
Definition P2 (k i j : nat) : gi := gmul (pauli ((k + 1) / 4) (i / 2) (j / 2)) (pauli ((k + 1) mod 4) (i mod 2) (j mod 2)).
Definition cP : R := sqrt (/ 8).
Definition lamP (k : nat) : arr := fun x => RtoC cP * gc (P2 k (x / 4) (x mod 4)).

Lemma cP_sq : (cP * cP = / 8)%R. Proof. apply sqrt_sqrt. lra. Qed.
Lemma cP_lo : (/ 4 < cP)%R. Proof. unfold cP. replace (/ 4)%R with (sqrt (/ 4 * / 4)) by (apply sqrt_square; lra). apply sqrt_lt_1; lra. Qed.
Lemma mx_lamP k i j : (j < 4)%nat -> mx 4 (lamP k) i j = RtoC cP * gc (P2 k i j).
Proof.
  intros H. unfold mx, lamP. replace (j + 4 * i)%nat with (i * 4 + j)%nat by lia.
  rewrite Nat.div_add_l, Nat.div_small, Nat.add_0_r by lia. rewrite Nat.add_comm, Nat.mod_add, Nat.mod_small by lia. reflexivity.
Qed.
Lemma gc_add x y : gc (gadd x y) = gc x + gc y.
Proof. unfold gc, gadd. cbn [fst snd]. rewrite !plus_IZR. reflexivity. Qed.
Lemma gc_mul x y : gc (gmul x y) = gc x * gc y.
Proof. unfold gc, gmul. cbn [fst snd]. rewrite plus_IZR, minus_IZR, !mult_IZR. reflexivity. Qed.
Lemma gsum_c d f : forall n, csum n (fun i => d * gc (f i)) = d * gc (gsum n f).
Proof.
  induction n as [|n IH]; cbn [csum gsum].
  - replace (gc (0, 0)%Z) with C0 by reflexivity. ring.
  - rewrite IH, gc_add. ring.
Qed.
Lemma gmul_c n c d A B A' B' : (forall i j, (i < n)%nat -> (j < n)%nat -> A i j = c * gc (A' i j)) -> (forall i j, (i < n)%nat -> (j < n)%nat -> B i j = d * gc (B' i j)) ->
  forall i j, (i < n)%nat -> (j < n)%nat -> mmul n A B i j = (c * d) * gc (gmmul n A' B' i j).
Proof.
  intros HA HB i j Hi Hj. unfold mmul, gmmul. rewrite <- gsum_c. apply csum_ext. intros k Hk. rewrite HA, HB, gc_mul by assumption. ring.
Qed.
Lemma tr3_P i j k : tr3 4 (mx 4 (lamP i)) (mx 4 (lamP j)) (mx 4 (lamP k)) = RtoC (cP * cP * cP) * gc (gtr3 4 (P2 i) (P2 j) (P2 k)).
Proof.
  unfold tr3, mtr, gtr3. rewrite <- gsum_c. apply csum_ext. intros a Ha.
  assert (E : forall k, forall i j, (i < 4)%nat -> (j < 4)%nat -> mx 4 (lamP k) i j = RtoC cP * gc (P2 k i j)) by (intros; now apply mx_lamP).
  rewrite (gmul_c 4 (RtoC cP) (RtoC cP * RtoC cP) _ _ (P2 i) (gmmul 4 (P2 j) (P2 k)) (E i)) by (try assumption; intros; now apply (gmul_c 4 _ _ _ _ (P2 j) (P2 k) (E j) (E k))).
  assert (E3 : RtoC (cP * cP * cP) = RtoC cP * (RtoC cP * RtoC cP)) by (apply C_eq; cunfold; ring). now rewrite E3.
Qed.
Lemma small_int (m : Z) : gt_tol 4 (2 * (cP * cP * cP) * IZR m) = false -> (2 * (cP * cP * cP) * IZR m = 0)%R.
Proof.
  intros H. destruct (Z.eq_dec m 0) as [->|Hm]; [ring|]. exfalso. revert H. unfold gt_tol. destruct (Rlt_dec _ _) as [|n]; [discriminate|]. intros _. apply n.
  rewrite cP_sq. rewrite !Rabs_mult. pose proof cP_lo as Hc. rewrite (Rabs_pos_eq 2), (Rabs_pos_eq (/ 8)), (Rabs_pos_eq cP) by lra.
  assert (H1 : (1 <= Rabs (IZR m))%R) by (rewrite <- abs_IZR; apply IZR_le; lia).
  apply Rlt_le_trans with (/ 16)%R.
  - unfold PREC_TOL. cbn [INR]. assert (Hp : (1000 <= 10 ^ 14)%R) by (cbn [pow]; lra).
    apply Rmult_lt_reg_r with (10 ^ 14)%R; [lra|]. rewrite Rmult_assoc, Rinv_l by lra. lra.
  - nra.
Qed.
Lemma P_ftol i : gt_tol 4 (f_of 4 lamP i) = false -> f_of 4 lamP i = 0%R.
Proof.
  destruct i as [[i j] k]. unfold f_of, compute_f_and_d. cbn [fst]. rewrite !trace_abc_tr3, !tr3_P.
  assert (E : forall d x y, re (RtoC (-2) * Ci * (RtoC d * gc x - RtoC d * gc y)) = (2 * d * IZR (snd x - snd y))%R)
    by (intros; rewrite minus_IZR; unfold gc; cunfold; cbn [fst snd]; ring).
  rewrite E. apply small_int.
Qed.
Lemma P_dtol i : gt_tol 4 (d_of 4 lamP i) = false -> d_of 4 lamP i = 0%R.
Proof.
  destruct i as [[i j] k]. unfold d_of, compute_f_and_d. cbn [snd]. rewrite !trace_abc_tr3, !tr3_P.
  assert (E : forall d x y, re (RtoC 2 * (RtoC d * gc x + RtoC d * gc y)) = (2 * d * IZR (fst x + fst y))%R)
    by (intros; rewrite plus_IZR; unfold gc; cunfold; cbn [fst snd]; ring).
  rewrite E. apply small_int.
Qed.
Definition geqb (x y : gi) : bool := (fst x =? fst y)%Z && (snd x =? snd y)%Z.
Definition all4 (p : nat -> nat -> bool) : bool := forallb (fun i => forallb (p i) (seq 0 4)) (seq 0 4).
Lemma all4_use p : all4 p = true -> forall i j, (i < 4)%nat -> (j < 4)%nat -> p i j = true.
Proof.
  unfold all4. intros H i j Hi Hj. rewrite forallb_forall in H. specialize (H i). rewrite forallb_forall in H. apply H; apply in_seq; lia.
Qed.
Lemma geqb_eq x y : geqb x y = true -> x = y.
Proof. destruct x as [a b], y as [c d]. unfold geqb. cbn [fst snd]. intros H. apply andb_prop in H. destruct H as [H1 H2]. apply Z.eqb_eq in H1, H2. now subst. Qed.
Lemma P_herm k : (k < 15)%nat -> hermitian 4 (mx 4 (lamP k)).
Proof.
  intros Hk. assert (Hc : forallb (fun k => all4 (fun i j => geqb (P2 k i j) (fst (P2 k j i), - snd (P2 k j i))%Z)) (seq 0 15) = true) by (vm_compute; reflexivity).
  rewrite forallb_forall in Hc. specialize (Hc k). rewrite in_seq in Hc. specialize (Hc ltac:(lia)).
  intros i j Hi Hj. unfold dag. rewrite !mx_lamP by assumption. pose proof (geqb_eq _ _ (all4_use _ Hc i j Hi Hj)) as E. rewrite E.
  apply C_eq; unfold gc; cunfold; cbn [fst snd]; rewrite ?opp_IZR; ring.
Qed.

Definition dl (a b : nat) : Z := if Nat.eqb a b then 1%Z else 0%Z.
Lemma dl_mid a b : RtoC (IZR (dl a b)) = mid a b.
Proof. unfold dl, mid. destruct (Nat.eqb a b); reflexivity. Qed.
Lemma P_int i j a b : (i < 4)%nat -> (j < 4)%nat -> (a < 4)%nat -> (b < 4)%nat ->
  gsum 15 (fun k => gmul (P2 k b a) (P2 k i j)) = (4 * (dl a i * dl b j) - dl a b * dl i j, 0)%Z.
Proof.
  intros Hi Hj Ha Hb.
  assert (Hc : all4 (fun i j => all4 (fun a b => geqb (gsum 15 (fun k => gmul (P2 k b a) (P2 k i j))) (4 * (dl a i * dl b j) - dl a b * dl i j, 0)%Z)) = true)
    by (vm_compute; reflexivity).
  apply geqb_eq. exact (all4_use _ (all4_use _ Hc i j Hi Hj) a b Ha Hb).
Qed.
Lemma P_complete A : traceless 4 A ->
  meq 4 A (lincomb 15 (fun k => RtoC 2 * mtr 4 (mmul 4 A (mx 4 (lamP k)))) (fun k => mx 4 (lamP k))).
Proof.
  intros HA i j Hi Hj. unfold lincomb.
  assert (E : csum 15 (fun k => RtoC 2 * mtr 4 (mmul 4 A (mx 4 (lamP k))) * mx 4 (lamP k) i j) =
    csum 4 (fun a => csum 4 (fun b => RtoC (/ 4) * A a b * gc (gsum 15 (fun k => gmul (P2 k b a) (P2 k i j)))))).
  { transitivity (csum 15 (fun k => csum 4 (fun a => csum 4 (fun b => RtoC (/ 4) * A a b * gc (gmul (P2 k b a) (P2 k i j)))))).
    - apply csum_ext. intros k _. rewrite mx_lamP by assumption. unfold mtr, mmul. rewrite <- csum_mul_l, <- csum_mul_r. apply csum_ext. intros a Ha.
      rewrite <- csum_mul_l, <- csum_mul_r. apply csum_ext. intros b Hb. rewrite mx_lamP, gc_mul by assumption.
      assert (E4 : RtoC (/ 4) = RtoC 2 * (RtoC cP * RtoC cP)) by (apply C_eq; cunfold; [pose proof cP_sq; lra|ring]). rewrite E4. ring.
    - rewrite csum_swap. apply csum_ext. intros a _. rewrite csum_swap. apply csum_ext. intros b _. rewrite <- gsum_c. reflexivity. }
  rewrite E.
  transitivity (csum 4 (fun a => mid i a * csum 4 (fun b => mid j b * A a b)) - RtoC (/ 4) * mid i j * csum 4 (fun a => csum 4 (fun b => mid a b * A a b))).
  - rewrite csum_delta_l, csum_delta_l by assumption. rewrite (csum_ext 4 (fun a => csum 4 (fun b => mid a b * A a b)) (fun a => A a a)).
    + unfold traceless, mtr in HA. rewrite HA. ring.
    + intros a Ha. now rewrite csum_delta_l.
  - rewrite <- csum_mul_l, <- csum_sub. apply csum_ext. intros a Ha. rewrite <- !csum_mul_l, <- csum_sub. apply csum_ext. intros b Hb.
    rewrite P_int by assumption. rewrite <- !dl_mid. assert (S : forall x y, dl x y = dl y x) by (intros; unfold dl; now rewrite Nat.eqb_sym).
    rewrite (S a i), (S b j). destruct (A a b) as [x y]. apply C_eq; unfold gc; cunfold; cbn [fst snd]; rewrite minus_IZR, !mult_IZR; field.
Qed.
Lemma P_general A B D : traceless 4 (mx 4 A) -> traceless 4 (mx 4 B) -> traceless 4 (mx 4 D) ->
  ifabc_dabc_ABC 4 lamP A B D = RtoC 4 * tr3 4 (mx 4 A) (mx 4 B) (mx 4 D).
Proof.
  intros HA HB HD. rewrite sum_split.
  rewrite (general_f 4 lamP ltac:(lia) P_herm P_complete (fun i _ => P_ftol i) (fun i _ => P_dtol i) A B D HA HB HD).
  rewrite (general_d 4 lamP ltac:(lia) P_herm P_complete (fun i _ => P_ftol i) (fun i _ => P_dtol i) A B D HA HB HD).
  assert (E : RtoC 4 = RtoC 2 + RtoC 2) by cring. rewrite E. ring.
Qed.
