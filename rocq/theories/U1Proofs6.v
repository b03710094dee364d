(** Windings of the U(1) fields: sheets and monopoles. *)
From Coq Require Import Permutation Psatz.
From Verif Require Import CInt GeomModel GeomSpec GeomProofs GeomProofs2 Cplx CMat Arr MatModel QtopModel QtopSpec QtopProofs QtopProofs2.
From Verif Require Import SmearModel StaticProofs GluonSpec GluonProofs2 GluonProofs3 SmearProofs U1Model U1Spec U1Proofs5.
Local Open Scope Z_scope.

(** * Conversions to int *)
Lemma Int_part_unique r z : (r - 1 < IZR z <= r)%R -> z = Int_part r.
Proof.
  intro H. destruct (base_Int_part r) as [H1 H2]. assert (IZR z < IZR (Int_part r) + 1)%R by lra. assert (IZR (Int_part r) < IZR z + 1)%R by lra.
  rewrite <- plus_IZR in *. assert (z < Int_part r + 1) by now apply lt_IZR. assert (Int_part r < z + 1) by now apply lt_IZR. lia.
Qed.
Lemma trunc_spec x : (Rabs (IZR (trunc x)) <= Rabs x < Rabs (IZR (trunc x)) + 1)%R /\ (0 <= IZR (trunc x) * x)%R.
Proof.
  assert (K : forall y, (0 <= y)%R -> (IZR (Int_part y) <= y < IZR (Int_part y) + 1)%R /\ (0 <= IZR (Int_part y))%R).
  { intros y Hy. destruct (base_Int_part y) as [H1 H2]. split; [lra|]. apply IZR_le. assert (-1 < Int_part y) by (apply lt_IZR; lra). lia. }
  unfold trunc. destruct (Rle_dec 0 x) as [H|H].
  - destruct (K x H) as [[K1 K2] K3]. rewrite !Rabs_right by lra. split; [lra|]. apply Rmult_le_pos; lra.
  - destruct (K (- x)%R ltac:(lra)) as [[K1 K2] K3]. rewrite opp_IZR. rewrite (Rabs_left1 x), (Rabs_left1 (- _)) by lra. split; [lra|]. nra.
Qed.
Lemma trunc_small x : (Rabs x < 1)%R -> trunc x = 0.
Proof.
  intro H. destruct (trunc_spec x) as [[H1 _] _]. assert (Hl : (Rabs (IZR (trunc x)) < 1)%R) by lra. rewrite <- abs_IZR in Hl. apply lt_IZR in Hl. lia.
Qed.
Lemma trunc_opp x : trunc (- x) = - trunc x.
Proof.
  unfold trunc. destruct (Rle_dec 0 x) as [H|H], (Rle_dec 0 (- x)) as [H'|H'].
  - assert (x = 0%R) by lra. subst x. rewrite Ropp_0. assert (E : Int_part 0 = 0); [|now rewrite E]. symmetry. apply Int_part_unique. cbn. lra.
  - now rewrite Ropp_involutive.
  - lia.
  - lra.
Qed.
Lemma trunc_IZR z : trunc (IZR z) = z.
Proof.
  unfold trunc. destruct (Rle_dec 0 (IZR z)).
  - symmetry. apply Int_part_unique. lra.
  - rewrite <- opp_IZR. assert (E : - z = Int_part (IZR (- z))) by (apply Int_part_unique; lra). rewrite <- E. lia.
Qed.
Lemma TWOPI_pos : (6 < TWOPI < 7)%R. Proof. unfold TWOPI. lra. Qed.
Definition winding (theta : R) : Z := trunc (IZR (trunc theta) / TWOPI).
Lemma mod_ok theta : (Rabs theta < IZR two31)%R -> mod_2pi theta = Some (winding theta).
Proof. intro H. unfold mod_2pi. destruct (Rlt_dec _ _); [reflexivity|contradiction]. Qed.
Lemma Rabs_div x y : (0 < y)%R -> Rabs (x / y) = (Rabs x / y)%R.
Proof. intro H. unfold Rdiv. rewrite Rabs_mult, (Rabs_right (/ y)); [reflexivity|]. left. now apply Rinv_0_lt_compat. Qed.
(** counted turns: not more than the turns made, and less than 1 + 1 / (2 pi) of them are missed *)
Lemma winding_bounds theta : (Rabs (IZR (winding theta)) <= Rabs theta / TWOPI < Rabs (IZR (winding theta)) + 1 + 1 / TWOPI)%R.
Proof.
  pose proof TWOPI_pos as P. destruct (trunc_spec theta) as [[T1 T2] _]. destruct (trunc_spec (IZR (trunc theta) / TWOPI)) as [[W1 W2] _]. fold (winding theta) in *. rewrite Rabs_div in W1, W2 by lra.
  assert (I : (0 < / TWOPI)%R) by (apply Rinv_0_lt_compat; lra). unfold Rdiv in *. split.
  - eapply Rle_trans; [exact W1|]. apply Rmult_le_compat_r; lra.
  - apply (Rlt_le_trans _ ((Rabs (IZR (trunc theta)) + 1) * / TWOPI)); [now apply Rmult_lt_compat_r|]. rewrite Rmult_plus_distr_r. lra.
Qed.
Lemma winding_small theta : (Rabs theta < TWOPI)%R -> winding theta = 0.
Proof.
  intro H. pose proof TWOPI_pos. destruct (winding_bounds theta) as [W _]. assert (Q : (Rabs theta / TWOPI < 1)%R) by (apply (Rmult_lt_reg_r TWOPI); [lra|]; unfold Rdiv; rewrite Rmult_assoc, Rinv_l; lra).
  assert (Hl : (Rabs (IZR (winding theta)) < 1)%R) by lra. rewrite <- abs_IZR in Hl. apply lt_IZR in Hl. lia.
Qed.
Lemma winding_opp theta : winding (- theta) = - winding theta.
Proof. unfold winding. rewrite trunc_opp, opp_IZR. replace (- IZR (trunc theta) / TWOPI)%R with (- (IZR (trunc theta) / TWOPI))%R by (unfold Rdiv; ring). apply trunc_opp. Qed.

(** * Counting *)
Lemma mfor_zsum (l : list nat) (f : nat -> option Z) (a : nat -> Z) : (forall i, In i l -> f i = Some (a i)) -> forall s, mfor l (fun i s => do x <- f i; Some (s + x)) s = Some (s + zsum l a).
Proof.
  induction l as [|i l IH]; intros H s; cbn [mfor]; [unfold zsum; cbn; f_equal; ring|]. rewrite H by now left. cbn [bindo]. rewrite IH by (intros; apply H; now right). unfold zsum. cbn [fold_right]. f_equal. ring.
Qed.
Lemma mfor_zadd (l : list nat) (f : nat -> Z -> option Z) (a : nat -> Z) : (forall i s, In i l -> f i s = Some (s + a i)) -> forall s, mfor l f s = Some (s + zsum l a).
Proof.
  induction l as [|i l IH]; intros H s; cbn [mfor]; [unfold zsum; cbn; f_equal; ring|]. rewrite H by now left. rewrite IH by (intros; apply H; now right). unfold zsum. cbn [fold_right]. f_equal. ring.
Qed.
Lemma zsum_perm l l' f : Permutation l l' -> zsum l f = zsum l' f.
Proof. induction 1; unfold zsum in *; cbn [fold_right]; lia. Qed.
Lemma zsum_ext l f g : (forall i, In i l -> f i = g i) -> zsum l f = zsum l g.
Proof. induction l as [|i l IH]; intro H; [reflexivity|]. unfold zsum in *. cbn [fold_right]. rewrite IH, H by (intros; try apply H; cbn; auto). reflexivity. Qed.
Lemma zsum_0 l : zsum l (fun _ => 0) = 0. Proof. induction l; unfold zsum in *; cbn [fold_right]; lia. Qed.
Section Counts.
Variable ds : list Z.
Hypothesis Hok : lattice_ok ds.
Variable sched : schedule.
Hypothesis Any : any_order sched.
Variable S : nat -> nat -> nat -> option Z.
Variable n : nat -> nat -> nat -> Z.
Hypothesis HS : forall x mu nu, (x < nsites ds)%nat -> (mu < length ds)%nat -> (nu < length ds)%nat -> S x mu nu = Some (n x mu nu).
Lemma sheet_ok : dirac_sheet sched ds S = Some (sheet_area ds n).
Proof.
  unfold dirac_sheet. rewrite lvolume_prod by assumption. fold (nsites ds). destruct (perm_order _ _ (Any [6] (nsites ds))) as [_ I].
  rewrite (mfor_zsum _ _ (fun x => zsum (seq 0 (length ds)) (fun mu => zsum (seq 0 mu) (fun nu => Z.abs (n x mu nu))))).
  - cbn. f_equal. apply zsum_perm, Any.
  - intros x Hx. apply I in Hx.
    assert (K : forall l s, (forall mu, In mu l -> (mu < length ds)%nat) -> mfor l (fun mu => mfor (seq 0 mu) (fun nu loc => do temp <- S x mu nu; Some (loc + Z.abs temp))) s = Some (s + zsum l (fun mu => zsum (seq 0 mu) (fun nu => Z.abs (n x mu nu))))).
    { induction l as [|mu l IH]; intros s Hl; cbn [mfor]; [unfold zsum; cbn; f_equal; ring|].
      assert (E : mfor (seq 0 mu) (fun nu loc => do temp <- S x mu nu; Some (loc + Z.abs temp)) s = Some (s + zsum (seq 0 mu) (fun nu => Z.abs (n x mu nu)))).
      { assert (Q : forall l s, (forall nu, In nu l -> (nu < mu)%nat) -> mfor l (fun nu loc => do temp <- S x mu nu; Some (loc + Z.abs temp)) s = Some (s + zsum l (fun nu => Z.abs (n x mu nu)))).
        { induction l0 as [|nu l0 IHq]; intros s0 Hq; cbn [mfor]; [unfold zsum; cbn; f_equal; ring|]. assert (nu < mu)%nat by (apply Hq; now left). assert (mu < length ds)%nat by (apply Hl; now left). rewrite HS by (assumption || lia). cbn [bindo]. rewrite IHq by (intros; apply Hq; now right). unfold zsum. cbn [fold_right]. f_equal. ring. }
        apply Q. intros nu Hnu. apply in_seq in Hnu. lia. }
      rewrite E. rewrite IH by (intros; apply Hl; now right). unfold zsum. cbn [fold_right]. f_equal. ring. }
    rewrite K by (intros mu Hmu; apply in_seq in Hmu; lia). f_equal.
Qed.
Lemma current_ok (M : nat -> nat -> option Z) (m : nat -> nat -> Z) : (forall mu x, (mu < length ds)%nat -> (x < nsites ds)%nat -> M mu x = Some (m mu x)) ->
  current sched ds M = Some (zsum (seq 0 (length ds)) (fun mu => zsum (seq 0 (nsites ds)) (fun x => Z.abs (m mu x)))).
Proof.
  intro HM. unfold current. destruct (perm_order _ _ (Any [7] (length ds))) as [_ I].
  rewrite (mfor_zsum _ _ (fun mu => zsum (seq 0 (nsites ds)) (fun x => Z.abs (m mu x)))).
  - cbn. f_equal. apply zsum_perm, Any.
  - intros mu Hmu. apply I in Hmu. rewrite lvolume_prod by assumption. fold (nsites ds).
    assert (Q : forall l s, (forall x, In x l -> (x < nsites ds)%nat) -> mfor l (fun x loc => do v <- M mu x; Some (loc + Z.abs v)) s = Some (s + zsum l (fun x => Z.abs (m mu x)))).
    { induction l as [|x l IH]; intros s Hl; cbn [mfor]; [unfold zsum; cbn; f_equal; ring|]. rewrite HM by (assumption || (apply Hl; now left)). cbn [bindo]. rewrite IH by (intros; apply Hl; now right). unfold zsum. cbn [fold_right]. f_equal. ring. }
    rewrite Q; [reflexivity|]. intros x Hx. apply in_seq in Hx. lia.
Qed.
(** what [dirac] writes in four dimensions *)
Definition code_flux (mu x : nat) : Z :=
  zsum (seq 0 4) (fun nu => if Nat.eqb nu mu then 0 else zsum (seq 0 4) (fun rho => zsum (seq 0 rho) (fun sigma =>
    if (Nat.eqb sigma mu || Nat.eqb rho mu || Nat.eqb sigma nu || Nat.eqb rho nu)%bool then 0 else (if Nat.eqb (nu mod 2) 1 then 1 else -1) * (n (ahead ds x nu) rho sigma - n x rho sigma)))).
Lemma dirac_ok mu x : length ds = 4%nat -> (mu < 4)%nat -> (x < nsites ds)%nat -> dirac_at ds S mu x = Some (code_flux mu x).
Proof.
  intros H4 Hm Hx. unfold dirac_at. rewrite H4.
  assert (T : forall nu rho sigma, (nu < 4)%nat -> (rho < 4)%nat -> (sigma < 4)%nat -> forall M, (do temp <- next_site ds x nu; do s1 <- S temp rho sigma; do s0 <- S x rho sigma; Some (M + (if Nat.eqb (nu mod 2) 1 then 1 else -1) * (s1 - s0))) = Some (M + (if Nat.eqb (nu mod 2) 1 then 1 else -1) * (n (ahead ds x nu) rho sigma - n x rho sigma))).
  { intros nu rho sigma Hn Hr Hs M. rewrite (next_ok ds Hok) by (assumption || lia). cbn [bindo]. rewrite !HS by (try assumption; try apply (ahead_lt ds Hok); lia). reflexivity. }
  unfold code_flux. rewrite (mfor_zadd _ _ (fun nu => if Nat.eqb nu mu then 0 else zsum (seq 0 4) (fun rho => zsum (seq 0 rho) (fun sigma =>
    if (Nat.eqb sigma mu || Nat.eqb rho mu || Nat.eqb sigma nu || Nat.eqb rho nu)%bool then 0 else (if Nat.eqb (nu mod 2) 1 then 1 else -1) * (n (ahead ds x nu) rho sigma - n x rho sigma))))); [reflexivity|].
  intros nu s Hnu. apply in_seq in Hnu. destruct (Nat.eqb nu mu); [f_equal; ring|]. apply mfor_zadd. intros rho s1 Hr. apply in_seq in Hr. apply mfor_zadd. intros sigma s2 Hs. apply in_seq in Hs.
  destruct (_ || _)%bool; [f_equal; ring|]. apply T; lia.
Qed.
Lemma flux_0 x : (forall y a b, n y a b = - n y b a) -> code_flux 0 x = - cube_flux ds n x 1 2 3.
Proof. intro An. unfold code_flux, zsum, cube_flux. cbn [seq Nat.eqb orb fold_right]. change (1 mod 2)%nat with 1%nat. change (2 mod 2)%nat with 0%nat. change (3 mod 2)%nat with 1%nat. cbn [Nat.eqb]. rewrite (An _ 3%nat 2%nat), (An _ 3%nat 1%nat), (An _ 2%nat 1%nat), (An x 3%nat 2%nat), (An x 3%nat 1%nat), (An x 2%nat 1%nat). ring. Qed.
Lemma flux_3 x : (forall y a b, n y a b = - n y b a) -> code_flux 3 x = cube_flux ds n x 0 1 2.
Proof. intro An. unfold code_flux, zsum, cube_flux. cbn [seq Nat.eqb orb fold_right]. change (1 mod 2)%nat with 1%nat. change (2 mod 2)%nat with 0%nat. change (0 mod 2)%nat with 0%nat. cbn [Nat.eqb]. rewrite (An _ 2%nat 1%nat), (An _ 2%nat 0%nat), (An _ 1%nat 0%nat), (An x 2%nat 1%nat), (An x 2%nat 0%nat), (An x 1%nat 0%nat). ring. Qed.
End Counts.
