(** The U(1) observables. *)
From Coq Require Import Permutation Psatz.
From Verif Require Import CInt GeomModel GeomSpec GeomProofs GeomProofs2 Cplx CMat Arr MatModel FftModel FftProofs QtopModel QtopSpec QtopProofs QtopProofs2 QtopProofs4.
From Verif Require Import SmearModel StaticModel StaticProofs GluonModel GluonSpec GluonProofs GluonProofs2 GluonProofs3 GluonProofs4 InstProofs InstProofs2 CfgProofs SmearProofs U1Model U1Spec.
Local Open Scope Z_scope.

(** * Steps *)
Section Steps.
Variable ds : list Z.
Hypothesis Hok : lattice_ok ds.
Lemma st_pos : Forall (fun L => 0 < L) ds. Proof. apply ok_pos, Hok. Qed.
Local Notation pos := st_pos.
Lemma ahead_digits x mu : digits ds (Z.of_nat (ahead ds x mu)) = translate ds (digits ds (Z.of_nat x)) (unit_sep ds mu 1).
Proof.
  unfold ahead. rewrite coords_digits by exact pos.
  assert (B : in_box ds (translate ds (digits ds (Z.of_nat x)) (unit_sep ds mu 1))) by (apply translate_box; [exact pos|apply digits_in_box, pos|apply unit_sep_length]).
  rewrite index_of_horner by (now apply in_box_length). pose proof (horner_bound _ _ B). rewrite Z2Nat.id by lia. now apply digits_horner.
Qed.
Lemma ahead_lt x mu : (ahead ds x mu < nsites ds)%nat.
Proof.
  unfold ahead, nsites. rewrite coords_digits by exact pos.
  assert (B : in_box ds (translate ds (digits ds (Z.of_nat x)) (unit_sep ds mu 1))) by (apply translate_box; [exact pos|apply digits_in_box, pos|apply unit_sep_length]).
  rewrite index_of_horner by (now apply in_box_length). pose proof (horner_bound _ _ B). lia.
Qed.
Lemma digits_same x y : (x < nsites ds)%nat -> (y < nsites ds)%nat -> digits ds (Z.of_nat x) = digits ds (Z.of_nat y) -> x = y.
Proof. intros Hx Hy E. apply (f_equal (horner ds)) in E. unfold nsites in *. rewrite !horner_digits in E by (exact pos || lia). lia. Qed.
Lemma ahead_comm x mu nu : ahead ds (ahead ds x mu) nu = ahead ds (ahead ds x nu) mu.
Proof.
  apply digits_same; try apply ahead_lt. rewrite !ahead_digits. assert (B : in_box ds (digits ds (Z.of_nat x))) by apply digits_in_box, pos.
  rewrite !translate_add by (exact pos || assumption || apply unit_sep_length). f_equal. unfold unit_sep. generalize (seq 0 (length ds)). intro l. induction l as [|k l IH]; [reflexivity|]. cbn [map combine fst snd]. rewrite IH. f_equal. lia.
Qed.
Lemma next_ok i mu : (i < nsites ds)%nat -> (mu < length ds)%nat -> next_site ds i mu = Some (ahead ds i mu).
Proof.
  intros Hi Hm. unfold next_site. assert (B : in_box ds (digits ds (Z.of_nat i))) by apply digits_in_box, pos.
  destruct (neighbor_step ds (Z.of_nat i) mu (digits ds (Z.of_nat i)) Hok Hm B) as (j & y & E & Hj & Hy & Ey & St).
  { rewrite index_of_horner by apply digits_length. unfold nsites in Hi. apply horner_digits; [exact pos|lia]. }
  rewrite E. cbn [bindo]. replace (j <? lvolume ds) with true by lia. f_equal. unfold ahead. rewrite coords_digits by exact pos. rewrite <- Ey. f_equal. f_equal.
  eapply stepped_unique; [exact St|]. now apply translate_unit_stepped.
Qed.
End Steps.

(** * Sums *)
Lemma mfor_sum2 (l : list nat) (f : nat -> option (R * R)) (a b : nat -> R) : (forall i, In i l -> f i = Some (a i, b i)) -> forall s p,
  mfor l (fun i '(s, p) => do ' (x, y) <- f i; Some (s + x, p + y)%R) (s, p) = Some (s + sum_over a l, p + sum_over b l)%R.
Proof.
  induction l as [|i l IH]; intros H s p; cbn [mfor]; [unfold sum_over; cbn; f_equal; f_equal; ring|]. rewrite H by now left. cbn [bindo]. rewrite IH by (intros; apply H; now right).
  unfold sum_over. cbn [fold_right]. f_equal. f_equal; ring.
Qed.
Lemma mfor_sum1 (l : list nat) (f : nat -> option R) (a : nat -> R) : (forall i, In i l -> f i = Some (a i)) -> forall s,
  mfor l (fun i s => do x <- f i; Some (s + x)%R) s = Some (s + sum_over a l)%R.
Proof.
  induction l as [|i l IH]; intros H s; cbn [mfor]; [unfold sum_over; cbn; f_equal; ring|]. rewrite H by now left. cbn [bindo]. rewrite IH by (intros; apply H; now right).
  unfold sum_over. cbn [fold_right]. f_equal. ring.
Qed.
Lemma msum_ok ND (F : nat -> nat -> R * R -> option (R * R)) g h : (forall mu nu s p, (nu < mu)%nat -> (mu < ND)%nat -> F mu nu (s, p) = Some (s + g mu nu, p + h mu nu)%R) ->
  msum_pairs ND F (0%R, 0%R) = Some (pairs ND g, pairs ND h).
Proof.
  intro H. unfold msum_pairs.
  assert (In1 : forall mu, (mu < ND)%nat -> forall n, (n <= mu)%nat -> forall s p, mfor (seq 0 n) (fun nu => F mu nu) (s, p) = Some (s + dsum n (g mu), p + dsum n (h mu))%R).
  { intros mu Hm. induction n as [|n IH]; intros Hn s p; [cbn [seq mfor]; rewrite !dsum_0; f_equal; f_equal; ring|]. rewrite seq_S, (mfor_app (seq 0 n)), IH by lia. cbn [bindo mfor Nat.add]. rewrite H by lia. cbn [bindo]. rewrite !dsum_S. f_equal. f_equal; ring. }
  destruct ND as [|m]; [reflexivity|]. replace (S m - 1)%nat with m by lia. unfold pairs.
  assert (K : forall n, (n <= m)%nat -> mfor (seq 1 n) (fun mu => mfor (seq 0 mu) (fun nu => F mu nu)) (0%R, 0%R) = Some (dsum (S n) (fun mu => dsum mu (fun nu => g mu nu)), dsum (S n) (fun mu => dsum mu (fun nu => h mu nu)))).
  { induction n as [|n IH]; intro Hn; [cbn [seq mfor]; rewrite !dsum_S, !dsum_0; f_equal; f_equal; ring|]. rewrite seq_S, (mfor_app (seq 1 n)), IH by lia. cbn [bindo mfor]. rewrite In1 by lia. cbn [bindo]. rewrite !(dsum_S (S n)). replace (1 + n)%nat with (S n) by lia. reflexivity. }
  apply K. lia.
Qed.
Lemma pairs_ext n f g : (forall mu nu, (nu < mu)%nat -> (mu < n)%nat -> f mu nu = g mu nu) -> pairs n f = pairs n g.
Proof. intro H. unfold pairs. apply dsum_ext. intros mu Hm. apply dsum_ext. intros nu Hn. now apply H. Qed.
Lemma pairs_add n f g : pairs n (fun mu nu => f mu nu + g mu nu)%R = (pairs n f + pairs n g)%R.
Proof. unfold pairs. rewrite <- dsum_add. apply dsum_ext. intros mu _. apply dsum_add. Qed.
Lemma average_ext ds f g : (forall x mu nu, (x < nsites ds)%nat -> (nu < mu)%nat -> (mu < length ds)%nat -> f x mu nu = g x mu nu) -> average ds f = average ds g.
Proof. intro H. unfold average. f_equal. apply dsum_ext. intros x Hx. apply pairs_ext. intros. now apply H. Qed.

(** * Plaquettes and rectangles *)
Section Obs.
Variable ds : list Z.
Hypothesis Hok : lattice_ok ds.
Hypothesis H2 : (2 <= length ds)%nat.
Hypothesis Hn : prodZ ds * Z.of_nat (length ds) * (Z.of_nat (length ds) - 1) < two64.
Variable sched : schedule.
Hypothesis Any : any_order sched.
Variable O : nat -> arr.
Local Notation A := (fun mu x => re (O mu x)).
Lemma norm_ok : IZR (u1_norm ds) = (INR (nsites ds) * INR (length ds) * (INR (length ds) - 1))%R.
Proof.
  pose proof (ok_volume ds Hok) as Hv. unfold u1_norm. rewrite lvolume_prod by assumption.
  assert (B : prodZ ds * Z.of_nat (length ds) <= prodZ ds * Z.of_nat (length ds) * (Z.of_nat (length ds) - 1)) by nia.
  rewrite (u64_id (prodZ ds * _)) by nia. rewrite u64_id by nia. rewrite !mult_IZR, minus_IZR, <- INR_IZR_INZ. unfold nsites. rewrite (INR_IZR_INZ (Z.to_nat _)), Z2Nat.id by lia. reflexivity.
Qed.
Lemma norm_pos : (0 < INR (nsites ds) * INR (length ds) * (INR (length ds) - 1))%R.
Proof.
  pose proof (prodZ_pos ds (st_pos ds Hok)). assert (0 < INR (nsites ds))%R by (apply lt_0_INR; unfold nsites; lia). assert (2 <= INR (length ds))%R by (change 2%R with (INR 2); now apply le_INR).
  apply Rmult_lt_0_compat; [apply Rmult_lt_0_compat|]; lra.
Qed.
Lemma all_sites key : (forall i, In i (sched key (nsites ds)) -> (i < nsites ds)%nat) /\ forall a, sum_over a (sched key (nsites ds)) = dsum (nsites ds) a.
Proof. destruct (perm_order _ _ (Any key (nsites ds))) as [_ I]. split; [intros; now apply I|]. intro a. rewrite <- sum_dsum. apply sum_over_perm, Any. Qed.
Theorem plaquette_ok : non_plaquette sched ds O = Some (average ds (fun x mu nu => cos (face ds A x mu nu)), average ds (fun x mu nu => face ds A x mu nu * face ds A x mu nu)%R).
Proof.
  unfold non_plaquette. rewrite lvolume_prod by assumption. fold (nsites ds). destruct (all_sites [3]) as [I Sm].
  rewrite (mfor_sum2 _ _ (fun x => pairs (length ds) (fun mu nu => cos (face ds A x mu nu))) (fun x => pairs (length ds) (fun mu nu => face ds A x mu nu * face ds A x mu nu)%R)).
  - cbn [bindo]. rewrite !Sm, norm_ok. pose proof norm_pos. unfold average. f_equal. f_equal; field; repeat split; intro Z0; rewrite Z0 in *; lra.
  - intros i Hi. apply I in Hi. unfold plaq_site. apply msum_ok. intros mu nu s p Hnu Hmu. rewrite !(next_ok ds Hok) by (assumption || lia). reflexivity.
Qed.
Theorem rectangle_ok : U1_rectangle sched ds O = Some
  ((average ds (fun x mu nu => cos (long_face ds A x mu nu)) + average ds (fun x mu nu => cos (tall_face ds A x mu nu))) / 2,
   (average ds (fun x mu nu => long_face ds A x mu nu * long_face ds A x mu nu) + average ds (fun x mu nu => tall_face ds A x mu nu * tall_face ds A x mu nu)) / 2)%R.
Proof.
  unfold U1_rectangle. rewrite lvolume_prod by assumption. fold (nsites ds). destruct (all_sites [4]) as [I Sm].
  rewrite (mfor_sum2 _ _ (fun x => pairs (length ds) (fun mu nu => cos (long_face ds A x mu nu) + cos (tall_face ds A x mu nu))%R)
    (fun x => pairs (length ds) (fun mu nu => long_face ds A x mu nu * long_face ds A x mu nu + tall_face ds A x mu nu * tall_face ds A x mu nu)%R)).
  - cbn [bindo]. rewrite !Sm, norm_ok. pose proof norm_pos. unfold average.
    rewrite (dsum_ext _ _ (fun x => pairs (length ds) (fun mu nu => cos (long_face ds A x mu nu)) + pairs (length ds) (fun mu nu => cos (tall_face ds A x mu nu)))%R) by (intros; apply pairs_add). rewrite dsum_add.
    rewrite (dsum_ext _ (fun x => pairs (length ds) (fun mu nu => long_face ds A x mu nu * long_face ds A x mu nu + tall_face ds A x mu nu * tall_face ds A x mu nu)%R)
      (fun x => pairs (length ds) (fun mu nu => long_face ds A x mu nu * long_face ds A x mu nu) + pairs (length ds) (fun mu nu => tall_face ds A x mu nu * tall_face ds A x mu nu))%R) by (intros; apply pairs_add). rewrite dsum_add.
    f_equal. f_equal; field; repeat split; intro Z0; rewrite Z0 in *; lra.
  - intros i Hi. apply I in Hi. unfold rect_site. apply msum_ok. intros mu nu s p Hnu Hmu. rewrite !(next_ok ds Hok) by (try assumption; try apply (ahead_lt ds Hok); lia). cbn [bindo].
    rewrite !(next_ok ds Hok) by (try assumption; try apply (ahead_lt ds Hok); lia). cbn [bindo]. unfold long_face, tall_face, face. rewrite (ahead_comm ds Hok i nu mu).
    f_equal. f_equal; rewrite Rplus_assoc; do 2 f_equal; (f_equal; ring) || ring.
Qed.
End Obs.

(** * The charge and the counts *)
Section Top.
Variable ds : list Z.
Hypothesis Hok : lattice_ok ds.
Variable sched : schedule.
Hypothesis Any : any_order sched.
Variable O : nat -> arr.
Local Notation A := (fun mu x => re (O mu x)).
Lemma nface_ok i mu nu : (i < nsites ds)%nat -> (mu < length ds)%nat -> (nu < length ds)%nat -> noncompact_face ds O i mu nu = Some (face ds A i mu nu).
Proof. intros Hi Hm Hn. unfold noncompact_face. rewrite !(next_ok ds Hok) by assumption. cbn [bindo]. f_equal. Qed.
Theorem charge_ok : length ds = 4%nat -> non_Qtop sched ds O = Some (dsum (nsites ds) (naive_charge ds A) * (1583143494411527678811 / 1000000000000000000000000))%R.
Proof.
  intro H4. unfold non_Qtop. rewrite lvolume_prod by assumption. fold (nsites ds). destruct (all_sites ds sched Any [8]) as [I Sm].
  rewrite (mfor_sum1 _ _ (naive_charge ds A)); [cbn [bindo]; rewrite Sm; f_equal; ring|]. intros i Hi. apply I in Hi. unfold charge_at. rewrite !nface_ok by (assumption || lia). cbn [bindo]. unfold naive_charge. f_equal. unfold face. ring.
Qed.
End Top.
