(** The momenta of the U(1) fields. *)
From Coq Require Import Permutation Psatz.
From Verif Require Import CInt GeomModel GeomSpec GeomProofs GeomProofs2 Cplx CMat Arr MatModel FftModel FftProofs QtopModel QtopSpec QtopProofs QtopProofs2.
From Verif Require Import SmearModel StaticModel StaticProofs GluonModel GluonSpec GluonProofs GluonProofs2 GluonProofs3 GluonProofs4 InstProofs2 CfgProofs U1Model U1Spec.
Local Open Scope Z_scope.

(** * Mirror sites *)
Lemma negmod c L : 0 < c < L -> (- c) mod L = L - c.
Proof. intro. symmetry. apply (Z.mod_unique_pos _ _ (-1)); lia. Qed.
Definition mdig (ds x : list Z) : list Z := translate ds (zero_sep ds) (neg_sep x).
Lemma mdig_cons L ds c x : mdig (L :: ds) (c :: x) = (- c) mod L :: mdig ds x.
Proof. reflexivity. Qed.
Lemma mdig_box ds x : Forall (fun L => 0 < L) ds -> length x = length ds -> in_box ds (mdig ds x).
Proof.
  intro pos. revert x. induction pos as [|L ds HL pos IH]; intros [|c x] Hl; try discriminate; [constructor|]. rewrite mdig_cons. constructor; [apply Z.mod_pos_bound; lia|apply IH; cbn in Hl; lia].
Qed.
Lemma mdig_invol ds x : in_box ds x -> mdig ds (mdig ds x) = x.
Proof.
  induction 1 as [|L c ds x Hc H IH]; [reflexivity|]. rewrite !mdig_cons, IH. f_equal.
  destruct (Z.eq_dec c 0) as [->|N]; [reflexivity|]. rewrite (negmod c L), negmod by lia. lia.
Qed.
Section Mirror.
Variable ds : list Z.
Hypothesis pos : Forall (fun L => 0 < L) ds.
Lemma mirror_digits x : digits ds (Z.of_nat (mirror ds x)) = mdig ds (digits ds (Z.of_nat x)).
Proof.
  unfold mirror. rewrite coords_digits by assumption. fold (mdig ds (digits ds (Z.of_nat x))).
  assert (B : in_box ds (mdig ds (digits ds (Z.of_nat x)))) by (apply mdig_box; [assumption|apply digits_length]).
  rewrite index_of_horner by (now apply in_box_length). pose proof (horner_bound _ _ B). rewrite Z2Nat.id by lia. now apply digits_horner.
Qed.
Lemma mirror_lt x : (mirror ds x < nsites ds)%nat.
Proof.
  unfold mirror, nsites. rewrite coords_digits by assumption. fold (mdig ds (digits ds (Z.of_nat x))).
  assert (B : in_box ds (mdig ds (digits ds (Z.of_nat x)))) by (apply mdig_box; [assumption|apply digits_length]).
  rewrite index_of_horner by (now apply in_box_length). pose proof (horner_bound _ _ B). lia.
Qed.
Lemma horner_nat x : (x < nsites ds)%nat -> horner ds (digits ds (Z.of_nat x)) = Z.of_nat x.
Proof. intro H. apply horner_digits; [assumption|]. unfold nsites in H. lia. Qed.
Lemma mirror_invol x : (x < nsites ds)%nat -> mirror ds (mirror ds x) = x.
Proof.
  intro H. apply Nat2Z.inj. rewrite <- (horner_nat (mirror ds (mirror ds x))) by apply mirror_lt. rewrite !mirror_digits. rewrite mdig_invol by (now apply digits_in_box). now apply horner_nat.
Qed.
Lemma mirror_horner x : Z.of_nat (mirror ds x) = horner ds (mdig ds (digits ds (Z.of_nat x))).
Proof. rewrite <- (horner_nat (mirror ds x)) by apply mirror_lt. now rewrite mirror_digits. Qed.
End Mirror.

(** conjugate_site on even extents *)
Lemma conjugate_temp ds x : in_box ds x -> Forall (fun L => 0 < L < two31) ds -> Forall (fun L => Z.even L = true) ds -> forall mu DIMS, (mu + length ds <= DIMS)%nat ->
  site_2piBZ_temp ds (map Z.opp (map (fun p => fst p - Z.shiftr (snd p) 1) (combine x ds))) mu DIMS = mdig ds x.
Proof.
  induction 1 as [|L c ds x Hc H IH]; intros F E mu DIMS HD; [reflexivity|]. inversion F as [|? ? F0 F']; inversion E as [|? ? E0 E']; subst. cbn [length] in HD.
  rewrite mdig_cons. cbn [combine map fst snd site_2piBZ_temp]. f_equal; [|apply IH; [assumption|assumption|lia]].
  replace (mu =? DIMS)%nat with false by (symmetry; apply Nat.eqb_neq; lia). rewrite Z.shiftr_div_pow2 by lia. change (2 ^ 1) with 2. cbv zeta.
  destruct (half_bounds L F0) as (Hh & Hh'). rewrite (i32_id (L/2)) by (unfold two31 in *; lia). rewrite (i32_id L) by (unfold two31 in *; lia).
  assert (P : L = 2 * (L / 2)) by (rewrite (Z.div_mod L 2) at 1 by lia; rewrite Zmod_even, E0; lia). set (h := L / 2) in *. clearbody h. subst L.
  destruct (Z.geb_spec (- (c - h)) h).
  - replace c with 0 by lia. replace (- (0 - h) - 2 * h <? h) with true by lia. rewrite Z.mod_0_l by lia. lia.
  - replace (- (c - h) <? h) with true by lia. rewrite negmod by lia. lia.
Qed.
Section Even.
Variable ds : list Z.
Hypothesis Hok : lattice_ok ds.
Hypothesis Hev : Forall (fun L => Z.even L = true) ds.
Lemma even_pos : Forall (fun L => 0 < L) ds. Proof. apply ok_pos, Hok. Qed.
Local Notation pos := even_pos.
Lemma conjugate_ok i : (i < nsites ds)%nat -> conjugate_site ds (Z.of_nat i) = Some (Z.of_nat (mirror ds i)).
Proof.
  intro Hi. destruct Hok as (Hne & Hd & Hp). pose proof (ok_volume ds Hok) as Hv. unfold conjugate_site, get_mom_pipi.
  rewrite (mom_pipi_digits ds 0 (Z.of_nat i) 1 (length ds) Hd ltac:(lia) ltac:(lia) ltac:(lia) ltac:(lia)). cbn [bindo]. rewrite Z.div_1_r. unfold get_site_2piBZ.
  rewrite (conjugate_temp ds _ (digits_in_box ds _ pos) Hd Hev) by lia.
  rewrite gen_site_horner; [|assumption|apply mdig_box; [exact pos|apply digits_length]|lia]. f_equal. symmetry. apply mirror_horner, pos.
Qed.
(** one of p, -p is not behind the site of half of the extents *)
Definition halves (l : list Z) : list Z := map (fun L => L / 2) l.
Lemma halves_first l x : Forall (fun L => 0 < L) l -> Forall (fun L => Z.even L = true) l -> in_box l x -> horner l x <= horner l (halves l) \/ horner l (mdig l x) <= horner l (halves l).
Proof.
  intros P E B. induction B as [|L c l x Hc B IH]; [left; cbn; lia|]. inversion P as [|? ? P0 P']; inversion E as [|? ? E0 E']; subst. specialize (IH P' E').
  rewrite mdig_cons. cbn [halves map horner]. fold (halves l).
  assert (PL : L = 2 * (L / 2)) by (rewrite (Z.div_mod L 2) at 1 by lia; rewrite Zmod_even, E0; lia).
  assert (HB : in_box l (halves l)). { clear -P' E'. induction l as [|M l IH]; [constructor|]. inversion P'; inversion E'; subst. constructor; [|now apply IH]. assert (0 <= M / 2) by (apply Z.div_pos; lia). assert (M / 2 < M) by (apply Z.div_lt; lia). lia. }
  assert (HM : mdig l (halves l) = halves l).
  { clear -P' E'. induction l as [|M l IH]; [reflexivity|]. inversion P'; inversion E' as [|? ? E0 E1]; subst. cbn [halves map]. fold (halves l). rewrite mdig_cons, IH by assumption. f_equal.
    assert (PL : M = 2 * (M / 2)) by (rewrite (Z.div_mod M 2) at 1 by lia; rewrite Zmod_even, E0; lia). set (h := M / 2) in *. clearbody h. subst M. rewrite negmod by lia. lia. }
  assert (MB : in_box l (mdig l x)) by (apply mdig_box; [assumption|now apply in_box_length]).
  assert (Mc : 0 <= (- c) mod L < L) by (apply Z.mod_pos_bound; lia).
  destruct (Z.lt_trichotomy (horner l x) (horner l (halves l))) as [Lt|[Eq|Gt]].
  - left. nia.
  - apply horner_inj in Eq; try assumption. subst x. rewrite HM. destruct (Z.le_gt_cases c (L / 2)); [left; nia|right].
    rewrite negmod by lia. nia.
  - destruct IH as [IH|IH]; [lia|]. destruct (Z.eq_dec (horner l (mdig l x)) (horner l (halves l))) as [Eq|N].
    + apply horner_inj in Eq; try assumption. assert (x = halves l) by (rewrite <- (mdig_invol l x B), Eq; exact HM). subst x. lia.
    + right. nia.
Qed.
End Even.
(** compute_zeropoint in four dimensions *)
Lemma zeropoint4 d0 d1 d2 d3 : lattice_ok [d0; d1; d2; d3] -> Forall (fun L => Z.even L = true) [d0; d1; d2; d3] -> compute_zeropoint [d0; d1; d2; d3] = horner [d0; d1; d2; d3] (halves [d0; d1; d2; d3]).
Proof.
  intros (_ & F & P) E. cbn [removelast] in P. unfold prodZ in P. cbn [fold_right] in P. repeat match goal with H : Forall _ (_ :: _) |- _ => inversion H; clear H; subst end.
  assert (Hf : forall d, Z.even d = true -> d = 2 * (d / 2)) by (intros d H; rewrite (Z.div_mod d 2) at 1 by lia; rewrite Zmod_even, H; lia).
  pose proof (Hf d0 ltac:(assumption)) as E0. pose proof (Hf d1 ltac:(assumption)) as E1. pose proof (Hf d2 ltac:(assumption)) as E2. pose proof (Hf d3 ltac:(assumption)) as E3.
  unfold compute_zeropoint. cbn [halves map horner].
  assert (M : forall d x B, 0 < d -> 0 < x <= B -> 0 < d * x <= d * B) by (intros d x B Hd Hx; split; [apply Z.mul_pos_pos; lia|apply Z.mul_le_mono_nonneg_l; lia]).
  assert (G3 : 0 < 1 + d3 <= 2 * d3) by lia. pose proof (M d2 _ _ ltac:(lia) G3) as G2. pose proof (M d2 1 d3 ltac:(lia) ltac:(lia)) as Q2.
  assert (G2' : 0 < 1 + d2 * (1 + d3) <= 3 * (d2 * d3)) by lia. pose proof (M d1 _ _ ltac:(lia) G2') as G1. pose proof (M d1 1 (d2 * d3) ltac:(lia) ltac:(lia)) as Q1.
  assert (G1' : 0 < 1 + d1 * (1 + d2 * (1 + d3)) <= 4 * (d1 * (d2 * d3))) by lia. pose proof (M d0 _ _ ltac:(lia) G1') as G0. pose proof (M d0 1 (d1 * (d2 * d3)) ltac:(lia) ltac:(lia)) as Q0.
  assert (V62 : d0 * (d1 * (d2 * d3)) <= (two31 - 1) * (two31 - 1)).
  { replace (d0 * (d1 * (d2 * d3))) with (d0 * (d1 * (d2 * 1)) * d3) by ring. apply Z.mul_le_mono_nonneg; lia. }
  assert (K : 4 * ((two31 - 1) * (two31 - 1)) < two64) by reflexivity.
  pose proof (M d0 _ _ ltac:(lia) Q1) as R1. pose proof (M d1 _ _ ltac:(lia) Q2) as R2.
  assert (S1 : d1 * (d2 * d3) <= d0 * (d1 * (d2 * d3))) by (rewrite <- (Z.mul_1_l (d1 * (d2 * d3))) at 1; apply Z.mul_le_mono_nonneg_r; lia).
  assert (S2 : d2 * d3 <= d1 * (d2 * d3)) by (rewrite <- (Z.mul_1_l (d2 * d3)) at 1; apply Z.mul_le_mono_nonneg_r; lia).
  assert (S3 : d3 <= d2 * d3) by (rewrite <- (Z.mul_1_l d3) at 1; apply Z.mul_le_mono_nonneg_r; lia).
  rewrite (u64_id (1 + d3)) by lia. rewrite (u64_id (d2 * (1 + d3))) by lia. rewrite (u64_id (1 + d2 * (1 + d3))) by lia.
  rewrite (u64_id (d1 * (1 + d2 * (1 + d3)))) by lia. rewrite (u64_id (1 + _)) by lia. rewrite u64_id by lia.
  clear - E0 E1 E2 E3.
  rewrite Z.shiftr_div_pow2 by lia. change (2 ^ 1) with 2.
  replace (d0 * (1 + d1 * (1 + d2 * (1 + d3)))) with ((d0 / 2 + d0 * (d1 / 2 + d1 * (d2 / 2 + d2 * (d3 / 2)))) * 2); [rewrite Z.div_mul by lia; ring|].
  rewrite E0 at 3. rewrite E1 at 3. rewrite E2 at 2. set (h0 := d0 / 2) in *. set (h1 := d1 / 2) in *. set (h2 := d2 / 2) in *. set (h3 := d3 / 2) in *. clearbody h0 h1 h2 h3. subst. ring.
Qed.
