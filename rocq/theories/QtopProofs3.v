(** Qmoments.c: slices and moments. *)
From Coq Require Import Permutation Setoid.
From Verif Require Import CInt GeomModel GeomSpec GeomProofs GeomProofs2 Cplx CMat Arr FftModel FftProofs QtopModel QtopSpec QtopProofs QtopProofs2.
Local Open Scope Z_scope.

Lemma slab_slice ds dir t : lattice_ok ds -> (dir < length ds)%nat -> 0 <= t < nth dir ds 1 -> slab ds dir t 1 = slice ds dir t.
Proof.
  intros Hok Hd Ht. unfold slab, slice. apply filter_ext_in. intros i _.
  assert (P : 0 < nth dir ds 1) by lia. unfold coord. pose proof (Z.mod_pos_bound (Z.of_nat i / prodZ (firstn dir ds)) _ P) as B.
  set (c := _ mod _) in *. set (L := nth dir ds 1) in *. clearbody c L.
  destruct (Z.eqb_spec c t) as [->|N].
  - rewrite Z.sub_diag, Z.mod_0_l by lia. reflexivity.
  - apply Z.ltb_ge. destruct (Z_lt_le_dec c t).
    + rewrite <- (Z.mod_add (c - t) 1) by lia. rewrite Z.mod_small; lia.
    + rewrite Z.mod_small; lia.
Qed.
Lemma loc_idx_ok ds dir t i : lattice_ok ds -> (dir < length ds)%nat -> 0 <= t < nth dir ds 1 ->
  loc_idx ds (put ds dir 1) dir t (Z.of_nat i) = Some (Z.of_nat (slab_site ds dir t 1 i)).
Proof.
  intros Hok Hd Ht. assert (T : 1 <= 1 <= nth dir ds 1) by lia.
  pose proof (lattice_ok_put ds dir 1 Hok Hd T) as SdOk. assert (SdPos : Forall (fun L => 0 < L) (put ds dir 1)) by (destruct SdOk as (_ & H & _); now apply ok_pos).
  unfold loc_idx. fold (get_mom_2piBZ (put ds dir 1) (Z.of_nat i) (length ds)).
  rewrite get_mom_digits; [|exact SdOk|rewrite put_length; lia|lia]. cbn [bindo]. unfold slab_site.
  set (x := digits (put ds dir 1) (Z.of_nat i)). assert (Hx : in_box (put ds dir 1) x) by (now apply digits_in_box).
  pose proof (in_box_nth' _ x dir Hx) as Hn. rewrite put_length, nth_put in Hn by assumption. specialize (Hn Hd).
  pose proof (in_box_length _ _ Hx) as Hl. rewrite put_length in Hl.
  rewrite set_nth_put by lia. cbn [bindo].
  assert (E : put x dir t = bump ds dir t x). { unfold bump. replace (nth dir x 0) with 0 by lia. rewrite Z.add_0_l, Z.mod_small by lia. reflexivity. }
  rewrite E. pose proof (bump_box ds dir t 1 Hok Hd x Hx) as B. pose proof (horner_bound _ _ B). pose proof (ok_volume ds Hok).
  destruct Hok as (Hne & _). rewrite gen_site_horner; [|exact Hne|exact B|lia]. f_equal. lia.
Qed.
Lemma slice_sums_ok sched ds q p norm dir Qt : lattice_ok ds -> density ds q p -> (dir < length ds)%nat -> any_order sched ->
  exists Q, slice_sums sched ds q norm dir Qt = Some Q /\
    forall t, 0 <= t < nth dir ds 1 -> Q (Z.to_nat t) = RtoC (norm * sum_over p (slice ds dir t)).
Proof.
  intros Hok Hq Hd Any. unfold slice_sums. rewrite (nth_error_nth' ds 1) by assumption. cbn [bindo]. rewrite slab_dims_0.
  set (L := nth dir ds 1).
  assert (LP : 0 < L). { destruct Hok as (_ & H & _). rewrite Forall_forall in H. apply H. now apply nth_In. }
  assert (T : 1 <= 1 <= L) by lia. pose proof (lattice_ok_put ds dir 1 Hok Hd T) as SdOk.
  rewrite lvolume_nsites by assumption. rewrite nsites_size.
  destruct (fill_range (sched [] (Z.to_nat L)) (Z.to_nat L) (fun t => do s <- for_ (fft_size (put ds dir 1)) (fun i s =>
      do s <- s; do k <- loc_idx ds (put ds dir 1) dir (Z.of_nat t) (Z.of_nat i); do v <- rd ds q k; Some (s + v)%C) (Some C0);
    Some (s * RtoC norm)%C) (fun t => RtoC (norm * sum_over p (slice ds dir (Z.of_nat t)))) (Any _ _)) with (a := Qt) as (Q & E & F & _).
  - intros t Hti. assert (Ht : 0 <= Z.of_nat t < L) by lia.
    rewrite (for_addC _ _ (fun i => RtoC (p (slab_site ds dir (Z.of_nat t) 1 i)))).
    + cbn [bindo]. f_equal. rewrite csum_real. rewrite (slab_total ds dir (Z.of_nat t) 1 Hok Hd T), slab_slice by assumption.
      rewrite RtoC_mul. ring.
    + intros i s Hi. cbn [bindo]. rewrite loc_idx_ok by assumption. cbn [bindo].
      assert (B : (slab_site ds dir (Z.of_nat t) 1 i < nsites ds)%nat) by now apply slab_site_lt. rewrite rd_ok by assumption. cbn [bindo]. now rewrite Hq.
  - exists Q. split; [exact E|]. intros t Ht. rewrite F by lia. now rewrite Z2Nat.id by lia.
Qed.

(** * The loop over the times *)
Lemma sum_times_app f a b : sum_times f (a ++ b) = (sum_times f a + sum_times f b)%R.
Proof. induction a as [|x a IH]; cbn [app]; [cbn; ring|]. change (sum_times f (x :: a ++ b)) with (f x + sum_times f (a ++ b))%R.
  rewrite IH. change (sum_times f (x :: a)) with (f x + sum_times f a)%R. ring. Qed.
Definition place (L t : Z) : Z := Z.rem (t + L) L.
Section Powers.
Variables (L : Z) (Qt : arr).
Lemma moment_fold n : forall l s tpow, (forall t u, In t l -> In u l -> place L t = place L u -> t = u) -> NoDup l ->
  (forall t, In t l -> tpow (place L t) = t ^ n) ->
  (forall t, In t l -> int_ok (t ^ n * t) = true) ->
  exists tpow', fold_left (moment_step L Qt) l (Some (s, tpow)) = Some ((s + sum_times (fun t => IZR (t ^ n) * re (Qt (Z.to_nat (place L t)))) l)%R, tpow') /\
    (forall t, In t l -> tpow' (place L t) = t ^ n * t) /\ (forall k, (forall t, In t l -> k <> place L t) -> tpow' k = tpow k).
Proof.
  induction l as [|t l IH]; intros s tpow Inj ND Hp Ho.
  - exists tpow. cbn. rewrite Rplus_0_r. repeat split; [intros t []].
  - cbn [fold_left moment_step bindo]. fold (place L t). rewrite (Hp t) by apply in_eq. rewrite (Ho t) by apply in_eq.
    inversion_clear ND as [|? ? NI ND'].
    match goal with |- context [fold_left _ l (Some (?a, ?b))] => destruct (IH a b) as (tp & E & F & G) end.
    + intros; apply Inj; auto using in_cons.
    + assumption.
    + intros u Hu. replace (place L u =? place L t) with false; [apply Hp; now right|]. symmetry. apply Z.eqb_neq. intro K.
      apply Inj in K; auto using in_eq, in_cons. now subst.
    + intros; apply Ho; now right.
    + exists tp. split; [|split].
      * rewrite E. do 2 f_equal. change (sum_times ?f (t :: l)) with (f t + sum_times f l)%R. cbv beta. ring.
      * intros u [<-|Hu]; [|now apply F].
        rewrite G; [now rewrite Z.eqb_refl|]. intros v Hv K. apply Inj in K; auto using in_eq, in_cons. now subst.
      * intros k Hk. rewrite G by (intros v Hv; apply Hk; now right).
        replace (k =? place L t) with false; [reflexivity|]. symmetry. apply Z.eqb_neq. apply Hk, in_eq.
Qed.
Lemma fold_none l : fold_left (moment_step L Qt) l None = None.
Proof. induction l; [reflexivity|]. cbn. assumption. Qed.
Lemma moment_fold_none n t0 : forall l s tpow, (forall t u, In t l -> In u l -> place L t = place L u -> t = u) -> NoDup l ->
  (forall t, In t l -> tpow (place L t) = t ^ n) -> In t0 l -> int_ok (t0 ^ n * t0) = false ->
  fold_left (moment_step L Qt) l (Some (s, tpow)) = None.
Proof.
  induction l as [|t l IH]; intros s tpow Inj ND Hp Hi Ho; [destruct Hi|].
  cbn [fold_left moment_step bindo]. fold (place L t). rewrite (Hp t) by apply in_eq.
  destruct (int_ok (t ^ n * t)) eqn:Q; [|apply fold_none].
  destruct Hi as [->|Hi]; [congruence|]. inversion_clear ND as [|? ? NI ND'].
  apply IH; try assumption.
  - intros; apply Inj; auto using in_cons.
  - intros u Hu. replace (place L u =? place L t) with false; [apply Hp; now right|]. symmetry. apply Z.eqb_neq. intro K.
    apply Inj in K; auto using in_eq, in_cons. now subst.
Qed.
End Powers.

Lemma times_same L : 0 < L -> moment_times L = near_times L.
Proof.
  intro HL. unfold moment_times, near_times. rewrite Z.quot_opp_l by lia. rewrite Z.quot_div_nonneg by lia.
  replace (Z.to_nat (L / 2 - (- (L / 2) + 1))) with (Z.to_nat (2 * (L / 2) - 1)) by (f_equal; lia).
  apply map_ext. intro k. lia.
Qed.
Lemma near_in L t : In t (near_times L) <-> - (L / 2) < t < L / 2.
Proof.
  unfold near_times. rewrite in_map_iff. split.
  - intros (k & <- & Hk). apply in_seq in Hk. lia.
  - intro H. exists (Z.to_nat (t + L / 2 - 1)). split; [lia|apply in_seq; lia].
Qed.
Lemma near_nodup L : NoDup (near_times L).
Proof. apply FinFun.Injective_map_NoDup; [intros a b; lia|apply seq_NoDup]. Qed.
Lemma place_mod L t : 0 < L -> In t (near_times L) -> place L t = t mod L.
Proof.
  intros HL H. apply near_in in H. assert (0 <= t + L) by (pose proof (Z.div_mod L 2 ltac:(lia)); pose proof (Z.mod_pos_bound L 2 ltac:(lia)); lia).
  unfold place. rewrite Z.rem_mod_nonneg by lia. replace (t + L) with (t + 1 * L) by ring. apply Z.mod_add. lia.
Qed.
Lemma place_inj L : 0 < L -> forall t u, In t (near_times L) -> In u (near_times L) -> place L t = place L u -> t = u.
Proof.
  intros HL t u Ht Hu. rewrite !place_mod by assumption. apply near_in in Ht. apply near_in in Hu. intro E.
  pose proof (Z.div_mod L 2 ltac:(lia)). pose proof (Z.mod_pos_bound L 2 ltac:(lia)).
  assert (K : (t - u) mod L = 0) by (rewrite Zminus_mod, E, Z.sub_diag; apply Z.mod_0_l; lia).
  apply Z.mod_divide in K; [|lia]. destruct K as [k K]. assert (k = 0) by nia. lia.
Qed.

Lemma sign_land n : (if Z.land (Z.of_nat n) 3 <? 2 then true else false) = Nat.ltb (n mod 4) 2.
Proof.
  change 3 with (Z.ones 2). rewrite Z.land_ones by lia. change (2 ^ 2) with 4.
  pose proof (Nat2Z.inj_mod n 4) as E. change (Z.of_nat 4) with 4 in E. rewrite <- E.
  destruct (Nat.ltb_spec (n mod 4) 2), (Z.ltb_spec (Z.of_nat (n mod 4)) 2); lia || reflexivity.
Qed.
Lemma small_power t m : Z.abs t <= 5 -> 0 <= m <= 11 -> int_ok (t ^ m * t) = true.
Proof.
  intros Ht Hm. replace (t ^ m * t) with (t ^ (m + 1)) by (rewrite Z.pow_add_r, Z.pow_1_r by lia; ring).
  assert (B : Z.abs (t ^ (m + 1)) <= 5 ^ 12).
  { rewrite Z.abs_pow. transitivity (5 ^ (m + 1)); [apply Z.pow_le_mono_l; lia|apply Z.pow_le_mono_r; lia]. }
  change (5 ^ 12) with 244140625 in B. unfold int_ok, two31. lia.
Qed.
Definition moment_value (Q : arr) (L : Z) (n : nat) : R := sum_times (fun t => IZR (t ^ Z.of_nat n) * re (Q (Z.to_nat (t mod L))))%R (near_times L).
Lemma moment_loop_ok L Q : 0 < L < 14 -> forall fs n tpow, (n + length fs <= 12)%nat ->
  (forall t, In t (near_times L) -> tpow (place L t) = t ^ Z.of_nat n) ->
  moment_loop L Q fs (Z.of_nat n) tpow =
  Some (map (fun k => unit_sign (n + k) * (moment_value Q L (n + k) / IZR (nth k fs 1%Z)))%R (seq 0 (length fs))).
Proof.
  intros HL fs. induction fs as [|f fs IH]; intros n tpow Hn Hp; [reflexivity|]. cbn [moment_loop]. rewrite times_same by lia. cbn [length] in Hn.
  destruct (moment_fold L Q (Z.of_nat n) (near_times L) 0%R tpow (place_inj L ltac:(lia)) (near_nodup L) Hp) as (tp & -> & F & _).
  { intros t Ht. apply near_in in Ht. apply small_power; [|lia]. pose proof (Z.div_mod L 2 ltac:(lia)). pose proof (Z.mod_pos_bound L 2 ltac:(lia)). lia. }
  cbn [bindo]. replace (Z.of_nat n + 1) with (Z.of_nat (S n)) by lia. rewrite IH; [|lia|].
  - cbn [bindo length seq map]. f_equal. f_equal.
    + rewrite Nat.add_0_r. cbn [nth].
      assert (E : (0 + sum_times (fun t => IZR (t ^ Z.of_nat n) * re (Q (Z.to_nat (place L t)))) (near_times L))%R = moment_value Q L n).
      { rewrite Rplus_0_l. unfold moment_value.
        assert (G : forall l, (forall t, In t l -> In t (near_times L)) ->
          sum_times (fun t => IZR (t ^ Z.of_nat n) * re (Q (Z.to_nat (place L t))))%R l = sum_times (fun t => IZR (t ^ Z.of_nat n) * re (Q (Z.to_nat (t mod L))))%R l).
        { induction l as [|t l IHl]; intro Hl; [reflexivity|]. change (sum_times ?f (t :: l)) with (f t + sum_times f l)%R.
          rewrite IHl by (intros; apply Hl; now right). rewrite place_mod; [reflexivity|lia|apply Hl, in_eq]. }
        apply G. auto. }
      rewrite E. pose proof (sign_land n) as S. unfold unit_sign. destruct (Z.land (Z.of_nat n) 3 <? 2); rewrite <- S; ring.
    + rewrite <- seq_shift, map_map. apply map_ext. intro k. cbn [nth]. now rewrite Nat.add_succ_r.
  - intros t Ht. rewrite F by assumption. rewrite Nat2Z.inj_succ. replace (Z.succ (Z.of_nat n)) with (Z.of_nat n + 1) by lia.
    rewrite Z.pow_add_r, Z.pow_1_r by lia. reflexivity.
Qed.
Lemma moment_loop_overflow L Q : 14 <= L -> forall fs n tpow, (n <= 11)%nat -> (12 <= n + length fs)%nat ->
  (forall t, In t (near_times L) -> tpow (place L t) = t ^ Z.of_nat n) -> moment_loop L Q fs (Z.of_nat n) tpow = None.
Proof.
  intros HL fs. induction fs as [|f fs IH]; intros n tpow Hn Hl Hp; [cbn in Hl; lia|]. cbn [moment_loop]. rewrite times_same by lia.
  destruct (forallb (fun t => int_ok (t ^ Z.of_nat n * t)) (near_times L)) eqn:A.
  - rewrite forallb_forall in A.
    destruct (moment_fold L Q (Z.of_nat n) (near_times L) 0%R tpow (place_inj L ltac:(lia)) (near_nodup L) Hp A) as (tp & -> & F & _).
    cbn [bindo]. replace (Z.of_nat n + 1) with (Z.of_nat (S n)) by lia.
    assert (I6 : In 6 (near_times L)) by (apply near_in; assert (14 / 2 <= L / 2) by (apply Z.div_le_mono; lia); change (14 / 2) with 7 in *; lia).
    destruct (Nat.eq_dec n 11) as [->|N].
    + specialize (A 6 I6). discriminate A.
    + rewrite IH; [reflexivity|lia|cbn [length] in Hl; lia|]. intros t Ht. rewrite F by assumption. rewrite Nat2Z.inj_succ.
      replace (Z.succ (Z.of_nat n)) with (Z.of_nat n + 1) by lia. rewrite Z.pow_add_r, Z.pow_1_r by lia. reflexivity.
  - assert (Ex : exists t, In t (near_times L) /\ int_ok (t ^ Z.of_nat n * t) = false).
    { clear - A. induction (near_times L) as [|t l IH]; [discriminate|]. cbn [forallb] in A. apply Bool.andb_false_iff in A as [A|A].
      - exists t. split; [apply in_eq|assumption].
      - destruct (IH A) as (u & Hu & E). exists u. split; [now right|assumption]. }
    destruct Ex as (t0 & H0 & E0).
    now rewrite (moment_fold_none L Q (Z.of_nat n) t0 (near_times L) 0%R tpow (place_inj L ltac:(lia)) (near_nodup L) Hp H0 E0).
Qed.

Theorem Time_Moments_ok sched ds q p norm dir Qt : lattice_ok ds -> density ds q p -> (dir < length ds)%nat -> any_order sched ->
  nth dir ds 1 < 14 ->
  Time_Moments sched ds q norm dir Qt = Some (map (fun n => unit_sign n *
    (sum_times (fun t => IZR (t ^ Z.of_nat n) * (norm * sum_over p (slice ds dir (t mod nth dir ds 1%Z)%Z))) (near_times (nth dir ds 1%Z)) / IZR (nth n fac 1%Z)))%R (seq 0 NQMOMENTS)).
Proof.
  intros Hok Hq Hd Any HL. assert (LP : 0 < nth dir ds 1). { destruct Hok as (_ & H & _). rewrite Forall_forall in H. apply H. now apply nth_In. }
  unfold Time_Moments. rewrite (nth_error_nth' ds 1) by assumption. cbn [bindo].
  destruct (slice_sums_ok sched ds q p norm dir Qt Hok Hq Hd Any) as (Q & -> & F). cbn [bindo].
  change 0 with (Z.of_nat 0) at 1. rewrite moment_loop_ok; [|lia|cbn; lia|intros; symmetry; apply Z.pow_0_r].
  f_equal. apply map_ext. intro n. cbn [Nat.add]. do 2 f_equal. unfold moment_value.
  induction (near_times (nth dir ds 1)) as [|t l IH]; [reflexivity|]. change (sum_times ?f (t :: l)) with (f t + sum_times f l)%R. rewrite IH. f_equal.
  rewrite F by (apply Z.mod_pos_bound; lia). reflexivity.
Qed.
Theorem Time_Moments_overflow sched ds q p norm dir Qt : lattice_ok ds -> density ds q p -> (dir < length ds)%nat -> any_order sched ->
  14 <= nth dir ds 1 -> Time_Moments sched ds q norm dir Qt = None.
Proof.
  intros Hok Hq Hd Any HL. unfold Time_Moments. rewrite (nth_error_nth' ds 1) by assumption. cbn [bindo].
  destruct (slice_sums_ok sched ds q p norm dir Qt Hok Hq Hd Any) as (Q & -> & F). cbn [bindo].
  change 0 with (Z.of_nat 0) at 1. apply moment_loop_overflow; [lia|lia|cbn; lia|intros; symmetry; apply Z.pow_0_r].
Qed.
