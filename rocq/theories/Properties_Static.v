(** C61: the correlators of static quarks. *)
From Coq Require Import Permutation Lra.
From Verif Require Import CInt GeomSpec Cplx CMat Det Arr MatSpec FftModel QtopModel QtopSpec QtopProofs QtopProofs2 QtopProofs4 FieldModel FieldProofs StaticModel StaticSpec StaticProofs StaticProofs2 StaticProofs3.
Local Open Scope Z_scope.

(** the sites fit the 64 bit index arithmetic for lines of up to K links *)
Definition fits_lines (sd : list Z) (L : Z) (K : nat) : Prop := Z.of_nat K * prodZ sd + prodZ sd * L <= two64.
Definition separations (sd : list Z) (idx : list nat) : Prop := forall i, In i idx -> (i < nsites sd)%nat.

(** * With FFTW *)
(** For t = 1 .. K-1 and every separation r of the list, two numbers are written: the average over the
    times, summed over the sites, of tr W(y+r) W(y)^dag and of tr W(y+r) (tr W(y))^*, where W(y) is the
    line of t links in the time direction.  Whatever was in memory, whatever the order of the threads. *)
Theorem C61_correlators : forall sd L NC lat idx sched mem poly0 result trtr K,
  lattice_ok (sd ++ [L]) -> separations sd idx -> (forall t, any_order (sched t)) -> fits_lines sd L K ->
  Coul_staticpot WithFFTW sched (sd ++ [L]) NC lat (map Z.of_nat idx) mem poly0 result trtr K =
    Some (map (fun t => (map (fun r => (RtoC (/ IZR L) * line_pairs NC lat sd L t r)%C) idx,
                         map (fun r => (RtoC (/ IZR L) * loop_pairs NC lat sd L t r)%C) idx)) (seq 1 (K - 1))).
Proof. intros sd L NC lat idx sched mem poly0 result trtr K Hok Hi Any F. apply (staticpot_ok sd L Hok NC lat idx sched WithFFTW mem Hi Any ltac:(discriminate) poly0 result trtr K F). Qed.
Print Assumptions C61_correlators.

(** * Without FFTW *)
(** the first number is the complex conjugate, and the second has no complex conjugation *)
Theorem C61_correlators_direct : forall sd L NC lat idx sched mem poly0 result trtr K,
  lattice_ok (sd ++ [L]) -> moderate sd -> separations sd idx -> (forall t, any_order (sched t)) -> fits_lines sd L K ->
  Coul_staticpot NoFFTW sched (sd ++ [L]) NC lat (map Z.of_nat idx) mem poly0 result trtr K =
    Some (map (fun t => (map (fun r => (RtoC (/ IZR L) * conj (line_pairs NC lat sd L t r))%C) idx,
                         map (fun r => (RtoC (/ IZR L) * same_pairs NC lat sd L t r)%C) idx)) (seq 1 (K - 1))).
Proof. intros sd L NC lat idx sched mem poly0 result trtr K Hok M Hi Any F. apply (staticpot_ok sd L Hok NC lat idx sched NoFFTW mem Hi Any (fun _ => M) poly0 result trtr K F). Qed.
Print Assumptions C61_correlators_direct.

(** "slow but equivalent", POLY.c:113-114: not for SU(3), where both numbers differ *)
Theorem C61_builds_agree_refuted : exists sd L lat idx sched mem poly0 result trtr K a b c d,
  lattice_ok (sd ++ [L]) /\ moderate sd /\ navig (sd ++ [L]) lat /\ group_field 3 2 (volume (sd ++ [L])) lat /\ separations sd idx /\ (forall t, any_order (sched t)) /\
  Coul_staticpot WithFFTW sched (sd ++ [L]) 3 lat (map Z.of_nat idx) mem poly0 result trtr K = Some [([a], [b])] /\
  Coul_staticpot NoFFTW sched (sd ++ [L]) 3 lat (map Z.of_nat idx) mem poly0 result trtr K = Some [([c], [d])] /\
  a <> c /\ b <> d.
Proof.
  assert (Hok : lattice_ok ([3] ++ [1])) by (split; [discriminate|split; [repeat constructor|reflexivity]]).
  assert (M : moderate [3]) by (repeat constructor; discriminate).
  assert (Si : separations [3] [1%nat]) by (intros i [<-|[]]; apply le_n_S; repeat constructor).
  assert (Any : forall t : nat, any_order ((fun _ _ n => seq 0 n) t)) by (intros t key n; apply Permutation_refl).
  assert (F : fits_lines [3] 1 2) by (unfold fits_lines, prodZ, two64; cbn; lia).
  set (c0 := fun _ : nat => C0). set (mem0 := fun _ : nat => {| m_in := c0; m_out := c0; m_sp := fun _ => c0 |}).
  destruct lat3_values as (V1 & V2 & V3). destruct w3_im as [I1 I2].
  exists [3], 1, lat3, [1%nat], (fun _ _ n => seq 0 n), mem0, (fun _ => c0), c0, c0, 2%nat.
  exists (RtoC (/ IZR 1) * (RtoC 9 * w3))%C, (RtoC (/ IZR 1) * (RtoC 27 * w3))%C, (RtoC (/ IZR 1) * conj (RtoC 9 * w3))%C, (RtoC (/ IZR 1) * C0)%C.
  split; [exact Hok|]. split; [exact M|]. split; [exact lat3_navig|]. split; [exact lat3_group|]. split; [exact Si|]. split; [exact Any|].
  split; [rewrite C61_correlators by assumption; cbn [map seq Nat.sub]; now rewrite V1, V2|].
  split; [rewrite C61_correlators_direct by assumption; cbn [map seq Nat.sub]; now rewrite V1, V3|].
  pose proof (sqrt_lt_R0 3 ltac:(lra)) as Q.
  split; intro H; apply (f_equal snd) in H; cbn in H; unfold Rdiv in H; rewrite ?Rinv_1 in H; lra.
Qed.
Print Assumptions C61_builds_agree_refuted.

(** for SU(2) the traces are real and both builds write the same *)
Theorem C61_builds_agree_partial : forall sd L lat idx sched sched' mem mem' p p' r r' q q' K,
  lattice_ok (sd ++ [L]) -> moderate sd -> separations sd idx -> (forall t, any_order (sched t)) -> (forall t, any_order (sched' t)) -> fits_lines sd L K ->
  group_field 2 (length (sd ++ [L])) (volume (sd ++ [L])) lat ->
  Coul_staticpot NoFFTW sched (sd ++ [L]) 2 lat (map Z.of_nat idx) mem p r q K = Coul_staticpot WithFFTW sched' (sd ++ [L]) 2 lat (map Z.of_nat idx) mem' p' r' q' K.
Proof.
  intros sd L lat idx sched sched' mem mem' p p' r r' q q' K Hok M Hi A A' F G. rewrite C61_correlators, C61_correlators_direct by assumption.
  f_equal. apply map_ext. intro t. f_equal; apply map_ext; intro k; destruct (two_colours sd L lat Hok G t k) as [E1 E2]; [now rewrite E1|now rewrite E2].
Qed.
Print Assumptions C61_builds_agree_partial.

(** * Gauge transformations *)
Definition firsts (o : option (list (list C * list C))) : option (list (list C)) := option_map (map fst) o.
Definition second_at (o : option (list (list C * list C))) (t : nat) : option (list C) := match o with Some l => option_map snd (nth_error l (t - 1)) | None => None end.
(** the first number does not change under transformations that are the same on each time slice *)
Theorem C61_slice_gauge : forall b sd L NC lat lat' g h idx sched sched' mem mem' p p' r r' q q' K,
  lattice_ok (sd ++ [L]) -> (b = NoFFTW -> moderate sd) -> separations sd idx -> (forall t, any_order (sched t)) -> (forall t, any_order (sched' t)) -> fits_lines sd L K ->
  navig (sd ++ [L]) lat -> gauged NC (length (sd ++ [L])) (volume (sd ++ [L])) g lat lat' ->
  (forall i, (i < volume (sd ++ [L]))%nat -> unitary NC (g i)) ->
  (forall y s, (y < nsites sd)%nat -> (s < Z.to_nat L)%nat -> g (y + nsites sd * s)%nat = h s) ->
  exists l, firsts (Coul_staticpot b sched (sd ++ [L]) NC lat (map Z.of_nat idx) mem p r q K) = Some l /\
            firsts (Coul_staticpot b sched' (sd ++ [L]) NC lat' (map Z.of_nat idx) mem' p' r' q' K) = Some l.
Proof.
  intros b sd L NC lat lat' g h idx sched sched' mem mem' p p' r r' q q' K Hok M Hi A A' F Nav G U Hg.
  rewrite !(staticpot_ok sd L Hok) by assumption. cbn [firsts option_map]. eexists. split; [reflexivity|]. f_equal. rewrite !map_map. cbn [fst].
  apply map_ext. intro t. apply map_ext. intro k. unfold written_tr. cbv zeta. now rewrite (line_pairs_gauged sd L Hok NC lat lat' g Nav G U t k h Hg).
Qed.
Print Assumptions C61_slice_gauge.
(** for lines that close around the lattice the second number does not change under any transformation *)
Theorem C61_closed_gauge : forall b sd L NC lat lat' g idx sched sched' mem mem' p p' r r' q q' K t,
  lattice_ok (sd ++ [L]) -> (b = NoFFTW -> moderate sd) -> separations sd idx -> (forall t, any_order (sched t)) -> (forall t, any_order (sched' t)) -> fits_lines sd L K ->
  navig (sd ++ [L]) lat -> gauged NC (length (sd ++ [L])) (volume (sd ++ [L])) g lat lat' ->
  (forall i, (i < volume (sd ++ [L]))%nat -> unitary NC (g i)) ->
  (0 < t < K)%nat -> (L | Z.of_nat t) ->
  exists l, second_at (Coul_staticpot b sched (sd ++ [L]) NC lat (map Z.of_nat idx) mem p r q K) t = Some l /\
            second_at (Coul_staticpot b sched' (sd ++ [L]) NC lat' (map Z.of_nat idx) mem' p' r' q' K) t = Some l.
Proof.
  intros b sd L NC lat lat' g idx sched sched' mem mem' p p' r r' q q' K t Hok M Hi A A' F Nav G U Ht D.
  rewrite !(staticpot_ok sd L Hok) by assumption. cbn [second_at]. rewrite !nth_error_map. rewrite (nth_error_nth' (seq 1 (K - 1)) 0%nat) by (rewrite seq_length; lia).
  rewrite seq_nth by lia. cbn [option_map snd]. replace (1 + (t - 1))%nat with t by lia. eexists. split; [reflexivity|]. f_equal. apply map_ext. intro k. unfold written_trtr.
  assert (E : (t mod Z.to_nat L = 0)%nat).
  { destruct (T_pos sd L Hok) as (HT & _ & _ & EL). apply Nat2Z.inj. rewrite Nat2Z.inj_mod, EL. apply Z.mod_divide; [lia|exact D]. }
  destruct (loop_pairs_gauged sd L Hok NC lat lat' g Nav G U t k E) as [-> ->]. reflexivity.
Qed.
Print Assumptions C61_closed_gauge.

(** * Cases *)
Example C61_case : lattice_ok ([3] ++ [1]) /\ moderate [3] /\ navig ([3] ++ [1]) lat3 /\ group_field 3 2 (volume ([3] ++ [1])) lat3 /\ separations [3] [1; 2]%nat /\
  fits_lines [3] 1 4 /\ line_pairs 3 lat3 [3] 1 1 1 = (RtoC 9 * w3)%C /\ plus_site [3] 2 1 = 0%nat.
Proof.
  split; [split; [discriminate|split; [repeat constructor|reflexivity]]|]. split; [repeat constructor; discriminate|]. split; [exact lat3_navig|]. split; [exact lat3_group|].
  split; [intros i [<-|[<-|[]]]; unfold nsites; cbn; lia|]. split; [unfold fits_lines, prodZ, two64; cbn; lia|]. split; [apply lat3_values|reflexivity].
Qed.
