From Coq Require Import Reals List ZArith Bool Lra Lia.
From Verif Require Import CInt CutsRModel CutsRSpec CutsSpec CutsProofs.
Import ListNotations.
Open Scope R_scope.

Lemma fsum_ssum n f : fsum n f = ssum n f.
Proof. induction n; cbn; congruence. Qed.
Lemma ssum_ext n f g : (forall m, (m < n)%nat -> f m = g m) -> ssum n f = ssum n g.
Proof. induction n; intros H; [reflexivity|]. cbn. rewrite IHn, H; auto. Qed.
Lemma ssum_scale n c f : ssum n (fun m => c * f m) = c * ssum n f.
Proof. induction n; cbn; [ring|]. rewrite IHn. ring. Qed.
Lemma ssum_plus n f g : ssum n (fun m => f m + g m) = ssum n f + ssum n g.
Proof. induction n; cbn; [ring|]. rewrite IHn. ring. Qed.
Lemma ssum_cut n d f : (d <= n)%nat -> (forall m, (d <= m)%nat -> f m = 0) -> ssum n f = ssum d f.
Proof.
  intros H Hz. induction n; [replace d with 0%nat by lia; reflexivity|].
  destruct (Nat.eq_dec d (S n)) as [->|]; [reflexivity|]. cbn. rewrite IHn, Hz by lia. ring.
Qed.
Lemma ssum_const n c : ssum n (fun _ => c) = INR n * c.
Proof. induction n; [cbn; ring|]. rewrite S_INR. cbn [ssum]. rewrite IHn. ring. Qed.
Lemma ssum_nonneg n f : (forall m, (m < n)%nat -> 0 <= f m) -> 0 <= ssum n f.
Proof. induction n; intros H; cbn; [lra|]. pose proof (IHn ltac:(auto)). pose proof (H n ltac:(lia)). lra. Qed.
Lemma Rleb_iff a b : Rleb a b = true <-> a <= b.
Proof. unfold Rleb. destruct (Rle_dec a b); split; intros; try assumption; try discriminate; try reflexivity; contradiction. Qed.

(* ---- small ---- *)
Lemma small_min dims D : dims <> [] -> (0 < D)%nat -> is_small dims D (small dims D).
Proof.
  intros Hn HD. destruct dims as [|d0 r]; [congruence|]. unfold is_small, small.
  destruct D as [|D]; [lia|]. cbn [firstn]. replace (S D - 1)%nat with D by lia. clear HD Hn.
  generalize (firstn D r). clear r D. intros r. revert d0. induction r as [|d r IH]; intros d0; cbn [fold_left].
  - split; [now left|]. intros L [->|[]]. lia.
  - destruct (IH (if (d <? d0)%Z then d else d0)) as (H1 & H2). split.
    + destruct H1 as [H1|H1]; [|right; now right]. rewrite <- H1. destruct (d <? d0)%Z; [right; now left|now left].
    + pose proof (H2 _ (or_introl eq_refl)) as H3. intros L [<-|[<-|HL]].
      * destruct (Z.ltb_spec d d0); lia.
      * destruct (Z.ltb_spec d d0); lia.
      * apply H2. now right.
Qed.
Lemma is_small_unique dims D a b : is_small dims D a -> is_small dims D b -> a = b.
Proof. intros (A & HA) (B & HB). pose proof (HA _ B). pose proof (HB _ A). lia. Qed.

(* ---- PSQ and hypercubic ---- *)
Lemma psq_spec dims sd k D : gen_calc_psq (rats dims sd) k D =
  IZR (small dims sd) * IZR (small dims sd) * ssum D (fun mu => frac dims k mu * frac dims k mu).
Proof.
  unfold gen_calc_psq. rewrite fsum_ssum, <- ssum_scale. apply ssum_ext. intros mu _.
  unfold rats, comp, dim, frac, Rdiv. ring.
Qed.
Lemma hyp_flag_spec rat k root D : (hyp_flag rat k root D <= D)%nat /\
  (hyp_flag rat k root D = D <-> forall mu, (mu < D)%nat -> Rabs (comp k mu * rat mu) <= root).
Proof.
  induction D as [|D (IH1 & IH2)]; [cbn; split; [lia|split; intros; [lia|reflexivity]]|].
  cbn [hyp_flag]. destruct (Rleb _ _) eqn:E.
  - apply Rleb_iff in E. split; [lia|]. split.
    + intros H mu Hmu. destruct (Nat.eq_dec mu D) as [->|]; [assumption|]. apply IH2; lia.
    + intros H. assert (hyp_flag rat k root D = D) by (apply IH2; intros; apply H; lia). lia.
  - split; [lia|]. split; [lia|]. intros H. exfalso. assert (Hd := H D ltac:(lia)). apply Rleb_iff in Hd. congruence.
Qed.
Lemma hyp_spec dims sd k root D : (0 < small dims sd)%Z ->
  gen_calc_hyp (rats dims sd) k root D = true <->
  forall mu, (mu < D)%nat -> IZR (small dims sd) * Rabs (frac dims k mu) <= root.
Proof.
  intros Hs. unfold gen_calc_hyp. rewrite Nat.eqb_eq. rewrite (proj2 (hyp_flag_spec _ _ _ _)).
  assert (E : forall mu, Rabs (comp k mu * rats dims sd mu) = IZR (small dims sd) * Rabs (frac dims k mu)).
  { intros mu. unfold comp, rats, frac, dim, Rdiv.
    replace (IZR (nth mu k 0%Z) * (IZR (small dims sd) * / IZR (nth mu dims 0%Z)))
      with (IZR (small dims sd) * (IZR (nth mu k 0%Z) * / IZR (nth mu dims 0%Z))) by ring.
    rewrite Rabs_mult. rewrite (Rabs_pos_eq (IZR _)); [reflexivity|]. apply IZR_le. lia. }
  split; intros H mu Hmu; specialize (H mu Hmu); rewrite E in *; assumption.
Qed.

(* ---- diagonals ---- *)
Lemma diag_spec i D : body_diagonal D (get_diagonal i D).
Proof. intros mu H. unfold get_diagonal. apply Nat.ltb_lt in H. rewrite H. destruct (Nat.eqb _ 0); auto. Qed.
Lemma diag_beyond i D mu : (D <= mu)%nat -> get_diagonal i D mu = 0.
Proof. intros H. unfold get_diagonal. apply Nat.ltb_ge in H. now rewrite H. Qed.
Lemma nat_sub_mod_div i s : (0 < s)%nat -> ((i - i mod s) / s = i / s)%nat.
Proof.
  intros H. pose proof (Nat.div_mod i s ltac:(lia)). replace (i - i mod s)%nat with ((i / s) * s)%nat by lia.
  apply Nat.div_mul. lia.
Qed.
Lemma pow2_pos m : (0 < 2 ^ m)%nat.
Proof. induction m; cbn [Nat.pow]; lia. Qed.
Lemma diag_complete D s : body_diagonal D s -> exists i, (i < 2 ^ D)%nat /\ forall mu, (mu < D)%nat -> get_diagonal i D mu = s mu.
Proof.
  intros H.
  assert (K : forall d, (d <= D)%nat -> exists i, (i < 2 ^ d)%nat /\ forall mu, (mu < d)%nat ->
            (if Nat.eqb ((i / 2 ^ mu) mod 2) 0 then -1 else 1) = s mu).
  { induction d as [|d IH]; intros Hd; [exists 0%nat; split; [cbn; lia|lia]|].
    destruct IH as (i & Hi & Hb); [lia|]. pose proof (pow2_pos d).
    assert (Hsm : forall e, (e = 0 \/ e = 1)%nat -> forall mu, (mu < d)%nat -> (((i + e * 2 ^ d) / 2 ^ mu) mod 2 = (i / 2 ^ mu) mod 2)%nat).
    { intros e He mu Hmu. replace (2 ^ d)%nat with (2 ^ (d - mu - 1) * 2 * 2 ^ mu)%nat.
      2:{ rewrite <- Nat.mul_assoc. rewrite <- Nat.pow_succ_r'. rewrite <- Nat.pow_add_r. f_equal. lia. }
      rewrite !Nat.mul_assoc. rewrite Nat.div_add by (pose proof (pow2_pos mu); lia). now rewrite Nat.mod_add. }
    destruct (H d ltac:(lia)) as [E|E].
    - exists (i + 1 * 2 ^ d)%nat. split; [cbn [Nat.pow]; lia|]. intros mu Hmu.
      destruct (Nat.eq_dec mu d) as [->|].
      + rewrite Nat.div_add by lia. rewrite Nat.div_small by lia. cbn [Nat.add Nat.modulo]. now rewrite E.
      + rewrite Hsm by lia. apply Hb. lia.
    - exists (i + 0 * 2 ^ d)%nat. split; [cbn [Nat.pow]; lia|]. intros mu Hmu.
      destruct (Nat.eq_dec mu d) as [->|].
      + rewrite Nat.div_add by lia. rewrite Nat.div_small by lia. now rewrite E.
      + rewrite Hsm by lia. apply Hb. lia. }
  destruct (K D) as (i & Hi & Hb); [lia|]. exists i. split; [assumption|]. intros mu Hmu.
  unfold get_diagonal. replace (mu <? D)%nat with true by (symmetry; now apply Nat.ltb_lt).
  rewrite nat_sub_mod_div by apply pow2_pos. now apply Hb.
Qed.
Lemma exists_diag nd D (P : (nat -> R) -> bool) : (D <= nd)%nat ->
  (forall s s', (forall mu, (mu < D)%nat -> s mu = s' mu) -> P s = P s') ->
  (existsb (fun i => P (get_diagonal i D)) (seq 0 (2 ^ nd)) = true <->
   exists s, body_diagonal D s /\ P s = true).
Proof.
  intros HD HP. rewrite existsb_exists. split.
  - intros (i & _ & H). exists (get_diagonal i D). split; [apply diag_spec|assumption].
  - intros (s & Hs & H). destruct (diag_complete D s Hs) as (i & Hi & E). exists i. split.
    + apply in_seq. pose proof (Nat.pow_le_mono_r 2 D nd ltac:(lia) HD). lia.
    + rewrite <- H. now apply HP.
Qed.

(* ---- projections ---- *)
Lemma norm2_diag D s : body_diagonal D s -> norm2v D s = INR D.
Proof.
  intros H. unfold norm2v. rewrite (ssum_ext _ _ (fun _ => 1)).
  - rewrite ssum_const. ring.
  - intros mu Hmu. destruct (H mu Hmu) as [-> | ->]; ring.
Qed.
Lemma line_expand D q s t : norm2v D (fun mu => q mu - t * s mu)
  = norm2v D q - 2 * t * dotv D q s + t * t * norm2v D s.
Proof.
  unfold norm2v, dotv. induction D; cbn [ssum]; [ring|]. rewrite IHD. ring.
Qed.
Lemma norm2_nonneg D q : 0 <= norm2v D q.
Proof. apply ssum_nonneg. intros. nra. Qed.
(* the closest point of the line *)
Lemma near_line_proj D q s w : body_diagonal D s -> (0 < D)%nat ->
  (near_line D q s w <-> 0 <= w /\ norm2v D (fun mu => q mu - dotv D q s / INR D * s mu) <= w * w).
Proof.
  intros Hs HD. assert (Hd : 0 < INR D) by (apply lt_0_INR; lia). split.
  - intros (Hw & t & H). split; [assumption|]. rewrite line_expand in *. rewrite (norm2_diag D s Hs) in *.
    set (d := dotv D q s) in *. set (N := INR D) in *.
    replace (norm2v D q - 2 * (d / N) * d + d / N * (d / N) * N) with (norm2v D q - d * d / N) by (field; lra).
    assert (0 <= (t * N - d) * (t * N - d) / N) by (apply Rmult_le_pos; [apply Rle_0_sqr|left; now apply Rinv_0_lt_compat]).
    replace ((t * N - d) * (t * N - d) / N) with (t * t * N - 2 * t * d + d * d / N) in * by (field; lra). lra.
  - intros (Hw & H). split; [assumption|]. exists (dotv D q s / INR D). assumption.
Qed.
Lemma sqrt_le_iff a w : 0 <= a -> (sqrt a <= w <-> 0 <= w /\ a <= w * w).
Proof.
  intros Ha. pose proof (sqrt_pos a). pose proof (sqrt_sqrt a Ha). split.
  - intros H1. split; [lra|]. nra.
  - intros (H1 & H2). destruct (Rle_dec (sqrt a) w); [assumption|]. nra.
Qed.

Lemma existsb_eq {A} (f g : A -> bool) l : (forall a, In a l -> f a = g a) -> existsb f l = existsb g l.
Proof. induction l as [|a l IH]; intros H; [reflexivity|]. cbn. rewrite H, IH; auto with datatypes. Qed.
Lemma dotv_ext D q s s' : (forall mu, (mu < D)%nat -> s mu = s' mu) -> dotv D q s = dotv D q s'.
Proof. intros H. apply ssum_ext. intros. now rewrite H. Qed.
Lemma norm2_ext D q q' : (forall mu, (mu < D)%nat -> q mu = q' mu) -> norm2v D q = norm2v D q'.
Proof. intros H. apply ssum_ext. intros. now rewrite H. Qed.

(* what cylinder_DF compares, for any number of dimensions *)
Lemma DF_char nd D q w : (D <= nd)%nat -> (forall mu, (D <= mu)%nat -> q mu = 0) ->
  (cylinder_DF nd D q w = true <-> exists s, body_diagonal D s /\ 0 <= w /\
     norm2v D (fun mu => q mu - dotv D q s * (1 / (2 * sqrt (INR D))) * s mu) <= w * w).
Proof.
  intros Hnd Hq. unfold cylinder_DF. cbv zeta. set (norm := 1 / (2 * sqrt (INR D))).
  rewrite (existsb_eq _ (fun i => (fun s => Rleb (sqrt (norm2v D (fun mu => q mu - dotv D q s * norm * s mu))) w) (get_diagonal i D))).
  2:{ intros i _. f_equal. f_equal. rewrite (fsum_ssum nd (fun nu => q nu * get_diagonal i D nu)), fsum_ssum. unfold norm2v, dotv.
      rewrite (ssum_cut nd D (fun nu => q nu * get_diagonal i D nu)); [|assumption|intros m Hm; rewrite Hq by assumption; ring].
      rewrite ssum_cut with (d := D); [reflexivity|assumption|].
      intros m Hm. rewrite Hq, (diag_beyond i D m) by assumption. ring. }
  rewrite (exists_diag nd D (fun s => Rleb (sqrt (norm2v D (fun mu => q mu - dotv D q s * norm * s mu))) w)).
  - split; intros (s & Hs & H); exists s; (split; [assumption|]).
    + apply Rleb_iff in H. apply sqrt_le_iff in H; [assumption|apply norm2_nonneg].
    + apply Rleb_iff. apply sqrt_le_iff; [apply norm2_nonneg|assumption].
  - assumption.
  - intros s s' E. f_equal. f_equal. rewrite (dotv_ext D q s s' E). apply norm2_ext. intros mu Hmu. now rewrite E.
Qed.

(* ---- cylinder_DF: right in four dimensions ---- *)
Lemma DF_spec nd q w : (4 <= nd)%nat -> (forall mu, (4 <= mu)%nat -> q mu = 0) ->
  (cylinder_DF nd 4 q w = true <-> exists s, body_diagonal 4 s /\ near_line 4 q s w).
Proof.
  intros Hnd Hq. rewrite DF_char by assumption.
  assert (E4 : 1 / (2 * sqrt (INR 4)) = / INR 4).
  { replace (INR 4) with (2 * 2) by (cbn; ring). rewrite sqrt_square by lra. field. }
  rewrite E4.
  split; intros (s & Hs & H); exists s; (split; [assumption|]).
  - apply near_line_proj; [assumption|lia|]. exact H.
  - apply near_line_proj in H; [|assumption|lia]. exact H.
Qed.

(* in three dimensions a momentum on the diagonal itself is lost when the cylinder is narrow *)
Lemma DF_three nd a w : (3 <= nd)%nat -> 0 < a -> w < a / 5 ->
  cylinder_DF nd 3 (fun mu => if (mu <? 3)%nat then a else 0) w = false.
Proof.
  intros Hnd Ha Hw. apply not_true_is_false. intros H. apply DF_char in H; [|assumption|].
  2:{ intros mu Hmu. apply Nat.ltb_ge in Hmu. now rewrite Hmu. }
  destruct H as (s & Hs & Hw0 & H). rewrite line_expand, (norm2_diag 3 s Hs) in H.
  unfold norm2v, dotv in H. cbn [ssum Nat.ltb Nat.leb] in H.
  replace (INR 3) with 3 in * by (cbn; ring).
  assert (S3 : 0 < sqrt 3) by (apply sqrt_lt_R0; lra). pose proof (sqrt_sqrt 3 ltac:(lra)) as S33.
  set (r := sqrt 3) in *.
  assert (Hr : r < 1.7325) by nra. assert (Hr' : 1.73 < r) by nra.
  assert (Hi : 1 / (2 * r) = r / 6).
  { apply (Rmult_eq_reg_l (2 * r)); [|lra]. replace (2 * r * (1 / (2 * r))) with 1 by (field; lra).
    replace (2 * r * (r / 6)) with (r * r / 3) by field. rewrite S33. field. }
  rewrite Hi in H.
  set (T := s 0%nat + s 1%nat + s 2%nat).
  replace (0 + a * s 0%nat + a * s 1%nat + a * s 2%nat) with (a * T) in H by (unfold T; ring).
  replace (a * T * (r / 6) * (a * T * (r / 6)) * 3) with (a * a * (T * T) * (r * r) / 12) in H by field.
  rewrite S33 in H.
  assert (HT : T * T = 9 \/ T * T = 1).
  { unfold T. destruct (Hs 0%nat ltac:(lia)) as [-> | ->], (Hs 1%nat ltac:(lia)) as [-> | ->], (Hs 2%nat ltac:(lia)) as [-> | ->];
      (left; lra) || (right; lra). }
  assert (Hww : w * w <= a * a / 25) by nra.
  assert (HA : 0 < a * a) by nra.
  assert (HB : a * a * r < a * a * 1.7325) by (apply Rmult_lt_compat_l; assumption).
  replace (2 * (a * T * (r / 6)) * (a * T)) with (a * a * r * (T * T) / 3) in H by field.
  destruct HT as [HT|HT]; rewrite HT in H; lra.
Qed.

(* ---- cylinder_CJD ---- *)
Lemma cauchy D q s : dotv D q s * dotv D q s <= norm2v D q * norm2v D s.
Proof.
  destruct (Req_dec (norm2v D s) 0) as [E|E].
  - assert (dotv D q s = 0) as ->.
    { assert (K : forall D', (D' <= D)%nat -> norm2v D' s = 0 -> dotv D' q s = 0).
      { induction D' as [|d IH]; intros Hd; [reflexivity|]. unfold norm2v, dotv in *. cbn [ssum]. intros Hz.
        pose proof (ssum_nonneg d (fun mu => s mu * s mu) ltac:(intros; nra)).
        assert (s d = 0) by nra. rewrite IH; [rewrite H0; ring|lia|nra]. }
      apply K; [lia|assumption]. }
    rewrite E. lra.
  - pose proof (norm2_nonneg D s).
    pose proof (norm2_nonneg D (fun mu => q mu - dotv D q s / norm2v D s * s mu)) as H1. rewrite line_expand in H1.
    set (d := dotv D q s) in *. set (N := norm2v D s) in *. set (Q := norm2v D q) in *.
    replace (Q - 2 * (d / N) * d + d / N * (d / N) * N) with ((Q * N - d * d) / N) in H1 by (field; assumption).
    assert (0 < N) by lra.
    assert (0 <= (Q * N - d * d) / N * N) by nra.
    replace ((Q * N - d * d) / N * N) with (Q * N - d * d) in * by (field; assumption). lra.
Qed.

Lemma CJD_spec nd D q w arc : (0 < D <= nd)%nat -> 0 <= ang arc <= PI ->
  (cylinder_CJD nd D q w arc = true <->
   norm2v D q < PREC_TOL \/
   exists s, body_diagonal D s /\ near_line D q s w /\ angle_within D q s (ang arc)).
Proof.
  intros HD Ha. unfold cylinder_CJD. cbv zeta. rewrite fsum_ssum. fold (norm2v D q).
  unfold Rltb. destruct (Rlt_dec (norm2v D q) PREC_TOL) as [Hq|Hq]; [tauto|].
  assert (HQ : 0 < norm2v D q) by (unfold PREC_TOL in Hq; lra).
  assert (Hd : 0 < INR D) by (apply lt_0_INR; lia).
  set (Q := norm2v D q) in *. assert (Sq : 0 < sqrt Q) by (now apply sqrt_lt_R0).
  assert (SQ : sqrt Q * sqrt Q = Q) by (apply sqrt_sqrt; lra).
  assert (SD : 0 < sqrt (INR D)) by (now apply sqrt_lt_R0).
  assert (SDD : sqrt (INR D) * sqrt (INR D) = INR D) by (apply sqrt_sqrt; lra).
  set (P := fun s : nat -> R => let x := dotv D q s * (1 / sqrt Q / sqrt (INR D)) in
     Rleb (sin (acos x) / (1 / sqrt Q)) w && Rleb (acos x) (ang arc)).
  rewrite (existsb_eq _ (fun i => P (get_diagonal i D))).
  2:{ intros i _. unfold P. cbv zeta. rewrite (fsum_ssum D (fun nu => get_diagonal i D nu * get_diagonal i D nu)). fold (norm2v D (get_diagonal i D)).
      rewrite fsum_ssum. rewrite (norm2_diag D _ (diag_spec i D)).
      assert (E : ssum D (fun nu => q nu * get_diagonal i D nu * (1 / sqrt Q / sqrt (INR D)))
                  = dotv D q (get_diagonal i D) * (1 / sqrt Q / sqrt (INR D))).
      { rewrite Rmult_comm. unfold dotv. rewrite <- ssum_scale. apply ssum_ext. intros. ring. }
      rewrite E. reflexivity. }
  rewrite exists_diag; [|lia|].
  2:{ intros s s' E. unfold P. rewrite (dotv_ext D q s s' E). reflexivity. }
  assert (K : forall s, body_diagonal D s -> (P s = true <-> near_line D q s w /\ angle_within D q s (ang arc))).
  { intros s Hs. unfold P. cbv zeta. rewrite andb_true_iff, !Rleb_iff.
    set (d := dotv D q s). set (x := d * (1 / sqrt Q / sqrt (INR D))).
    pose proof (cauchy D q s) as C. rewrite (norm2_diag D s Hs) in C. fold Q d in C.
    assert (Ex : x * (sqrt Q * sqrt (INR D)) = d) by (unfold x; field; lra).
    assert (Exx : x * x * (Q * INR D) = d * d).
    { rewrite <- Ex. rewrite <- SQ at 1. rewrite <- SDD at 1. ring. }
    assert (HQD : 0 < Q * INR D) by nra.
    assert (Hx1 : x * x <= 1).
    { destruct (Rle_dec (x * x) 1); [assumption|]. nra. }
    assert (Hx : -1 <= x <= 1) by nra.
    assert (Hsin : sin (acos x) / (1 / sqrt Q) = sqrt (Q - d * d / INR D)).
    { rewrite sin_acos by assumption. replace (sqrt (1 - x²) / (1 / sqrt Q)) with (sqrt (1 - x²) * sqrt Q) by (field; lra).
      rewrite <- sqrt_mult; [|unfold Rsqr; lra|lra]. f_equal. unfold Rsqr.
      replace (d * d / INR D) with (x * x * (Q * INR D) / INR D) by (rewrite Exx; reflexivity). field. lra. }
    assert (Hnl : near_line D q s w <-> sin (acos x) / (1 / sqrt Q) <= w).
    { rewrite near_line_proj by (assumption || lia). rewrite line_expand, (norm2_diag D s Hs). fold Q d.
      replace (Q - 2 * (d / INR D) * d + d / INR D * (d / INR D) * INR D) with (Q - d * d / INR D) by (field; lra).
      rewrite Hsin. rewrite sqrt_le_iff; [reflexivity|].
      assert (0 <= (Q * INR D - d * d) / INR D) by (apply Rmult_le_pos; [lra|left; now apply Rinv_0_lt_compat]).
      replace ((Q * INR D - d * d) / INR D) with (Q - d * d / INR D) in * by (field; lra). assumption. }
    rewrite Hnl. apply and_iff_compat_l.
    unfold angle_within. rewrite (norm2_diag D s Hs). fold Q d.
    assert (Hp : 0 < sqrt Q * sqrt (INR D)) by nra.
    assert (Hcx : cos (acos x) = x) by now apply cos_acos.
    pose proof (acos_bound x) as Hab. split.
    - intros H. assert (cos (ang arc) <= x) by (rewrite <- Hcx; apply cos_decr_1; lra). rewrite <- Ex. nra.
    - intros H. rewrite <- Ex in H. assert (Hc : cos (ang arc) <= x) by nra.
      rewrite <- Hcx in Hc. apply cos_decr_0; lra. }
  split.
  - intros (s & Hs & H). right. exists s. apply K in H; tauto.
  - intros [H|(s & Hs & H)]; [contradiction|]. exists s. split; [assumption|]. now apply K.
Qed.

(* ---- compute_p ---- *)
Lemma compute_p_spec dims k D mu : (mu < D)%nat -> compute_p dims k D mu = lat_mom dims k mu.
Proof.
  intros H. unfold compute_p. apply Nat.ltb_lt in H. rewrite H. unfold lat_mom, frac, comp, dim, Rdiv.
  f_equal. f_equal. set (x := / IZR (nth mu dims 0%Z)). field.
Qed.
Lemma compute_p_beyond dims k D mu : (D <= mu)%nat -> compute_p dims k D mu = 0.
Proof. intros H. unfold compute_p. apply Nat.ltb_ge in H. now rewrite H. Qed.
Lemma near_line_ext D q q' s w : (forall mu, (mu < D)%nat -> q mu = q' mu) -> near_line D q s w -> near_line D q' s w.
Proof.
  intros E (Hw & t & H). split; [assumption|]. exists t. erewrite norm2_ext; [exact H|].
  intros mu Hmu. cbn. now rewrite E.
Qed.
Lemma angle_ext D q q' s a : (forall mu, (mu < D)%nat -> q mu = q' mu) -> angle_within D q s a -> angle_within D q' s a.
Proof.
  intros E. unfold angle_within. rewrite (norm2_ext D q q' E).
  replace (dotv D q' s) with (dotv D q s); [tauto|]. apply ssum_ext. intros. now rewrite E.
Qed.

(* ---- reflection ---- *)
Lemma comp_neg k mu : comp (vneg k) mu = - comp k mu.
Proof. unfold comp, vneg. change 0%Z with (Z.opp 0) at 1. rewrite map_nth. apply opp_IZR. Qed.
Lemma compute_p_neg dims k D mu : compute_p dims (vneg k) D mu = - compute_p dims k D mu.
Proof.
  unfold compute_p. destruct (mu <? D)%nat; [|ring]. rewrite comp_neg.
  replace (- comp k mu * (2 * PI / dim dims mu) * (1 / 2)) with (- (comp k mu * (2 * PI / dim dims mu) * (1 / 2))) by ring.
  rewrite sin_neg. ring.
Qed.
Lemma psq_neg rat k D : gen_calc_psq rat (vneg k) D = gen_calc_psq rat k D.
Proof. unfold gen_calc_psq. rewrite !fsum_ssum. apply ssum_ext. intros. rewrite comp_neg. ring. Qed.
Lemma hyp_neg rat k root D : gen_calc_hyp rat (vneg k) root D = gen_calc_hyp rat k root D.
Proof.
  unfold gen_calc_hyp. f_equal. induction D; [reflexivity|]. cbn [hyp_flag]. rewrite IHD. f_equal.
  rewrite comp_neg. replace (- comp k D * rat D) with (- (comp k D * rat D)) by ring. now rewrite Rabs_Ropp.
Qed.
Lemma bool_iff a b : (a = true <-> b = true) -> a = b.
Proof. destruct a, b; intuition congruence. Qed.
Lemma diag_neg D s : body_diagonal D s -> body_diagonal D (fun mu => - s mu).
Proof. intros H mu Hmu. destruct (H mu Hmu) as [-> | ->]; [right|left]; ring. Qed.
Lemma DF_neg nd D q q' w : (D <= nd)%nat -> (forall mu, (D <= mu)%nat -> q mu = 0) -> (forall mu, q' mu = - q mu) ->
  cylinder_DF nd D q' w = true -> cylinder_DF nd D q w = true.
Proof.
  intros Hnd Hq E. assert (Hq' : forall mu, (D <= mu)%nat -> q' mu = 0) by (intros; rewrite E, Hq by assumption; ring).
  rewrite !DF_char by assumption. intros (s & Hs & Hw & H). exists s.
  repeat split; [assumption|assumption|].
  assert (Ed : dotv D q' s = - dotv D q s).
  { unfold dotv. replace (- ssum D (fun mu => q mu * s mu)) with (-1 * ssum D (fun mu => q mu * s mu)) by ring.
    rewrite <- ssum_scale. apply ssum_ext. intros. rewrite E. ring. }
  rewrite Ed in H. unfold norm2v in *. erewrite ssum_ext; [exact H|]. intros mu _. cbn. rewrite E. ring.
Qed.
Lemma CJD_neg nd D q q' w arc : (forall mu, q' mu = - q mu) -> (D <= nd)%nat ->
  cylinder_CJD nd D q' w arc = true -> cylinder_CJD nd D q w arc = true.
Proof.
  intros E HD. unfold cylinder_CJD. cbv zeta.
  assert (E2 : fsum D (fun mu => q' mu * q' mu) = fsum D (fun mu => q mu * q mu)).
  { rewrite !fsum_ssum. apply ssum_ext. intros. rewrite E. ring. }
  rewrite E2. destruct (Rltb _ _); [reflexivity|]. set (qn := 1 / sqrt _).
  set (P := fun (q : nat -> R) (x : nat -> R) =>
     Rleb (sin (acos (fsum D (fun nu => q nu * x nu * (qn / sqrt (fsum D (fun nu => x nu * x nu)))))) / qn) w &&
     Rleb (acos (fsum D (fun nu => q nu * x nu * (qn / sqrt (fsum D (fun nu => x nu * x nu)))))) (ang arc)).
  assert (PE : forall q, forall s s', (forall mu, (mu < D)%nat -> s mu = s' mu) -> P q s = P q s').
  { intros r s s' Es. unfold P. assert (E3 : fsum D (fun nu => s nu * s nu) = fsum D (fun nu => s' nu * s' nu)).
    { rewrite !fsum_ssum. apply ssum_ext. intros. now rewrite Es. }
    rewrite E3. assert (E4 : forall c, fsum D (fun nu => r nu * s nu * c) = fsum D (fun nu => r nu * s' nu * c)).
    { intros c. rewrite !fsum_ssum. apply ssum_ext. intros. now rewrite Es. }
    now rewrite E4. }
  change (existsb (fun i => P q' (get_diagonal i D)) (seq 0 (2 ^ nd)) = true -> existsb (fun i => P q (get_diagonal i D)) (seq 0 (2 ^ nd)) = true).
  rewrite (exists_diag nd D (P q') HD (PE q')), (exists_diag nd D (P q) HD (PE q)).
  intros (s & Hs & H). exists (fun mu => - s mu). split; [now apply diag_neg|]. rewrite <- H. unfold P.
  assert (E3 : fsum D (fun nu => - s nu * - s nu) = fsum D (fun nu => s nu * s nu)).
  { rewrite !fsum_ssum. apply ssum_ext. intros. ring. }
  rewrite E3. assert (E4 : forall c, fsum D (fun nu => q nu * - s nu * c) = fsum D (fun nu => q' nu * s nu * c)).
  { intros c. rewrite !fsum_ssum. apply ssum_ext. intros. rewrite E. ring. }
  now rewrite E4.
Qed.
Theorem safe_neg : forall dims sd ci D k, (D <= length dims)%nat ->
  safe_momenta dims sd ci D (vneg k) = safe_momenta dims sd ci D k.
Proof.
  intros dims sd ci D k HD. unfold safe_momenta. rewrite psq_neg, hyp_neg.
  assert (B : forall mu, (D <= mu)%nat -> compute_p dims k D mu = 0) by (intros; now apply compute_p_beyond).
  assert (B' : forall mu, (D <= mu)%nat -> compute_p dims (vneg k) D mu = 0) by (intros; now apply compute_p_beyond).
  assert (E : forall mu, compute_p dims (vneg k) D mu = - compute_p dims k D mu) by (intros; apply compute_p_neg).
  assert (E' : forall mu, compute_p dims k D mu = - compute_p dims (vneg k) D mu) by (intros; rewrite E; ring).
  destruct (ctype ci); try reflexivity; destruct (Rleb _ _); try reflexivity; apply bool_iff; split.
  - now apply DF_neg.
  - now apply DF_neg.
  - now apply CJD_neg.
  - now apply CJD_neg.
Qed.
