(** The configuration space correlator without FFTW and with fewer sources. *)
From Coq Require Import Permutation Psatz.
From Verif Require Import CInt GeomModel GeomSpec GeomProofs GeomProofs2 Cplx CMat Arr MatSpec MatModel MatProofs MatProofs2 ProjModel ProjProofs FftModel FftProofs QtopModel QtopSpec QtopProofs QtopProofs2 QtopProofs4.
From Verif Require Import SmearModel StaticModel StaticProofs GluonModel GluonSpec GluonProofs GluonProofs2 GluonProofs3 InstProofs InstProofs2 CfgModel CfgSpec CfgProofs.
Local Open Scope Z_scope.

Lemma strided_ok fuel L k : forall nu, 0 < k < 2 ^ 63 -> 0 <= nu -> L < two31 -> (Z.to_nat (L - nu) < fuel)%nat ->
  exists l, strided fuel L k nu = Some l /\ NoDup l /\ forall c, In c l <-> nu <= c < L /\ (c - nu) mod k = 0.
Proof.
  induction fuel as [|fuel IH]; intros nu Hk Hn HL Hf; [lia|]. cbn [strided]. destruct (Z.ltb_spec nu L) as [Lt1|Ge1].
  - assert (B : 0 <= nu + k < two64) by (unfold two31, two64 in *; lia). rewrite (u64_id _ B).
    destruct (IH (nu + k)) as (l & -> & Nd & Mem); [lia|lia|lia|lia|]. cbn [bindo]. eexists. split; [reflexivity|]. split.
    + constructor; [|exact Nd]. intro H. apply Mem in H. lia.
    + intro c. split.
      * intros [<-|H]; [rewrite Z.sub_diag; split; [lia|apply Z.mod_0_l; lia]|]. apply Mem in H. destruct H as [H1 H2]. split; [lia|].
        replace (c - nu) with (c - (nu + k) + 1 * k) by lia. rewrite Z.mod_add by lia. exact H2.
      * intros [H1 H2]. destruct (Z.eq_dec c nu) as [->|Nc]; [now left|right]. apply Mem. apply Z.mod_divide in H2; [|lia]. destruct H2 as [q Hq]. assert (1 <= q) by nia. split; [nia|].
        apply Z.mod_divide; [lia|]. exists (q - 1). lia.
  - eexists. split; [reflexivity|]. split; [constructor|]. intro c. split; [intros []|lia].
Qed.
(** with step 0 the loop does not end *)
Lemma strided_0 fuel L nu : 0 <= nu < L -> L < two31 -> strided fuel L 0 nu = None.
Proof.
  intros H HL. induction fuel as [|fuel IH]; [reflexivity|]. cbn [strided]. replace (nu <? L) with true by lia. rewrite Z.add_0_r, u64_id by (unfold two31, two64 in *; lia). now rewrite IH.
Qed.
Definition fsum {X} (f : X -> R) (l : list X) : R := fold_right (fun v s => f v + s)%R 0%R l.
Lemma fsum_app {X} (f : X -> R) l l' : fsum f (l ++ l') = (fsum f l + fsum f l')%R.
Proof. induction l as [|x l IH]; unfold fsum in *; cbn [fold_right app]; [ring|]. rewrite IH. ring. Qed.
Lemma fsum_map {X Y} (f : Y -> R) (g : X -> Y) l : fsum f (map g l) = fsum (fun x => f (g x)) l.
Proof. induction l as [|x l IH]; [reflexivity|]. unfold fsum in *. cbn [fold_right map]. now rewrite IH. Qed.
Lemma fsum_ext {X} (f g : X -> R) l : (forall x, In x l -> f x = g x) -> fsum f l = fsum g l.
Proof. induction l as [|x l IH]; intro H; [reflexivity|]. unfold fsum in *. cbn [fold_right]. rewrite IH by (intros; apply H; now right). now rewrite H by now left. Qed.

Section Sparse.
Variable sd : list Z.
Variable L : Z.
Variable NC : nat.
Variable k : Z.
Variable fuel : nat.
Hypothesis Hok : lattice_ok (sd ++ [L]).
Hypothesis Hk : 0 < k < 2 ^ 63.
Hypothesis Hfuel : forall M, In M sd -> M < Z.of_nat fuel.
Local Notation ds := (sd ++ [L]).
Local Notation N := (fft_size sd).
Local Notation T := (Z.to_nat L).
Definition steps (M : Z) : list Z := match strided fuel M k 0 with Some l => l | None => [] end.
Lemma extents M : In M sd -> 0 < M < two31.
Proof. intro H. destruct Hok as (_ & F & _). rewrite Forall_forall in F. apply F, in_or_app. now left. Qed.
Lemma steps_ok M : In M sd -> strided fuel M k 0 = Some (steps M) /\ NoDup (steps M) /\ forall c, In c (steps M) <-> 0 <= c < M /\ c mod k = 0.
Proof.
  intro H. pose proof (extents M H). pose proof (Hfuel M H). destruct (strided_ok fuel M k 0 Hk) as (l & E & Nd & Mem); [lia|lia|lia|]. unfold steps. rewrite E. split; [reflexivity|]. split; [exact Nd|].
  intro c. rewrite Mem, Z.sub_0_r. reflexivity.
Qed.
Fixpoint vecs (rest : list Z) : list (list Z) := match rest with [] => [[]] | M :: rest => flat_map (fun c => map (cons c) (vecs rest)) (steps M) end.
Lemma vecs_in rest : (forall M, In M rest -> In M sd) -> forall v, In v (vecs rest) <-> in_box rest v /\ forallb (fun c => c mod k =? 0) v = true.
Proof.
  induction rest as [|M rest IH]; intros H v; cbn [vecs].
  - split; [intros [<-|[]]; split; [constructor|reflexivity]|]. intros [B _]. inversion B. now left.
  - destruct (steps_ok M (H M (in_eq _ _))) as (_ & _ & Mem). rewrite in_flat_map. split.
    + intros (c & Hc & Hv). apply in_map_iff in Hv. destruct Hv as (w & <- & Hw). apply IH in Hw; [|intros; apply H; now right]. apply Mem in Hc. destruct Hw as [B F]. split; [now constructor|]. cbn [forallb]. rewrite F. lia.
    + intros [B F]. inversion B as [|? c ? w Hc B' E1 E2]. subst. cbn [forallb] in F. apply andb_prop in F as [F1 F2]. exists c. split; [apply Mem; lia|]. apply in_map, IH; [intros; apply H; now right|now split].
Qed.
Lemma nodup_app {X} (l l' : list X) : NoDup l -> NoDup l' -> (forall x, In x l -> ~ In x l') -> NoDup (l ++ l').
Proof. induction 1 as [|x l NI Nd IH]; intros H' D; [exact H'|]. cbn [app]. constructor; [rewrite in_app_iff; intros [K|K]; [contradiction|now apply (D x (in_eq _ _))]|]. apply IH; [assumption|]. intros y Hy. apply D. now right. Qed.
Lemma vecs_nodup rest : (forall M, In M rest -> In M sd) -> NoDup (vecs rest).
Proof.
  induction rest as [|M rest IH]; intro H; cbn [vecs]; [repeat constructor; intros []|]. destruct (steps_ok M (H M (in_eq _ _))) as (_ & Nd & _). specialize (IH (fun M' HM => H M' (in_cons _ _ _ HM))).
  clear -Nd IH. induction Nd as [|c l NI Nd IH']; cbn [flat_map]; [constructor|]. apply nodup_app; [apply map_nodup_in; [intros a b _ _ E; now injection E|exact IH]|exact IH'|].
  intros v Hv K. apply in_map_iff in Hv. destruct Hv as (w & <- & _). apply in_flat_map in K. destruct K as (c' & Hc & K). apply in_map_iff in K. destruct K as (w' & E & _). injection E as -> _. contradiction.
Qed.
Lemma vecs_perm : Permutation (map (fun v => Z.to_nat (horner sd v)) (vecs sd)) (sparse sd k).
Proof.
  assert (pos : Forall (fun M => 0 < M) sd) by apply (sl_pos sd L Hok). pose proof (vecs_in sd (fun M H => H)) as Mem.
  apply NoDup_Permutation.
  - apply map_nodup_in; [|now apply vecs_nodup]. intros a b Ha Hb E. apply Mem in Ha, Hb. pose proof (horner_bound sd a (proj1 Ha)). pose proof (horner_bound sd b (proj1 Hb)). apply (horner_inj sd); [apply Ha|apply Hb|lia].
  - apply NoDup_filter, seq_NoDup.
  - intro x. unfold sparse. rewrite in_map_iff, filter_In. split.
    + intros (v & <- & Hv). apply Mem in Hv. destruct Hv as [B F]. pose proof (horner_bound sd v B). split; [apply in_seq; unfold nsites; lia|].
      rewrite coords_digits by assumption. rewrite Z2Nat.id by lia. now rewrite digits_horner.
    + intros [Hx F]. apply in_seq in Hx. unfold nsites in Hx. rewrite coords_digits in F by assumption. exists (digits sd (Z.of_nat x)). rewrite horner_digits by (assumption || lia). split; [apply Nat2Z.id|].
      apply Mem. split; [now apply digits_in_box|exact F].
Qed.
Variable A : field arr.
Hypothesis Herm : forall x mu, (x < N * T)%nat -> (mu < length ds)%nat -> hermitian NC (mx NC (A x mu)).
Hypothesis Trl : forall x mu, (x < N * T)%nat -> (mu < length ds)%nat -> needs_traceless NC (mx NC (A x mu)).
Lemma recurse_ok t idx2 : (t < T)%nat -> forall rest pre vec norm, sd = pre ++ rest -> in_box pre vec -> 0 <= norm -> norm + Z.of_nat (length (vecs rest)) < two64 ->
  recurse_sum fuel ds NC A (N * t) idx2 k rest vec norm =
  Some (fsum (fun v => contract_slices ds NC A (N * t + Z.to_nat (horner sd (vec ++ v))) idx2) (vecs rest), norm + Z.of_nat (length (vecs rest))).
Proof.
  intros Ht. pose proof (sl_prod sd L Hok) as PP. destruct (sl_pos sd L Hok) as [pos HL]. assert (HL31 : L < two31) by (destruct Hok as (_ & F & _); rewrite Forall_forall in F; apply F, in_or_app; right; now left).
  induction rest as [|M rest IH]; intros pre vec norm Es B Hn Hb.
  - rewrite app_nil_r in Es. subst pre. cbn [recurse_sum vecs length] in *. rewrite gen_site_horner.
    + cbn [bindo]. rewrite horner_snoc by (clear -B; induction B; cbn [length]; congruence). rewrite Z.mul_0_r, Z.add_0_r. pose proof (horner_bound sd vec B) as HB.
      assert (HV : Z.of_nat (N * t) + prodZ sd <= prodZ sd * L) by (rewrite Nat2Z.inj_mul; unfold fft_size; rewrite Z2Nat.id by lia; nia).
      assert (H64 : prodZ sd * L < two64) by (unfold two31, two64 in *; nia).
      rewrite u64_id by lia. rewrite (sl_volume sd L Hok). replace (Z.of_nat (N * t) + horner sd vec <? prodZ sd * L) with true by lia. rewrite u64_id by lia.
      replace (Z.to_nat (Z.of_nat (N * t) + horner sd vec)) with (N * t + Z.to_nat (horner sd vec))%nat by lia. unfold fsum. cbn [fold_right]. rewrite app_nil_r, Rplus_0_r. reflexivity.
    + destruct sd; discriminate.
    + apply Forall2_app; [exact B|]. constructor; [lia|constructor].
    + rewrite <- (lvolume_prod _ Hok), (sl_volume sd L Hok). unfold two31, two64 in *. nia.
  - cbn [recurse_sum]. destruct (steps_ok M) as (-> & _ & Mem); [subst sd; apply in_or_app; right; now left|]. cbn [bindo vecs] in *.
    assert (K : forall l s0 norm, (forall c, In c l -> In c (steps M)) -> 0 <= norm -> norm + Z.of_nat (length (flat_map (fun c => map (cons c) (vecs rest)) l)) < two64 ->
      mfor l (fun nu '(sum, norm) => do ' (v, norm) <- recurse_sum fuel ds NC A (N * t) idx2 k rest (vec ++ [nu]) norm; Some ((sum + v)%R, norm)) (s0, norm) =
      Some ((s0 + fsum (fun v => contract_slices ds NC A (N * t + Z.to_nat (horner sd (vec ++ v))) idx2) (flat_map (fun c => map (cons c) (vecs rest)) l))%R, norm + Z.of_nat (length (flat_map (fun c => map (cons c) (vecs rest)) l)))).
    { induction l as [|c l IHl]; intros s0 nm Hl Hnm Hnb; cbn [mfor flat_map length] in *.
      - unfold fsum. cbn [fold_right]. rewrite Rplus_0_r, Z.add_0_r. reflexivity.
      - rewrite app_length, map_length in Hnb |- *. rewrite (IH (pre ++ [M]) (vec ++ [c]) nm).
        + cbn [bindo]. rewrite IHl; [|intros; apply Hl; now right|lia|lia]. rewrite fsum_app, fsum_map. f_equal. f_equal; [|lia]. rewrite <- Rplus_assoc. do 2 f_equal. apply fsum_ext. intros v _. now rewrite <- app_assoc.
        + subst sd. now rewrite <- app_assoc.
        + apply Forall2_app; [exact B|]. constructor; [|constructor]. apply (Mem c). apply Hl. now left.
        + exact Hnm.
        + lia. }
    rewrite K; [rewrite Rplus_0_l; reflexivity|auto|assumption|assumption].
Qed.
Local Notation G := (fun x mu => mx NC (A x mu)).
Definition S0 := length (sparse sd k).
Lemma contract_slices_ok x t : (x < N * T)%nat -> (t < T)%nat -> contract_slices ds NC A x (N * t) = (dsum (length sd) (fun mu => inner NC (G x mu) (slice_total sd G mu t)) / INR N)%R.
Proof.
  intros Hx Ht. unfold contract_slices. rewrite (sl_LCU sd L Hok), (sl_lcu sd L Hok).
  assert (E : forall m, (m <= N)%nat -> for_ m (fun j => contract_sites (length ds) NC A x (j + N * t)) 0%R = dsum m (fun j => dsum (length sd) (fun mu => inner NC (G x mu) (G (j + N * t)%nat mu)))).
  { induction m as [|m IH]; intro Hm; [reflexivity|]. cbn [for_]. rewrite IH, (contract_ok sd L NC A Herm Trl), dsum_S by (try assumption; try apply slice_lt; lia). reflexivity. }
  rewrite E by lia. f_equal; [|unfold fft_size; rewrite INR_IZR_INZ, Z2Nat.id by (pose proof (sl_prod sd L Hok); lia); reflexivity].
  rewrite dsum_swap_any. apply dsum_ext. intros mu _. unfold slice_total. now rewrite (inner_csum_r NC (nsites sd) (fun y => G (y + nsites sd * t)%nat mu)).
Qed.
Lemma inner_fold_l n (F : nat -> mat) D l : inner n (fun a b => fold_right (fun x s => (F x a b + s)%C) C0 l) D = fsum (fun x => inner n (F x) D) l.
Proof. induction l as [|x l IH]; [apply inner_0_l|]. unfold fsum in *. cbn [fold_right]. now rewrite inner_add_l, IH. Qed.
Lemma fsum_dsum {X} m (f : X -> nat -> R) l : fsum (fun x => dsum m (f x)) l = dsum m (fun i => fsum (fun x => f x i) l).
Proof. induction l as [|x l IH]; [unfold fsum; cbn [fold_right]; symmetry; transitivity (dsum m (fun _ => 0 * 0)%R); [apply dsum_ext; intros; ring|rewrite (dsum_mul m 0 (fun _ => 0%R)); ring]|]. unfold fsum in *. cbn [fold_right]. now rewrite IH, <- dsum_add. Qed.
Lemma fsum_div {X} (f : X -> R) c l : fsum (fun x => f x / c)%R l = (fsum f l / c)%R.
Proof. induction l as [|x l IH]; unfold fsum in *; cbn [fold_right]; [unfold Rdiv; ring|]. rewrite IH. unfold Rdiv. ring. Qed.
Lemma filter_len {X} (f : X -> bool) l : (length (filter f l) <= length l)%nat.
Proof. induction l as [|x l IH]; cbn [filter length]; [lia|]. destruct (f x); cbn [length]; lia. Qed.
Theorem sparse_t_ok t : (t < T)%nat ->
  sparse_t fuel ds NC A k t = Some (2 / (INR N * INR S0 * INR T) * dsum (length sd) (fun mu => dsum T (fun tau => inner NC (sparse_total sd k G mu tau) (slice_total sd G mu ((tau + t) mod T)))))%R.
Proof.
  intro Ht. unfold sparse_t. rewrite (sl_Lt sd L), (sl_LCU sd L Hok), (sl_spatial sd L). pose proof (sl_prod sd L Hok) as PP. destruct (sl_pos sd L Hok) as [pos HL]. assert (HL31 : L < two31) by (destruct Hok as (_ & F & _); rewrite Forall_forall in F; apply F, in_or_app; right; now left).
  assert (LS : length (vecs sd) = S0) by (unfold S0; rewrite <- (Permutation_length vecs_perm); now rewrite map_length).
  assert (S0 <= N)%nat by (unfold S0, sparse, sites; pose proof (filter_len (fun x => forallb (fun c => c mod k =? 0) (coords sd x)) (seq 0 (nsites sd))) as Q; rewrite seq_length in Q; exact Q).
  assert (B : Z.of_nat S0 * L < two64) by (unfold fft_size, two31, two64 in *; nia).
  set (v := fun tau => (dsum (length sd) (fun mu => inner NC (sparse_total sd k G mu tau) (slice_total sd G mu ((tau + t) mod T))) / INR N)%R).
  assert (K : forall m, (m <= T)%nat -> for_ m (fun tau s => do ' (loc_tr, norm) <- s;
    do ' (v, norm) <- recurse_sum fuel ds NC A (N * tau) (N * ((tau + t) mod T)) k sd [] norm; Some ((loc_tr + v)%R, norm)) (Some (0%R, 0)) = Some (dsum m v, Z.of_nat S0 * Z.of_nat m)).
  { induction m as [|m IH]; intro Hm; [cbn [for_]; rewrite Z.mul_0_r; reflexivity|]. cbn [for_]. rewrite IH by lia. cbn [bindo].
    rewrite (recurse_ok m _ ltac:(lia) sd [] []); [|reflexivity|constructor|nia|rewrite LS; nia]. cbn [bindo app]. rewrite dsum_S, LS. f_equal. f_equal; [|lia]. f_equal.
    rewrite <- (fsum_map (fun x => contract_slices ds NC A (N * m + x) (N * ((m + t) mod T))) (fun v => Z.to_nat (horner sd v))).
    unfold fsum. change (sum_over (fun x => contract_slices ds NC A (N * m + x) (N * ((m + t) mod T))) (map (fun v => Z.to_nat (horner sd v)) (vecs sd)) = v m).
    rewrite (sum_over_perm _ _ _ vecs_perm). change (fsum (fun x => contract_slices ds NC A (N * m + x) (N * ((m + t) mod T))) (sparse sd k) = v m).
    rewrite (fsum_ext _ (fun x => dsum (length sd) (fun mu => inner NC (G (x + N * m)%nat mu) (slice_total sd G mu ((m + t) mod T))) / INR N)%R).
    - rewrite fsum_div. unfold v. f_equal. rewrite fsum_dsum. apply dsum_ext. intros mu _. symmetry. apply (inner_fold_l NC (fun x => G (x + N * m)%nat mu)).
    - intros x Hx. apply filter_In in Hx. destruct Hx as [Hx _]. apply in_seq in Hx. rewrite Nat.add_comm. apply contract_slices_ok; [apply slice_lt; [apply Hx|lia]|]. apply Nat.mod_upper_bound. lia. }
  rewrite K by lia. cbn [bindo]. f_equal. rewrite dsum_swap_any. unfold v. rewrite Z2Nat.id by lia. rewrite (dsum_ext T _ (fun tau => / INR N * dsum (length sd) (fun mu => inner NC (sparse_total sd k G mu tau) (slice_total sd G mu ((tau + t) mod T))))%R) by (intros; unfold Rdiv; apply Rmult_comm).
  rewrite dsum_mul, mult_IZR, <- INR_IZR_INZ. replace (IZR L) with (INR T) by (rewrite INR_IZR_INZ, Z2Nat.id by lia; reflexivity). set (X := dsum T _).
  unfold Rdiv. rewrite !Rinv_mult. ring.
Qed.
Lemma sparse_0 : L >= 1 -> In 0%nat (sparse sd k).
Proof.
  intros _. assert (pos : Forall (fun M => 0 < M) sd) by apply (sl_pos sd L Hok). pose proof (sl_prod sd L Hok). apply filter_In. split; [apply in_seq; unfold nsites; lia|]. rewrite coords_digits by assumption. change (Z.of_nat 0) with 0.
  clear -Hk pos. induction pos as [|M l HM pos IH]; [reflexivity|]. cbn [digits forallb]. rewrite !Z.mod_0_l by lia. rewrite Z.div_0_l by lia. exact IH.
Qed.
End Sparse.
