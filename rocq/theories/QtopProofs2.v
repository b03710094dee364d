(** The values computed by Qslab.c, Qmoments.c and Qcorr.c. *)
From Coq Require Import Permutation Setoid.
From Verif Require Import CInt GeomModel GeomSpec GeomProofs GeomProofs2 Cplx CMat Arr FftModel FftProofs QtopModel QtopSpec QtopProofs.
Local Open Scope Z_scope.

Definition any_order (sched : schedule) : Prop := forall key n, Permutation (sched key n) (seq 0 n).
(** the density: real numbers *)
Definition density (ds : list Z) (q : arr) (p : nat -> R) : Prop := forall i, (i < nsites ds)%nat -> q i = RtoC (p i).

Lemma for_add n (body : nat -> option R -> option R) (v : nat -> R) : (forall i s, (i < n)%nat -> body i (Some s) = Some (s + v i)%R) ->
  forall s, for_ n body (Some s) = Some (s + sum_over v (seq 0 n))%R.
Proof.
  induction n as [|n IH]; intros H s; [cbn; f_equal; ring|]. cbn [for_]. rewrite IH by (intros; apply H; lia).
  rewrite H by lia. f_equal. rewrite seq_S, sum_over_app. cbn. ring.
Qed.
Lemma for_addC n (body : nat -> option C -> option C) (v : nat -> C) : (forall i s, (i < n)%nat -> body i (Some s) = Some (s + v i)%C) ->
  forall s, for_ n body (Some s) = Some (s + csum n v)%C.
Proof.
  induction n as [|n IH]; intros H s; [cbn; f_equal; ring|]. cbn [for_]. rewrite IH by (intros; apply H; lia).
  rewrite H by lia. f_equal. cbn [csum]. ring.
Qed.
Lemma rd_ok ds q i : lattice_ok ds -> (i < nsites ds)%nat -> rd ds q (Z.of_nat i) = Some (q i).
Proof.
  intros Hok Hi. unfold rd. rewrite lvolume_prod by assumption. unfold nsites in Hi.
  replace ((0 <=? Z.of_nat i) && (Z.of_nat i <? prodZ ds)) with true by lia. now rewrite Nat2Z.id.
Qed.
Lemma lvolume_nsites ds : lattice_ok ds -> Z.to_nat (lvolume ds) = nsites ds.
Proof. intro H. now rewrite lvolume_prod. Qed.
Lemma sum_square n (v : nat -> R) : sum_over (fun i => (v i * sum_over v (seq 0 n))%R) (seq 0 n) = (sum_over v (seq 0 n) * sum_over v (seq 0 n))%R.
Proof. rewrite (sum_over_ext _ (fun i => (sum_over v (seq 0 n) * v i)%R)) by (intros; ring). apply sum_over_mul. Qed.

(** * Slabs *)
Section SlabValues.
Variables (ds : list Z) (q : arr) (p : nat -> R) (dir : nat) (T1 : Z).
Hypothesis Hok : lattice_ok ds.
Hypothesis Hq : density ds q p.
Hypothesis Hdir : (dir < length ds)%nat.
Let L := nth dir ds 1.
Hypothesis HT1 : 1 <= T1 <= L.
Let sd := put ds dir T1.
Let SdOk : lattice_ok sd. Proof. now apply lattice_ok_put. Qed.
Let SdPos : Forall (fun L => 0 < L) sd. Proof. destruct SdOk as (_ & H & _). now apply ok_pos. Qed.
Let LP : 0 < L < two31. Proof. destruct Hok as (_ & H & _). rewrite Forall_forall in H. apply H. apply nth_In, Hdir. Qed.
Definition slab_val (T0 : Z) : R := sum_over p (slab ds dir T0 T1).

Lemma slab_read T0 i : 0 <= T0 < L -> (do src <- slab_idx ds sd dir T0 (Z.of_nat i); rd ds q src) = Some (RtoC (p (slab_site ds dir T0 T1 i))).
Proof.
  intro H0. unfold sd. rewrite slab_idx_ok by assumption. cbn [bindo].
  assert (B : (slab_site ds dir T0 T1 i < nsites ds)%nat) by now apply slab_site_lt. rewrite rd_ok by assumption. now rewrite Hq.
Qed.
Lemma slab_val_seq T0 : 0 <= T0 < L -> sum_over (fun i => p (slab_site ds dir T0 T1 i)) (seq 0 (fft_size sd)) = slab_val T0.
Proof. intro H0. now apply slab_total. Qed.
Lemma slab_direct_ok T0 : 0 <= T0 < L -> slab_direct ds q dir T1 T0 = Some (slab_val T0 * slab_val T0)%R.
Proof.
  intro H0. unfold slab_direct. rewrite slab_dims_0. fold sd. rewrite lvolume_nsites by assumption. rewrite nsites_size.
  rewrite (for_add _ _ (fun i => (p (slab_site ds dir T0 T1 i) * sum_over (fun i => p (slab_site ds dir T0 T1 i)) (seq 0 (fft_size sd)))%R)).
  - f_equal. rewrite sum_square, slab_val_seq by assumption. ring.
  - intros i s Hi. cbn [bindo]. pose proof (slab_read T0 i H0) as E. destruct (slab_idx ds sd dir T0 (Z.of_nat i)) as [src|]; [|discriminate].
    cbn [bindo] in E |- *. rewrite E. cbn [bindo].
    rewrite (for_add _ _ (fun j => (p (slab_site ds dir T0 T1 i) * p (slab_site ds dir T0 T1 j))%R)).
    + f_equal. f_equal. apply sum_over_mul.
    + intros j s' Hj. cbn [bindo]. pose proof (slab_read T0 j H0) as E'. destruct (slab_idx ds sd dir T0 (Z.of_nat j)) as [snk|]; [|discriminate].
      cbn [bindo] in E' |- *. rewrite E'. cbn [bindo]. f_equal. f_equal. cunfold. ring.
Qed.
Lemma slab_fftw_ok sched T0 inp out : any_order sched -> 0 <= T0 < L ->
  exists inp' out', slab_fftw sched ds q dir T1 T0 inp out = Some ((IZR (prodZ sd) * (slab_val T0 * slab_val T0))%R, inp', out').
Proof.
  intros Any H0. unfold slab_fftw. rewrite slab_dims_0. fold sd. rewrite lvolume_nsites by assumption. rewrite nsites_size.
  unfold plan_dims. rewrite firstn_all2 by (unfold sd; rewrite put_length; lia).
  destruct (fill_range (sched [T1; T0; 0] (fft_size sd)) (fft_size sd)
    (fun i => do src <- slab_idx ds sd dir T0 (Z.of_nat i); rd ds q src) (fun i => RtoC (p (slab_site ds dir T0 T1 i))) (Any _ _)
    (fun i _ => slab_read T0 i H0) inp) as (a & -> & A & _). cbn [bindo].
  set (F := fftw_execute FORWARD (rev sd) a out).
  destruct (fill_range (sched [T1; T0; 1] (fft_size sd)) (fft_size sd) (fun i => Some (F i * conj (F i))%C) (fun i => F i * conj (F i))%C (Any _ _)
    (fun i _ => eq_refl) F) as (b & -> & B & _). cbn [bindo].
  rewrite (for_some _ _ (fun i => re (fftw_execute BACKWARD (rev sd) b a i))) by reflexivity. cbn [bindo].
  do 2 eexists. do 3 f_equal.
  assert (E : csum (fft_size sd) (fftw_execute BACKWARD (rev sd) b a) = RtoC (IZR (prodZ sd) * (slab_val T0 * slab_val T0))).
  { rewrite (csum_ext _ _ (dft BACKWARD sd b)) by (intros; now apply fftw_execute_ok).
    rewrite dft_total by (auto). assert (Z0 : (0 < fft_size sd)%nat) by (unfold fft_size; pose proof (prodZ_pos sd SdPos); lia).
    rewrite B by assumption. unfold F. rewrite fftw_execute_ok by assumption. rewrite dft_zero_mode by assumption.
    rewrite (csum_ext _ _ (fun i => RtoC (p (slab_site ds dir T0 T1 i)))) by assumption. rewrite csum_real, slab_val_seq by assumption.
    rewrite conj_RtoC, <- RtoC_mul, <- RtoC_mul. reflexivity. }
  apply (f_equal re) in E. cbn [re RtoC fst] in E. rewrite <- E.
  generalize (fftw_execute BACKWARD (rev sd) b a) as f. clear. intro f.
  induction (fft_size sd) as [|n IH]; [reflexivity|]. rewrite seq_S, sum_over_app, IH. cbn [csum]. cunfold. cbn. unfold re. cbn. ring.
Qed.
Lemma slab_tsum_ok b sched inp out : any_order sched ->
  slab_tsum b sched ds q dir L T1 inp out = Some (sum_over (fun T0 => slab_val (Z.of_nat T0) * slab_val (Z.of_nat T0))%R (seq 0 (Z.to_nat L))).
Proof.
  intro Any. unfold slab_tsum. destruct b.
  - set (v := fun T0 => (slab_val (Z.of_nat T0) * slab_val (Z.of_nat T0))%R).
    assert (G : forall n, (n <= Z.to_nat L)%nat -> exists inp' out', for_ n (fun T0 st =>
        do ' (tsum, inp, out) <- st;
        do ' (s, inp, out) <- slab_fftw sched ds q dir T1 (Z.of_nat T0) inp out;
        Some ((tsum + s)%R, inp, out)) (Some (0%R, inp, out)) = Some ((IZR (prodZ sd) * sum_over v (seq 0 n))%R, inp', out')).
    { induction n as [|n IH]; intro Hn; [exists inp, out; cbn; do 3 f_equal; ring|].
      destruct IH as (i' & o' & E); [lia|]. cbn [for_]. rewrite E. cbn [bindo].
      destruct (slab_fftw_ok sched (Z.of_nat n) i' o' Any) as (i2 & o2 & ->); [lia|]. cbn [bindo].
      exists i2, o2. do 3 f_equal. rewrite seq_S, sum_over_app. cbn [Nat.add]. rewrite sum_cons, sum_nil. unfold v. ring. }
    destruct (G (Z.to_nat L) (le_n _)) as (i' & o' & ->). cbn [bindo]. rewrite slab_dims_0. fold sd.
    rewrite lvolume_prod by assumption. f_equal. field. apply IZR_neq. pose proof (prodZ_pos sd SdPos). lia.
  - rewrite (for_some _ _ (fun T0 => slab_val (Z.of_nat T0) * slab_val (Z.of_nat T0))%R); [reflexivity|].
    intros i Hi. apply slab_direct_ok. lia.
Qed.
End SlabValues.

Lemma slabs_fold (f : nat -> option R) (v : nat -> R) l : (forall k, In k l -> f k = Some (v k)) ->
  forall (g : R -> R), fold_right (fun k r => do t <- f k; do r <- r; Some (g t :: r)) (Some []) l = Some (map (fun k => g (v k)) l).
Proof.
  intros H g. induction l as [|k l IH]; [reflexivity|]. cbn [fold_right map]. rewrite IH by (intros; apply H; now right).
  rewrite H by apply in_eq. reflexivity.
Qed.
Theorem compute_slabs_ok b sched ds q p dir inp out : lattice_ok ds -> density ds q p -> (dir < length ds)%nat -> any_order sched ->
  compute_slabs b sched ds q dir inp out =
  Some (map (fun k => (sum_over (fun T0 => sum_over p (slab ds dir (Z.of_nat T0) (Z.of_nat k + 1)%Z) * sum_over p (slab ds dir (Z.of_nat T0) (Z.of_nat k + 1)%Z))
    (seq 0 (Z.to_nat (nth dir ds 1%Z))) * NORMSQ / IZR (nth dir ds 1%Z))%R) (seq 0 (Z.to_nat (nth dir ds 1%Z)))).
Proof.
  intros Hok Hq Hdir Any. unfold compute_slabs. rewrite (nth_error_nth' ds 1) by assumption. cbn [bindo].
  apply (slabs_fold (fun k => slab_tsum b sched ds q dir (nth dir ds 1%Z) (Z.of_nat k + 1)%Z (inp (Z.of_nat k + 1)%Z) (out (Z.of_nat k + 1)%Z))
    (fun k => sum_over (fun T0 => sum_over p (slab ds dir (Z.of_nat T0) (Z.of_nat k + 1)%Z) * sum_over p (slab ds dir (Z.of_nat T0) (Z.of_nat k + 1)%Z))%R
      (seq 0 (Z.to_nat (nth dir ds 1%Z)))) _) with (g := fun t => (t * NORMSQ / IZR (nth dir ds 1%Z))%R).
  intros k Hk. apply in_seq in Hk. apply (slab_tsum_ok ds q p dir (Z.of_nat k + 1)%Z); try assumption. lia.
Qed.
(** the thickest slab is the whole lattice *)
Lemma slab_all ds dir T0 : lattice_ok ds -> (dir < length ds)%nat -> slab ds dir T0 (nth dir ds 1) = sites ds.
Proof.
  intros Hok Hd. unfold slab. assert (P : 0 < nth dir ds 1). { destruct Hok as (_ & H & _). rewrite Forall_forall in H. apply H. now apply nth_In. }
  induction (sites ds) as [|x l IH]; [reflexivity|]. cbn [filter]. rewrite IH.
  pose proof (Z.mod_pos_bound (coord ds dir x - T0) _ P) as B. replace (_ <? _) with true by (symmetry; lia). reflexivity.
Qed.
Lemma sum_const (c : R) (n : nat) : sum_over (fun _ => c) (seq 0 n) = (INR n * c)%R.
Proof. induction n as [|n IH]; [cbn; ring|]. rewrite seq_S, sum_over_app, IH, S_INR. cbn [Nat.add]. rewrite sum_cons, sum_nil. ring. Qed.
