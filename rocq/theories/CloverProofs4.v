(** The energy density and the topological charge in terms of the field strength. *)
From Coq Require Import PeanoNat Lia List ZArith Reals Lra Setoid Morphisms Permutation.
From Verif Require Import CMat Det Arr MatSpec MmulModel MmulProofs MatModel MatProofs MatProofs2 Su2Model Su2Proofs FieldModel FieldProofs FieldProofs2 FieldProofs3 ProjModel ProjProofs CloverModel CloverProofs CloverProofs2 CloverProofs3.
Import ListNotations.
Local Open Scope C_scope.

Lemma used_keep : forall b, used b = keep (fClover_k b) (Clover_k b).
Proof.
  assert (T : (CL_TOL < 19/9 /\ CL_TOL < 1/36 /\ CL_TOL < 32/90 /\ CL_TOL < 1/30 /\ ~ CL_TOL < 0)%R) by (unfold CL_TOL; lra).
  destruct T as (T1 & T2 & T3 & T4 & T5).
  assert (G : keep (mkWeights (19/9) (1/36) (32/90) (1/30) 0) (mkWeights (19/9) (1/36) (1/2 * (-32/45)) (1/2 * (1/15)) 0)
    = mkWeights (19/9) (1/36) (1/2 * (-32/45)) (1/2 * (1/15)) 0).
  { unfold keep. cbn [k1 k2 k3 k4 k5]. f_equal; [now apply kept_pos..|now apply kept_neg]. }
  destruct b; cbn [used fClover_k Clover_k]; try (now rewrite G). reflexivity.
Qed.
Section planes.
Variables (n V : nat) (lat : lattice) (b : build) (w : nat -> arr).
Hypothesis Geo : geom_ok 4 V lat.
Hypothesis Grp : group_field n 4 V lat.
Hypothesis Fit : fits b n.
Lemma plane_sum_ok : forall i mu nu st, (i < V)%nat -> (mu < 4)%nat -> (nu < 4)%nat ->
  meq n (mx n (sum_of (plane_sum b n lat i mu nu w st))) (madd (mx n (sum_of st)) (loops_sum n lat i mu nu (loops b))).
Proof.
  intros i mu nu st Hi Hmu Hnu. change (addl n lat i mu nu (loops b) st (plane_sum b n lat i mu nu w st)).
  assert (C1 : forall st, addl n lat i mu nu [(1%R, 1, 1, 1)%nat] st (compute_s1 n lat i mu nu 1 st)).
  { intros [[s u] v]. apply addl_one. now apply (compute_s1_ok n 4%nat V). }
  destruct Fit as [_ [-> |Hn]]; [apply C1|].
  assert (C2 : forall st, addl n lat i mu nu [(1%R, 2, 1, 1)%nat] st (compute_s2 n lat i mu nu 1 st)).
  { intros [[s u] v]. apply addl_one. now apply (compute_s2_ok n 4%nat V). }
  assert (C3 : forall st, addl n lat i mu nu [(1%R, 3, 1, 1)%nat] st (compute_s3 n lat i mu nu 1 st)).
  { intros [[s u] v]. apply addl_one. now apply (compute_s3_ok n 4%nat V). }
  assert (C4 : forall st, addl n lat i mu nu [(1%R, 4, 1, 1)%nat] st (compute_s4 n lat i mu nu 1 st)).
  { intros [[s u] v]. apply addl_one. now apply (compute_s4_ok n 4%nat V). }
  assert (K : forall b', addl n lat i mu nu (cells 1 (used b') ++ cells 2 (used b') ++ cells 3 (used b') ++ cells 4 (used b')) st
    (let f := fClover_k b' in let k := Clover_k b' in
      let st := compute_clover_s1 n lat i mu nu (w 0%nat) (w 1%nat) (w 2%nat) (w 3%nat) f k st in
      let st := compute_clover_s2 n lat i mu nu (w 0%nat) (w 1%nat) (w 2%nat) (w 3%nat) f k st in
      let st := compute_clover_s3 n lat i mu nu (w 0%nat) (w 1%nat) (w 2%nat) (w 3%nat) f k st in
      compute_clover_s4 n lat i mu nu (w 0%nat) (w 1%nat) (w 2%nat) (w 3%nat) f k st)).
  { intro b'. rewrite used_keep. cbv zeta.
    eapply addl_app; [|eapply addl_app; [|eapply addl_app]].
    - now apply (clover_s1_ok n V).
    - now apply (clover_s2_ok n V).
    - now apply (clover_s3_ok n V).
    - now apply (clover_s4_ok n V). }
  destruct b as [| | |q]; cbn [loops plane_sum].
  - apply (addl_app n lat i mu nu [_] [_; _; _] _ _ _ (C1 _)).
    apply (addl_app n lat i mu nu [_] [_; _] _ _ _ (C2 _)).
    exact (addl_app n lat i mu nu [_] [_] _ _ _ (C3 _) (C4 _)).
  - apply C1.
  - exact (K ImprovedNK5).
  - exact (K (Improved q)).
Qed.

(** two colours: real combinations of group elements *)
Lemma good_quadrant : forall k mu nu a c, (mu < 4)%nat -> (nu < 4)%nat -> good 4 (quadrant k mu nu a c).
Proof.
  assert (R : forall x y a c, (snd x < 4)%nat -> (snd y < 4)%nat -> good 4 (rectangle x y a c)).
  { intros x y a c Hx Hy s Hs. unfold rectangle in Hs.
    repeat (apply in_app_iff in Hs as [Hs|Hs]); apply repeat_spec in Hs; subst s; assumption. }
  intros k mu nu a c Hm Hn'. destruct k as [|[|[|[|k]]]]; apply R; assumption.
Qed.
Lemma loops_shaped : forall i mu nu l, (i < V)%nat -> (mu < 4)%nat -> (nu < 4)%nat -> shaped n (loops_sum n lat i mu nu l).
Proof.
  intros i mu nu l Hi Hm Hn' E. induction l as [|[[[x k] a] c] l [A B]]; cbn [loops_sum].
  - split; unfold mzero; cring.
  - pose proof (walk_SUn n 4%nat V lat Geo Grp (quadrant k mu nu a c) i Hi (good_quadrant k mu nu a c Hm Hn')) as S.
    rewrite E in S. apply SUn_2, SU2_form in S. destruct S as [S1 S2]. rewrite E in A, B.
    unfold quaternionic, madd, mscale. rewrite E. rewrite S1, S2, A, B. split.
    + rewrite conj_add, conj_mul. replace (conj (RtoC x)) with (RtoC x) by (apply C_eq; cunfold; ring). ring.
    + rewrite conj_add, conj_mul. replace (conj (RtoC x)) with (RtoC x) by (apply C_eq; cunfold; ring). ring.
Qed.
Lemma shaped_ext : forall A B, meq n A B -> shaped n B -> shaped n A.
Proof.
  intros A B H S E. specialize (S E). destruct S as [S1 S2]. split; rewrite !H by lia; assumption.
Qed.
Lemma proj_ok : forall Q a M, meq n (mx n a) M -> shaped n M -> meq n (mx n (Hermitian_proj n Q a)) (trf n (herm M)).
Proof.
  intros Q a M E S. assert (Hn : (0 < n)%nat) by (destruct Fit; lia).
  destruct (Hermitian_proj_ok n Q a Hn (shaped_ext _ _ E S)) as [F _]. rewrite F.
  assert (H : meq n (herm (mx n a)) (herm M)). { unfold herm, aherm. now rewrite E. }
  assert (T : mtr n (herm (mx n a)) = mtr n (herm M)) by now rewrite H.
  unfold trf. now rewrite T, H.
Qed.
Lemma two_planes_ok : forall i mu nu rho delta, (i < V)%nat -> (mu < 4)%nat -> (nu < 4)%nat -> (rho < 4)%nat -> (delta < 4)%nat ->
  let '(s1, s2) := two_planes b n lat i mu nu rho delta w in
  meq n (mx n s1) (loops_sum n lat i mu nu (loops b)) /\ meq n (mx n s2) (loops_sum n lat i rho delta (loops b)).
Proof.
  intros i mu nu rho delta Hi Hm Hn' Hr Hd. unfold two_planes.
  pose proof (plane_sum_ok i mu nu (zero_mat n (w 4%nat), w 6%nat, w 7%nat) Hi Hm Hn') as E.
  destruct (plane_sum b n lat i mu nu w (zero_mat n (w 4%nat), w 6%nat, w 7%nat)) as [[s1 u] v].
  pose proof (plane_sum_ok i rho delta (zero_mat n (w 5%nat), u, v) Hi Hr Hd) as F.
  destruct (plane_sum b n lat i rho delta w (zero_mat n (w 5%nat), u, v)) as [[s2 u2] v2].
  cbn [sum_of fst] in E, F. destruct (zero_mat_ok n (w 4%nat)) as [Z4 _]. destruct (zero_mat_ok n (w 5%nat)) as [Z5 _].
  rewrite Z4, madd_0_l in E. rewrite Z5, madd_0_l in F. now split.
Qed.
Lemma mtr2 : forall A A' B B', meq n A A' -> meq n B B' -> mtr n (mmul n A B) = mtr n (mmul n A' B').
Proof. intros A A' B B' E F. now rewrite E, F. Qed.
Definition pair_trace (i m1 n1 m2 n2 : nat) : C := mtr n (mmul n (strength n lat b i m1 n1) (strength n lat b i m2 n2)).
Lemma kernel_ok : forall i mu nu rho delta, (i < V)%nat -> (mu < 4)%nat -> (nu < 4)%nat -> (rho < 4)%nat -> (delta < 4)%nat ->
  compute_Gmunu_kernel b n lat i mu nu rho delta w =
  (match b with Plaquette => 2 * (INR n - re (mtr n (walk n lat i (quadrant 1 rho delta 1 1)))) | _ => re (pair_trace i rho delta rho delta) end,
   match b with Plaquette => 2 * (INR n - re (mtr n (walk n lat i (quadrant 1 mu nu 1 1)))) | _ => re (pair_trace i mu nu mu nu) end,
   re (pair_trace i mu nu rho delta))%R.
Proof.
  intros i mu nu rho delta Hi Hm Hn' Hr Hd. unfold compute_Gmunu_kernel.
  pose proof (two_planes_ok i mu nu rho delta Hi Hm Hn' Hr Hd) as E.
  destruct (two_planes b n lat i mu nu rho delta w) as [s1 s2]. destruct E as [E F].
  unfold compute_GG_q, pair_trace, strength. rewrite !trace_ab_ok.
  pose proof (proj_ok (w 8%nat) s1 _ E (loops_shaped i mu nu (loops b) Hi Hm Hn')) as P1.
  pose proof (proj_ok (w 9%nat) s2 _ F (loops_shaped i rho delta (loops b) Hi Hr Hd)) as P2.
  rewrite (mtr2 _ _ _ _ P1 P1), (mtr2 _ _ _ _ P2 P2), (mtr2 _ _ _ _ P1 P2).
  destruct b; try reflexivity. rewrite !trace_ok, E, F. cbn [loops loops_sum].
  assert (G : forall M, mtr n (madd (mscale (RtoC 1) M) mzero) = mtr n M).
  { intro M. rewrite madd_0_r, mtr_scale. change (RtoC 1) with C1. ring. }
  now rewrite !G.
Qed.
Lemma compute_q_ok : forall q i mu nu rho delta, (i < V)%nat -> (mu < 4)%nat -> (nu < 4)%nat -> (rho < 4)%nat -> (delta < 4)%nat ->
  trace n (compute_q b n q lat i mu nu rho delta w) = pair_trace i mu nu rho delta.
Proof.
  intros q i mu nu rho delta Hi Hm Hn' Hr Hd. unfold compute_q.
  pose proof (two_planes_ok i mu nu rho delta Hi Hm Hn' Hr Hd) as E.
  destruct (two_planes b n lat i mu nu rho delta w) as [s1 s2]. destruct E as [E F].
  rewrite trace_ok. unfold pair_trace, strength.
  destruct (multab_ok n q (Hermitian_proj n (w 8%nat) s1) (Hermitian_proj n (w 9%nat) s2)) as [M _]. rewrite M.
  apply mtr2; apply proj_ok; try assumption; now apply loops_shaped.
Qed.
End planes.
