(** The field strength of the code is the projected sum of rectangles. *)
From Coq Require Import PeanoNat Lia List ZArith Reals Lra Setoid Morphisms Permutation.
From Verif Require Import CMat Det Arr MatSpec MmulModel MmulProofs MatModel MatProofs MatProofs2 Su2Model Su2Proofs FieldModel FieldProofs FieldProofs2 FieldProofs3 ProjModel ProjProofs CloverModel CloverProofs CloverProofs2.
Import ListNotations.
Local Open Scope C_scope.

(** * Specification *)
(** a loop: weight, quadrant, extent along mu, extent along nu *)
Definition loop := (R * nat * nat * nat)%type.
Definition kept (x f : R) : R := if Rlt_dec CL_TOL f then x else 0%R.
Definition cells (k : nat) (w : weights) : list loop :=
  [(k1 w, k, 1, 1); (k2 w, k, 2, 2); (k3 w, k, 1, 2); (k3 w, k, 2, 1); (k4 w, k, 1, 3); (k4 w, k, 3, 1); (k5 w, k, 3, 3)]%nat.
(** the weights of the improved builds: those at or below CL_TOL are dropped *)
Definition used (b : build) : weights :=
  match b with
  | Improved q => let k := Clover_k b in
      mkWeights (kept (k1 k) (Rabs (k1 k))) (kept (k2 k) (Rabs (k2 k))) (kept (k3 k) (Rabs (k3 k)))
                (kept (k4 k) (Rabs (k4 k))) (kept (k5 k) (Rabs (k5 k)))
  | _ => Clover_k b
  end.
Definition loops (b : build) : list loop :=
  match b with
  | Standard => [(1%R, 1, 1, 1); (1%R, 2, 1, 1); (1%R, 3, 1, 1); (1%R, 4, 1, 1)]%nat
  | Plaquette => [(1%R, 1, 1, 1)]%nat
  | _ => cells 1 (used b) ++ cells 2 (used b) ++ cells 3 (used b) ++ cells 4 (used b)
  end.
Fixpoint loops_sum (n : nat) (lat : lattice) (i mu nu : nat) (l : list loop) : mat :=
  match l with
  | [] => mzero
  | (w, k, a, b) :: l => madd (mscale (RtoC w) (walk n lat i (quadrant k mu nu a b))) (loops_sum n lat i mu nu l)
  end.
(** the traceless Hermitian part of the sum of the loops *)
Definition strength (n : nat) (lat : lattice) (b : build) (i mu nu : nat) : mat :=
  trf n (herm (loops_sum n lat i mu nu (loops b))).
(** the builds that work for a given number of colours *)
Definition fits (b : build) (n : nat) : Prop := (2 <= n)%nat /\ (b = Plaquette \/ n = 2 \/ n = 3)%nat.

(** * Sums *)
Lemma loops_sum_app : forall n lat i mu nu l l', meq n (loops_sum n lat i mu nu (l ++ l')) (madd (loops_sum n lat i mu nu l) (loops_sum n lat i mu nu l')).
Proof.
  induction l as [|[[[w k] a] b] l IH]; intro l'; cbn [app loops_sum]; [now rewrite madd_0_l|].
  rewrite IH. now rewrite madd_assoc.
Qed.
Section sums.
Variables (n V : nat) (lat : lattice) (i mu nu : nat).
Hypothesis Geo : geom_ok 4 V lat.
Hypothesis Grp : group_field n 4 V lat.
Hypothesis Hi : (i < V)%nat.
Hypothesis Hmu : (mu < 4)%nat.
Hypothesis Hnu : (nu < 4)%nat.
Definition addl (l : list loop) (st st' : arr * arr * arr) : Prop :=
  meq n (mx n (sum_of st')) (madd (mx n (sum_of st)) (loops_sum n lat i mu nu l)).
Lemma addl_nil : forall st, addl [] st st.
Proof. intro st. unfold addl. cbn [loops_sum]. now rewrite madd_0_r. Qed.
Lemma addl_one : forall w k a b st st', adds n lat i (quadrant k mu nu a b) w st st' -> addl [(w, k, a, b)] st st'.
Proof. intros w k a b st st' H. unfold addl. cbn [loops_sum]. now rewrite madd_0_r. Qed.
Lemma addl_app : forall l l' s0 s1 s2, addl l s0 s1 -> addl l' s1 s2 -> addl (l ++ l') s0 s2.
Proof. intros l l' s0 s1 s2 A B. unfold addl in *. rewrite B, A, loops_sum_app. now rewrite madd_assoc. Qed.
Lemma kept_pos : forall x f, (CL_TOL < f)%R -> kept x f = x.
Proof. intros x f H. unfold kept. destruct (Rlt_dec CL_TOL f); [reflexivity|contradiction]. Qed.
Lemma kept_neg : forall x f, ~ (CL_TOL < f)%R -> kept x f = 0%R.
Proof. intros x f H. unfold kept. destruct (Rlt_dec CL_TOL f); [contradiction|reflexivity]. Qed.
Definition keep (f k : weights) : weights :=
  mkWeights (kept (k1 k) (k1 f)) (kept (k2 k) (k2 f)) (kept (k3 k) (k3 f)) (kept (k4 k) (k4 f)) (kept (k5 k) (k5 f)).
Lemma addl_zero : forall k (l : list (nat * nat)) st, addl (map (fun ab => (0%R, k, fst ab, snd ab)) l) st st.
Proof.
  intros k l st. unfold addl. assert (Z : meq n (loops_sum n lat i mu nu (map (fun ab => (0%R, k, fst ab, snd ab)) l)) mzero); [|now rewrite Z, madd_0_r].
  induction l as [|[a b] l IH]; [reflexivity|]. cbn [map loops_sum fst snd]. rewrite IH, madd_0_r. intros c d _ _. unfold mscale, mzero.
  change (RtoC 0) with C0. ring.
Qed.
Hypothesis Hn : (n = 2 \/ n = 3)%nat.
Lemma sector_ok : forall q (c11 c22 c12 c21 c13 c31 : R -> arr * arr * arr -> arr * arr * arr) (c33 : R -> arr * arr * arr -> arr * arr * arr) f k st,
  (forall w st, addl [(w, q, 1, 1)%nat] st (c11 w st)) ->
  (forall w st, addl [(w, q, 2, 2)%nat] st (c22 w st)) ->
  (forall w st, addl [(w, q, 1, 2)%nat] st (c12 w st)) ->
  (forall w st, addl [(w, q, 2, 1)%nat] st (c21 w st)) ->
  (forall w st, addl [(w, q, 1, 3)%nat] st (c13 w st)) ->
  (forall w st, addl [(w, q, 3, 1)%nat] st (c31 w st)) ->
  (forall w st, addl [(w, q, 3, 3)%nat] st (c33 w st)) ->
  addl (cells q (keep f k)) st
   (let st := if Rlt_dec CL_TOL (k1 f) then c11 (k1 k) st else st in
    let st := if Rlt_dec CL_TOL (k2 f) then c22 (k2 k) st else st in
    let st := if Rlt_dec CL_TOL (k3 f) then c21 (k3 k) (c12 (k3 k) st) else st in
    let st := if Rlt_dec CL_TOL (k4 f) then c31 (k4 k) (c13 (k4 k) st) else st in
    if Rlt_dec CL_TOL (k5 f) then c33 (k5 k) st else st).
Proof.
  intros q c11 c22 c12 c21 c13 c31 c33 f k st H1 H2 H3 H4 H5 H6 H7. cbv zeta.
  change (cells q (keep f k)) with
    ([(kept (k1 k) (k1 f), q, 1, 1)] ++ [(kept (k2 k) (k2 f), q, 2, 2)] ++
     [(kept (k3 k) (k3 f), q, 1, 2); (kept (k3 k) (k3 f), q, 2, 1)] ++
     [(kept (k4 k) (k4 f), q, 1, 3); (kept (k4 k) (k4 f), q, 3, 1)] ++ [(kept (k5 k) (k5 f), q, 3, 3)])%nat.
  eapply addl_app; [|eapply addl_app; [|eapply addl_app; [|eapply addl_app]]].
  - instantiate (1 := if Rlt_dec CL_TOL (k1 f) then c11 (k1 k) st else st).
    unfold kept. destruct (Rlt_dec CL_TOL (k1 f)); [apply H1|apply (addl_zero q [(1,1)]%nat)].
  - unfold kept. instantiate (1 := if Rlt_dec CL_TOL (k2 f) then c22 (k2 k) _ else _).
    destruct (Rlt_dec CL_TOL (k2 f)); [apply H2|apply (addl_zero q [(2,2)]%nat)].
  - unfold kept. instantiate (1 := if Rlt_dec CL_TOL (k3 f) then c21 (k3 k) (c12 (k3 k) _) else _).
    destruct (Rlt_dec CL_TOL (k3 f)); [|apply (addl_zero q [(1,2);(2,1)]%nat)].
    apply (addl_app [_] [_] _ _ _ (H3 _ _) (H4 _ _)).
  - unfold kept. instantiate (1 := if Rlt_dec CL_TOL (k4 f) then c31 (k4 k) (c13 (k4 k) _) else _).
    destruct (Rlt_dec CL_TOL (k4 f)); [|apply (addl_zero q [(1,3);(3,1)]%nat)].
    apply (addl_app [_] [_] _ _ _ (H5 _ _) (H6 _ _)).
  - unfold kept. destruct (Rlt_dec CL_TOL (k5 f)); [apply H7|apply (addl_zero q [(3,3)]%nat)].
Qed.
Ltac each L := intros; match goal with st : (arr * arr * arr)%type |- _ => destruct st as [[? ?] ?] end; apply addl_one; apply (L n 4%nat V lat i mu nu Geo Grp Hi Hmu Hnu); assumption.
Lemma clover_s1_ok : forall x y s t f k st, addl (cells 1 (keep f k)) st (compute_clover_s1 n lat i mu nu x y s t f k st).
Proof.
  intros. apply sector_ok.
  - each compute_s1_ok.
  - each s1_2x2_ok.
  - each s1_1x2_ok.
  - each s1_2x1_ok.
  - each s1_1x3_ok.
  - each s1_3x1_ok.
  - each s1_3x3_ok.
Qed.
Lemma clover_s2_ok : forall x y s t f k st, addl (cells 2 (keep f k)) st (compute_clover_s2 n lat i mu nu x y s t f k st).
Proof.
  intros. apply sector_ok.
  - each compute_s2_ok.
  - each s2_2x2_ok.
  - each s2_1x2_ok.
  - each s2_2x1_ok.
  - each s2_1x3_ok.
  - each s2_3x1_ok.
  - each s2_3x3_ok.
Qed.
Lemma clover_s3_ok : forall x y s t f k st, addl (cells 3 (keep f k)) st (compute_clover_s3 n lat i mu nu x y s t f k st).
Proof.
  intros. apply sector_ok.
  - each compute_s3_ok.
  - each s3_2x2_ok.
  - each s3_1x2_ok.
  - each s3_2x1_ok.
  - each s3_1x3_ok.
  - each s3_3x1_ok.
  - each s3_3x3_ok.
Qed.
Lemma clover_s4_ok : forall x y s t f k st, addl (cells 4 (keep f k)) st (compute_clover_s4 n lat i mu nu x y s t f k st).
Proof.
  intros. apply sector_ok.
  - each compute_s4_ok.
  - each s4_2x2_ok.
  - each s4_1x2_ok.
  - each s4_2x1_ok.
  - each s4_1x3_ok.
  - each s4_3x1_ok.
  - each s4_3x3_ok.
Qed.
End sums.
