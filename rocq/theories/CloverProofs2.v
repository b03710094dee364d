(** Every loop of clover.c is the rectangle it should be. *)
From Coq Require Import PeanoNat Lia List ZArith Reals Lra Setoid Morphisms Permutation.
From Verif Require Import CMat Det Arr MatSpec MmulModel MmulProofs MatModel MatProofs MatProofs2 Su2Model Su2Proofs FieldModel FieldProofs FieldProofs2 ProjModel ProjProofs CloverModel CloverProofs.
Import ListNotations.
Local Open Scope C_scope.

Section loops.
Variables (n ND V : nat) (lat : lattice) (i mu nu : nat).
Hypothesis Geo : geom_ok ND V lat.
Hypothesis Grp : group_field n ND V lat.
Hypothesis Hi : (i < V)%nat.
Hypothesis Hmu : (mu < ND)%nat.
Hypothesis Hnu : (nu < ND)%nat.
Let A (a b : Z) : nat := at_ lat i mu nu a b.
Lemma A_lt : forall a b, (A a b < V)%nat.
Proof. intros. apply (at_lt ND V); assumption. Qed.
Lemma N1 : forall a b, nbr (lat (A a b)) mu = A (a + 1) b.
Proof. intros. apply (nbr_mu ND V); assumption. Qed.
Lemma N2 : forall a b, nbr (lat (A a b)) nu = A a (b + 1).
Proof. intros. apply (nbr_nu ND V); assumption. Qed.
Lemma B1 : forall a b, bck (lat (A a b)) mu = A (a - 1) b.
Proof. intros. apply (bck_mu ND V); assumption. Qed.
Lemma B2 : forall a b, bck (lat (A a b)) nu = A a (b - 1).
Proof. intros. apply (bck_nu ND V); assumption. Qed.
Lemma A_0 : A 0 0 = i.
Proof. reflexivity. Qed.
Opaque at_.

Ltac sites :=
  repeat (rewrite N1 || rewrite N2 || rewrite B1 || rewrite B2);
  cbn [Z.add Z.sub Z.opp Z.pos_sub Pos.add Pos.succ Z.succ_double Z.pred_double Pos.pred_double Z.double].
Ltac chain :=
  match goal with
  | |- along _ _ _ _ (multab_suNC _ _ _ _) _ _ _ => eapply along_mul; [eassumption|eassumption|chain|chain]
  | |- along _ _ _ _ (multab_dag_suNC _ _ _ _) _ _ _ => eapply along_mul_dag; [eassumption|eassumption|chain|chain]
  | |- along _ _ _ _ (multabdag_suNC _ _ _ _) _ _ _ => eapply along_dag_mul; [eassumption|eassumption|chain|chain]
  | |- along _ _ _ _ (multab_dagdag_suNC _ _ _ _) _ _ _ => eapply along_dagdag; [eassumption|eassumption|assumption|chain|chain]
  | |- along _ _ _ _ (O (lat (A _ _)) _) _ _ _ => apply along_lnk; [apply A_lt|assumption|sites; reflexivity]
  end.
Ltac leaf def :=
  unfold def; cbv zeta; rewrite <- A_0; sites;
  eapply adds_along; [eapply along_eq; [chain|reflexivity|reflexivity]|reflexivity].

Lemma compute_s1_ok : forall mul sum u v, adds n lat i (quadrant 1 mu nu 1 1) mul (sum, u, v) (compute_s1 n lat i mu nu mul (sum, u, v)).
Proof. intros. leaf compute_s1. Qed.
Lemma s1_2x2_ok : (n = 2 \/ n = 3)%nat -> forall mul sum u v, adds n lat i (quadrant 1 mu nu 2 2) mul (sum, u, v) (s1_2x2 n lat i mu nu mul (sum, u, v)).
Proof. intro Hn. intros. leaf s1_2x2. Qed.
Lemma s1_1x2_ok : (n = 2 \/ n = 3)%nat -> forall mul sum u v, adds n lat i (quadrant 1 mu nu 1 2) mul (sum, u, v) (s1_1x2 n lat i mu nu mul (sum, u, v)).
Proof. intro Hn. intros. leaf s1_1x2. Qed.
Lemma s1_2x1_ok : (n = 2 \/ n = 3)%nat -> forall mul sum u v, adds n lat i (quadrant 1 mu nu 2 1) mul (sum, u, v) (s1_2x1 n lat i mu nu mul (sum, u, v)).
Proof. intro Hn. intros. leaf s1_2x1. Qed.
Lemma s1_1x3_ok : (n = 2 \/ n = 3)%nat -> forall mul sum u v, adds n lat i (quadrant 1 mu nu 1 3) mul (sum, u, v) (s1_1x3 n lat i mu nu mul (sum, u, v)).
Proof. intro Hn. intros. leaf s1_1x3. Qed.
Lemma s1_3x1_ok : (n = 2 \/ n = 3)%nat -> forall mul sum u v, adds n lat i (quadrant 1 mu nu 3 1) mul (sum, u, v) (s1_3x1 n lat i mu nu mul (sum, u, v)).
Proof. intro Hn. intros. leaf s1_3x1. Qed.
Lemma s1_3x3_ok : (n = 2 \/ n = 3)%nat -> forall x y s t mul sum u v, adds n lat i (quadrant 1 mu nu 3 3) mul (sum, u, v) (s1_3x3 n lat i mu nu x y s t mul (sum, u, v)).
Proof. intro Hn. intros. leaf s1_3x3. Qed.
Lemma compute_s2_any : forall mul sum u v, adds n lat i (quadrant 2 mu nu 1 1) mul (sum, u, v) (compute_s2 n lat i mu nu mul (sum, u, v)).
Proof. intros. leaf compute_s2. Qed.
Lemma compute_s2_ok : (n = 2 \/ n = 3)%nat -> forall mul sum u v, adds n lat i (quadrant 2 mu nu 1 1) mul (sum, u, v) (compute_s2 n lat i mu nu mul (sum, u, v)).
Proof. intro Hn. intros. leaf compute_s2. Qed.
Lemma s2_2x2_ok : (n = 2 \/ n = 3)%nat -> forall mul sum u v, adds n lat i (quadrant 2 mu nu 2 2) mul (sum, u, v) (s2_2x2 n lat i mu nu mul (sum, u, v)).
Proof. intro Hn. intros. leaf s2_2x2. Qed.
Lemma s2_1x2_ok : (n = 2 \/ n = 3)%nat -> forall mul sum u v, adds n lat i (quadrant 2 mu nu 1 2) mul (sum, u, v) (s2_1x2 n lat i mu nu mul (sum, u, v)).
Proof. intro Hn. intros. leaf s2_1x2. Qed.
Lemma s2_2x1_ok : (n = 2 \/ n = 3)%nat -> forall mul sum u v, adds n lat i (quadrant 2 mu nu 2 1) mul (sum, u, v) (s2_2x1 n lat i mu nu mul (sum, u, v)).
Proof. intro Hn. intros. leaf s2_2x1. Qed.
Lemma s2_1x3_ok : (n = 2 \/ n = 3)%nat -> forall mul sum u v, adds n lat i (quadrant 2 mu nu 1 3) mul (sum, u, v) (s2_1x3 n lat i mu nu mul (sum, u, v)).
Proof. intro Hn. intros. leaf s2_1x3. Qed.
Lemma s2_3x1_ok : (n = 2 \/ n = 3)%nat -> forall mul sum u v, adds n lat i (quadrant 2 mu nu 3 1) mul (sum, u, v) (s2_3x1 n lat i mu nu mul (sum, u, v)).
Proof. intro Hn. intros. leaf s2_3x1. Qed.
Lemma s2_3x3_ok : (n = 2 \/ n = 3)%nat -> forall x y s t mul sum u v, adds n lat i (quadrant 2 mu nu 3 3) mul (sum, u, v) (s2_3x3 n lat i mu nu x y s t mul (sum, u, v)).
Proof. intro Hn. intros. leaf s2_3x3. Qed.
Lemma compute_s3_ok : (n = 2 \/ n = 3)%nat -> forall mul sum u v, adds n lat i (quadrant 3 mu nu 1 1) mul (sum, u, v) (compute_s3 n lat i mu nu mul (sum, u, v)).
Proof. intro Hn. intros. leaf compute_s3. Qed.
Lemma s3_2x2_ok : (n = 2 \/ n = 3)%nat -> forall mul sum u v, adds n lat i (quadrant 3 mu nu 2 2) mul (sum, u, v) (s3_2x2 n lat i mu nu mul (sum, u, v)).
Proof. intro Hn. intros. leaf s3_2x2. Qed.
Lemma s3_1x2_ok : (n = 2 \/ n = 3)%nat -> forall mul sum u v, adds n lat i (quadrant 3 mu nu 1 2) mul (sum, u, v) (s3_1x2 n lat i mu nu mul (sum, u, v)).
Proof. intro Hn. intros. leaf s3_1x2. Qed.
Lemma s3_2x1_ok : (n = 2 \/ n = 3)%nat -> forall mul sum u v, adds n lat i (quadrant 3 mu nu 2 1) mul (sum, u, v) (s3_2x1 n lat i mu nu mul (sum, u, v)).
Proof. intro Hn. intros. leaf s3_2x1. Qed.
Lemma s3_1x3_ok : (n = 2 \/ n = 3)%nat -> forall mul sum u v, adds n lat i (quadrant 3 mu nu 1 3) mul (sum, u, v) (s3_1x3 n lat i mu nu mul (sum, u, v)).
Proof. intro Hn. intros. leaf s3_1x3. Qed.
Lemma s3_3x1_ok : (n = 2 \/ n = 3)%nat -> forall mul sum u v, adds n lat i (quadrant 3 mu nu 3 1) mul (sum, u, v) (s3_3x1 n lat i mu nu mul (sum, u, v)).
Proof. intro Hn. intros. leaf s3_3x1. Qed.
Lemma s3_3x3_ok : (n = 2 \/ n = 3)%nat -> forall x y s t mul sum u v, adds n lat i (quadrant 3 mu nu 3 3) mul (sum, u, v) (s3_3x3 n lat i mu nu x y s t mul (sum, u, v)).
Proof. intro Hn. intros. leaf s3_3x3. Qed.
Lemma compute_s4_any : forall mul sum u v, adds n lat i (quadrant 4 mu nu 1 1) mul (sum, u, v) (compute_s4 n lat i mu nu mul (sum, u, v)).
Proof. intros. leaf compute_s4. Qed.
Lemma compute_s4_ok : (n = 2 \/ n = 3)%nat -> forall mul sum u v, adds n lat i (quadrant 4 mu nu 1 1) mul (sum, u, v) (compute_s4 n lat i mu nu mul (sum, u, v)).
Proof. intro Hn. intros. leaf compute_s4. Qed.
Lemma s4_2x2_ok : (n = 2 \/ n = 3)%nat -> forall mul sum u v, adds n lat i (quadrant 4 mu nu 2 2) mul (sum, u, v) (s4_2x2 n lat i mu nu mul (sum, u, v)).
Proof. intro Hn. intros. leaf s4_2x2. Qed.
Lemma s4_1x2_ok : (n = 2 \/ n = 3)%nat -> forall mul sum u v, adds n lat i (quadrant 4 mu nu 1 2) mul (sum, u, v) (s4_1x2 n lat i mu nu mul (sum, u, v)).
Proof. intro Hn. intros. leaf s4_1x2. Qed.
Lemma s4_2x1_ok : (n = 2 \/ n = 3)%nat -> forall mul sum u v, adds n lat i (quadrant 4 mu nu 2 1) mul (sum, u, v) (s4_2x1 n lat i mu nu mul (sum, u, v)).
Proof. intro Hn. intros. leaf s4_2x1. Qed.
Lemma s4_1x3_ok : (n = 2 \/ n = 3)%nat -> forall mul sum u v, adds n lat i (quadrant 4 mu nu 1 3) mul (sum, u, v) (s4_1x3 n lat i mu nu mul (sum, u, v)).
Proof. intro Hn. intros. leaf s4_1x3. Qed.
Lemma s4_3x1_ok : (n = 2 \/ n = 3)%nat -> forall mul sum u v, adds n lat i (quadrant 4 mu nu 3 1) mul (sum, u, v) (s4_3x1 n lat i mu nu mul (sum, u, v)).
Proof. intro Hn. intros. leaf s4_3x1. Qed.
Lemma s4_3x3_ok : (n = 2 \/ n = 3)%nat -> forall x y s t mul sum u v, adds n lat i (quadrant 4 mu nu 3 3) mul (sum, u, v) (s4_3x3 n lat i mu nu x y s t mul (sum, u, v)).
Proof. intro Hn. intros. leaf s4_3x3. Qed.
End loops.
