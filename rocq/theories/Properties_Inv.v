(** C25: determinants, cofactors and inverses.  [mdet] is the Laplace
    expansion along the first row, [adj] the transposed matrix of cofactors. *)
From Coq Require Import PeanoNat List Reals Lra Lia.
From Verif Require Import CMat Det Arr MatSpec MmulModel MmulProofs MatModel MatProofs MatEx InvModel InvProofs InvProofs2.
Local Open Scope C_scope.

Theorem C25_det : forall n U, (0 < n)%nat ->
  det n U = mdet n (mx n U) /\ speed_det n U = mdet n (mx n U) /\ LU_det n U = mdet n (mx n U).
Proof. intros n U H. destruct (det_ok n U H). repeat split; try assumption. now apply LU_det_ok. Qed.
Print Assumptions C25_det.
Theorem C25_det_multiplicative : forall n a b c, (0 < n)%nat -> det n (multab n a b c) = det n b * det n c.
Proof.
  intros n a b c H. destruct (det_ok n (multab n a b c) H) as [-> _]. destruct (det_ok n b H) as [-> _].
  destruct (det_ok n c H) as [-> _]. destruct (multab_ok n a b c) as [E _]. rewrite (mdet_ext n _ _ E). apply mdet_mmul.
Qed.
Print Assumptions C25_det_multiplicative.
Theorem C25_cofactor_transpose : forall n a b, (2 <= n)%nat ->
  let r := fst (cofactor_transpose n a b) in let d := snd (cofactor_transpose n a b) in
  d = mdet n (mx n b) /\ frame (n*n) r a /\
  meq n (mmul n (mx n r) (mx n b)) (mscale d mid) /\ meq n (mmul n (mx n b) (mx n r)) (mscale d mid).
Proof.
  intros n a b H r d. destruct (cofactor_transpose_ok n a b H) as [[E F] D]. fold r in E, F. fold d in D.
  split; [exact D|]. split; [exact F|]. rewrite D. split; rewrite E; [apply adj_mmul|apply mmul_adj].
Qed.
Print Assumptions C25_cofactor_transpose.
(* Full statement: for every n.  It fails for singular matrices when n = 2. *)
Theorem C25_inverse_partial : forall n M_1 M, (0 < n)%nat -> n <> 2%nat ->
  match inverse n M_1 M with
  | Some r => frame (n*n) r M_1 /\ meq n (mmul n (mx n r) (mx n M)) mid /\ meq n (mmul n (mx n M) (mx n r)) mid
  | None => forall B, ~ meq n (mmul n B (mx n M)) mid
  end.
Proof. exact inverse_ok. Qed.
Print Assumptions C25_inverse_partial.
Theorem C25_inverse_2_partial : forall M_1 M, (exists B, meq 2 (mmul 2 B (mx 2 M)) mid) ->
  exists r, inverse 2 M_1 M = Some r /\ frame 4 r M_1 /\
  meq 2 (mmul 2 (mx 2 r) (mx 2 M)) mid /\ meq 2 (mmul 2 (mx 2 M) (mx 2 r)) mid.
Proof. intros M_1 M [B HB]. apply inverse_2_ok. apply (det_of_inverse 2 _ _ HB). Qed.
Print Assumptions C25_inverse_2_partial.
Theorem C25_inverse_2_refuted : exists M_1 M r, inverse 2 M_1 M = Some r /\ forall B, ~ meq 2 (mmul 2 B (mx 2 M)) mid.
Proof.
  exists (fun _ => C0), (fun _ => C1). eexists. split; [reflexivity|]. intros B HB.
  destruct (det_of_inverse 2 _ _ HB) as [_ D]. apply D. rewrite mdet_2. unfold det2, mx. ring.
Qed.
Print Assumptions C25_inverse_2_refuted.
(** an invertible and a singular 4 x 4 matrix *)
Example C25_ex : meq 4 (mmul 4 (mscale (RtoC (1/2)) mid) (mx 4 (two 4))) mid /\ inverse 4 (fun _ => C0) (two 4) <> None
  /\ inverse 4 (fun _ => C0) (fun _ => C1) = None.
Proof.
  assert (H : meq 4 (mmul 4 (mscale (RtoC (1/2)) mid) (mx 4 (two 4))) mid).
  { rewrite (two_id 4) by lia. rewrite mmul_scale_l, mmul_1_l. intros i j _ _. unfold mscale, mid.
    destruct (Nat.eqb i j); apply C_eq; cunfold; field. }
  split; [exact H|]. split.
  - pose proof (C25_inverse_partial 4 (fun _ => C0) (two 4) ltac:(lia) ltac:(lia)) as G.
    destruct (inverse 4 (fun _ => C0) (two 4)); [discriminate|]. elim (G _ H).
  - pose proof (C25_inverse_partial 4 (fun _ => C0) (fun _ => C1) ltac:(lia) ltac:(lia)) as G.
    destruct (inverse 4 (fun _ => C0) (fun _ => C1)) as [r|]; [|reflexivity].
    destruct G as (_ & L & R). exfalso. apply C1_neq_0.
    pose proof (R 0%nat 0%nat ltac:(lia) ltac:(lia)) as R0. pose proof (R 1%nat 0%nat ltac:(lia) ltac:(lia)) as R1.
    unfold mid in R0, R1. cbn [Nat.eqb] in R0, R1. rewrite <- R0, <- R1. reflexivity.
Qed.
