(** Proofs for C68: Gram-Schmidt keeps the order and the sign of the vectors. *)
From Coq Require Import Permutation Lia Lra Psatz.
From Verif Require Import CInt Cplx CMat Det Arr MatModel InvModel MatSpec MatProofs GramModel GramProofs LandauSpec2.
Local Open Scope C_scope.

(** ** Gram-Schmidt with positive coefficients *)
Lemma norm_pos n (u : nat -> C) : dot n u u <> C0 -> (0 < 1 / sqrt (rsum n (fun c => Cplx.norm2 (u c))))%R.
Proof.
  intro N. apply Rdiv_lt_0_compat; [lra|]. apply sqrt_lt_R0.
  assert (P : (0 <= rsum n (fun c => Cplx.norm2 (u c)))%R) by (clear; induction n; cbn [rsum]; [lra|pose proof (norm2_nonneg (u n)); lra]).
  destruct P as [P|P]; [exact P|]. exfalso. apply N.
  assert (E : dot n u u = RtoC (rsum n (fun c => Cplx.norm2 (u c)))) by (clear; unfold dot; induction n; cbn [rsum csum]; [cring|rewrite IHn; destruct (u n); unfold Cplx.norm2; cring]).
  rewrite E, <- P. reflexivity.
Qed.
Definition rows_pos (n : nat) (u : mat) (k : nat) (v : mat) : Prop := schmidt k n u v.
Lemma gs_turn_pos n U0 k s : (k < n-1)%nat -> indep (n-1) n (mx n U0) -> gs_inv n U0 k s -> rows_pos n (mx n U0) k (fst s) -> rows_pos n (mx n U0) (S k) (fst (gs_turn n k s)).
Proof.
  destruct s as [v U]. intros Hk In (G1 & G2 & G3 & G4 & G5 & G6) P. unfold gs_turn. cbn [fst] in *. set (u := mx n U0) in *.
  pose proof (gs_inner_ok n v u k Hk (fun c Hc => G1 k c ltac:(lia) Hc)) as I. cbv zeta in I.
  set (v1 := for_ k (fun i v => set_row v k (project n (v k) (v i))) v) in *. destruct I as (I1 & I2 & I3).
  destruct (G5 In) as [O L]. destruct (I2 O L) as [Q1 (a & A1 & A2)].
  assert (N : dot n (v1 k) (v1 k) <> C0).
  { intro E. apply C1_neq_0. rewrite <- A1.
    assert (B := In (fun j => if Nat.ltb j (S k) then a j else C0)). cbv beta in B.
    specialize (B (fun c Hc => ltac:(
      transitivity (csum (S k) (fun j => a j * u j c));
      [symmetry; rewrite (csum_extend (S k) (n-1)) by lia; apply csum_ext; intros j Hj; destruct (Nat.ltb j (S k)); ring
      | rewrite <- A2 by assumption; now apply (dot_self_0 n (v1 k))])) k ltac:(lia)).
    rewrite (proj2 (Nat.ltb_lt k (S k))) in B by lia. exact B. }
  intros i Hi. unfold set_row. destruct (Nat.eqb_spec i k) as [->|Nk].
  - exists (fun j => a j * RtoC (1 / sqrt (rsum n (fun c => Cplx.norm2 (v1 k c))))). pose proof (norm_pos n (v1 k) N) as Pos.
    split; [rewrite A1; cunfold; cbn; ring|]. split; [rewrite A1; cunfold; cbn; lra|]. intros c Hc.
    rewrite vect_norm2_ok, A2 by assumption. rewrite <- csum_mul_r. apply csum_ext; intros; ring.
  - destruct (P i ltac:(lia)) as (b & B1 & B2 & B). exists b. split; [exact B1|]. split; [exact B2|]. intros c Hc. rewrite I1 by assumption. now apply B.
Qed.
Lemma schmidt_ext m n u g u' g' : (forall i c, (i < m)%nat -> (c < n)%nat -> u i c = u' i c) -> (forall i c, (i < m)%nat -> (c < n)%nat -> g i c = g' i c) -> schmidt m n u g -> schmidt m n u' g'.
Proof.
  intros E F S i Hi. destruct (S i Hi) as (a & A1 & A2 & A). exists a. split; [exact A1|]. split; [exact A2|]. intros c Hc. rewrite <- F, A by assumption. apply csum_ext. intros j Hj. rewrite E by lia. reflexivity.
Qed.
Lemma gram_n_schmidt m U : (0 < m)%nat -> indep m (S m) (mx (S m) U) -> schmidt m (S m) (mx (S m) U) (mx (S m) (gram_reunit_n (S m) U)).
Proof.
  intros Hm In. set (n := S m) in *. unfold gram_reunit_n.
  match goal with |- context[for_ (n-1) (gs_turn n) (?v0, U)] => set (v := v0) end.
  assert (Hv : forall i c, (i < n-1)%nat -> (c < n)%nat -> v i c = mx n U i c).
  { intros i c Hi Hc. unfold v.
    apply (for_ind (fun k (v : mat) => (i < k)%nat -> v i c = mx n U i c)); [intro; lia| |exact Hi].
    intros k w Hk Hw Hik. unfold set_row. destruct (Nat.eqb_spec i k) as [->|N]; [|apply Hw; lia].
    pose proof (fill1 n (fun j _ => U (j + n*k)%nat) (w k) c) as F. cbv beta in F. rewrite F.
    now rewrite (proj2 (Nat.ltb_lt c n)) by assumption. }
  assert (Hm1 : (n - 1)%nat = m) by (unfold n; lia).
  assert (G : gs_inv n U (n-1) (for_ (n-1) (gs_turn n) (v, U)) /\ rows_pos n (mx n U) (n-1) (fst (for_ (n-1) (gs_turn n) (v, U)))).
  { apply (for_ind (fun k s => gs_inv n U k s /\ rows_pos n (mx n U) k (fst s))).
    - split; [|intros i Hi; lia]. split; [|split; [|split; [|split; [|split]]]].
      + intros i c Hi Hc. apply Hv; lia.
      + intros; lia.
      + reflexivity.
      + intros x _; reflexivity.
      + intros _. split; [intros i j Hi; lia|intros; lia].
      + intros _ i c Hi Hc. now apply Hv.
    - intros i s Hi [G P]. split; [now apply gs_turn_ok|apply gs_turn_pos; try assumption]. now rewrite Hm1. }
  destruct (for_ (n-1) (gs_turn n) (v, U)) as [w U1]. cbn [fst] in G. destruct G as ((_ & G2 & _) & P). rewrite Hm1 in *.
  apply (schmidt_ext m n (mx n U) w); [reflexivity| |exact P]. intros i c Hi Hc. symmetry.
  match goal with |- mx n (for_ n ?b U1) i c = _ => set (body := b) end.
  apply (for_ind (fun q (W : arr) => mx n W i c = w i c)); [now apply G2|]. intros h W Hh HW. unfold body. cbv zeta. unfold mx in *.
  rewrite upd_neq; [exact HW|]. replace (n*n - n + h)%nat with (h + n*m)%nat by (unfold n; lia). intro X. assert (i = m) by nia. lia.
Qed.
Lemma gram_3_schmidt U : indep 2 3 (tr_ (mx 3 U)) -> schmidt 2 3 (tr_ (mx 3 U)) (tr_ (mx 3 (gram_reunit_3 U))).
Proof.
  intro I. destruct (gram_3_form U) as (F & A & B & Z). cbv zeta in *. set (r := gram_reunit_3 U) in *.
  set (a := nrm 3 (col 3 U 0)) in *. set (b := nrm 3 (second U)) in *.
  assert (N1 : dot 3 (col 3 U 0) (col 3 U 0) <> C0).
  { intro E. apply C1_neq_0. apply (I (fun j => if Nat.eqb j 0 then C1 else C0) (fun c Hc => ltac:(
      cbn [csum Nat.eqb]; unfold tr_; change (mx 3 U c 0%nat) with (col 3 U 0 c); rewrite (dot_self_0 3 _ E c Hc); ring)) 0%nat ltac:(lia)). }
  set (p := dot 3 (col 3 U 1) a) in *. set (k := RtoC (1 / sqrt (rnorm 3 (col 3 U 0)))).
  assert (Sp : forall c, second U c = col 3 U 1 c - p * (col 3 U 0 c * k)) by reflexivity.
  assert (N2 : dot 3 (second U) (second U) <> C0).
  { intro E. apply C1_neq_0. apply (I (fun j => if Nat.eqb j 0 then - p * k else C1) (fun c Hc => ltac:(
      cbn [csum Nat.eqb]; unfold tr_; etransitivity; [|exact (dot_self_0 3 _ E c Hc)];
      rewrite Sp; unfold col; ring)) 1%nat ltac:(lia)). }
  intros i Hi. destruct i as [|[|i]]; try lia.
  - exists (fun _ => k). pose proof (norm_pos 3 _ N1) as P. split; [reflexivity|]. split; [exact P|]. intros c Hc. unfold tr_. rewrite A by assumption. cbn [csum]. unfold a, nrm, col. fold (col 3 U 0). fold k. ring.
  - set (k2 := (1 / sqrt (rnorm 3 (second U)))%R). exists (fun j => match j with 0%nat => - (p * k * RtoC k2) | _ => RtoC k2 end). pose proof (norm_pos 3 _ N2) as P.
    split; [reflexivity|]. split; [exact P|]. intros c Hc. unfold tr_. rewrite B by assumption. cbn [csum]. unfold b, nrm. fold k2. rewrite Sp. unfold col. ring.
Qed.
Lemma gram_2_schmidt U : indep 1 2 (tr_ (mx 2 U)) -> schmidt 1 2 (tr_ (mx 2 U)) (tr_ (mx 2 (gram_reunit_2 U))).
Proof.
  intros I i Hi. replace i with 0%nat by lia.
  assert (N1 : dot 2 (col 2 U 0) (col 2 U 0) <> C0).
  { intro E. apply C1_neq_0. apply (I (fun j => C1) (fun c Hc => ltac:(
      cbn [csum Nat.eqb]; unfold tr_; change (mx 2 U c 0%nat) with (col 2 U 0 c); rewrite (dot_self_0 2 _ E c Hc); ring)) 0%nat ltac:(lia)). }
  exists (fun _ => RtoC (1 / sqrt (rnorm 2 (col 2 U 0)))). split; [reflexivity|]. split; [exact (norm_pos 2 _ N1)|].
  assert (N : rnorm 2 (col 2 U 0) = (re (U 0%nat) * re (U 0%nat) + im (U 0%nat) * im (U 0%nat) + re (U 2%nat) * re (U 2%nat) + im (U 2%nat) * im (U 2%nat))%R).
  { unfold rnorm, Cplx.norm2, col, mx. cbn [rsum Nat.add Nat.mul]. ring. }
  rewrite N. intros [|[|c]] Hc; try lia; unfold tr_, gram_reunit_2, mx, col, upd; cbn [csum Nat.eqb Nat.add Nat.mul];
    match goal with |- context[sqrt ?x] => generalize (1 / sqrt x)%R end; intro k; lazy beta iota zeta delta [mx col upd Nat.eqb Nat.add Nat.mul]; destruct (U 0%nat), (U 2%nat); cring.
Qed.
Lemma gram_schmidt n U M : (2 <= n)%nat -> leading n (mx n U) ->
  match n with 2%nat | 3%nat => forall i c, (i < n)%nat -> (c < n-1)%nat -> mx n U i c = M i c | _ => forall i c, (i < n-1)%nat -> (c < n)%nat -> mx n U i c = M i c end ->
  reunitarised n M (mx n (gram_reunit n U)).
Proof.
  intros Hn L E. split; [now apply (gram_reunit_ok n U Hn)|]. destruct n as [|[|[|[|m]]]]; try lia.
  - apply (schmidt_ext 1 2 (tr_ (mx 2 U)) (tr_ (mx 2 (gram_reunit 2 U)))); [intros i c Hi Hc; unfold tr_; apply E; lia|reflexivity|]. now apply gram_2_schmidt.
  - apply (schmidt_ext 2 3 (tr_ (mx 3 U)) (tr_ (mx 3 (gram_reunit 3 U)))); [intros i c Hi Hc; unfold tr_; apply E; lia|reflexivity|]. now apply gram_3_schmidt.
  - apply (schmidt_ext (S (S (S (S m))) - 1) (S (S (S (S m)))) (mx (S (S (S (S m)))) U) (mx (S (S (S (S m)))) (gram_reunit (S (S (S (S m)))) U))); [intros i c Hi Hc; apply E; lia|reflexivity|].
    apply (gram_n_schmidt (S (S (S m)))); [lia|exact L].
Qed.
