(** What the user reads off: gauge invariance, vacuum, positivity, the bound on the charge. *)
From Coq Require Import PeanoNat Lia List ZArith Reals Lra Setoid Morphisms Permutation.
From Verif Require Import CMat Det Arr MatSpec MmulModel MmulProofs MatModel MatProofs MatProofs2 Su2Model Su2Proofs FieldModel FieldProofs FieldProofs2 FieldProofs3 ProjModel ProjProofs CloverModel CloverProofs CloverProofs2 CloverProofs3 CloverProofs4 CloverProofs5 CloverProofs6 CloverProofs7.
From Verif Require NumProofs.
Import ListNotations.
Local Open Scope R_scope.

Lemma lsum_ext : forall (A : Type) (f g : A -> R) l, (forall x, In x l -> f x = g x) -> lsum (map f l) = lsum (map g l).
Proof. intros A f g l H. induction l as [|x l IH]; [reflexivity|]. cbn [map lsum]. rewrite IH, H; [reflexivity|now left|intros y Hy; apply H; now right]. Qed.
Lemma lsum_nonneg : forall (A : Type) (f : A -> R) l, (forall x, In x l -> 0 <= f x) -> 0 <= lsum (map f l).
Proof. intros A f l H. induction l as [|x l IH]; cbn [map lsum]; [lra|]. pose proof (H x (or_introl eq_refl)). specialize (IH (fun y Hy => H y (or_intror Hy))). lra. Qed.
Lemma lsum_null : forall (A : Type) (f : A -> R) l, (forall x, In x l -> 0 <= f x) -> lsum (map f l) = 0 -> forall x, In x l -> f x = 0.
Proof.
  intros A f l. induction l as [|y l IH]; intros H E x Hx; [destruct Hx|]. cbn [map lsum] in E.
  pose proof (H y (or_introl eq_refl)). pose proof (lsum_nonneg A f l (fun y Hy => H y (or_intror Hy))).
  destruct Hx as [<-|Hx]; [lra|]. apply IH; [intros z Hz; apply H; now right|lra|assumption].
Qed.
Lemma lsum_abs : forall (A : Type) (f g : A -> R) l, (forall x, In x l -> Rabs (f x) <= g x) -> Rabs (lsum (map f l)) <= lsum (map g l).
Proof.
  intros A f g l H. induction l as [|x l IH]; cbn [map lsum]; [rewrite Rabs_R0; lra|].
  pose proof (H x (or_introl eq_refl)). specialize (IH (fun y Hy => H y (or_intror Hy))).
  pose proof (Rabs_triang (f x) (lsum (map f l))). lra.
Qed.
Lemma seq_lt : forall i V, In i (seq 0 V) -> (i < V)%nat.
Proof. intros i V H. apply in_seq in H. lia. Qed.
Lemma planes_lt : forall mu nu, In (mu, nu) (planes 4) -> (mu < 4)%nat /\ (nu < 4)%nat.
Proof. intros mu nu H. cbn in H. repeat (destruct H as [H|H]; [injection H as <- <-; lia|]). destruct H. Qed.

Section invariance.
Variables (n V : nat) (lat lat' : lattice) (g : nat -> mat).
Hypothesis Geo : geom_ok 4 V lat.
Hypothesis Gau : gauged n 4 V g lat lat'.
Hypothesis Uni : group_gauge n V g.
Let Uni' : forall i, (i < V)%nat -> unitary n (g i) := fun i Hi => proj1 (Uni i Hi).
Lemma charge_gauged : forall b i, (i < V)%nat -> charge n lat' b i = charge n lat b i.
Proof.
  intros b i Hi. unfold charge. apply lsum_ext. intros [[[p q] r] s] H.
  assert (P : (p < 4 /\ q < 4 /\ r < 4 /\ s < 4)%nat).
  { unfold quadruples in H. repeat (apply in_flat_map in H as (? & ? & H)). apply in_map_iff in H as (? & E & ?).
    injection E as <- <- <- <-. repeat (match goal with K : In _ (seq _ _) |- _ => apply in_seq in K end). lia. }
  destruct P as (P1 & P2 & P3 & P4).
  pose proof (pair_trace_gauged n V lat lat' g Geo Gau Uni' b i p q r s Hi P1 P2 P3 P4) as E. unfold pair_trace in E. now rewrite E.
Qed.
Lemma energy_gauged : forall b i, (i < V)%nat -> energy n lat' b i = energy n lat b i.
Proof.
  intros b i Hi. unfold energy. apply lsum_ext. intros [mu nu] H. apply planes_lt in H as [P Q].
  pose proof (pair_trace_gauged n V lat lat' g Geo Gau Uni' b i mu nu mu nu Hi P Q P Q) as E. unfold pair_trace in E.
  destruct b; rewrite ?E; try reflexivity. now rewrite (plaq_trace_gauged n V lat lat' g Geo Gau Uni' i mu nu Hi P Q).
Qed.
Lemma Gmunu_gauged : forall b w w' o o', group_field n 4 V lat -> fits b n -> Permutation o (seq 0 V) -> Permutation o' (seq 0 V) ->
  compute_Gmunu b n lat' w' o' = compute_Gmunu b n lat w o.
Proof.
  intros b w w' o o' Grp Fit P P'.
  assert (Geo' : geom_ok 4 V lat').
  { destruct Gau as [S _]. now apply (geom_ok_same 4 V lat). }
  assert (Grp' : group_field n 4 V lat') by (eapply gauged_group; [apply (g_nbr _ _ _ Geo)|exact Uni|exact Grp|exact Gau]).
  rewrite (Gmunu_ok n V lat b w Geo Grp Fit o P), (Gmunu_ok n V lat' b w' Geo' Grp' Fit o' P').
  f_equal; f_equal; [|f_equal]; apply lsum_ext; intros i Hi; apply seq_lt in Hi; [now apply energy_gauged|now apply charge_gauged].
Qed.
End invariance.

(** * The vacuum *)
Section vacuum.
Variables (n V : nat) (lat : lattice) (g : nat -> mat).
Hypothesis Geo : geom_ok 4 V lat.
Hypothesis Uni : group_gauge n V g.
Hypothesis Pure : forall i mu, (i < V)%nat -> (mu < 4)%nat -> meq n (lnk n lat i mu) (mmul n (g i) (dag (g (nbr (lat i) mu)))).
Lemma pure_hop : forall i s, (i < V)%nat -> (snd s < 4)%nat -> meq n (hop n lat i s) (mmul n (g i) (dag (g (move lat i s)))) /\ (move lat i s < V)%nat.
Proof.
  intros i [[] d] Hi Hd; unfold hop, move; cbn [fst snd] in *.
  - split; [now apply Pure|now apply (g_nbr _ _ _ Geo)].
  - pose proof (g_bck _ _ _ Geo i d Hi Hd) as L. split; [|assumption].
    rewrite (Pure _ d L Hd), (g_nb _ _ _ Geo) by assumption. now rewrite dag_mmul, dag_dag.
Qed.
Lemma pure_walk : forall p i, (i < V)%nat -> good 4 p -> meq n (walk n lat i p) (mmul n (g i) (dag (g (arrive lat i p)))).
Proof.
  induction p as [|s p IH]; intros i Hi Gd; cbn [walk arrive].
  - destruct (Uni i Hi) as [[U1 U2] _]. now symmetry.
  - apply good_cons in Gd as [Hs Gd]. destruct (pure_hop i s Hi Hs) as [E L]. rewrite E, (IH _ L Gd).
    rewrite !mmul_assoc. rewrite (unitary_cancel_l n (g (move lat i s))) by apply (Uni _ L). reflexivity.
Qed.
Lemma pure_quadrant : forall i mu nu k a b, (i < V)%nat -> (mu < 4)%nat -> (nu < 4)%nat -> meq n (walk n lat i (quadrant k mu nu a b)) mid.
Proof.
  intros i mu nu k a b Hi Hm Hn. rewrite (pure_walk _ i Hi (good_quadrant k mu nu a b Hm Hn)).
  rewrite (quadrant_closed 4%nat V lat i mu nu Geo Hi Hm Hn). apply (Uni i Hi).
Qed.
Lemma pure_loops : forall i mu nu l, (i < V)%nat -> (mu < 4)%nat -> (nu < 4)%nat -> exists x, meq n (loops_sum n lat i mu nu l) (mscale (RtoC x) mid).
Proof.
  intros i mu nu l Hi Hm Hn. induction l as [|[[[x k] a] c] l [y IH]]; cbn [loops_sum].
  - exists 0. intros p q _ _. unfold mzero, mscale. cring.
  - exists (x + y). rewrite IH, pure_quadrant by assumption. intros p q _ _. unfold madd, mscale. rewrite RtoC_add. ring.
Qed.
Lemma pure_strength : forall b i mu nu, (i < V)%nat -> (mu < 4)%nat -> (nu < 4)%nat -> meq n (strength n lat b i mu nu) mzero.
Proof.
  intros b i mu nu Hi Hm Hn. unfold strength. destruct (pure_loops i mu nu (loops b) Hi Hm Hn) as [x E].
  assert (H : meq n (herm (loops_sum n lat i mu nu (loops b))) mzero).
  { intros p q Hp Hq. unfold herm, aherm, mscale, msub, dag. rewrite !E by assumption. unfold mscale, mid, mzero.
    rewrite (Nat.eqb_sym q p). destruct (Nat.eqb p q); cring. }
  set (L := herm _) in *. unfold trf. intros p q Hp Hq. unfold msub, mscale. rewrite (H p q Hp Hq).
  replace (mtr n L) with C0. { unfold mzero, Cdiv. ring. }
  unfold mtr. rewrite (csum_ext n _ (fun _ => C0)), csum_0; [reflexivity|]. intros k Hk. now apply H.
Qed.
Lemma zero_pair : forall b i p q r s, (i < V)%nat -> (p < 4)%nat -> (q < 4)%nat -> (r < 4)%nat -> (s < 4)%nat ->
  re (mtr n (mmul n (strength n lat b i p q) (strength n lat b i r s))) = 0.
Proof.
  intros. rewrite (pure_strength b i p q) by assumption. replace (mtr n (mmul n mzero (strength n lat b i r s))) with C0; [reflexivity|].
  unfold mtr, mmul, mzero. rewrite (csum_ext n _ (fun _ => C0)), csum_0; [reflexivity|]. intros k Hk.
  rewrite (csum_ext n _ (fun _ => C0)), csum_0; [reflexivity|]. intros; ring.
Qed.
Lemma pure_Gmunu : forall b w o, group_field n 4 V lat -> fits b n -> Permutation o (seq 0 V) -> compute_Gmunu b n lat w o = (0, 0).
Proof.
  intros b w o Grp Fit P. rewrite (Gmunu_ok n V lat b w Geo Grp Fit o P).
  assert (E : lsum (map (energy n lat b) (seq 0 V)) = 0).
  { rewrite (lsum_ext _ _ (fun _ => 0)); [clear; induction (seq 0 V); cbn; lra|]. intros i Hi. apply seq_lt in Hi.
    unfold energy. rewrite (lsum_ext _ _ (fun _ => 0)); [clear; induction (planes 4); cbn; lra|]. intros [mu nu] H. apply planes_lt in H as [Hm Hn].
    destruct b; try (now apply zero_pair). rewrite pure_quadrant by assumption.
    unfold mtr, mid. rewrite (csum_ext n _ (fun _ => C1)) by (intros; now rewrite Nat.eqb_refl).
    replace (re (csum n (fun _ => C1))) with (INR n); [lra|]. clear. induction n as [|k IH]; [reflexivity|]. rewrite S_INR, IH. reflexivity. }
  assert (F : lsum (map (charge n lat b) (seq 0 V)) = 0).
  { rewrite (lsum_ext _ _ (fun _ => 0)); [clear; induction (seq 0 V); cbn; lra|]. intros i Hi. apply seq_lt in Hi.
    rewrite (charge_is n V lat b Geo i Hi). unfold pair_trace. rewrite !zero_pair by (try assumption; lia). lra. }
  rewrite E, F. f_equal; lra.
Qed.
End vacuum.
