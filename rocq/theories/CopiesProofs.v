(** Proofs for CopiesModel.v *)
From Coq Require Import Lia Lra.
From Verif Require Import CInt Cplx CMat Det Arr MatModel MatSpec FieldModel QtopModel QtopProofs2 GeomModel GeomSpec GluonSpec LandauModel LandauSpec LandauProofs4 LandauProofs5 ReportModel CopiesModel.
Import ListNotations.
Local Open Scope R_scope.

(** a copy that counts: it has neither run into the limit nor given up *)
Definition counts (it : Z) : Prop := it <> 1000%Z /\ it <> 123456789%Z.
(** in the order asked for: at least as good *)
Definition as_good (best_copy : bool) (a b : R) : Prop := if best_copy then a <= b else b <= a.
Section Copies.
Variable best_copy : bool.
Variable fixing : R -> Z -> lattice -> fields * fields -> option (Z * R * lattice * (fields * fields)).
Variable random : nat -> lattice -> lattice.
Variable functional : lattice -> R.
Variable lat0 : lattice.
(** the k-th copy: what the gauge fixing made of the k-th random transformation *)
Definition tried (k : nat) (it : Z) (l : lattice) : Prop := exists s th s', fixing (1 / 1000000) 1000 (random k lat0) s = Some (it, th, l, s').
Definition chosen (m : nat) (tries : nat -> Z * lattice) (c : lattice) : Prop :=
  (exists k, (k < m)%nat /\ snd (tries k) = c /\ counts (fst (tries k))) /\
  as_good best_copy (functional c) (first_link best_copy) /\ functional c <> first_link best_copy /\
  forall k, (k < m)%nat -> counts (fst (tries k)) -> as_good best_copy (functional c) (functional (snd (tries k))).
Definition none_good (m : nat) (tries : nat -> Z * lattice) : Prop := forall k, (k < m)%nat -> counts (fst (tries k)) -> as_good best_copy (first_link best_copy) (functional (snd (tries k))).
Lemma accepted_true a b it : accepted best_copy a b it = true -> counts it /\ as_good best_copy a b /\ a <> b.
Proof.
  unfold accepted, counts, as_good, GIVEN_UP. intro H. apply andb_prop in H. destruct H as [H H3]. apply andb_prop in H. destruct H as [H1 H2]. apply negb_true_iff, Z.eqb_neq in H2, H3. split; [tauto|].
  destruct best_copy; [destruct (Rlt_dec a b)|destruct (Rlt_dec b a)]; try discriminate; lra.
Qed.
Lemma accepted_false a b it : accepted best_copy a b it = false -> counts it -> as_good best_copy b a.
Proof.
  unfold accepted, counts, as_good, GIVEN_UP. intros H [N1 N2]. apply Z.eqb_neq in N1, N2. rewrite N1, N2 in H. destruct best_copy; [destruct (Rlt_dec a b)|destruct (Rlt_dec b a)]; try discriminate; lra.
Qed.
Lemma as_good_trans a b c : as_good best_copy a b -> as_good best_copy b c -> as_good best_copy a c.
Proof. unfold as_good. destruct best_copy; lra. Qed.
Lemma copies_ok : forall todo k tries s m b it0 s' best it,
  copies best_copy fixing random functional todo k lat0 s m b it0 = Some (s', best, it) ->
  (forall j, (j < k)%nat -> tried j (fst (tries j)) (snd (tries j))) ->
  (k = 0%nat -> it0 = 0%Z) -> (forall j, k = S j -> it0 = fst (tries j)) ->
  match b with None => m = first_link best_copy /\ none_good k tries | Some c => m = functional c /\ chosen k tries c end ->
  exists tries', (forall j, (j < k + todo)%nat -> tried j (fst (tries' j)) (snd (tries' j))) /\
  (k + todo = 0 -> it = 0%Z)%nat /\ (forall j, (k + todo = S j)%nat -> it = fst (tries' j)) /\
  match best with None => none_good (k + todo) tries' | Some c => chosen (k + todo) tries' c end.
Proof.
  induction todo as [|todo IH]; intros k tries s m b it0 s' best it E T I0 I1 B; cbn [copies] in E.
  - injection E as <- <- <-. rewrite Nat.add_0_r. exists tries. split; [exact T|]. split; [exact I0|]. split; [exact I1|]. destruct b; tauto.
  - destruct (fixing (1 / 1000000) 1000 (random k lat0) s) as [[[[i1 th] c] s1]|] eqn:F; [|discriminate]. cbn [bindo] in E. cbv zeta in E.
    set (tries' := fun j => if Nat.eqb j k then (i1, c) else tries j).
    assert (Tk : tries' k = (i1, c)) by (unfold tries'; now rewrite Nat.eqb_refl).
    assert (Tj : forall j, (j < k)%nat -> tries' j = tries j) by (intros j Hj; unfold tries'; destruct (Nat.eqb_spec j k); [lia|reflexivity]).
    assert (T' : forall j, (j < S k)%nat -> tried j (fst (tries' j)) (snd (tries' j))).
    { intros j Hj. destruct (Nat.eq_dec j k) as [->|N]; [rewrite Tk; exists s, th, s1; exact F|]. rewrite Tj by lia. apply T. lia. }
    replace (k + S todo)%nat with (S k + todo)%nat by lia.
    assert (L : forall j, S k = S j -> i1 = fst (tries' j)) by (intros j Hj; injection Hj as <-; now rewrite Tk).
    destruct (accepted best_copy (functional c) m i1) eqn:A.
    + apply (IH (S k) tries' _ _ _ _ _ _ _ E T'); [discriminate|exact L|]. apply accepted_true in A. destruct A as (Cn & G & N). split; [reflexivity|].
      split; [exists k; rewrite Tk; split; [lia|split; [reflexivity|exact Cn]]|]. destruct b as [c0|].
      * destruct B as (-> & _ & G0 & N0 & Al). split; [eapply as_good_trans; eassumption|]. split; [unfold as_good in *; destruct best_copy; lra|]. intros j Hj Hc. destruct (Nat.eq_dec j k) as [->|N1]; [rewrite Tk; unfold as_good; destruct best_copy; cbn; lra|].
        rewrite Tj in * by lia. eapply as_good_trans; [exact G|]. apply Al; [lia|exact Hc].
      * destruct B as (-> & Al). split; [exact G|]. split; [exact N|]. intros j Hj Hc. destruct (Nat.eq_dec j k) as [->|N1]; [rewrite Tk; unfold as_good; destruct best_copy; cbn; lra|].
        rewrite Tj in * by lia. eapply as_good_trans; [exact G|]. apply Al; [lia|exact Hc].
    + apply (IH (S k) tries' _ _ _ _ _ _ _ E T'); [discriminate|exact L|]. pose proof (accepted_false _ _ _ A) as Fa. destruct b as [c0|].
      * destruct B as (-> & (j0 & H0 & E0 & C0) & G0 & N0 & Al). split; [reflexivity|]. split; [exists j0; rewrite Tj by lia; split; [lia|tauto]|]. split; [exact G0|]. split; [exact N0|].
        intros j Hj Hc. destruct (Nat.eq_dec j k) as [->|N1]; [rewrite Tk in *; now apply Fa|]. rewrite Tj in * by lia. apply Al; [lia|exact Hc].
      * destruct B as (-> & Al). split; [reflexivity|]. intros j Hj Hc. destruct (Nat.eq_dec j k) as [->|N1]; [rewrite Tk in *; now apply Fa|]. rewrite Tj in * by lia. apply Al; [lia|exact Hc].
Qed.
Lemma luxury_ok luxury acc max s it th lat' s' : luxury_copy_fast best_copy fixing random functional luxury acc max lat0 s = Some (it, th, lat', s') ->
  exists tries c it1 s1, (forall k, (k < luxury)%nat -> tried k (fst (tries k)) (snd (tries k))) /\ chosen luxury tries c /\
  fixing acc max c s1 = Some (it1, th, lat', s') /\ it = u64 (fst (tries (luxury - 1)%nat) + it1).
Proof.
  unfold luxury_copy_fast. intro E. destruct (copies _ _ _ _ _ _ _ _ _ _ _) as [[[s1 best] its]|] eqn:Cp; [|discriminate]. cbn [bindo] in E. destruct best as [c|]; [|discriminate]. cbn [bindo] in E.
  destruct (fixing acc max c s1) as [[[[it1 th1] l1] s2]|] eqn:F; [|discriminate]. cbn [bindo] in E. injection E as <- <- <- <-.
  destruct (copies_ok _ _ (fun _ => (0%Z, lat0)) _ _ _ _ _ _ _ Cp) as (tries & T & _ & L & Ch); try (intros; lia); try reflexivity; [split; [reflexivity|intros k Hk; lia]|].
  rewrite Nat.add_0_l in *. exists tries, c, it1, s1. split; [exact T|]. split; [exact Ch|]. split; [exact F|]. f_equal. f_equal. apply L. destruct Ch as ((k & Hk & _) & _). lia.
Qed.
End Copies.
