From Coq Require Import String.
From Verif Require Import CInt Lib ByteModel ByteSpec ByteProofs TextModel HdrModel TextProofs RngModel RngSpec.
Open Scope Z_scope.

(* ---------- one thread sees only its own part of the arrays ---------- *)
Definition view (s : rng) (th : nat) : option (list Z) * option Z * option Z :=
  (nth_error (tab s) th, nth_error (idx s) th, nth_error (car s) th).
Definition orel {A B} (R : A -> B -> Prop) (o1 : option A) (o2 : option B) : Prop :=
  match o1, o2 with Some a, Some b => R a b | None, None => True | _, _ => False end.
Lemma orel_bind : forall {A B A' B'} (P : A -> B -> Prop) (Q : A' -> B' -> Prop) o1 o2 f g,
  orel P o1 o2 -> (forall a b, P a b -> orel Q (f a) (g b)) -> orel Q (bindo o1 f) (bindo o2 g).
Proof. intros A B A' B' P Q [a|] [b|] f g H K; cbn in *; auto; contradiction. Qed.
Lemma orel_eq : forall {A} (o : option A), orel eq o o.
Proof. intros A [a|]; cbn; auto. Qed.

Definition same (th : nat) (s1 s2 : rng) : Prop := view s1 th = view s2 th.
Lemma set_same : forall {A} (l1 l2 : list A) k v, nth_error l1 k = nth_error l2 k ->
  orel (fun l l' => nth_error l k = nth_error l' k) (set_nth l1 k v) (set_nth l2 k v).
Proof.
  intros A l1 l2 k v H. destruct (le_lt_dec (List.length l1) k) as [L|L].
  - rewrite (setn_None l1) by lia. rewrite (setn_None l2); [exact I|].
    apply nth_error_None. rewrite <- H. apply nth_error_None. assumption.
  - assert (L2 : (k < List.length l2)%nat).
    { apply nth_error_Some. rewrite <- H. apply nth_error_Some. assumption. }
    destruct (setn_spec l1 k v L) as (l & E & _ & E1). destruct (setn_spec l2 k v L2) as (l' & E' & _ & E1').
    rewrite E, E'. cbn. rewrite E1, E1', Nat.eqb_refl. reflexivity.
Qed.
Section Same.
Variable th : nat.
Variables s1 s2 : rng.
Hypothesis H : same th s1 s2.
Lemma same_tab : nth_error (tab s1) th = nth_error (tab s2) th. Proof. unfold same, view in H. congruence. Qed.
Lemma same_idx : nth_error (idx s1) th = nth_error (idx s2) th. Proof. unfold same, view in H. congruence. Qed.
Lemma same_car : nth_error (car s1) th = nth_error (car s2) th. Proof. unfold same, view in H. congruence. Qed.
Lemma getT_same k : orel eq (getT s1 th k) (getT s2 th k).
Proof. unfold getT. rewrite same_tab. apply orel_eq. Qed.
Lemma getI_same : orel eq (getI s1 th) (getI s2 th).
Proof. unfold getI. rewrite same_idx. apply orel_eq. Qed.
Lemma getC_same : orel eq (getC s1 th) (getC s2 th).
Proof. unfold getC. rewrite same_car. apply orel_eq. Qed.
Lemma setT_same k v : orel (same th) (setT s1 th k v) (setT s2 th k v).
Proof.
  unfold setT. rewrite same_tab. destruct (nth_error (tab s2) th) as [t|]; cbn [bindo]; [|exact I].
  destruct (zset t k v) as [t'|]; cbn [bindo]; [|exact I].
  eapply orel_bind; [apply set_same; apply same_tab|]. intros a b E. cbn. unfold same, view. cbn. rewrite E, same_idx, same_car. reflexivity.
Qed.
Lemma setI_same v : orel (same th) (setI s1 th v) (setI s2 th v).
Proof.
  unfold setI. eapply orel_bind; [apply set_same; apply same_idx|].
  intros a b E. cbn. unfold same, view. cbn. rewrite E, same_tab, same_car. reflexivity.
Qed.
Lemma setC_same v : orel (same th) (setC s1 th v) (setC s2 th v).
Proof.
  unfold setC. eapply orel_bind; [apply set_same; apply same_car|].
  intros a b E. cbn. unfold same, view. cbn. rewrite E, same_tab, same_idx. reflexivity.
Qed.
End Same.
Definition out_same (th : nat) (p q : Z * rng) : Prop := fst p = fst q /\ same th (snd p) (snd q).
Ltac same_step :=
  first
  [ eapply orel_bind; [ first [apply getT_same | apply getI_same | apply getC_same]; eassumption
                      | let a := fresh in let b := fresh in let E := fresh in intros a b E; subst b; cbv zeta ]
  | eapply orel_bind; [ first [apply setT_same | apply setI_same | apply setC_same]; eassumption
                      | intros ? ? ?; cbv zeta ] ].
Lemma draw_same : forall g th s1 s2, same th s1 s2 -> orel (out_same th) (draw g th s1) (draw g th s2).
Proof.
  intros g th s1 s2 H. destruct g; cbn [draw].
  - unfold JKISS32. repeat same_step. split; cbn [fst snd]; auto.
  - unfold draw_MWC_1038. repeat same_step.
    destruct (negb _); repeat same_step; split; cbn [fst snd]; auto.
  - unfold draw_MWC_4096. repeat same_step.
    eapply orel_bind with (P := out_same th).
    + destruct (_ <? _); repeat same_step; split; cbn [fst snd]; auto.
    + intros [x aa] [y bb] [E K]. cbn in E, K. subst y. repeat same_step. split; cbn [fst snd]; auto.
  - unfold draw_WELL_512. repeat same_step. split; cbn [fst snd]; auto.
  - unfold draw_XOR_1024. repeat same_step. split; cbn [fst snd]; auto.
Qed.

(* ---------- a draw of thread th leaves the other threads alone ---------- *)
Definition opost {A} (P : A -> Prop) (o : option A) : Prop := match o with Some a => P a | None => True end.
Lemma opost_bind : forall {A B} (P : A -> Prop) (Q : B -> Prop) o f,
  opost P o -> (forall a, P a -> opost Q (f a)) -> opost Q (bindo o f).
Proof. intros A B P Q [a|] f H K; cbn in *; auto. Qed.
Lemma opost_any : forall {A} (o : option A), opost (fun _ => True) o.
Proof. intros A [a|]; exact I. Qed.
Definition frame (th : nat) (s s' : rng) : Prop := forall j, j <> th -> view s' j = view s j.
Lemma set_frame : forall {A} (l : list A) k v, opost (fun l' => forall j, j <> k -> nth_error l' j = nth_error l j) (set_nth l k v).
Proof.
  intros A l k v. destruct (le_lt_dec (List.length l) k) as [L|L]; [rewrite setn_None by lia; exact I|].
  destruct (setn_spec l k v L) as (l' & -> & _ & E). cbn. intros j Hj. rewrite E. destruct (Nat.eqb_spec j k); [contradiction|reflexivity].
Qed.
Section Frame.
Variable th : nat.
Variables s0 s : rng.
Hypothesis H : frame th s0 s.
Lemma setT_frame k v : opost (frame th s0) (setT s th k v).
Proof.
  unfold setT. destruct (nth_error (tab s) th) as [t|]; cbn [bindo]; [|exact I].
  destruct (zset t k v) as [t'|]; cbn [bindo]; [|exact I].
  eapply opost_bind; [apply set_frame|]. intros a E. cbn. intros j Hj. rewrite <- H by assumption.
  unfold view. cbn. rewrite E by assumption. reflexivity.
Qed.
Lemma setI_frame v : opost (frame th s0) (setI s th v).
Proof.
  unfold setI. eapply opost_bind; [apply set_frame|]. intros a E. cbn. intros j Hj. rewrite <- H by assumption.
  unfold view. cbn. rewrite E by assumption. reflexivity.
Qed.
Lemma setC_frame v : opost (frame th s0) (setC s th v).
Proof.
  unfold setC. eapply opost_bind; [apply set_frame|]. intros a E. cbn. intros j Hj. rewrite <- H by assumption.
  unfold view. cbn. rewrite E by assumption. reflexivity.
Qed.
End Frame.
Ltac frame_step :=
  first
  [ eapply opost_bind; [ first [eapply setT_frame | eapply setI_frame | eapply setC_frame]; eassumption | intros ? ?; cbv zeta ]
  | eapply opost_bind; [ lazymatch goal with |- opost _ (getT _ _ _) => idtac | |- opost _ (getI _ _) => idtac | |- opost _ (getC _ _) => idtac end;
                         apply opost_any | intros ? _; cbv zeta ] ].
Lemma draw_frame : forall g th s, opost (fun p => frame th s (snd p)) (draw g th s).
Proof.
  intros g th s. assert (H : frame th s s) by (intros ? ?; reflexivity). destruct g; cbn [draw].
  - unfold JKISS32. repeat frame_step. assumption.
  - unfold draw_MWC_1038. repeat frame_step. destruct (negb _); repeat frame_step; assumption.
  - unfold draw_MWC_4096. repeat frame_step.
    eapply opost_bind with (P := fun p : Z * rng => frame th s (snd p)).
    + destruct (_ <? _); repeat frame_step; assumption.
    + intros [x aa] K. cbn in K. repeat frame_step. assumption.
  - unfold draw_WELL_512. repeat frame_step. assumption.
  - unfold draw_XOR_1024. repeat frame_step. assumption.
Qed.

Lemma streams : forall g th order s s0 ws s', same th s s0 -> draws g order s = Some (ws, s') ->
  exists s0', draws g (filter (Nat.eqb th) order) s0 = Some (outs th order ws, s0') /\ same th s' s0'.
Proof.
  intros g th order. induction order as [|j order IH]; intros s s0 ws s' H E; cbn [draws] in E.
  - injection E as <- <-. exists s0. split; [reflexivity|assumption].
  - destruct (draw g j s) as [[w s1]|] eqn:Ed; [|discriminate]. cbn [bindo] in E.
    destruct (draws g order s1) as [[ws' s2]|] eqn:Es; [|discriminate]. cbn [bindo] in E. injection E as <- <-.
    unfold outs. cbn [combine filter fst]. rewrite (Nat.eqb_sym th j). destruct (Nat.eqb_spec j th) as [->|Hj].
    + cbn [map snd draws]. pose proof (draw_same g th s s0 H) as D. rewrite Ed in D.
      destruct (draw g th s0) as [[w0 s01]|]; [|contradiction]. destruct D as [D1 D2]. cbn in D1, D2. subst w0.
      destruct (IH s1 s01 ws' s2 D2 Es) as (s0' & E1 & E2). cbn [bindo]. rewrite E1. cbn. eauto.
    + apply (IH s1); [|assumption]. pose proof (draw_frame g j s) as F. rewrite Ed in F. cbn in F.
      unfold same. rewrite (F th) by auto. exact H.
Qed.
Lemma filter_repeat : forall th order, filter (Nat.eqb th) order = repeat th (count_occ Nat.eq_dec order th).
Proof.
  intros th. induction order as [|j order IH]; [reflexivity|]. cbn. destruct (Nat.eqb_spec th j), (Nat.eq_dec j th); try congruence; subst.
  cbn. rewrite IH. reflexivity.
Qed.
