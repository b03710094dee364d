(** The temporal constance, the functional and the maximum. *)
From Coq Require Import Permutation Lia Lra.
From Verif Require Import CInt GeomModel GeomSpec GeomProofs GeomProofs2 Cplx CMat Det Arr MatModel MatSpec MatProofs ProjModel ProjProofs HypProofs FieldModel FieldProofs FieldProofs2 FieldProofs3 QtopModel NumModel GluonSpec GluonProofs GluonProofs2 GluonProofs3 GluonProofs4 QtopProofs2 LandauModel LandauSpec LandauProofs LandauProofs2 LandauProofs6 ReportModel ReportSpec ReportProofs.
Import ListNotations.
Local Open Scope R_scope.

(** * Temporal constance *)
Lemma slice_charge_shape n ND LCU lat t : (0 < n)%nat -> herm_traceless n (slice_charge n ND LCU lat t).
Proof.
  intro Hn. unfold slice_charge. split.
  - intros i j Hi Hj. unfold dag, msum. rewrite csum_conj. apply csum_ext. intros x _. symmetry. exact (trf_herm_hermitian n (lnk n lat (LCU * t + x) (ND - 1)) Hn i j Hi Hj).
  - unfold mtr, msum. rewrite StaticProofs.csum_swap. rewrite (csum_ext _ _ (fun _ => C0)); [apply csum_0|]. intros x _. exact (trf_traceless n (herm (lnk n lat (LCU * t + x) (ND - 1))) Hn).
Qed.
Lemma herm_traceless_meq n A B : meq n A B -> herm_traceless n B -> herm_traceless n A.
Proof. intros E [H T]. split; [|now rewrite E]. now rewrite E. Qed.
Lemma const_time_value sched n ND LCU T tmp lat : any_order sched -> (2 <= n)%nat -> (1 < T)%nat ->
  const_time sched n ND LCU T tmp lat = Some (dsum (T - 1) (fun k => slice_difference n tmp (slice_field n ND LCU tmp lat 0) (slice_field n ND LCU tmp lat (S k))) / INR (n * n * (T - 1))).
Proof.
  intros Any Hn HT. unfold const_time. destruct (Nat.eqb_spec (n * n * (T - 1)) 0) as [E|_]; [nia|].
  rewrite (fold_plus (fun k => slice_difference n tmp (slice_field n ND LCU tmp lat 0) (slice_field n ND LCU tmp lat (S k)))), (order_sum sched _ _ _ Any). f_equal. unfold Rdiv. ring.
Qed.
Lemma const_time_zero sched n ND LCU T tmp lat : any_order sched -> (2 <= n)%nat -> (1 < T)%nat ->
  const_time sched n ND LCU T tmp lat = Some 0 <-> (forall t, (t < T)%nat -> slice_difference n tmp (slice_field n ND LCU tmp lat 0) (slice_field n ND LCU tmp lat t) = 0 \/ t = 0%nat).
Proof.
  intros Any Hn HT. rewrite const_time_value by assumption. assert (P : 0 < INR (n * n * (T - 1))) by (apply lt_0_INR; nia).
  pose proof (dsum_zero (T - 1) (fun k => slice_difference n tmp (slice_field n ND LCU tmp lat 0) (slice_field n ND LCU tmp lat (S k))) (fun k _ => slice_difference_nonneg _ _ _ _)) as Z0. cbv beta in Z0. split.
  - intros E t Ht. destruct t as [|t]; [now right|left]. injection E as E. apply Rmult_integral in E. destruct E as [E|E]; [|exfalso; pose proof (Rinv_0_lt_compat _ P); lra]. apply Z0; [exact E|lia].
  - intro E. f_equal. rewrite (proj2 Z0); [unfold Rdiv; ring|]. intros k Hk. destruct (E (S k) ltac:(lia)) as [H|H]; [exact H|lia].
Qed.

(** * The functional *)
Lemma Rabs_le_inv x y : Rabs x <= y -> - y <= x <= y.
Proof. unfold Rabs. destruct (Rcase_abs x); lra. Qed.
Lemma gauge_functional_value sched n ND V lat : any_order sched -> gauge_functional sched n ND V lat = 1 - functional n ND V lat / INR (ND * n * V).
Proof.
  intro Any. unfold gauge_functional. rewrite (fold_plus (fun i => for_ ND (fun mu loc => loc + re (trace n (O (lat i) mu))) 0)), (order_sum sched _ _ _ Any), Rplus_0_l. do 2 f_equal. unfold functional. apply dsum_ext. intros x _.
  clear Any. induction ND as [|m IH]; [reflexivity|]. rewrite for_S_, IH, dsum_S, trace_ok. reflexivity.
Qed.
Lemma dsum_const m c : dsum m (fun _ => c) = INR m * c.
Proof. induction m; [unfold dsum; cbn; ring|]. rewrite dsum_S, IHm, S_INR. ring. Qed.
Lemma re_csum_dsum m f : re (csum m f) = dsum m (fun i => re (f i)).
Proof. induction m; [reflexivity|]. cbn [csum]. rewrite re_add, IHm, dsum_S. reflexivity. Qed.
Lemma dsum_at m i : (i < m)%nat -> dsum m (fun k => if Nat.eqb k i then 1 else 0) = 1.
Proof.
  induction m as [|m IH]; intro Hi; [lia|]. rewrite dsum_S. destruct (Nat.eqb_spec m i) as [->|N]; [|rewrite IH by lia; ring].
  rewrite (dsum_ext i _ (fun _ => 0)), dsum_const; [ring|]. intros k Hk. destruct (Nat.eqb_spec k i); [lia|reflexivity].
Qed.
Lemma full_trace n U : unitary n U -> re (mtr n U) = INR n -> meq n U mid.
Proof.
  intros HU Tr. assert (D : forall i, (i < n)%nat -> 1 - re (U i i) = 0).
  { apply dsum_zero; [intros i Hi; pose proof (unitary_entry n U i HU Hi) as B; apply Rabs_le_inv in B; lra|]. rewrite dsum_sub, dsum_const, <- (re_csum_dsum n (fun i => U i i)). unfold mtr in Tr. lra. }
  intros i j Hi Hj. destruct HU as [H _]. specialize (H i i Hi Hi). unfold mmul, dag, mid in H. rewrite Nat.eqb_refl in H. apply (f_equal re) in H. change (re C1) with 1 in H. rewrite re_csum_dsum in H.
  assert (S2 : forall z, re (z * conj z)%C = re z * re z + im z * im z) by (intros [a b]; cbn; ring).
  assert (Z0 : forall k, (k < n)%nat -> re (U i k * conj (U i k))%C - (if Nat.eqb k i then 1 else 0) = 0).
  { apply dsum_zero; [|rewrite dsum_sub, H, dsum_at by assumption; ring]. intros k Hk. rewrite S2. destruct (Nat.eqb_spec k i) as [->|N]; [specialize (D i Hi); nra|nra]. }
  specialize (Z0 j Hj). rewrite S2 in Z0. unfold mid. rewrite (Nat.eqb_sym i j). destruct (Nat.eqb_spec j i) as [->|N].
  - specialize (D i Hi). apply C_eq; [change (re C1) with 1; lra|change (im C1) with 0; nra].
  - apply C_eq; [change (re C0) with 0; nra|change (im C0) with 0; nra].
Qed.
Lemma functional_range sched n ND V lat : any_order sched -> (0 < n)%nat -> (0 < ND)%nat -> (0 < V)%nat -> group_field n ND V lat -> 0 <= gauge_functional sched n ND V lat <= 2.
Proof.
  intros Any Hn HN HV F. rewrite gauge_functional_value by assumption. assert (P : 0 < INR (ND * n * V)) by (apply lt_0_INR; nia).
  assert (B : - INR (ND * n * V) <= functional n ND V lat <= INR (ND * n * V)).
  { unfold functional. replace (INR (ND * n * V)) with (dsum V (fun _ => dsum ND (fun _ => INR n))) by (rewrite !dsum_const, !mult_INR; ring).
    replace (- dsum V (fun _ => dsum ND (fun _ => INR n))) with (dsum V (fun _ => dsum ND (fun _ => - INR n))) by (rewrite !dsum_const; ring).
    split; apply dsum_le; intros x Hx; apply dsum_le; intros mu Hm; destruct (F x mu Hx Hm) as [U _]; apply re_mtr_bound, Rabs_le_inv in U; lra. }
  assert (Q : -1 <= functional n ND V lat / INR (ND * n * V) <= 1).
  { split; apply (Rmult_le_reg_r (INR (ND * n * V))); try assumption; unfold Rdiv; rewrite Rmult_assoc, Rinv_l by lra; lra. }
  lra.
Qed.
Lemma functional_zero sched n ND V lat : any_order sched -> (0 < n)%nat -> (0 < ND)%nat -> (0 < V)%nat -> group_field n ND V lat ->
  gauge_functional sched n ND V lat = 0 <-> (forall x mu, (x < V)%nat -> (mu < ND)%nat -> meq n (lnk n lat x mu) mid).
Proof.
  intros Any Hn HN HV F. rewrite gauge_functional_value by assumption. assert (P : 0 < INR (ND * n * V)) by (apply lt_0_INR; nia).
  assert (E : 1 - functional n ND V lat / INR (ND * n * V) = dsum V (fun x => dsum ND (fun mu => INR n - re (mtr n (lnk n lat x mu)))) / INR (ND * n * V)).
  { rewrite (dsum_ext V _ (fun x => INR ND * INR n - dsum ND (fun mu => re (mtr n (lnk n lat x mu))))) by (intros; now rewrite dsum_sub, dsum_const). rewrite dsum_sub, dsum_const. fold (functional n ND V lat).
    rewrite !mult_INR in *. field. repeat split; intro H; rewrite H in P; lra. }
  rewrite E. clear E.
  assert (B : forall x mu, (x < V)%nat -> (mu < ND)%nat -> 0 <= INR n - re (mtr n (lnk n lat x mu))) by (intros x mu Hx Hm; destruct (F x mu Hx Hm) as [U _]; apply re_mtr_bound, Rabs_le_inv in U; lra).
  split.
  - intros E x mu Hx Hm. apply Rmult_integral in E. destruct E as [E|E]; [|exfalso; pose proof (Rinv_0_lt_compat _ P); lra].
    rewrite dsum_zero in E by (intros; apply dsum_nonneg; intros; now apply B). specialize (E x Hx). cbv beta in E. rewrite dsum_zero in E by (intros; now apply B). specialize (E mu Hm). cbv beta in E.
    apply full_trace; [apply (F x mu Hx Hm)|lra].
  - intro E. rewrite (dsum_ext V _ (fun _ => 0)), dsum_const; [unfold Rdiv; ring|]. intros x Hx. rewrite (dsum_ext ND _ (fun _ => 0)), dsum_const; [ring|]. intros mu Hm. rewrite (E x mu Hx Hm).
    unfold mtr, mid. rewrite (csum_ext n _ (fun _ => C1)) by (intros; now rewrite Nat.eqb_refl). rewrite re_csum_dsum, dsum_const. change (re C1) with 1. ring.
Qed.

(** * The maximum *)
Definition max_inv (all : list R) (s : R * list worker) : Prop :=
  (fst s = 0 \/ 0 < fst s /\ In (fst s) all) /\
  (forall w, In w (snd s) -> (forall r, In r (todo w) -> In r all) /\ (forall r, writes w = Some r -> 0 < r /\ In r all)) /\
  (fst s = 0 -> forall r, In r all -> 0 < r -> exists w, In w (snd s) /\ (In r (todo w) \/ writes w = Some r)).
Lemma max_inv_start sites : max_inv (concat sites) (start_max sites).
Proof.
  unfold start_max. split; [now left|]. split; cbn [fst snd].
  - intros w Hw. apply in_map_iff in Hw as (l & <- & Hl). split; [|discriminate]. intros r Hr. apply in_concat. now exists l.
  - intros _ r Hr _. apply in_concat in Hr as (l & Hl & Hr). exists (mkWorker l None). split; [apply in_map_iff; now exists l|now left].
Qed.
Lemma elt_cases {A} (a b : list A) x y : In y (a ++ x :: b) <-> In y a \/ y = x \/ In y b.
Proof. rewrite in_app_iff. cbn. intuition congruence. Qed.
Lemma max_inv_step all s s' : max_step s s' -> max_inv all s -> max_inv all s'.
Proof.
  intros St (M & W & U). destruct St as [m a b res l L|m a b res l L|m a b res l]; cbn [fst snd] in *.
  - split; [exact M|]. split; cbn [fst snd].
    + intros w Hw. apply elt_cases in Hw. destruct Hw as [Hw|[->|Hw]]; [apply W, elt_cases; tauto| |apply W, elt_cases; tauto].
      split; [|discriminate]. intros r Hr. apply (proj1 (W _ (proj2 (elt_cases a b _ _) (or_intror (or_introl eq_refl))))). now right.
    + intros E r Hr Pr. destruct (U E r Hr Pr) as (w & Hw & D). apply elt_cases in Hw. destruct Hw as [Hw|[->|Hw]]; [exists w; split; [apply elt_cases; tauto|exact D]| |exists w; split; [apply elt_cases; tauto|exact D]].
      exists (mkWorker l None). split; [apply elt_cases; tauto|]. destruct D as [D|D]; [|discriminate]. cbn [todo] in D. destruct D as [D|D]; [exfalso; subst; lra|now left].
  - assert (W0 := W _ (proj2 (elt_cases a b _ _) (or_intror (or_introl eq_refl)))). cbn [todo] in W0. destruct W0 as [W0 _].
    split; [exact M|]. split; cbn [fst snd].
    + intros w Hw. apply elt_cases in Hw. destruct Hw as [Hw|[->|Hw]]; [apply W, elt_cases; tauto| |apply W, elt_cases; tauto].
      split; [intros r Hr; apply W0; now right|]. intros r E. injection E as <-. split; [destruct M as [M|[M _]]; lra|apply W0; now left].
    + intros E r Hr Pr. destruct (U E r Hr Pr) as (w & Hw & D). apply elt_cases in Hw. destruct Hw as [Hw|[->|Hw]]; [exists w; split; [apply elt_cases; tauto|exact D]| |exists w; split; [apply elt_cases; tauto|exact D]].
      exists (mkWorker l (Some res)). split; [apply elt_cases; tauto|]. destruct D as [D|D]; [|discriminate]. cbn [todo] in D. destruct D as [D|D]; [right; cbn; congruence|now left].
  - assert (W0 := W _ (proj2 (elt_cases a b _ _) (or_intror (or_introl eq_refl)))). cbn [todo writes] in W0. destruct W0 as [W0 W1]. destruct (W1 res eq_refl) as [P I].
    split; [right; split; assumption|]. split; cbn [fst snd].
    + intros w Hw. apply elt_cases in Hw. destruct Hw as [Hw|[->|Hw]]; [apply W, elt_cases; tauto| |apply W, elt_cases; tauto]. split; [exact W0|discriminate].
    + intro E. lra.
Qed.
Lemma max_inv_steps all s s' : max_steps s s' -> max_inv all s -> max_inv all s'.
Proof. induction 1 as [s|s s1 s2 St _ IH]; intro I; [exact I|]. apply IH. eapply max_inv_step; eassumption. Qed.
(** whatever the interleaving, a value of a site, and 0 only if no site has a larger value *)
Lemma maximum_some sites s : max_steps (start_max sites) s -> finished s ->
  (fst s = 0 /\ forall r, In r (concat sites) -> r <= 0) \/ (0 < fst s /\ In (fst s) (concat sites)).
Proof.
  intros St Fi. destruct (max_inv_steps _ _ _ St (max_inv_start sites)) as ([M|M] & _ & U); [left|right; exact M]. split; [exact M|].
  intros r Hr. destruct (Rle_lt_dec r 0) as [H|H]; [exact H|]. destruct (U M r Hr H) as (w & Hw & D). unfold finished in Fi. rewrite Forall_forall in Fi. destruct (Fi w Hw) as [E1 E2]. rewrite E1, E2 in D. destruct D as [[]|D]. discriminate.
Qed.
(** one thread *)
Lemma fold_max a m l : Rmax a (fold_right Rmax m l) = fold_right Rmax (Rmax a m) l.
Proof. induction l as [|x l IH]; [reflexivity|]. cbn [fold_right]. rewrite <- IH, !Rmax_assoc. f_equal. apply Rmax_comm. Qed.
Definition one_value (m : R) (w : worker) : R := fold_right Rmax (match writes w with Some r => r | None => m end) (todo w).
Lemma single {A} (a b : list A) x y : [y] = a ++ x :: b -> a = [] /\ b = [] /\ y = x.
Proof. intro E. destruct a as [|z a]; [injection E as -> E; now destruct b|]. injection E as _ E. now destruct a. Qed.
Lemma one_step s s' : max_step s s' -> forall w, snd s = [w] -> exists w', snd s' = [w'] /\ one_value (fst s') w' = one_value (fst s) w.
Proof.
  intros St w Hw. destruct St as [m a b res l L|m a b res l L|m a b res l]; cbn [fst snd] in *; symmetry in Hw; apply single in Hw; destruct Hw as (-> & -> & ->); eexists; (split; [reflexivity|]); unfold one_value; cbn [writes todo fold_right].
  - rewrite fold_max. now rewrite Rmax_right by lra.
  - rewrite fold_max. now rewrite Rmax_left by lra.
  - reflexivity.
Qed.
Lemma maximum_one l s : max_steps (start_max [l]) s -> finished s -> fst s = largest l.
Proof.
  intros St Fi. assert (K : forall s s', max_steps s s' -> forall w, snd s = [w] -> exists w', snd s' = [w'] /\ one_value (fst s') w' = one_value (fst s) w).
  { induction 1 as [s0|s0 s1 s2 H _ IH]; intros w Hw; [now exists w|]. destruct (one_step _ _ H w Hw) as (w1 & H1 & E1). destruct (IH w1 H1) as (w2 & H2 & E2). exists w2. split; [exact H2|congruence]. }
  destruct (K _ _ St (mkWorker l None) eq_refl) as (w & Hw & E). unfold finished in Fi. rewrite Hw in Fi. inversion Fi as [|? ? [T W] _]; subst. unfold one_value in E. rewrite T, W in E. exact E.
Qed.
Lemma largest_in l r : In r l -> r <= largest l.
Proof. induction l as [|x l IH]; [intros []|]. unfold largest in *. cbn [fold_right]. intros [->|H]; [apply Rmax_l|]. eapply Rle_trans; [apply IH; exact H|apply Rmax_r]. Qed.
