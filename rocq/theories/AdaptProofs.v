(** The step size control and what the flow leaves behind. *)
From Coq Require Import Sorted Permutation Lia Lra.
From Verif Require Import CInt Cplx CMat Arr MatModel FieldModel QtopModel AdaptModel AdaptSpec.
Import ListNotations.
Local Open Scope R_scope.

Lemma shorten_factor dt err : 1 < err -> exists c, 1 / 10 <= c <= 9 / 10 /\ shorten dt err = c * dt.
Proof.
  intro H. unfold shorten, adaptfmax, adaptfmin, ADAPTIVE_SAFE. assert (P : 0 < Rpower err ADAPTIVE_SHRINK <= 1).
  { split; [apply exp_pos|]. unfold Rpower. rewrite <- exp_0. assert (L : 0 < ln err) by (rewrite <- ln_1; apply ln_increasing; lra).
    left. apply exp_increasing. unfold ADAPTIVE_SHRINK. nra. }
  set (p := Rpower err ADAPTIVE_SHRINK) in *. cbv zeta.
  destruct (Rlt_dec 0 (9 / 10 * dt * p)) as [D|D].
  - assert (0 < dt) by nra. destruct (Rlt_dec (1 / 10 * dt) (9 / 10 * dt * p)); [exists (9 / 10 * p); split; [|ring]; split; nra|exists (1 / 10); split; [lra|reflexivity]].
  - assert (dt <= 0) by nra. destruct (Rlt_dec (9 / 10 * dt * p) (1 / 10 * dt)); [exists (9 / 10 * p); split; [|ring]; split; nra|exists (1 / 10); split; [lra|reflexivity]].
Qed.
Section Flow.
Context {A : Type} (w : flow A).
Lemma twostep_ok : forall left lat dt t y ok two dt' err p, twostep_adaptive w left lat dt t y = Some (ok, two, dt', err, p) ->
  two = step w (dt' / 2) (step w (dt' / 2) lat) /\ p = plaq w two /\
  err = Rabs ((t + dt') ^ 2 * (plaq w (step w (dt' / 2) (step w (dt' / 2) lat)) - plaq w (step w dt' lat)) / y) * 1000000 /\
  (ok = true -> err <= 1) /\ exists c, (1 / 10) ^ left <= c <= 1 /\ dt' = c * dt /\ (ok = false -> c <= (9 / 10) ^ left).
Proof.
  induction left as [|left IH]; intros lat dt t y ok two dt' err p E; cbn [twostep_adaptive] in E; destruct (Req_EM_T y 0) as [|Y]; try discriminate.
  - injection E as <- <- <- <- <-. replace (5 / 10 * dt) with (dt / 2) by field. split; [reflexivity|]. split; [reflexivity|]. split; [unfold error, ADAPTIVE_EPS; replace (5 / 10 * dt) with (dt / 2) by field; replace ((t + dt) ^ 2) with ((t + dt) * (t + dt)) by ring; field|]. split; [discriminate|]. exists 1. cbn. repeat split; lra.
  - destruct (Rlt_dec 1 (error w lat dt t y)) as [L|L].
    + apply IH in E. destruct E as (E1 & E2 & E3 & E4 & c & C & D & F). split; [exact E1|]. split; [exact E2|]. split; [exact E3|]. split; [exact E4|].
      destruct (shorten_factor dt _ L) as (k & K & Sk). rewrite Sk in D. exists (c * k). assert (0 < (1 / 10) ^ left) by (apply pow_lt; lra). cbn [pow]. split; [split; nra|]. split; [rewrite D; ring|]. intro O. specialize (F O). nra.
    + injection E as <- <- <- <- <-. replace (5 / 10 * dt) with (dt / 2) by field. split; [reflexivity|]. split; [reflexivity|]. split; [unfold error, ADAPTIVE_EPS; replace (5 / 10 * dt) with (dt / 2) by field; replace ((t + dt) ^ 2) with ((t + dt) * (t + dt)) by ring; field|]. split; [intros _; lra|]. exists 1.
      split; [|split; [ring|discriminate]]. split; [|lra]. assert (P : forall m, (1 / 10) ^ m <= 1) by (induction m; cbn [pow]; [lra|]; assert (0 < (1 / 10) ^ m) by (apply pow_lt; lra); nra). apply P.
Qed.
(** never more than 21 tries: it always comes to an end unless yscal is 0 *)
Lemma twostep_ends left lat dt t y : y <> 0 -> exists r, twostep_adaptive w left lat dt t y = Some r.
Proof. intro Y. revert dt. induction left as [|left IH]; intro dt; cbn [twostep_adaptive]; destruct (Req_EM_T y 0); try contradiction; [eexists; reflexivity|]. destruct (Rlt_dec 1 _); [apply IH|eexists; reflexivity]. Qed.

Variables (lat0 : A) (inplaq : R).
Definition recorded (m : meas) : Prop := exists l, flows (step w) lat0 (time m) l /\ Gt m = time m ^ 2 * energy w l /\ (avplaq m = plaq w l \/ time m = 0 /\ l = lat0 /\ avplaq m = inplaq).
Definition inv (s : state A) : Prop := flows (step w) lat0 (f_t s) (f_lat s) /\ Forall recorded (f_list s) /\ length (f_list s) = (f_meas s + 1)%nat.
Definition later (a b : meas) : Prop := time b < time a.
Definition ordered (s : state A) : Prop := 0 < f_dt s /\ 0 <= f_t s /\ StronglySorted later (f_list s) /\ Forall (fun m => time m <= f_t s) (f_list s).
Lemma recorded_measure lat t : flows (step w) lat0 t lat -> recorded (measure w lat t (plaq w lat)).
Proof. intro F. exists lat. cbn. split; [exact F|]. split; [ring|now left]. Qed.
Lemma ordered_push s lat t' p e y fl wa c k : ordered s -> f_t s < t' -> forall dt, 0 < dt -> ordered (mkState lat t' dt e y fl wa (measure w lat t' p :: f_list s) c k).
Proof.
  intros (_ & T & S0 & B) H dt D. split; [exact D|]. split; [cbn; lra|]. cbn [f_list f_t]. split.
  - constructor; [exact S0|]. eapply Forall_impl; [|exact B]. intros m Hm. unfold later. cbn in *. lra.
  - constructor; [cbn; lra|]. eapply Forall_impl; [|exact B]. intros m Hm. cbn in *. lra.
Qed.
Lemma fine_ok value : forall fuel past s s', fine w fuel value past s = Some s' -> inv s -> inv s' /\ (ordered s -> ordered s').
Proof.
  induction fuel as [|fuel IH]; intros past s s' E (F & Rc & L); [discriminate|]. cbn [fine] in E. cbv zeta in E.
  match type of E with context [mkState ?a ?b ?c ?d ?e ?f ?g ?h ?i ?j] => set (s1 := mkState a b c d e f g h i j) in E end.
  assert (I1 : inv s1). { assert (Fl : flows (step w) lat0 (f_t s + f_dt s) (step w (f_dt s) (f_lat s))) by (eapply flows_step; [exact F|reflexivity]).
    split; [exact Fl|]. split; [constructor; [now apply recorded_measure|exact Rc]|cbn; rewrite L; lia]. }
  assert (O1 : ordered s -> ordered s1) by (intro O; pose proof O as (D & _); apply (ordered_push s); [exact O|lra|exact D]).
  destruct (Rle_dec _ _); [destruct (Nat.ltb _ 3)|].
  - apply IH in E; [|exact I1]. destruct E as [E1 E2]. split; [exact E1|auto].
  - injection E as <-. split; assumption.
  - injection E as <-. split; assumption.
Qed.
Lemma fine_if_ok fuel value s s' : fine_if w fuel value s = Some s' -> inv s -> inv s' /\ (0 < f_t s -> ordered s -> ordered s').
Proof.
  intros E I. unfold fine_if in E. destruct (Rle_dec _ _); [|injection E as <-; split; [assumption|auto]]. apply fine_ok in E; [|exact I]. destruct E as [E1 E2]. split; [exact E1|].
  intros T (D & T0 & S0 & B). apply E2. split; [cbn; lra|]. split; [cbn; lra|]. split; assumption.
Qed.
Lemma fine_if_pos fuel value s s' : fine_if w fuel value s = Some s' -> 0 < f_t s -> 0 < f_t s'.
Proof.
  intros E T. unfold fine_if in E. destruct (Rle_dec _ _); [|injection E as <-; exact T].
  assert (K : forall f k (x : state A), 0 < f_t x -> 0 < f_dt x -> fine w f value k x = Some s' -> 0 < f_t s').
  { clear. induction f as [|f IH]; intros k x Tx Dx E; [discriminate|]. cbn [fine] in E. cbv zeta in E. destruct (Rle_dec _ _); [destruct (Nat.ltb _ 3)|].
    - eapply IH; [| |exact E]; cbn; lra.
    - injection E as <-. cbn. lra.
    - injection E as <-. cbn. lra. }
  eapply K; [| |exact E]; [exact T|]. change (0 < f_t s / 100). lra.
Qed.
Local Opaque twostep_adaptive.
Lemma top_ok smiters : forall fuel s flag s', top w fuel smiters s = Some (flag, s') -> inv s -> inv s' /\ (ordered s -> ordered s').
Proof.
  induction fuel as [|fuel IH]; intros s flag s' E (F & Rc & L); [discriminate|]. cbn [top] in E.
  destruct (twostep_adaptive w 20 (f_lat s) (f_dt s) (f_t s) (f_yscal s)) as [[[[[ok lat] dt] err] p]|] eqn:T; [|discriminate]. cbn [bindo] in E. apply twostep_ok in T. destruct T as (Elat & Ep & _ & _ & c & C & Edt & _). cbv zeta in E.
  match type of E with context [fine_if w (S fuel) f_flow ?x] => set (s1 := x) in E end.
  assert (Fl : flows (step w) lat0 (f_t s + dt) lat) by (rewrite Elat; eapply flows_step; [eapply flows_step; [exact F|reflexivity]|field]).
  assert (I1 : inv s1). { unfold s1. destruct (Rlt_dec WFLOW_MEAS_START (f_t s + dt)); (split; [exact Fl|]); [split; [constructor; [rewrite Ep; now apply recorded_measure|exact Rc]|cbn; rewrite L; lia]|split; [exact Rc|exact L]]. }
  assert (C0 : 0 < c) by (assert (0 < (1 / 10) ^ 20) by (apply pow_lt; lra); lra).
  assert (O1 : ordered s -> ordered s1 /\ 0 < f_t s1).
  { intro O. pose proof O as (D & T0 & _). assert (0 < dt) by (rewrite Edt; nra). unfold s1. destruct (Rlt_dec WFLOW_MEAS_START (f_t s + dt)) as [M|M]; [|exfalso; unfold WFLOW_MEAS_START in M; lra].
    split; [apply (ordered_push s); [exact O|lra|assumption]|cbn; lra]. }
  destruct (fine_if w (S fuel) f_flow s1) as [s2|] eqn:E2; [|discriminate]. cbn [bindo] in E. destruct (fine_if_ok _ _ _ _ E2 I1) as [I2 O2].
  destruct (fine_if w (S fuel) f_w s2) as [s3|] eqn:E3; [|discriminate]. cbn [bindo] in E. destruct (fine_if_ok _ _ _ _ E3 I2) as [I3 O3].
  match type of E with context [top w fuel smiters ?x] => set (s4 := x) in E end.
  assert (I4 : inv s4) by exact I3.
  assert (O4 : ordered s -> ordered s4).
  { intro O. destruct (O1 O) as [Oa Ta]. specialize (O2 Ta Oa). assert (Tb : 0 < f_t s2).
    { exact (fine_if_pos _ _ _ _ E2 Ta). }
    specialize (O3 Tb O2). destruct O3 as (D3 & T3 & S3 & B3). split; [|split; [exact T3|split; assumption]]. cbn [s4 f_dt]. unfold ADAPTIVE_SAFE. destruct (Rlt_dec ADAPTIVE_ERRCON (f_err s3)); [|clear - D3; lra].
    apply Rmult_lt_0_compat; [clear - D3; lra|apply exp_pos]. }
  assert (Q : forall r, Some (r, s4) = Some (flag, s') -> inv s' /\ (ordered s -> ordered s')) by (intros r Er; injection Er as _ <-; split; assumption).
  destruct (Rlt_dec (f_w s4) _); [|eapply Q; exact E]. destruct (_ <? smiters)%Z; [|eapply Q; exact E]. destruct (Rlt_dec (f_t s4) _); [|eapply Q; exact E].
  destruct (if Req_EM_T dt 0 then false else ok); [|eapply Q; exact E]. apply IH in E; [|exact I4]. destruct E as [E5 E6]. split; [exact E5|auto].
Qed.
End Flow.
