(** C71: the adaptive Wilson flow.  [w] holds any step of the flow, plaquette and energy: functions of the field. *)
From Coq Require Import Sorted Permutation Lia Lra Psatz.
From Verif Require Import CInt GeomModel GeomSpec GeomProofs Cplx CMat Det Arr MatModel MatSpec MatProofs FieldModel FieldProofs FieldProofs2 QtopModel QtopProofs2 GluonSpec GluonProofs2 LandauProofs2 AdaptModel AdaptSpec AdaptProofs.
Import ListNotations.
Local Open Scope R_scope.

(** A try of the adaptive step: it always ends if the scale is not 0; the field is that after two half steps of the
    length returned; success means an error of at most 10^-6 in t^2 times the plaquette, relative to the scale, for that length;
    the length is that asked for, shortened by a factor that keeps the direction and is at least 10^-20. *)
Theorem C71_step : forall A (w : flow A) lat dt t y, y <> 0 -> exists ok two dt' err p, twostep_adaptive w 20 lat dt t y = Some (ok, two, dt', err, p) /\
  two = step w (dt' / 2) (step w (dt' / 2) lat) /\ p = plaq w two /\
  (ok = true -> Rabs ((t + dt') ^ 2 * (plaq w two - plaq w (step w dt' lat)) / y) <= / 1000000) /\
  (exists c, (1 / 10) ^ 20 <= c <= 1 /\ dt' = c * dt) /\ (ok = false -> Rabs dt' <= (9 / 10) ^ 20 * Rabs dt).
Proof.
  intros A w lat dt t y Y. destruct (twostep_ends w 20 lat dt t y Y) as ([[[[ok two] dt'] err] p] & E). exists ok, two, dt', err, p. split; [exact E|].
  apply twostep_ok in E. destruct E as (E1 & E2 & E3 & E4 & c & C & D & F). split; [exact E1|]. split; [exact E2|]. split; [|split; [exists c; tauto|]].
  - intro O. specialize (E4 O). rewrite E3, <- E1 in E4. lra.
  - intro O. specialize (F O). assert (0 < (1 / 10) ^ 20) by (apply pow_lt; lra). rewrite D, Rabs_mult, (Rabs_right c) by lra. apply Rmult_le_compat_r; [apply Rabs_pos|exact F].
Qed.
Print Assumptions C71_step.

(** Whole runs: the field at the end and every measurement belong to the flow time they carry, i.e. to steps from
    the first field of that total length; the time at the end is at most 20; the number of measurements handed to the
    fit is that of the entries after the first; with a positive first step and unless the run ends at time 20, where
    it steps back, the times of the entries increase strictly. *)
Theorem C71_times : forall A (w : flow A) fuel smiters inplaq dt lat flag s, flow_adaptive_RK3 w fuel smiters inplaq dt lat = Some (flag, s) ->
  flows (step w) lat (f_t s) (f_lat s) /\ f_t s <= 20 /\
  Forall (fun m => exists l, flows (step w) lat (time m) l /\ Gt m = time m ^ 2 * energy w l /\ (avplaq m = plaq w l \/ time m = 0 /\ l = lat /\ avplaq m = inplaq)) (f_list s) /\
  length (f_list s) = S (f_meas s) /\
  (0 < dt -> f_t s <> 20 -> StronglySorted (fun a b => time b < time a) (f_list s)).
Proof.
  intros A w fuel smiters inplaq dt lat flag s E. unfold flow_adaptive_RK3 in E. cbv zeta in E.
  match type of E with context [top w fuel smiters ?x] => set (s0 := x) in E end.
  destruct (top w fuel smiters s0) as [[fl s1]|] eqn:T; [|discriminate]. cbn [bindo] in E.
  assert (I0 : inv w lat inplaq s0).
  { split; [apply flows_none|]. split; [|reflexivity]. constructor; [|constructor]. exists lat. cbn. split; [apply flows_none|]. split; [ring|right; auto]. }
  destruct (top_ok w lat inplaq smiters _ _ _ _ T I0) as [(F & Rc & L) O].
  assert (O0 : 0 < dt -> ordered s0).
  { intro D. split; [exact D|]. split; [cbn; lra|]. cbn [f_list f_t s0]. split; [repeat constructor|]. constructor; [cbn; lra|constructor]. }
  unfold WFLOW_TIME_STOP in E. destruct (Rlt_dec 20 (f_t s1)) as [H|H].
  - injection E as _ <-. cbn [f_t f_lat f_list f_meas]. assert (Fl : flows (step w) lat (f_t s1 + (20 - f_t s1)) (step w (20 - f_t s1) (f_lat s1))) by (eapply flows_step; [exact F|reflexivity]).
    split; [exact Fl|]. split; [lra|]. split; [constructor; [now apply recorded_measure|exact Rc]|]. split; [cbn; rewrite L; lia|]. intros _ N. exfalso. apply N. ring.
  - injection E as _ <-. split; [exact F|]. split; [lra|]. split; [exact Rc|]. split; [rewrite L; lia|]. intros D _. apply (O (O0 D)).
Qed.
Print Assumptions C71_times.

(** The plaquette printed in d dimensions is the average plaquette times d / (2 (d - 2)): the average plaquette in
    four dimensions.  Missing: other dimensions. *)
Theorem C71_plaquette_partial : forall sched n ND V tmp lat, any_order sched -> (0 < n)%nat -> (0 < V)%nat ->
  ((3 <= ND)%nat -> get_plaq_th sched n ND V tmp lat = Some (av_plaquette n ND V tmp lat * (INR ND / (2 * INR (ND - 2))))) /\
  (ND = 4%nat -> get_plaq_th sched n ND V tmp lat = Some (av_plaquette n ND V tmp lat)) /\
  (ND = 2%nat -> get_plaq_th sched n ND V tmp lat = None).
Proof.
  intros sched n ND V tmp lat Any Hn HV. assert (G : (3 <= ND)%nat -> get_plaq_th sched n ND V tmp lat = Some (av_plaquette n ND V tmp lat * (INR ND / (2 * INR (ND - 2))))).
  { intro HN. unfold get_plaq_th. assert (PP : (0 < n * (ND - 1) * (ND - 2) * V)%nat) by (repeat apply Nat.mul_pos_pos; lia). destruct (Nat.eqb_spec (n * (ND - 1) * (ND - 2) * V) 0) as [E|_]; [lia|]. f_equal.
    rewrite (fold_plus (fun i => for_ ND (fun mu p => for_ mu (fun nu p => p + face n tmp lat i mu nu) p) 0)), (order_sum sched _ _ _ Any), Rplus_0_l.
    unfold av_plaquette. cbv zeta.
    assert (S0 : forall (f : nat -> R) m, for_ m (fun i p => p + f i) 0 = dsum m f) by (intros f m; induction m as [|m IH]; [reflexivity|cbn [for_]; rewrite IH, dsum_S; reflexivity]).
    rewrite (S0 (fun i => for_ ND (fun mu p => for_ mu (fun nu p => p + face n tmp lat i mu nu) p) 0)). rewrite !mult_INR.
    assert (0 < INR n) by (apply lt_0_INR; lia). assert (0 < INR V) by (apply lt_0_INR; lia). assert (0 < INR ND) by (apply lt_0_INR; lia). assert (0 < INR (ND - 1)) by (apply lt_0_INR; lia). assert (0 < INR (ND - 2)) by (apply lt_0_INR; lia).
    field. repeat split; lra. }
  split; [exact G|]. split.
  - intros ->. rewrite G by lia. f_equal. cbn [Nat.sub INR]. field.
  - intros ->. unfold get_plaq_th. rewrite Nat.sub_diag, Nat.mul_0_r. reflexivity.
Qed.
Print Assumptions C71_plaquette_partial.

Definition unit2 : arr := fun k => match k with 0%nat | 3%nat => C1 | _ => C0 end.
Definition unit_lat : lattice := init_navig [2; 2; 2]%Z (fun _ _ => unit2).
(** In three dimensions 3/2 is printed for the unit field, whose plaquettes are 1. *)
Theorem C71_plaquette_refuted : exists n ds lat, lattice_ok ds /\ navig ds lat /\ group_field n (length ds) (volume ds) lat /\
  forall sched tmp, any_order sched -> av_plaquette n (length ds) (volume ds) tmp lat = 1 /\ get_plaq_th sched n (length ds) (volume ds) tmp lat = Some (3 / 2).
Proof.
  exists 2%nat, [2; 2; 2]%Z, unit_lat. assert (Hok : lattice_ok [2; 2; 2]%Z) by (split; [discriminate|]; split; [repeat (constructor; [unfold two31; lia|]); constructor|reflexivity]).
  split; [exact Hok|]. split; [now apply init_navig_ok|]. split.
  - intros x mu _ _. unfold lnk, unit_lat, init_navig. cbn [O]. apply SUn_2. split; [split; intros i j Hi Hj; unfold mmul, dag, mx, mid; cbn [csum]; destruct i as [|[|i]]; try lia; destruct j as [|[|j]]; try lia; cbn [Nat.add Nat.mul Nat.eqb unit2]; cring
      |unfold det2, mx; cbn [Nat.add Nat.mul unit2]; cring].
  - intros sched tmp Any. change (length [2; 2; 2]%Z) with 3%nat. change (volume [2; 2; 2]%Z) with 8%nat.
    assert (F : forall i mu nu, face 2 tmp unit_lat i mu nu = 2).
    { intros i mu nu. unfold face, unit_lat, init_navig. cbn [O]. unfold complete_plaquette, complete_plaquette_2. cbn [unit2]. unfold C1, C0. cunfold. cbn. ring. }
    assert (Av : av_plaquette 2 3 8 tmp unit_lat = 1) by (unfold av_plaquette; cbn [for_]; rewrite !F; cbn [Nat.mul Nat.add Nat.sub INR]; field).
    split; [exact Av|]. rewrite (proj1 (C71_plaquette_partial sched 2 3 8 tmp unit_lat Any ltac:(lia) ltac:(lia))) by lia. rewrite Av. f_equal. cbn [Nat.sub INR]. field.
Qed.
Print Assumptions C71_plaquette_refuted.

(** * What the control does not guarantee *)
Lemma power_ninth err : 6561 <= err -> Rpower err ADAPTIVE_SHRINK <= 1 / 9.
Proof.
  intro H. unfold Rpower. assert (L : 4 * ln 9 <= ln err).
  { replace (4 * ln 9) with (ln 6561). { destruct (Req_dec err 6561) as [->|N]; [lra|left; apply ln_increasing; lra]. }
    replace 6561 with ((9 * 9) * (9 * 9)) by ring. rewrite !ln_mult by lra. ring. }
  assert (P : 0 < ln 9) by (rewrite <- ln_1; apply ln_increasing; lra).
  replace (1 / 9) with (exp (- ln 9)) by (rewrite exp_Ropp, exp_ln by lra; field).
  assert (K : ADAPTIVE_SHRINK * ln err < - ln 9) by (unfold ADAPTIVE_SHRINK; nra). left. now apply exp_increasing.
Qed.
Definition q19 : R := (1 / 10) ^ 19.
Lemma q19_pos : 0 < q19. Proof. apply pow_lt. lra. Qed.
(** fields are pairs (time, number of steps); the plaquette after one step is large until the step is 10^-20 *)
Definition late : flow (R * nat) := mkFlow (fun dt x => (fst x + dt, S (snd x)))
  (fun x => if Nat.eqb (snd x) 1 then (if Rlt_dec (q19 / 10) (fst x) then 6561 / (q19 * q19) else 0) else 0) (fun _ => 0) 1.
Lemma late_tries : forall left, (left <= 20)%nat -> exists two, twostep_adaptive late left (0, 0%nat) ((1 / 10) ^ (20 - left)) 0 1 = Some (false, two, (1 / 10) ^ 20, 0, 0).
Proof.
  pose proof q19_pos as Q. assert (E20 : (1 / 10) ^ 20 = q19 / 10) by (unfold q19; cbn [pow]; field).
  assert (Er : forall dt, error late (0, 0%nat) dt 0 1 = (if Rlt_dec (q19 / 10) dt then dt * dt * (6561 / (q19 * q19)) * 1000000 else 0)).
  { intro dt. unfold error, late. cbn [plaq step fst snd Nat.eqb]. rewrite !Rplus_0_l. unfold ADAPTIVE_EPS. destruct (Rlt_dec (q19 / 10) dt) as [D|D].
    - replace (dt * dt * (0 - 6561 / (q19 * q19)) / 1) with (- (dt * dt * (6561 / (q19 * q19)))) by (field; lra). rewrite Rabs_Ropp, Rabs_right; [field; lra|]. apply Rle_ge, Rmult_le_pos; [nra|]. apply Rlt_le, Rdiv_lt_0_compat; nra.
    - replace (dt * dt * (0 - 0) / 1) with 0 by field. rewrite Rabs_R0. field. }
  induction left as [|left IH]; intro Hl; cbn [twostep_adaptive]; destruct (Req_EM_T 1 0) as [N|_]; try lra.
  - rewrite Er, E20, Nat.sub_0_r, E20. destruct (Rlt_dec (q19 / 10) (q19 / 10)); [lra|]. eexists. reflexivity.
  - set (j := (20 - S left)%nat). assert (Ej : (20 - left = S j)%nat) by (unfold j; lia). assert (Hj : (j <= 19)%nat) by (unfold j; lia). rewrite Er.
    assert (B : q19 <= (1 / 10) ^ j).
    { unfold q19. replace 19%nat with (j + (19 - j))%nat by lia. rewrite pow_add. assert (0 < (1 / 10) ^ j) by (apply pow_lt; lra).
      assert (P1 : forall m, 0 < (1 / 10) ^ m <= 1) by (induction m; cbn [pow]; [lra|nra]). pose proof (P1 (19 - j)%nat). nra. }
    set (d := (1 / 10) ^ j) in *. destruct (Rlt_dec (q19 / 10) d) as [D|D]; [|exfalso; lra].
    assert (Big : 6561 <= d * d * (6561 / (q19 * q19)) * 1000000).
    { replace (d * d * (6561 / (q19 * q19)) * 1000000) with (6561 * ((d / q19) * (d / q19)) * 1000000) by (field; lra).
      assert (1 <= d / q19) by (apply (Rmult_le_reg_r q19); [exact Q|]; unfold Rdiv; rewrite Rmult_assoc, Rinv_l by lra; lra). nra. }
    destruct (Rlt_dec 1 _) as [_|N]; [|exfalso; lra].
    assert (Sh : shorten d (d * d * (6561 / (q19 * q19)) * 1000000) = (1 / 10) ^ (20 - left)).
    { rewrite Ej. cbn [pow]. fold d. unfold shorten, ADAPTIVE_SAFE, adaptfmax. pose proof (power_ninth _ Big) as P9. pose proof (exp_pos (ADAPTIVE_SHRINK * ln (d * d * (6561 / (q19 * q19)) * 1000000))) as P0. fold (Rpower (d * d * (6561 / (q19 * q19)) * 1000000) ADAPTIVE_SHRINK) in P0.
      set (p := Rpower _ _) in *. cbv zeta. assert (0 < d) by lra. destruct (Rlt_dec 0 _) as [_|N]; [|exfalso; apply N; apply Rmult_lt_0_compat; lra]. destruct (Rlt_dec _ _) as [N|_]; [exfalso; nra|reflexivity]. }
    rewrite Sh. apply IH. lia.
Qed.
(** The 21st try is not looked at: failure although the error is 0.  (Some step function; the plaquette of the real flow is not involved.) *)
Theorem C71_failure_refuted : exists (w : flow (R * nat)) lat dt t y two dt', twostep_adaptive w 20 lat dt t y = Some (false, two, dt', 0, plaq w two) /\ dt' <> 0.
Proof.
  destruct (late_tries 20 (le_n 20)) as (two & E). exists late, (0, 0%nat), ((1 / 10) ^ 0), 0, 1, two, ((1 / 10) ^ 20). rewrite Nat.sub_diag in E. split; [|apply pow_nonzero; lra].
  pose proof (twostep_ok late _ _ _ _ _ _ _ _ _ _ E) as (_ & P & _). rewrite <- P. exact E.
Qed.
Print Assumptions C71_failure_refuted.

Lemma twostep_first A (w : flow A) lat dt t y : y <> 0 -> error w lat dt t y = 0 ->
  twostep_adaptive w 20 lat dt t y = Some (true, step w (5 / 10 * dt) (step w (5 / 10 * dt) lat), dt, 0, plaq w (step w (5 / 10 * dt) (step w (5 / 10 * dt) lat))).
Proof. intros Y E. change 20%nat with (S 19). generalize 19%nat. intro left. cbn [twostep_adaptive]. destruct (Req_EM_T y 0); [contradiction|]. rewrite E. destruct (Rlt_dec 1 0); [lra|reflexivity]. Qed.
(** The limit on the number of steps does not bind the fine measurements: with a flow whose t^2 E stays at the
    value looked for, the run never ends, whatever the limit. *)
Definition flat : flow R := mkFlow (fun dt x => x + dt) (fun _ => 1) (fun x => T0_STOP 3 / (x * x)) (T0_STOP 3).
Lemma flat_fine : forall fuel s, f_lat s = f_t s -> 0 < f_t s -> 0 < f_dt s -> fine flat fuel f_flow 0 s = None.
Proof.
  induction fuel as [|fuel IH]; intros s L T D; [reflexivity|]. cbn [fine]. cbv zeta. cbn [f_flow]. unfold measure. cbn [Gt energy flat step stop]. rewrite L.
  replace ((f_t s + f_dt s) * (f_t s + f_dt s) * (T0_STOP 3 / ((f_t s + f_dt s) * (f_t s + f_dt s)))) with (T0_STOP 3) by (field; lra).
  rewrite Rminus_diag_eq, Rabs_R0 by reflexivity. destruct (Rlt_dec (T0_STOP 3) (T0_STOP 3)); [lra|]. assert (P : 0 <= T0_STOP 3 * FINETWIDDLE) by (unfold T0_STOP, FINETWIDDLE; cbn; lra).
  destruct (Rle_dec 0 (T0_STOP 3 * FINETWIDDLE)); [|contradiction]. cbn [Nat.ltb Nat.leb]. apply IH; cbn; lra.
Qed.
Lemma flat_fine_if fuel s : f_lat s = f_t s -> 0 < f_t s -> f_flow s = T0_STOP 3 -> fine_if flat fuel f_flow s = None.
Proof.
  intros L T F. unfold fine_if. rewrite F. replace (Rabs (stop flat - T0_STOP 3)) with 0 by (cbn [flat stop]; rewrite Rminus_diag_eq by reflexivity; symmetry; apply Rabs_R0).
  assert (P : 0 <= T0_STOP 3 * FINETWIDDLE) by (unfold T0_STOP, FINETWIDDLE; cbn; lra). cbn [flat stop]. destruct (Rle_dec 0 (T0_STOP 3 * FINETWIDDLE)); [|contradiction]. fold flat. apply flat_fine; cbn; lra.
Qed.
Theorem C71_limit_refuted : exists (w : flow R) inplaq dt lat, 0 < dt /\ (forall a, inplaq = plaq w a) /\ forall fuel smiters, flow_adaptive_RK3 w fuel smiters inplaq dt lat = None.
Proof.
  exists flat, 1, (1 / 100), 0. split; [lra|]. split; [reflexivity|]. intros fuel smiters. unfold flow_adaptive_RK3. cbv zeta. destruct fuel as [|fuel]; [reflexivity|].
  cbn [top f_lat f_dt f_t f_yscal f_flow f_w f_list f_count f_meas]. 
  assert (E : error flat 0 (1 / 100) 0 1 = 0) by (unfold error, ADAPTIVE_EPS; cbn [flat plaq]; replace ((0 + 1 / 100) * (0 + 1 / 100) * (1 - 1) / 1) with 0 by field; rewrite Rabs_R0; field). 
  rewrite (twostep_first _ flat) by (lra || exact E). cbn [bindo]. unfold WFLOW_MEAS_START. destruct (Rlt_dec 0 (0 + 1 / 100)) as [_|N]; [|exfalso; apply N; lra].
  match goal with |- context [fine_if flat (S fuel) f_flow ?x] => rewrite (flat_fine_if (S fuel) x) end; [reflexivity|cbn; field|cbn; lra|cbn; field].
Qed.
Print Assumptions C71_limit_refuted.

(** A run of two adaptive steps of 5 and 22.5, stepped back to time 20 *)
Definition steady : flow R := mkFlow (fun dt x => x + dt) (fun _ => 1) (fun _ => 0) 1.
Example C71_case : exists s, flow_adaptive_RK3 steady 3 10 1 5 0 = Some (true, s) /\ f_t s = 20 /\ f_lat s = 20 /\ f_meas s = 3%nat /\ map time (f_list s) = [20; 55 / 2; 5; 0].
Proof.
  assert (E : forall x dt t y, error steady x dt t y = 0) by (intros; unfold error, ADAPTIVE_EPS; cbn [steady plaq]; unfold Rdiv; rewrite Rminus_diag_eq, Rmult_0_r, Rmult_0_l, Rabs_R0 by reflexivity; ring).
  assert (Ec : 0 < ADAPTIVE_ERRCON) by apply exp_pos.
  assert (F : forall fuel s, f_flow s = 0 -> fine_if steady fuel f_flow s = Some s).
  { intros fuel s H. unfold fine_if. rewrite H. cbn [steady stop]. destruct (Rle_dec _ _) as [N|_]; [|reflexivity]. exfalso. rewrite Rminus_0_r, Rabs_R1 in N. unfold FINETWIDDLE in N. lra. }
  assert (F' : forall fuel s, f_w s = 0 -> fine_if steady fuel f_w s = Some s).
  { intros fuel s H. unfold fine_if. rewrite H. cbn [steady stop]. destruct (Rle_dec _ _) as [N|_]; [|reflexivity]. exfalso. rewrite Rminus_0_r, Rabs_R1 in N. unfold FINETWIDDLE in N. lra. }
  unfold flow_adaptive_RK3. cbv zeta. cbn [top f_lat f_dt f_t f_yscal f_flow f_w f_list f_count f_meas]. rewrite (twostep_first _ steady) by (lra || apply E). cbn [bindo].
  unfold WFLOW_MEAS_START. destruct (Rlt_dec 0 (0 + 5)) as [_|N]; [|exfalso; lra]. destruct (Req_EM_T 0 0) as [_|N]; [|exfalso; lra].
  rewrite F by (cbn; ring). cbn [bindo]. rewrite F' by reflexivity. cbn [bindo f_lat f_dt f_t f_err f_yscal f_flow f_w f_list f_count f_meas]. destruct (Rlt_dec ADAPTIVE_ERRCON 0); [lra|].
  cbn [steady stop]. destruct (Rlt_dec 0 (1 * (15 / 10))) as [_|N]; [|exfalso; lra]. change (u64 (0 + 1) <? 10)%Z with true. cbv iota. unfold WFLOW_TIME_STOP. destruct (Rlt_dec (0 + 5) 20) as [_|N]; [|exfalso; lra]. destruct (Req_EM_T 5 0); [lra|]. fold steady.
  cbn [top f_lat f_dt f_t f_yscal f_flow f_w f_list f_count f_meas]. rewrite (twostep_first _ steady) by (apply E || (cbn; lra)). cbn [bindo].
  unfold WFLOW_MEAS_START, ADAPTIVE_SAFE. match goal with |- context [Rlt_dec 0 (0 + 5 + ?x)] => destruct (Rlt_dec 0 (0 + 5 + x)) as [_|N]; [|exfalso; lra] end.
  match goal with |- context [Req_EM_T (Gt ?m) 0] => destruct (Req_EM_T (Gt m) 0) as [_|N]; [|exfalso; apply N; cbn; ring] end.
  rewrite F by (cbn; ring). cbn [bindo]. rewrite F' by reflexivity. cbn [bindo f_lat f_dt f_t f_err f_yscal f_flow f_w f_list f_count f_meas]. destruct (Rlt_dec ADAPTIVE_ERRCON 0); [lra|].
  cbn [steady stop]. destruct (Rlt_dec 0 (1 * (15 / 10))) as [_|N]; [|exfalso; lra]. change (u64 (u64 (0 + 1) + 1) <? 10)%Z with true. cbv iota. unfold WFLOW_TIME_STOP. destruct (Rlt_dec _ 20) as [N|_]; [exfalso; lra|]. cbn [bindo f_t].
  destruct (Rlt_dec 20 _) as [_|N]; [|exfalso; lra]. destruct (Req_EM_T (9 / 10 * 5 * 5) 0) as [N|_]; [exfalso; lra|].
  eexists. split; [reflexivity|]. cbn [f_t f_lat f_meas f_list map time measure step]. split; [ring|]. split; [cbn [steady step]; field|]. split; [reflexivity|]. repeat (apply f_equal2; [field|]). reflexivity.
Qed.
