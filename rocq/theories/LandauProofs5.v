(** Whole runs: every step is a gauge transformation, and what the accuracy reported is that of. *)
From Coq Require Import Permutation Lia Lra Psatz.
From Verif Require Import CInt GeomModel GeomSpec GeomProofs GeomProofs2 Cplx CMat Det Arr MatModel MatSpec MatProofs MatProofs2 ProjModel ProjProofs GramModel GramProofs FieldModel FieldProofs FieldProofs2 FftModel FftProofs QtopModel QtopSpec QtopProofs QtopProofs2 QtopProofs4 SmearModel StaticModel StaticProofs GluonSpec GluonModel GluonProofs GluonProofs2 GluonProofs3 GluonProofs4 InstProofs InstProofs2 CfgSpec CfgProofs HypProofs SmearProofs U1Model U1Spec U1Proofs U1Proofs2 U1Proofs3 LandauModel LandauSpec LandauProofs LandauProofs2 LandauProofs3 LandauProofs4.
Local Open Scope Z_scope.

Record sound (r : run) : Prop := {
  s_order : any_order (sch r);
  s_nc : (2 <= nc r)%nat;
  s_dims : lattice_ok (dims_ r);
  s_psq : forall i, (i < nsites (dims_ r))%nat -> psq_landau (dims_ r) i = Some (psq_ r i) }.
Lemma carries_not3 n f x X : n <> 3%nat -> carries n f x X <-> packed n (fun c => f c x) X.
Proof. intro H. destruct n as [|[|[|[|m]]]]; try reflexivity. contradiction. Qed.
Lemma TRUE_HERM_not3 n : n <> 3%nat -> TRUE_HERM n = HERMSIZE n.
Proof. intro H. destruct n as [|[|[|[|m]]]]; try reflexivity. contradiction. Qed.
Lemma tangent_iD n ND lat x : (2 <= n)%nat -> tangent n (mscale Ci (divergence n ND lat x)).
Proof.
  intro Hn. split.
  - intros i j Hi Hj. pose proof (part_herm n lat Hn ND x i j Hi Hj) as H. rewrite part_div in H. unfold dag, mscale in *. rewrite conj_mul, H. generalize (divergence n ND lat x i j). intros []. cring.
  - pose proof (part_traceless n lat Hn ND x) as H. rewrite part_div in H. unfold traceless in *. rewrite mtr_scale, H. ring.
Qed.
Lemma tangent_combine n X Y (b : R) : tangent n X -> tangent n Y -> tangent n (madd X (mscale (RtoC b) Y)).
Proof.
  intros [H T] [H' T']. split.
  - intros i j Hi Hj. unfold dag, madd, mscale. rewrite (anti_off n X i j), (anti_off n Y i j) by assumption. destruct (X i j), (Y i j). unfold RtoC. cring.
  - unfold traceless in *. rewrite mtr_add, mtr_scale, T, T'. ring.
Qed.
Definition own (NC V : nat) (f g : fields) : fields := fun c j => if (Nat.ltb c (TRUE_HERM NC) && Nat.ltb j V)%bool then f c j else g c j.
Lemma carries_ext n f g x X : (2 <= n)%nat -> (forall c, (c < TRUE_HERM n)%nat -> f c x = g c x) -> carries n g x X -> carries n f x X.
Proof.
  intros Hn E H. destruct (Nat.eq_dec n 3) as [->|N].
  - change (TRUE_HERM 3) with 4%nat in E. unfold carries in *. rewrite !E by lia. exact H.
  - apply (carries_not3 n _ _ _ N). apply (carries_not3 n _ _ _ N) in H. intros i j Hi Hj. rewrite E; [now apply H|]. rewrite TRUE_HERM_not3 by assumption. apply off_bound; lia.
Qed.
Lemma tangents_own n V f g X : (2 <= n)%nat -> tangents n V f X -> tangents n V (own n V f g) X.
Proof.
  intros Hn T x Hx. destruct (T x Hx) as [Ca Ta]. split; [|exact Ta]. apply (carries_ext n _ f x _ Hn); [|exact Ca]. intros c Hc. unfold own.
  now rewrite (proj2 (Nat.ltb_lt _ _) Hc), (proj2 (Nat.ltb_lt _ _) Hx).
Qed.
Lemma tangents_combine n V f g X Y (b : R) : (2 <= n)%nat -> tangents n V f X -> tangents n V g Y -> tangents n V (fun c j => f c j + RtoC b * g c j)%C (fun x => madd (X x) (mscale (RtoC b) (Y x))).
Proof.
  intros Hn T T' x Hx. destruct (T x Hx) as [Ca Ta], (T' x Hx) as [Ca' Ta']. split; [|now apply tangent_combine]. destruct (Nat.eq_dec n 3) as [->|N].
  - unfold carries in *. destruct Ca as (A0 & A1 & A2 & A3), Ca' as (B0 & B1 & B2 & B3). rewrite A0, A1, A2, A3, B0, B1, B2, B3. unfold madd, mscale.
    split; [|repeat split; reflexivity]. destruct (X x 1%nat 1%nat), (X x 0%nat 0%nat), (Y x 1%nat 1%nat), (Y x 0%nat 0%nat). unfold RtoC. cunfold. cbn. f_equal; ring.
  - apply (carries_not3 n _ _ _ N). apply (carries_not3 n _ _ _ N) in Ca, Ca'. intros i j Hi Hj. unfold madd, mscale. now rewrite (Ca i j Hi Hj), (Ca' i j Hi Hj).
Qed.

(** the direction of a step *)
Definition direction (r : run) (lat : lattice) : nat -> mat :=
  let X := fun x => mscale Ci (divergence (nc r) (length (dims_ r)) lat x) in
  match bld r with WithFFTW => accelerated (dims_ r) X | NoFFTW => X end.
Section Whole.
Variable r : run.
Hypothesis So : sound r.
Local Notation n := (nc r).
Local Notation ND := (length (dims_ r)).
Local Notation V := (Z.to_nat (lvolume (dims_ r))).
Definition good (lat : lattice) : Prop := group_field n ND V lat /\ geom_ok ND V lat.
(** the accuracy of a field *)
Definition accuracy (lat : lattice) : R := (norm_of n * violation n ND V lat / INR (n * V))%R.
Lemma V_sites : V = nsites (dims_ r).
Proof. rewrite lvolume_prod by apply (s_dims r So). reflexivity. Qed.
Lemma dna_ok red lat s red' s' : good lat -> deriv_and_accelerate r red lat s = (red', s') ->
  red' 5%nat = (red 5%nat + norm_of n * violation n ND V lat)%R /\ (forall k, k <> 5%nat -> red' k = red k) /\ tangents n V (fst s') (direction r lat).
Proof.
  intros [F Geo] E. unfold deriv_and_accelerate in E. destruct (FA_deriv _ _ _ _ _ _ _ _) as [red1 inp1] eqn:D. injection E as <- <-.
  destruct (FA_deriv_ok (sch r) n ND V (tmp_ r) lat red (fst s) red1 inp1 (s_order r So) (s_nc r So) F Geo D) as (R5 & Rk & Ca). split; [exact R5|]. split; [exact Rk|].
  intros x Hx. unfold direction. destruct (bld r).
  - rewrite V_sites in Hx, Ca. cbn [fst]. split; [apply (FOURIER_ok (dims_ r) (s_dims r So) (psq_ r) (s_psq r So) (sch r) n inp1 (snd s) _ (s_order r So) (s_nc r So) Ca x Hx)|].
    split; [apply (accel_anti (dims_ r) (s_dims r So)); [|assumption]|apply (accel_traceless (dims_ r) (s_dims r So)); [|assumption]]; intros y Hy; apply tangent_iD, So.
  - cbn [fst FOURIER_ACCELERATE3]. split; [now apply Ca|apply tangent_iD, So].
Qed.
Lemma egauge_orbit inp alpha lat X : good lat -> tangents n V inp X -> orbit n ND V lat (egauge_Landau (sch r) n ND V (tmp_ r) inp alpha lat).
Proof. intros [F Geo] T. apply (egauge_ok (sch r) n ND V (tmp_ r) inp alpha lat X (s_order r So) (s_nc r So) F Geo T). Qed.
Lemma good_orbit a b : good a -> orbit n ND V a b -> good b.
Proof. intros [F Geo] O. apply (orbit_keeps n ND V a b O F Geo). Qed.
Lemma line_orbit inp red lat red' lat' X : good lat -> tangents n V inp X -> line_search_Landau (sch r) n ND V (tmp_ r) inp red lat = (red', lat') -> orbit n ND V lat lat'.
Proof. intros G T E. unfold line_search_Landau in E. injection E as _ <-. now apply (egauge_orbit _ _ _ X). Qed.

Definition cg_lat (st : cg_state) : lattice := let '(_, lat, _, _, _, _) := st in lat.
Definition cg_sn (st : cg_state) : fields := let '(_, _, _, sn, _, _) := st in sn.
Lemma sum_PR3_red sched NC W inp old red : sum_PR3 sched NC W inp old red 5%nat = red 5%nat.
Proof.
  unfold sum_PR3. generalize (sched [5] W). intro l. revert red. induction l as [|i l IH]; intro red; [reflexivity|]. cbn [fold_left]. destruct (PR3_site NC inp old i). rewrite IH. reflexivity.
Qed.
Lemma cg_step_ok st tr st' : good (cg_lat st) -> (exists Y, tangents n V (cg_sn st) Y) -> cg_step r st = (tr, st') ->
  tr = accuracy (cg_lat st) /\ orbit n ND V (cg_lat st) (cg_lat st') /\ (exists Y, tangents n V (cg_sn st') Y).
Proof.
  intros G [Y T] E. destruct st as [[[[[red0 lat] s] sn] old] inold]. cbn [cg_lat cg_sn] in *. unfold cg_step in E.
  destruct (deriv_and_accelerate r (fun _ => 0%R) lat s) as [red s1] eqn:D. destruct (dna_ok _ _ _ _ _ G D) as (R5 & _ & Ti).
  set (red1 := sum_PR3 _ _ _ _ _ _) in E. set (beta := beta_of _ _ _ _) in E.
  set (sn1 := fun c j : nat => if (Nat.ltb c (TRUE_HERM n) && Nat.ltb j V)%bool then (fst s1 c j + RtoC beta * sn c j)%C else sn c j) in E.
  assert (Ts : tangents n V sn1 (fun x => madd (direction r lat x) (mscale (RtoC beta) (Y x)))) by (apply (tangents_own n V _ sn _ (s_nc r So)), tangents_combine; [apply So|assumption|assumption]).
  assert (A : (red 5%nat * GFNORM_LANDAU r)%R = accuracy lat) by (rewrite R5; unfold accuracy, GFNORM_LANDAU, Rdiv; ring).
  match type of E with context [if ?c then _ else _] => destruct c end.
  - destruct (line_search_Landau _ _ _ _ _ _ _ _) as [red2 lat2] eqn:L. injection E as <- <-. cbn [cg_lat cg_sn]. split; [exact A|]. split; [exact (line_orbit sn1 red1 lat red2 lat2 _ G Ts L)|eexists; exact Ts].
  - injection E as <- <-. cbn [cg_lat cg_sn]. split; [exact A|]. split; [exact (egauge_orbit sn1 _ lat _ G Ts)|eexists; exact Ts].
Qed.
(** the loop: the accuracy is that of the field before the last step *)
Lemma cg_loop_ok acc max : 0 <= max < two31 -> forall fuel loc st it tr st', 0 <= loc -> loc < Z.max 1 max -> good (cg_lat st) -> (exists Y, tangents n V (cg_sn st) Y) ->
  cg_loop r fuel acc max loc st = Some (it, tr, st') ->
  loc < it <= Z.max 1 max /\ ((tr <= acc)%R \/ max <= it) /\ (exists lat, orbit n ND V (cg_lat st) lat /\ tr = accuracy lat /\ orbit n ND V lat (cg_lat st')) /\ (exists Y, tangents n V (cg_sn st') Y).
Proof.
  intro Hmax. induction fuel as [|fuel IH]; intros loc st it tr st' H0 H1 G T E; [discriminate|]. cbn [cg_loop] in E. destruct (cg_step r st) as [tr1 st1] eqn:S.
  destruct (cg_step_ok st tr1 st1 G T S) as (A & O & T1). assert (U : u64 (loc + 1) = loc + 1) by (apply u64_id; unfold two64, two31 in *; lia). rewrite U in E.
  destruct (Rlt_dec acc tr1) as [L|L].
  - destruct (Z.ltb_spec (loc + 1) max).
    + apply IH in E; try lia; [|eapply good_orbit; eassumption|assumption]. destruct E as (B & C & (lat & O1 & A1 & O2) & T2). split; [lia|]. split; [exact C|]. split; [|exact T2].
      exists lat. split; [eapply orbit_trans; eassumption|]. split; assumption.
    + injection E as <- <- <-. split; [lia|]. split; [right; lia|]. split; [|exact T1]. exists (cg_lat st). split; [apply orbit_refl|]. split; assumption.
  - injection E as <- <- <-. split; [lia|]. split; [left; lra|]. split; [|exact T1]. exists (cg_lat st). split; [apply orbit_refl|]. split; assumption.
Qed.
Lemma steep_ok fuel acc max st it tr st' : 0 <= max < two31 -> good (cg_lat st) -> steep_Landau_FACG r fuel acc max st = Some (it, tr, st') ->
  0 < it <= Z.max 1 max /\ ((tr <= acc)%R \/ max <= it) /\ exists lat, orbit n ND V (cg_lat st) lat /\ tr = accuracy lat /\ orbit n ND V lat (cg_lat st').
Proof.
  intros Hmax G E. destruct st as [[[[[red0 lat] s] sn] old] inold]. cbn [cg_lat] in *. unfold steep_Landau_FACG in E.
  destruct (deriv_and_accelerate r red0 lat s) as [red s1] eqn:D. destruct (dna_ok _ _ _ _ _ G D) as (_ & _ & Ti).
  destruct (line_search_Landau _ _ _ _ _ _ _ _) as [red2 lat2] eqn:L. pose proof (line_orbit _ _ _ _ _ _ G Ti L) as O.
  apply cg_loop_ok in E; cbn [cg_lat cg_sn]; try lia.
  - destruct E as (B & C & (l & O1 & A & O2) & _). split; [lia|]. split; [exact C|]. exists l. split; [eapply orbit_trans; eassumption|]. split; assumption.
  - eapply good_orbit; eassumption.
  - eexists. apply (tangents_own n V (fst s1) sn _ (s_nc r So) Ti).
Qed.
Lemma top_ok acc max : 0 <= max < two31 -> forall fuel st it tr st', good (cg_lat st) -> FACG_top r fuel acc max st = Some (it, tr, st') ->
  (it = GIVEN_UP /\ (1000 * acc <= tr)%R \/ 0 < it < max /\ (tr <= acc)%R) /\ exists lat, orbit n ND V (cg_lat st) lat /\ tr = accuracy lat /\ orbit n ND V lat (cg_lat st').
Proof.
  intro Hmax. induction fuel as [|fuel IH]; intros st it tr st' G E; [discriminate|]. cbn [FACG_top] in E. destruct (steep_Landau_FACG r (S fuel) acc max st) as [[[l th] st1]|] eqn:S; [|discriminate]. cbn [bindo] in E.
  destruct (steep_ok _ _ _ _ _ _ _ Hmax G S) as (B & C & lat & O1 & A & O2).
  assert (U : u64 (i32 l) = l) by (rewrite i32_id by (unfold two31 in *; lia); apply u64_id; unfold two64, two31 in *; lia). rewrite U in E.
  assert (O : orbit n ND V (cg_lat st) (cg_lat st1)) by (eapply orbit_trans; eassumption).
  destruct (Z.leb_spec max l) as [Le|Lt].
  - destruct (Rlt_dec th (1000 * acc)) as [Lth|Lth].
    + apply IH in E; [|eapply good_orbit; eassumption]. destruct E as (D & lat' & O1' & A' & O2'). split; [exact D|]. exists lat'. split; [eapply orbit_trans; eassumption|]. split; assumption.
    + injection E as <- <- <-. split; [left; split; [reflexivity|lra]|]. exists lat. tauto.
  - injection E as <- <- <-. split; [right; split; [lia|]; destruct C as [C|C]; [exact C|lia]|]. exists lat. tauto.
Qed.
Theorem FACG_ok sn old fuel acc max lat s it th lat' s' : 0 <= max < two31 -> good lat -> FACG r sn old fuel acc max lat s = Some (it, th, lat', s') ->
  it = 0 /\ lat' = lat /\ th = (4 * violation n ND V lat / INR (n * V))%R /\ (th < acc)%R \/
  (it = GIVEN_UP /\ (1000 * acc <= th)%R \/ 0 < it < max /\ (th <= acc)%R) /\ exists l, orbit n ND V lat l /\ th = accuracy l /\ orbit n ND V l lat'.
Proof.
  intros Hmax G E. unfold FACG in E. rewrite (theta_test_ok (sch r) n ND V (tmp_ r) lat (s_order r So) (s_nc r So)) in E by apply G.
  destruct (Rlt_dec _ acc) as [L|L].
  - injection E as <- <- <- _. left. repeat split; assumption.
  - right. destruct (FACG_top r fuel acc max _) as [[[i t] st]|] eqn:T; [|discriminate]. apply top_ok in T; [|assumption|exact G].
    destruct st as [[[[[red0 l0] s0] sn0] old0] inold0]. cbn [bindo] in E. injection E as <- <- <- _. exact T.
Qed.
Theorem FACG_orbit sn old fuel acc max lat s it th lat' s' : 0 <= max < two31 -> good lat -> FACG r sn old fuel acc max lat s = Some (it, th, lat', s') -> orbit n ND V lat lat'.
Proof.
  intros Hmax G E. apply FACG_ok in E; [|assumption|assumption]. destruct E as [(_ & -> & _)|(_ & l & O & _ & O')]; [apply orbit_refl|eapply orbit_trans; eassumption].
Qed.
End Whole.
