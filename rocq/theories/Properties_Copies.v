(** C72: the choice among gauge copies *)
From Coq Require Import Lia Lra.
From Verif Require Import CInt GeomModel GeomSpec Cplx CMat Det Arr MatModel MatSpec MatProofs FieldModel FieldProofs FieldProofs2 QtopModel QtopProofs2 GluonSpec GluonProofs2 QtopSpec LandauModel LandauSpec LandauProofs2 LandauProofs4 LandauProofs5 LandauProofs6 ReportModel ReportProofs2 CopiesModel CopiesProofs.
Import ListNotations.
Local Open Scope R_scope.

(** A run that ends goes on with one of the copies: one that converged, with the functional below 1 and not above that of
    any copy that converged (worst copy: above 0 and not below).  The accuracy and the field returned are those of
    the last fixing, the number of iterations that of the last copy plus that of the last fixing.  The copies made: what the
    fixing made of the random transformations, at the accuracy 10^-6. *)
Theorem C72_chosen : forall best fixing random functional luxury acc max lat s it th lat' s',
  luxury_copy_fast best fixing random functional luxury acc max lat s = Some (it, th, lat', s') ->
  exists (tries : nat -> Z * lattice) k it1 s1,
  (forall j, (j < luxury)%nat -> exists s2 th2 s3, fixing (1 / 1000000) 1000%Z (random j lat) s2 = Some (fst (tries j), th2, snd (tries j), s3)) /\
  (k < luxury)%nat /\ fst (tries k) <> 1000%Z /\ fst (tries k) <> 123456789%Z /\
  (if best then functional (snd (tries k)) < 1 else 0 < functional (snd (tries k))) /\
  (forall j, (j < luxury)%nat -> fst (tries j) <> 1000%Z -> fst (tries j) <> 123456789%Z ->
    if best then functional (snd (tries k)) <= functional (snd (tries j)) else functional (snd (tries j)) <= functional (snd (tries k))) /\
  fixing acc max (snd (tries k)) s1 = Some (it1, th, lat', s') /\ it = ((fst (tries (luxury - 1)%nat) + it1) mod 2 ^ 64)%Z.
Proof.
  intros best fixing random functional luxury acc max lat s it th lat' s' E. apply luxury_ok in E. destruct E as (tries & c & it1 & s1 & T & ((k & Hk & Ek & C1 & C2) & G & N & Al) & F & I). subst c.
  exists tries, k, it1, s1. split; [exact T|]. split; [exact Hk|]. split; [exact C1|]. split; [exact C2|]. split; [unfold as_good, first_link in *; destruct best; lra|]. split; [|split; [exact F|exact I]].
  intros j Hj J1 J2. exact (Al j Hj (Logic.conj J1 J2)).
Qed.
Print Assumptions C72_chosen.

(** With the conjugate gradient or steepest descent as the fixing, whatever their work space holds, the field returned is a
    gauge transformation of the one given. *)
Theorem C72_orbit : forall r best fixing random functional luxury acc max lat s it th lat' s', sound r -> (0 <= max < two31)%Z -> good r lat ->
  (forall acc max l s it th l' s', fixing acc max l s = Some (it, th, l', s') -> exists fuel, FASD r fuel acc max l s = Some (it, th, l', s') \/ exists sn old, FACG r sn old fuel acc max l s = Some (it, th, l', s')) ->
  (forall k, exists g, group_gauge (nc r) (nsites (dims_ r)) g /\ gauged (nc r) (length (dims_ r)) (nsites (dims_ r)) g lat (random k lat)) ->
  luxury_copy_fast best fixing random functional luxury acc max lat s = Some (it, th, lat', s') ->
  exists g, group_gauge (nc r) (nsites (dims_ r)) g /\ gauged (nc r) (length (dims_ r)) (nsites (dims_ r)) g lat lat'.
Proof.
  intros r best fixing random functional luxury acc max lat s it th lat' s' So Hm G Fx Rn E. rewrite <- V_sites in * by assumption.
  set (n := nc r) in *. set (ND := length (dims_ r)) in *. set (V := Z.to_nat (lvolume (dims_ r))) in *. change (orbit n ND V lat lat').
  assert (St : forall acc max l s it th l' s', (0 <= max < two31)%Z -> good r l -> fixing acc max l s = Some (it, th, l', s') -> orbit n ND V l l').
  { clear - So Fx. intros acc max l s it th l' s' Hm G F. destruct (Fx _ _ _ _ _ _ _ _ F) as (fuel & [F'|(sn & old & F')]).
    - apply FASD_ok in F'; try assumption. destruct F' as [(_ & -> & _)|(_ & l1 & O & _ & O')]; [apply orbit_refl|eapply orbit_trans; eassumption].
    - eapply FACG_orbit; eassumption. }
  apply C72_chosen in E. destruct E as (tries & k & it1 & s1 & T & Hk & _ & _ & _ & _ & F & _). destruct (T k Hk) as (s2 & th2 & s3 & F2).
  assert (O1 : orbit n ND V lat (random k lat)) by apply Rn. assert (G1 := good_orbit r _ _ G O1).
  assert (O2 : orbit n ND V (random k lat) (snd (tries k))) by (eapply St; [|exact G1|exact F2]; unfold two31; lia). assert (G2 := good_orbit r _ _ G1 O2).
  eapply orbit_trans; [exact O1|]. eapply orbit_trans; [exact O2|]. eapply St; [|exact G2|exact F]. assumption.
Qed.
Print Assumptions C72_orbit.

(** * Constant fields of SU(2) on two sites: 1 and -1 *)
Definition sign_link (z : C) : arr := fun k => match k with 0%nat | 3%nat => z | _ => C0 end.
Definition sign_lat (z : C) : lattice := fun x => mkSite (fun _ => sign_link z) (fun _ => Nat.modulo (x + 1) 2) (fun _ => Nat.modulo (x + 1) 2).
Lemma sign_good z : z = C1 \/ z = (- C1)%C -> good two_run (sign_lat z).
Proof.
  intro Hz. split.
  - intros x mu _ _. cbn [nc two_run]. change (lnk 2 (sign_lat z) x mu) with (mx 2 (sign_link z)). apply SUn_2. split; [split; intros i j Hi Hj; unfold mmul, dag, mx, mid; cbn [csum]; destruct i as [|[|i]]; try lia; destruct j as [|[|j]]; try lia; cbn [Nat.add Nat.mul Nat.eqb sign_link]; destruct Hz as [-> | ->]; cring
      |unfold det2, mx; cbn [Nat.add Nat.mul sign_link]; destruct Hz as [-> | ->]; cring].
  - change (length (dims_ two_run)) with 1%nat. change (Z.to_nat (lvolume (dims_ two_run))) with 2%nat. constructor; intros; unfold sign_lat; cbn [nbr bck]; destruct i as [|[|i]]; try lia; cbn; lia.
Qed.
Lemma sign_fixed z sn old fuel acc max s : z = C1 \/ z = (- C1)%C -> 0 < acc -> FACG two_run sn old fuel acc max (sign_lat z) s = Some (0%Z, 0, sign_lat z, s).
Proof.
  intros Hz Ha. unfold FACG. destruct (sign_good z Hz) as [F Geo]. change (length (dims_ two_run)) with 1%nat in *. change (Z.to_nat (lvolume (dims_ two_run))) with 2%nat in *. cbn [nc sch tmp_ two_run] in *.
  rewrite (theta_test_ok (fun _ n => seq 0 n) 2 1 2 (fun _ => C0) (sign_lat z)); [|apply (s_order two_run two_sound)|lia|exact F|exact Geo].
  assert (Dv : forall x i j, divergence 2 1 (sign_lat z) x i j = C0).
  { intros x i j. unfold divergence, msum, msub. cbn [csum]. change (lnk 2 (sign_lat z) (bck (sign_lat z x) 0) 0) with (mx 2 (sign_link z)). change (lnk 2 (sign_lat z) x 0) with (mx 2 (sign_link z)). ring. }
  assert (Vi : violation 2 1 2 (sign_lat z) = 0).
  { unfold violation. rewrite !dsum_S. unfold mtr, mmul. cbn [csum dsum]. rewrite !Dv. unfold C0. cunfold. cbn. ring. }
  rewrite Vi. replace (4 * 0 / INR (2 * 2)) with 0 by (cbn; field). destruct (Rlt_dec 0 acc); [reflexivity|contradiction].
Qed.
Lemma sign_functional z : gauge_functional (fun _ n => seq 0 n) 2 1 2 (sign_lat z) = 1 - re z.
Proof. unfold gauge_functional. cbn [seq fold_left for_]. unfold trace, sign_lat. cbn [O]. cbn. unfold sign_link. cbn. field. Qed.

(** If no copy is accepted the lattice is overwritten with memory that has never been set: here the field is in
    Landau gauge, every copy is fixed with 0 iterations, and the functional is 2. *)
Theorem C72_unset_refuted : exists r lat, sound r /\ good r lat /\ forall sn old fuel luxury acc max s, 0 < acc -> let cg := fun acc max l s => FACG r sn old fuel acc max l s in
  (exists s', cg acc max lat s = Some (0%Z, 0, lat, s')) /\
  luxury_copy_fast true cg (fun _ l => l) (gauge_functional (sch r) (nc r) (length (dims_ r)) (nsites (dims_ r))) luxury acc max lat s = None.
Proof.
  exists two_run, (sign_lat (- C1)%C). split; [exact two_sound|]. split; [apply sign_good; now right|]. intros sn old fuel luxury acc max s Ha cg. split; [exists s; apply sign_fixed; [now right|exact Ha]|].
  unfold luxury_copy_fast. change (length (dims_ two_run)) with 1%nat. change (nsites (dims_ two_run)) with 2%nat. cbn [nc sch two_run].
  assert (K : forall todo k it, exists it', copies true cg (fun _ l => l) (gauge_functional (fun _ n => seq 0 n) 2 1 2) todo k (sign_lat (- C1)%C) s 1 None it = Some (s, None, it')).
  { induction todo as [|todo IH]; intros k it; cbn [copies]; [eexists; reflexivity|]. unfold cg at 1. rewrite sign_fixed by (now right || lra). cbn [bindo]. cbv zeta. rewrite sign_functional. unfold accepted. destruct (Rlt_dec _ _) as [N|_]; [exfalso; cbn in N; lra|]. cbn [andb]. apply IH. }
  destruct (K luxury 0%nat 0%Z) as (it' & Ek). change (first_link true) with 1. rewrite Ek. reflexivity.
Qed.
Print Assumptions C72_unset_refuted.

(** A last fixing that gives up is taken for a success if the last copy took iterations: the sign of giving up
    has them added.  (Some fixing: 5 iterations at low accuracy, giving up at the accuracy asked for.) *)
Theorem C72_failure_refuted : exists r lat fixing acc, good r lat /\ (forall l s, fixing acc 1000%Z l s = Some (123456789%Z, 1, l, s)) /\ acc < 1 /\ forall grab s luxury, (0 < luxury)%nat ->
  GF_wrap_landau (fun l s => luxury_copy_fast true fixing (fun _ l => l) (gauge_functional (sch r) (nc r) (length (dims_ r)) (nsites (dims_ r))) luxury acc 1000 l s) grab 1000 lat s = Some (123456794%Z, 1, lat).
Proof.
  set (fixing := fun (acc : R) (max : Z) (l : lattice) (s : fields * fields) => if Rlt_dec acc (1 / 1000000) then Some (GIVEN_UP, 1, l, s) else Some (5%Z, 0, l, s)).
  exists two_run, (sign_lat C1), fixing, (1 / 100000000). split; [apply sign_good; now left|]. split; [intros l s; unfold fixing; destruct (Rlt_dec _ _) as [_|N]; [reflexivity|exfalso; lra]|]. split; [lra|].
  intros grab s luxury Hl. change (length (dims_ two_run)) with 1%nat. change (nsites (dims_ two_run)) with 2%nat. cbn [nc sch two_run].
  assert (F5 : forall l s, fixing (1 / 1000000) 1000%Z l s = Some (5%Z, 0, l, s)) by (intros l s0; unfold fixing; destruct (Rlt_dec _ _) as [N|_]; [exfalso; lra|reflexivity]).
  assert (FG : forall l s, fixing (1 / 100000000) 1000%Z l s = Some (GIVEN_UP, 1, l, s)) by (intros l s0; unfold fixing; destruct (Rlt_dec _ _) as [_|N]; [reflexivity|exfalso; lra]).
  assert (K : forall todo k, copies true fixing (fun _ l => l) (gauge_functional (fun _ n => seq 0 n) 2 1 2) todo k (sign_lat C1) s 0 (Some (sign_lat C1)) 5 = Some (s, Some (sign_lat C1), 5%Z)).
  { induction todo as [|todo IH]; intros k; cbn [copies]; [reflexivity|]. rewrite F5. cbn [bindo]. cbv zeta. rewrite sign_functional. unfold accepted. destruct (Rlt_dec _ _) as [N|_]; [exfalso; cbn in N; lra|]. cbn [andb]. apply IH. }
  unfold GF_wrap_landau, Landau, luxury_copy_fast. destruct luxury as [|luxury]; [lia|]. cbn [copies]. rewrite F5. cbn [bindo]. cbv zeta. rewrite sign_functional. unfold accepted, first_link. destruct (Rlt_dec _ _) as [_|N]; [|exfalso; apply N; cbn; lra].
  change ((true && negb (5 =? 1000)%Z && negb (5 =? GIVEN_UP)%Z)%bool) with true. cbv iota. replace (1 - re C1) with 0 by (cbn; ring). rewrite K. cbn [bindo]. rewrite FG. cbn [bindo]. reflexivity.
Qed.
Print Assumptions C72_failure_refuted.

(** The unit field with three copies *)
Example C72_case : forall sn old fuel s, let cg := fun acc max l s => FACG two_run sn old fuel acc max l s in
  luxury_copy_fast true cg (fun _ l => l) (gauge_functional (sch two_run) 2 1 2) 3 (1 / 100) 7 (sign_lat C1) s = Some (0%Z, 0, sign_lat C1, s).
Proof.
  intros sn old fuel s cg. cbn [sch two_run]. unfold luxury_copy_fast. cbn [copies]. unfold cg. repeat (rewrite sign_fixed by (now left || lra); cbn [bindo]). cbv zeta. rewrite sign_functional. unfold accepted, first_link.
  destruct (Rlt_dec (1 - re C1) 1) as [_|N]; [|exfalso; apply N; cbn; lra]. destruct (Rlt_dec (1 - re C1) (1 - re C1)) as [N|_]; [exfalso; lra|]. change ((true && negb (0 =? 1000)%Z && negb (0 =? GIVEN_UP)%Z)%bool) with true. cbn [andb]. cbv iota. cbn [bindo]. rewrite sign_fixed by (now left || lra). reflexivity.
Qed.
