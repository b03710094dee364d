(** The rules of stout smearing and of the Wilson flow are local; the time slices of the
    tables of init_navig. *)
From Coq Require Import PeanoNat List Lia ZArith Permutation Bool Reals.
From Verif Require Import Arr MmulModel FieldModel FieldProofs SmearModel SmearProofs.
From Verif Require GeomModel GeomSpec GeomProofs GeomProofs2 CInt.
Import ListNotations.

(** * time slices *)
Definition lcu (ds : list Z) : nat := Z.to_nat (GeomSpec.prodZ (removelast ds)).
Definition ntime (ds : list Z) : nat := Z.to_nat (last ds 0%Z).
Section Slices.
Local Open Scope Z_scope.
Import GeomSpec GeomProofs.
Lemma horner_snoc : forall ds d xs x, length xs = length ds -> horner (ds ++ [d]) (xs ++ [x]) = horner ds xs + prodZ ds * x.
Proof.
  induction ds as [|e ds IH]; intros d [|y xs] x H; try discriminate; cbn [app horner].
  - rewrite Z.mul_0_r. unfold prodZ. cbn [fold_right]. ring.
  - injection H as H. rewrite IH by assumption. rewrite prodZ_cons. ring.
Qed.
Lemma snoc_of : forall {A} (l : list A) n, length l = S n -> exists l' a, l = l' ++ [a] /\ length l' = n.
Proof.
  intros A l n H. destruct (rev l) as [|a r] eqn:E.
  - apply (f_equal (@rev A)) in E. rewrite rev_involutive in E. subst. discriminate.
  - exists (rev r), a. assert (X : l = rev r ++ [a]) by (rewrite <- (rev_involutive l), E; reflexivity).
    split; [exact X|]. rewrite X, app_length in H. cbn in H. lia.
Qed.
Lemma coords_split : forall ds T x, in_box (ds ++ [T]) x ->
  exists y c, x = y ++ [c] /\ in_box ds y /\ (0 <= c < T) /\ horner (ds ++ [T]) x = horner ds y + prodZ ds * c /\ 0 <= horner ds y < prodZ ds.
Proof.
  intros ds T x H. unfold in_box in H. apply Forall2_app_inv_l in H. destruct H as (y & z & Hy & Hz & ->).
  inversion Hz as [|? ? ? ? Hc Hn]; subst. inversion Hn; subst. eexists y, _. split; [reflexivity|]. split; [exact Hy|]. split; [exact Hc|].
  split; [|now apply horner_bound]. apply horner_snoc. now apply in_box_length.
Qed.
(** a step changes the time slice only in the last direction, and then nothing else *)
Lemma step_slice : forall ds T x y mu s, 0 < T -> in_box (ds ++ [T]) x -> in_box (ds ++ [T]) y -> stepped (ds ++ [T]) x y mu s -> (mu <= length ds)%nat ->
  let ix := horner (ds ++ [T]) x in let iy := horner (ds ++ [T]) y in let P := prodZ ds in
  if Nat.eqb mu (length ds) then iy / P = (ix / P + s) mod T /\ iy mod P = ix mod P else iy / P = ix / P.
Proof.
  intros ds T x y mu s HT Hx Hy [Ls St] Hm ix iy P.
  destruct (coords_split _ _ _ Hx) as (x' & c & Ex & Bx & Hc & Hix & Rx). destruct (coords_split _ _ _ Hy) as (y' & e & Ey & By & He & Hiy & Ry).
  assert (Lx : length x' = length ds) by now apply in_box_length. assert (Ly : length y' = length ds) by now apply in_box_length.
  assert (D : forall h t, 0 <= h < P -> (h + P * t) / P = t /\ (h + P * t) mod P = h).
  { intros h t Hh. rewrite (Z.mul_comm P), Z.div_add, Z.mod_add by lia. rewrite Z.div_small, Z.mod_small by lia. lia. }
  fold P in Hix, Hiy, Rx, Ry. unfold ix, iy. rewrite Hix, Hiy. destruct (D _ c Rx) as [D1 D2], (D _ e Ry) as [D3 D4]. rewrite D1, D2, D3, D4.
  assert (Ee : forall k, (k < length ds)%nat -> nth_error x k = nth_error x' k /\ nth_error y k = nth_error y' k).
  { intros k Hk. rewrite Ex, Ey. rewrite !nth_error_app1 by lia. auto. }
  assert (El : nth_error x (length ds) = Some c /\ nth_error y (length ds) = Some e).
  { rewrite Ex, Ey. rewrite !nth_error_app2 by lia. rewrite Lx, Ly, Nat.sub_diag. auto. }
  destruct El as [El1 El2]. destruct (Nat.eqb_spec mu (length ds)) as [E|E].
  - specialize (St (length ds)) as Sl. rewrite E, Nat.eqb_refl, El1, El2 in Sl. rewrite nth_error_app2, Nat.sub_diag in Sl by lia. cbn [nth_error] in Sl.
    injection Sl as Sl. split; [exact Sl|]. replace y' with x'; [reflexivity|].
    apply nth_error_ext_Z. intro k. destruct (lt_dec k (length ds)) as [Hk|Hk].
    + destruct (Ee k Hk) as [E1 E2]. specialize (St k). destruct (Nat.eqb_spec k mu); [lia|]. congruence.
    + rewrite !(proj2 (nth_error_None _ _)) by lia. reflexivity.
  - specialize (St (length ds)). destruct (Nat.eqb_spec (length ds) mu); [lia|]. congruence.
Qed.
End Slices.
Lemma slices_of : forall ds, GeomSpec.lattice_ok ds -> exists ds' T, ds = ds' ++ [T] /\ (0 < T)%Z /\ (0 < GeomSpec.prodZ ds')%Z /\
  lcu ds = Z.to_nat (GeomSpec.prodZ ds') /\ ntime ds = Z.to_nat T /\ volume ds = lcu ds * ntime ds /\ length ds = S (length ds').
Proof.
  intros ds Hok. pose proof Hok as (Hne & Hd & _). pose proof (app_removelast_last 0%Z Hne) as E.
  exists (removelast ds), (last ds 0%Z). split; [exact E|].
  assert (Hd' : Forall (fun L => (0 < L)%Z) ds) by (eapply Forall_impl; [|exact Hd]; cbv beta; lia). rewrite E in Hd'. apply Forall_app in Hd'.
  destruct Hd' as [Hd1 Hd2]. inversion Hd2; subst. split; [assumption|]. assert (P : (0 < GeomSpec.prodZ (removelast ds))%Z) by now apply GeomProofs.prodZ_pos.
  split; [exact P|]. split; [reflexivity|]. split; [reflexivity|]. split.
  - unfold volume. rewrite GeomProofs.lvolume_prod by assumption. rewrite E at 1. unfold lcu, ntime.
    assert (A : forall l t, GeomSpec.prodZ (l ++ [t]) = (GeomSpec.prodZ l * t)%Z).
    { induction l as [|a l IH]; intro t; [unfold GeomSpec.prodZ; cbn [app fold_right]; ring|]. cbn [app]. rewrite !GeomProofs.prodZ_cons, IH. ring. }
    rewrite A. lia.
  - rewrite E at 1. rewrite app_length. cbn. lia.
Qed.
Section Nav.
Variables (ds : list Z) (geo : lattice).
Hypothesis Hok : GeomSpec.lattice_ok ds.
Hypothesis Nav : navig ds geo.
Let ND := length ds.
Let LCU := lcu ds.
Let T := ntime ds.
Lemma lcu_pos : 0 < LCU /\ 0 < T /\ volume ds = LCU * T.
Proof. destruct (slices_of ds Hok) as (ds' & t & E & Ht & Hp & El & Et & Ev & _). unfold LCU, T. rewrite Ev. lia. Qed.
Lemma nav_slice : forall j mu, j < volume ds -> mu < ND ->
  (mu = ND - 1 -> nbr (geo j) mu = LCU * ((slice_of LCU j + 1) mod T) + j mod LCU /\
                  bck (geo j) mu = LCU * ((slice_of LCU j + T - 1) mod T) + j mod LCU) /\
  (mu <> ND - 1 -> slice_of LCU (nbr (geo j) mu) = slice_of LCU j /\ slice_of LCU (bck (geo j) mu) = slice_of LCU j).
Proof.
  intros j mu Hj Hm. destruct (slices_of ds Hok) as (ds' & t & E & Ht & Hp & El & Et & Ev & Ln).
  destruct (Nav j mu Hj Hm) as [N B].
  assert (R : (0 <= Z.of_nat j < GeomModel.lvolume ds)%Z) by (unfold volume in Hj; lia).
  destruct (GeomProofs2.index_coords ds (Z.of_nat j) Hok R) as (x & Hx & Ex).
  destruct (GeomProofs.neighbor_step ds _ mu x Hok Hm Hx Ex) as (jn & y & Ejn & Hjn & Hy & Ey & Sy).
  destruct (GeomProofs.back_step ds _ mu x Hok Hm Hx Ex) as (jb & z & Ejb & Hjb & Hz & Ez & Sz).
  rewrite N in Ejn. rewrite B in Ejb. injection Ejn as <-. injection Ejb as <-.
  rewrite GeomProofs.index_of_horner in Ex, Ey, Ez by now apply GeomProofs.in_box_length.
  unfold LCU, T, ND in *. rewrite El, Et, Ln. rewrite Ln in Hm. clear El Et Ev Ln. rewrite E in *. clear E.
  pose proof (step_slice ds' t x y mu 1 Ht Hx Hy Sy ltac:(lia)) as S1. pose proof (step_slice ds' t x z mu (-1) Ht Hx Hz Sz ltac:(lia)) as S2.
  cbv zeta in S1, S2. rewrite Ex, Ey in S1. rewrite Ex, Ez in S2.
  set (P := GeomSpec.prodZ ds') in *. set (n := nbr (geo j) mu) in *. set (b := bck (geo j) mu) in *. clearbody n b P.
  assert (TN : forall a, Z.of_nat (slice_of (Z.to_nat P) a) = (Z.of_nat a / P)%Z).
  { intro a. unfold slice_of. rewrite Nat2Z.inj_div, Z2Nat.id by lia. reflexivity. }
  assert (TM : forall a, Z.of_nat (a mod Z.to_nat P) = (Z.of_nat a mod P)%Z).
  { intro a. rewrite Nat2Z.inj_mod, Z2Nat.id by lia. reflexivity. }
  destruct (Nat.eqb_spec mu (length ds')) as [Em|Em]; split; intro Q; try lia.
  - destruct S1 as [S1a S1b], S2 as [S2a S2b].
    assert (DM : forall a, a = Z.to_nat P * slice_of (Z.to_nat P) a + a mod Z.to_nat P) by (intro a; apply Nat.div_mod; lia).
    split.
    + rewrite (DM n) at 1. f_equal; [f_equal|]; apply Nat2Z.inj.
      * rewrite TN, S1a, Nat2Z.inj_mod, Nat2Z.inj_add, TN, Z2Nat.id by lia. reflexivity.
      * now rewrite !TM.
    + rewrite (DM b) at 1. f_equal; [f_equal|]; apply Nat2Z.inj.
      * rewrite TN, S2a, Nat2Z.inj_mod, Z2Nat.id by lia.
        replace (Z.of_nat (slice_of (Z.to_nat P) j + Z.to_nat t - 1)) with (Z.of_nat j / P + (-1) + 1 * t)%Z by (rewrite <- TN; lia).
        rewrite Z.mod_add by lia. reflexivity.
      * now rewrite !TM.
  - split; apply Nat2Z.inj; rewrite !TN; assumption.
Qed.
Lemma nav_bk : forall t, t < T -> bck (geo (LCU * t)) (ND - 1) = LCU * ((t + T - 1) mod T).
Proof.
  intros t Ht. destruct lcu_pos as (HL & HT & HV).
  assert (N0 : 0 < ND) by (destruct (slices_of ds Hok) as (ds' & u & _ & _ & _ & _ & _ & _ & Ln); unfold ND; lia).
  destruct (nav_slice (LCU * t) (ND - 1)) as [E _]; [rewrite HV; nia|lia|].
  rewrite (proj2 (E eq_refl)). replace (slice_of LCU (LCU * t)) with t.
  - rewrite (Nat.mul_comm LCU t), Nat.mod_mul by lia. lia.
  - unfold slice_of. rewrite Nat.mul_comm, Nat.div_mul; lia.
Qed.
(** neighbours and next neighbours around a corner are at most one slice away *)
Lemma nav_close : forall i mu nu, i < volume ds -> mu < ND -> nu < ND -> mu <> nu ->
  let c j := j < volume ds /\ close T 1 (slice_of LCU i) (slice_of LCU j) in
  c i /\ c (nbr (geo i) nu) /\ c (nbr (geo i) mu) /\ c (bck (geo i) nu) /\ c (nbr (geo (bck (geo i) nu)) mu).
Proof.
  intros i mu nu Hi Hm Hn Hne c. destruct lcu_pos as (HL & HT & HV). pose proof (navig_geom ds geo Hok Nav) as G. fold ND in G.
  assert (SL : forall j, j < volume ds -> slice_of LCU j < T) by (intros j Hj; apply Nat.div_lt_upper_bound; lia).
  assert (SA : forall t m, t < T -> slice_of LCU (LCU * t + m mod LCU) = t).
  { intros t m Ht. unfold slice_of. rewrite Nat.mul_comm, Nat.div_add_l, Nat.div_small by (try apply Nat.mod_upper_bound; lia). lia. }
  assert (MB : forall s, s < T -> s = ((s + T - 1) mod T + 1) mod T).
  { intros s Hs. rewrite Nat.add_mod_idemp_l by lia. replace (s + T - 1 + 1) with (s + 1 * T) by lia. rewrite Nat.mod_add, Nat.mod_small by lia. reflexivity. }
  assert (SN : forall j m, j < volume ds -> m < ND -> close T 1 (slice_of LCU j) (slice_of LCU (nbr (geo j) m)) /\
     close T 1 (slice_of LCU j) (slice_of LCU (bck (geo j) m)) /\
     (m <> ND - 1 -> slice_of LCU (nbr (geo j) m) = slice_of LCU j)).
  { intros j m Hj Hmm. destruct (nav_slice j m Hj Hmm) as [E1 E2]. pose proof (SL j Hj) as Sj. destruct (Nat.eq_dec m (ND - 1)) as [Y|Y].
    - destruct (E1 Y) as [-> ->]. rewrite !SA by (apply Nat.mod_upper_bound; lia). split; [exists 1; split; [lia|now left]|].
      split; [|contradiction]. exists 1. split; [lia|]. right. now apply MB.
    - destruct (E2 Y) as [-> ->]. assert (R : close T 1 (slice_of LCU j) (slice_of LCU j)) by (exists 0; split; [lia|left; rewrite Nat.add_0_r, Nat.mod_small by assumption; reflexivity]). auto. }
  pose proof (g_bck _ _ _ G i nu Hi Hn) as Lb.
  unfold c. repeat apply Logic.conj.
  - exact Hi.
  - exists 0. split; [lia|]. left. rewrite Nat.add_0_r, Nat.mod_small; [reflexivity|auto].
  - now apply (g_nbr _ _ _ G).
  - now apply SN.
  - now apply (g_nbr _ _ _ G).
  - now apply SN.
  - exact Lb.
  - now apply SN.
  - now apply (g_nbr _ _ _ G).
  - destruct (Nat.eq_dec mu (ND - 1)) as [Y|Y].
    + destruct (nav_slice i nu Hi Hn) as [_ E2]. destruct (E2 ltac:(lia)) as [_ Eb]. rewrite <- Eb. now apply SN.
    + destruct (SN (bck (geo i) nu) mu Lb Hm) as (_ & _ & E3). rewrite (E3 Y). now apply SN.
Qed.
Lemma staples_local : forall n t1 t2 s f f' i mu, i < volume ds -> mu < ND ->
  (forall k nu, k < volume ds -> nu < ND -> close T 1 (slice_of LCU i) (slice_of LCU k) -> f k nu = f' k nu) ->
  all_staples n t1 t2 s (with_links geo f) i mu ND = all_staples n t1 t2 s (with_links geo f') i mu ND /\ f i mu = f' i mu.
Proof.
  intros n t1 t2 s f f' i mu Hi Hm H. destruct lcu_pos as (HL & HT & HV). split.
  - unfold all_staples. f_equal. f_equal. apply for_ext. intros j [[st a] b] Hj.
    set (nu := if Nat.ltb j mu then j else S j).
    assert (Hnu : nu < ND /\ mu <> nu) by (unfold nu; destruct (Nat.ltb_spec j mu); lia).
    destruct (nav_close i mu nu Hi Hm (proj1 Hnu) (proj2 Hnu)) as ((C1 & D1) & (C2 & D2) & (C3 & D3) & (C4 & D4) & (C5 & D5)).
    unfold with_links. cbn [O nbr bck]. rewrite !H by (assumption || apply Hnu). reflexivity.
  - apply H; try assumption. exists 0. split; [lia|]. left. rewrite Nat.add_0_r, Nat.mod_small; [reflexivity|]. apply Nat.div_lt_upper_bound; lia.
Qed.
Lemma stout_local : forall n a b j0 j1 j2 j3, local (stout_rule n a b j0 j1 j2 j3 geo ND) ND LCU T 1.
Proof.
  intros n a b j0 j1 j2 j3 f f' i mu z Hi Hm H. destruct lcu_pos as (_ & _ & HV). rewrite <- HV in Hi, H. unfold stout_rule.
  destruct (staples_local n j1 j2 (zero_mat n j0) f f' i mu Hi Hm H) as [-> ->]. reflexivity.
Qed.
Lemma flow_local : forall n a b j1 j2 j3 j4 j5 j6 j7 j8, local (flow_rule n a b j1 j2 j3 j4 j5 j6 j7 j8 geo ND) ND LCU T 1.
Proof.
  intros n a b j1 j2 j3 j4 j5 j6 j7 j8 f f' i mu z Hi Hm H. destruct lcu_pos as (_ & _ & HV). rewrite <- HV in Hi, H. unfold flow_rule.
  destruct (staples_local n j2 j3 (zero_mat n j1) f f' i mu Hi Hm H) as [-> ->]. reflexivity.
Qed.
End Nav.

(** * the rules are always defined for NC = 2, 3 *)
From Verif Require Import CMat MatSpec ProjModel ProjProofs ExpModel ExpProofs ExpProofs2.
Lemma stout_defined : forall n a b j0 j1 j2 j3 geo ND f i mu z, n = 2 \/ n = 3 ->
  exists r, stout_rule n a b j0 j1 j2 j3 geo ND f i mu z = Some (tt, r).
Proof.
  intros n a b j0 j1 j2 j3 geo ND f i mu z Hn. unfold stout_rule. set (S0 := all_staples _ _ _ _ _ _ _ _). clearbody S0.
  enough (H : exists r, project_STOUT n j3 S0 (f i mu) a b = Some r) by (destruct H as [r ->]; eauto).
  destruct Hn as [Hn|Hn]; subst n; unfold project_STOUT.
  - cbn [exponentiate]. eauto.
  - destruct (stout_form 3 j3 S0 (f i mu) a b (or_intror eq_refl)) as (q & Eq & Ep); [intro X; discriminate|].
    destruct (stout_q_ok 3 a (mx 3 S0) (mx 3 (f i mu)) ltac:(lia)) as [H T].
    assert (H' : hermitian 3 (mx 3 q)) by (unfold hermitian in *; now rewrite Eq).
    assert (T' : traceless 3 (mx 3 q)) by (unfold traceless in *; now rewrite Eq).
    destruct (exponentiate_3_ok (multab_dag 3 (fun _ => C0) S0 (f i mu)) q H' T') as (r & E & Er & _).
    unfold project_STOUT in Ep. rewrite Ep. cbn [exponentiate]. rewrite Er. eauto.
Qed.
Lemma flow_defined : forall n a b j1 j2 j3 j4 j5 j6 j7 j8 geo ND f i mu z, n = 2 \/ n = 3 ->
  exists zv r, flow_rule n a b j1 j2 j3 j4 j5 j6 j7 j8 geo ND f i mu z = Some (zv, r).
Proof.
  intros n a b j1 j2 j3 j4 j5 j6 j7 j8 geo ND f i mu z Hn. unfold flow_rule. set (S0 := all_staples _ _ _ _ _ _ _ _). clearbody S0.
  cbv zeta. set (zz := set_zmatrix _ _ _ _). clearbody zz.
  enough (H : exists r, project_STOUT_wflow_short n j6 j7 j8 zz (f i mu) b = Some r) by (destruct H as [r ->]; eauto).
  destruct Hn as [Hn|Hn]; subst n; unfold project_STOUT_wflow_short.
  - cbn [exponentiate_short]. eauto.
  - cbv zeta. set (q := upd _ 4 _).
    assert (Q0 : im (q 0%nat) = 0%R) by (unfold q; cbn; ring). assert (Q3 : im (q 3%nat) = 0%R) by (unfold q; cbn; ring). clearbody q.
    set (A := fun i j : nat => match i, j with 0, 0 => q 0 | 0, 1 => q 1 | 0, 2 => q 2 | 1, 0 => conj (q 1) | 1, 1 => q 3 | 1, 2 => q 4
      | 2, 0 => conj (q 2) | 2, 1 => conj (q 4) | 2, 2 => (- q 0 - q 3)%C | _, _ => C0 end).
    destruct (exponentiate_short_3_ok j7 q A) as (r & E & Er & _).
    + intros p r Hp Hr. destruct p as [|[|p]]; [| |lia]; (destruct r as [|[|[|r]]]; [..|lia]); try lia; reflexivity.
    + assert (R : forall c : C, im c = 0%R -> conj c = c) by (intros [x y] H; cbn in H; subst y; apply C_eq; cunfold; ring).
      assert (I : im (- q 0%nat - q 3%nat)%C = 0%R) by (destruct (q 0%nat), (q 3%nat); cbn in *; subst; ring).
      split3; unfold dag, A; try rewrite conj_conj; try reflexivity; now apply R.
    + unfold traceless, mtr, A. cbn [csum]. ring.
    + cbn [exponentiate_short]. rewrite Er. eauto.
Qed.
