(** The slope of the functional, gauge orbits, whole runs of the conjugate gradient and its drivers. *)
From Coq Require Import Permutation Lia Lra Psatz.
From Verif Require Import CInt GeomModel GeomSpec GeomProofs GeomProofs2 Cplx CMat Det Arr MatModel MatSpec MatProofs MatProofs2 ProjModel ProjProofs GramModel GramProofs FieldModel FieldProofs FieldProofs2 FftModel FftProofs QtopModel QtopSpec QtopProofs QtopProofs2 QtopProofs4 SmearModel StaticModel StaticProofs GluonSpec GluonModel GluonProofs GluonProofs2 GluonProofs3 GluonProofs4 InstProofs InstProofs2 CfgSpec CfgProofs HypProofs SmearProofs U1Model U1Spec U1Proofs U1Proofs2 U1Proofs3 LandauModel LandauSpec LandauProofs LandauProofs2 LandauProofs3.
Local Open Scope C_scope.

(** * The slope *)
Lemma dsum_opp n f : dsum n (fun i => - f i)%R = (- dsum n f)%R.
Proof. induction n as [|n IH]; [rewrite !dsum_0; ring|]. rewrite !dsum_S, IH. ring. Qed.
Definition rtr (n : nat) (X M : mat) : R := re (mtr n (mmul n X M)).
Lemma rtr_entries n X M : rtr n X M = dsum n (fun i => dsum n (fun j => re (X i j * M j i))).
Proof. unfold rtr, mtr. rewrite GluonProofs2.re_csum. apply dsum_ext. intros i Hi. unfold mmul. now rewrite GluonProofs2.re_csum. Qed.
Lemma inner_trf n X M : (2 <= n)%nat -> tangent n X -> inner n X (mscale Ci (trf n (herm M))) = (- rtr n X M)%R.
Proof.
  intros Hn [H T]. set (c := Cdiv (mtr n (herm M)) (RtoC (INR n))).
  assert (E1 : inner n X (mscale Ci (trf n (herm M))) = (inner n X (aherm M) - re (mtr n X * conj (Ci * c)))%R).
  { unfold mtr. rewrite <- csum_mul_r, GluonProofs2.re_csum. rewrite !inner_entries.
    replace (dsum n (fun i => re (X i i * conj (Ci * c)))) with (dsum n (fun i => dsum n (fun j => re (X i j * conj (Ci * c * mid i j))))).
    - rewrite <- dsum_sub. apply dsum_ext. intros i Hi. rewrite <- dsum_sub. apply dsum_ext. intros j Hj. change (mscale Ci (trf n (herm M)) i j) with (Ci * (- Ci * aherm M i j - c * mid i j)). generalize c, (aherm M i j), (X i j), (mid i j). clear. intros [] [] [] []. cunfold. cbn. ring.
    - apply dsum_ext. intros i Hi. transitivity (re (csum n (fun j => mid i j * (X i j * conj (Ci * c))))); [|now rewrite csum_delta_l]. rewrite GluonProofs2.re_csum. apply dsum_ext. intros j Hj. generalize c, (X i j). clear. intros [] []. unfold mid. destruct (Nat.eqb i j); cunfold; cbn; ring. }
  unfold traceless in T. rewrite E1, T. rewrite rtr_entries, inner_entries.
  assert (E2 : dsum n (fun i => dsum n (fun j => re (X i j * conj (M i j)))) = (- dsum n (fun i => dsum n (fun j => re (X i j * M j i))))%R).
  { rewrite (dsum_swap_any n n (fun i j => re (X i j * conj (M i j)))). rewrite <- dsum_opp. apply dsum_ext. intros i Hi. rewrite <- dsum_opp. apply dsum_ext. intros j Hj. rewrite (anti_off n X i j) by assumption. destruct (X i j), (M j i). cunfold. cbn. ring. }
  transitivity (1/2 * (dsum n (fun i => dsum n (fun j => re (X i j * conj (M i j)))) - dsum n (fun i => dsum n (fun j => re (X i j * M j i)))) - 0)%R; [|rewrite E2; lra].
  f_equal; [|unfold C0; cunfold; cbn; ring]. rewrite <- dsum_sub, <- dsum_mul. apply dsum_ext. intros i Hi. rewrite <- dsum_sub, <- dsum_mul. apply dsum_ext. intros j Hj.
  unfold aherm, mscale, msub, dag. destruct (X i j), (M i j), (M j i). unfold RtoC. cunfold. cbn. field.
Qed.

Lemma dsum_bij n f (s : nat -> nat) : (forall x, (x < n)%nat -> (s x < n)%nat) -> (forall x y, (x < n)%nat -> (y < n)%nat -> s x = s y -> x = y) -> dsum n (fun x => f (s x)) = dsum n f.
Proof.
  intros H1 H2. pose proof (csum_bij n (fun x => RtoC (f x)) s H1 H2) as E. apply (f_equal re) in E. rewrite !GluonProofs2.re_csum in E. exact E.
Qed.
Lemma inner_csum_r n m (F : nat -> mat) X : inner n X (fun a b => csum m (fun k => F k a b)) = dsum m (fun k => inner n X (F k)).
Proof. rewrite inner_sym, inner_csum_l. apply dsum_ext. intros. apply inner_sym. Qed.
Lemma inner_iD n ND lat X x : (2 <= n)%nat -> tangent n X ->
  inner n X (mscale Ci (divergence n ND lat x)) = dsum ND (fun mu => rtr n X (lnk n lat x mu) - rtr n X (lnk n lat (bck (lat x) mu) mu))%R.
Proof.
  intros Hn T.
  transitivity (inner n X (fun a b => csum ND (fun mu => msub (mscale Ci (trf n (herm (lnk n lat (bck (lat x) mu) mu)))) (mscale Ci (trf n (herm (lnk n lat x mu)))) a b))).
  - apply inner_meq; [reflexivity|]. intros i j Hi Hj. unfold mscale at 1. unfold divergence, msum. rewrite <- csum_mul_l. apply csum_ext. intros mu Hm. unfold msub at 1 2, mscale at 1 2. ring.
  - rewrite inner_csum_r. apply dsum_ext. intros mu Hm.
    transitivity (inner n X (mscale Ci (trf n (herm (lnk n lat (bck (lat x) mu) mu)))) - inner n X (mscale Ci (trf n (herm (lnk n lat x mu)))))%R; [|rewrite !inner_trf by assumption; ring].
    rewrite !inner_entries. rewrite <- dsum_sub. apply dsum_ext. intros i Hi. rewrite <- dsum_sub. apply dsum_ext. intros j Hj. unfold msub at 1.
    generalize (X i j), (mscale Ci (trf n (herm (lnk n lat (bck (lat x) mu) mu))) i j), (mscale Ci (trf n (herm (lnk n lat x mu))) i j). clear. intros [] [] []. cunfold. cbn. ring.
Qed.
Lemma rtr_dag n U Y : antihermitian n Y -> re (mtr n (mmul n U (dag Y))) = (- rtr n Y U)%R.
Proof.
  intro H. unfold rtr. rewrite (H : meq n (dag Y) _). rewrite mmul_scale_r, mtr_scale, (mtr_cyc n Y U). generalize (mtr n (mmul n U Y)). clear. intros []. cunfold. cbn. ring.
Qed.
Lemma along_expand n X Y U a : antihermitian n Y ->
  re (mtr n (mmul n (mmul n (madd mid (mscale (RtoC a) X)) U) (dag (madd mid (mscale (RtoC a) Y)))))
  = (re (mtr n U) + a * (rtr n X U - rtr n Y U) + a * a * re (mtr n (mmul n (mmul n X U) (dag Y))))%R.
Proof.
  intro H. rewrite dag_add, dag_mid, dag_scale, conj_RtoC, mmul_add_l, mmul_1_l, mmul_scale_l.
  rewrite mmul_add_r, mmul_1_r, !mmul_add_l, !mmul_scale_l, !mmul_scale_r. rewrite !mtr_add, !mtr_scale.
  pose proof (rtr_dag n U Y H) as E. unfold rtr in *.
  generalize dependent (mtr n (mmul n U (dag Y))). generalize (mtr n (mmul n X U)), (mtr n (mmul n Y U)), (mtr n U), (mtr n (mmul n (mmul n X U) (dag Y))). clear.
  intros [] [] [] [] [] E. unfold RtoC. cunfold. cbn in *. rewrite E. ring.
Qed.
Theorem slope_ok n ND V lat X : (2 <= n)%nat -> geom_ok ND V lat -> (forall x, (x < V)%nat -> tangent n (X x)) ->
  exists q, forall a, along n ND V lat X a = (functional n ND V lat + a * dsum V (fun x => inner n (X x) (mscale Ci (divergence n ND lat x))) + a * a * q)%R.
Proof.
  intros Hn Geo T. exists (dsum V (fun x => dsum ND (fun mu => re (mtr n (mmul n (mmul n (X x) (lnk n lat x mu)) (dag (X (nbr (lat x) mu)))))))). intro a.
  assert (S1 : dsum V (fun x => inner n (X x) (mscale Ci (divergence n ND lat x))) = dsum V (fun x => dsum ND (fun mu => rtr n (X x) (lnk n lat x mu) - rtr n (X (nbr (lat x) mu)) (lnk n lat x mu))%R)).
  { rewrite (dsum_ext V _ (fun x => dsum ND (fun mu => rtr n (X x) (lnk n lat x mu) - rtr n (X x) (lnk n lat (bck (lat x) mu) mu))%R)) by (intros; apply inner_iD; auto).
    rewrite (dsum_swap_any V ND), (dsum_swap_any V ND). apply dsum_ext. intros mu Hm. rewrite !dsum_sub. f_equal.
    rewrite <- (dsum_bij V (fun x => rtr n (X x) (lnk n lat (bck (lat x) mu) mu)) (fun x => nbr (lat x) mu)).
    - apply dsum_ext. intros x Hx. now rewrite (g_bn _ _ _ Geo).
    - intros x Hx. now apply (g_nbr _ _ _ Geo).
    - intros x y Hx Hy E. rewrite <- (g_bn _ _ _ Geo x mu Hx Hm), E. now apply (g_bn _ _ _ Geo). }
  rewrite S1. unfold along, functional. rewrite <- !dsum_mul, <- !dsum_add. apply dsum_ext. intros x Hx. rewrite <- !dsum_mul, <- !dsum_add. apply dsum_ext. intros mu Hm.
  apply along_expand. apply T. now apply (g_nbr _ _ _ Geo).
Qed.

(** * Orbits *)
Definition orbit (n ND V : nat) (lat lat' : lattice) : Prop := exists g, group_gauge n V g /\ gauged n ND V g lat lat'.
Lemma orbit_refl n ND V lat : orbit n ND V lat lat.
Proof. exists (fun _ => mid). split; [intros i _; apply SUn_mid|apply gauged_refl]. Qed.
Lemma orbit_trans n ND V a b c : orbit n ND V a b -> orbit n ND V b c -> orbit n ND V a c.
Proof. intros (g & G & H) (h & G' & H'). eexists. split; [|eapply gauged_compose; eassumption]. intros i Hi. apply SUn_mmul; auto. Qed.
Lemma orbit_keeps n ND V a b : orbit n ND V a b -> group_field n ND V a -> geom_ok ND V a -> group_field n ND V b /\ geom_ok ND V b.
Proof.
  intros (g & G & H) F Geo. split; [apply (gauged_group n ND V g a b (g_nbr _ _ _ Geo) G F H)|]. apply (geom_ok_same ND V a b); [apply H|assumption].
Qed.
