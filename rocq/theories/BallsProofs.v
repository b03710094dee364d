(** Proofs about the loops of links for glueballs. *)
From Coq Require Import Lia Lra.
From Verif Require Import CInt GeomModel GeomSpec Cplx CMat Det Arr MatModel MatSpec MatProofs MmulModel MmulProofs FieldModel FieldProofs FieldProofs2 CloverProofs CloverProofs5 BallsModel.
Import ListNotations.
Local Open Scope R_scope.

(** * Specification: an entry p of a path is a step along the axis |p|, forwards for p > 0 *)
Definition step_of (p : Z) : step := ((0 <? p)%Z, (Z.to_nat (Z.abs p) - 1)%nat).
Definition entry (ND : nat) (p : Z) : Prop := (p <> 0 /\ Z.abs p <= Z.of_nat ND)%Z.
(** the path adds up to zero *)
Definition total (path : list Z) : Z := fold_right Z.add 0%Z path.

Lemma total_fold path : fold_left Z.add path 0%Z = total path.
Proof.
  unfold total. generalize 0%Z at 1 2. intro z. assert (G : forall l a, fold_left Z.add l (a + z)%Z = (a + fold_right Z.add z l)%Z).
  { induction l as [|x l IH]; intro a; cbn [fold_left fold_right]; [reflexivity|]. rewrite <- Z.add_assoc, (Z.add_comm z x), Z.add_assoc, IH. lia. }
  specialize (G path 0%Z). exact G.
Qed.
Lemma direction_ok ND path : forallb (direction ND) path = true <-> Forall (entry ND) path.
Proof. rewrite forallb_forall, Forall_forall. unfold direction, entry. split; intros H p I; specialize (H p I); rewrite ?andb_true_iff, ?Z.leb_le in *; lia. Qed.

Section walks.
Variables (n ND V : nat) (lat : lattice).
Hypothesis Geo : geom_ok ND V lat.
Hypothesis Uni : group_field n ND V lat.
Lemma along_equiv a t i p j : along n ND V lat a i p j -> along n ND V lat (equiv n t a) i p j.
Proof. intros (A & B & D & E). repeat split; try assumption. destruct (equiv_ok n t a) as [F _]. now rewrite F. Qed.
Lemma first_ok t i p : (i < V)%nat -> entry ND p -> let '(a, k) := first_link n t lat i p in along n ND V lat a i [step_of p] k.
Proof.
  intros Hi [Hp Hq]. unfold first_link, axis, step_of. set (mu := (Z.to_nat (Z.abs p) - 1)%nat). assert (Hm : (mu < ND)%nat) by (unfold mu; lia).
  destruct (Z.ltb_spec p 0).
  - destruct (Z.ltb_spec 0 p); [lia|]. split; [exact Hi|]. split; [intros s [<-|[]]; exact Hm|]. split; [reflexivity|]. cbn [walk]. rewrite mmul_1_r. destruct (dagger_ok n t (O (lat (bck (lat i) mu)) mu)) as [E _]. rewrite E. reflexivity.
  - destruct (Z.ltb_spec 0 p); [|lia]. apply along_equiv, along_lnk; auto.
Qed.
Lemma next_ok i t k r p q : entry ND q -> along n ND V lat t i p k ->
  let '(t', k', r') := next_link n lat (t, k, r) q in along n ND V lat t' i (p ++ [step_of q]) k' /\ along n ND V lat r' i (p ++ [step_of q]) k'.
Proof.
  intros [Hp Hq] A. unfold next_link, axis, step_of. set (mu := (Z.to_nat (Z.abs q) - 1)%nat). assert (Hm : (mu < ND)%nat) by (unfold mu; lia).
  assert (Hk : (k < V)%nat) by (destruct A as (A1 & A2 & <- & _); now apply (arrive_lt ND V lat Geo)).
  assert (G : forall a, along n ND V lat a i (p ++ [((0 <? q)%Z, mu)]) (if (q <? 0)%Z then bck (lat k) mu else nbr (lat k) mu) ->
    along n ND V lat (equiv n t a) i (p ++ [((0 <? q)%Z, mu)]) (if (q <? 0)%Z then bck (lat k) mu else nbr (lat k) mu)) by (intros; now apply along_equiv).
  destruct (Z.ltb_spec q 0).
  - destruct (Z.ltb_spec 0 q); [lia|]. pose proof (g_bck _ _ _ Geo k mu Hk Hm) as Hb.
    assert (M : along n ND V lat (multab_dag_suNC n r t (O (lat (bck (lat k) mu)) mu)) i (p ++ [(false, mu)]) (bck (lat k) mu)).
    { change [(false, mu)] with (turn [(true, mu)]). eapply (along_mul_dag n ND V lat Geo Uni); [exact A|]. apply along_lnk; auto. now apply (g_nb _ _ _ Geo). }
    split; [now apply G|exact M].
  - destruct (Z.ltb_spec 0 q); [|lia].
    assert (M : along n ND V lat (multab_suNC n r t (O (lat k) mu)) i (p ++ [(true, mu)]) (nbr (lat k) mu)).
    { eapply (along_mul n ND V lat Geo Uni); [exact A|]. apply along_lnk; auto. }
    split; [now apply G|exact M].
Qed.
Lemma rest_ok i : forall rest t k r p, Forall (entry ND) rest -> along n ND V lat t i p k -> (along n ND V lat r i p k) ->
  exists k', along n ND V lat (snd (fold_left (next_link n lat) rest (t, k, r))) i (p ++ map step_of rest) k'.
Proof.
  induction rest as [|q rest IH]; intros t k r p F A B; cbn [fold_left map]; [rewrite app_nil_r; eauto|]. inversion F; subst.
  pose proof (next_ok i t k r p q H1 A) as N. destruct (next_link n lat (t, k, r) q) as [[t' k'] r']. destruct N as [N1 N2].
  destruct (IH t' k' r' _ H2 N1 N2) as [k2 E]. exists k2. rewrite <- app_assoc in E. exact E.
Qed.
Lemma link_path_ok t i path : (i < V)%nat -> Forall (entry ND) path -> (2 <= length path)%nat ->
  exists a, link_path n ND t lat path i = Some a /\ meq n (mx n a) (walk n lat i (map step_of path)).
Proof.
  intros Hi F L. unfold link_path. rewrite (proj2 (direction_ok ND path) F). cbn [negb]. destruct path as [|p [|q rest]]; cbn [length] in L; try lia.
  inversion F as [|? ? F1 F2]; subst. inversion F2 as [|? ? F3 F4]; subst. pose proof (first_ok t i p Hi F1) as A. destruct (first_link n t lat i p) as [a k].
  pose proof (next_ok i a k t _ q F3 A) as N. cbn [fold_left]. destruct (next_link n lat (a, k, t) q) as [[t' k'] r']. destruct N as [N1 N2].
  destruct (rest_ok i rest t' k' r' _ F4 N1 N2) as [k2 E]. eexists. split; [reflexivity|]. destruct E as (_ & _ & _ & E). exact E.
Qed.
Lemma mtr_meq : forall A B, meq n A B -> mtr n A = mtr n B.
Proof. intros A B E. now rewrite E. Qed.
Lemma sites_ok t path : Forall (entry ND) path -> (2 <= length path)%nat -> forall v r, (v <= V)%nat ->
  exists r', fold_left (fun r i => do r <- r; do temp <- link_path n ND t lat path i; Some (fun x => if Nat.eqb x i then (r x + trace n temp)%C else r x)) (seq 0 v) (Some r) = Some r' /\
  forall x, r' x = if (x <? v)%nat then (r x + mtr n (walk n lat x (map step_of path)))%C else r x.
Proof.
  intros F L. induction v as [|v IH]; intros r Hv; [eexists; split; [reflexivity|reflexivity]|].
  destruct (IH r ltac:(lia)) as (r1 & E & G). rewrite seq_S, fold_left_app, E. cbn [fold_left Nat.add]. destruct (link_path_ok t v path ltac:(lia) F L) as (a & Ea & Ma). rewrite Ea.
  eexists; split; [reflexivity|]. intro x. cbv beta. rewrite G. destruct (Nat.eqb_spec x v) as [->|N].
  - rewrite trace_ok, (mtr_meq _ _ Ma). destruct (Nat.ltb_spec v v); [lia|]; destruct (Nat.ltb_spec v (S v)); [|lia]; reflexivity.
  - destruct (Nat.ltb_spec x v), (Nat.ltb_spec x (S v)); try lia; reflexivity.
Qed.
Lemma lattice_ok_ t path r : Forall (entry ND) path -> (2 <= length path)%nat -> total path = 0%Z ->
  exists r', GLUball_lattice n ND V t lat path r = Some (true, r') /\
  forall x, r' x = if (x <? V)%nat then (r x + mtr n (walk n lat x (map step_of path)))%C else r x.
Proof.
  intros F L T. unfold GLUball_lattice. rewrite total_fold, T. cbn [Z.eqb]. destruct (sites_ok t path F L V r (le_n V)) as (r' & E & G). rewrite E. cbn. eauto.
Qed.
End walks.

(** * The plaquette that is printed *)
From Verif Require Import GluonSpec GluonProofs2.
(** the plaquette of the directions mu and nu at x *)
Definition plaquette_at (n : nat) (lat : lattice) (x mu nu : nat) : mat := walk n lat x [(true, mu); (true, nu); (false, mu); (false, nu)].
Lemma plaquette_steps i j : map step_of (plaquette_path (i, j)) = [(true, i); (true, j); (false, i); (false, j)].
Proof.
  unfold plaquette_path, step_of. cbn [fst snd map]. repeat f_equal; try lia;
  match goal with |- (?a <? ?b)%Z = _ => destruct (Z.ltb_spec a b); lia end.
Qed.
Lemma plane_ok n ND V lat t r i j : geom_ok ND V lat -> group_field n ND V lat -> (i < ND)%nat -> (j < ND)%nat ->
  exists r', GLUball_lattice n ND V t lat (plaquette_path (i, j)) r = Some (true, r') /\
  forall x, r' x = if (x <? V)%nat then (r x + mtr n (plaquette_at n lat x i j))%C else r x.
Proof.
  intros Geo U Hi Hj. destruct (lattice_ok_ n ND V lat Geo U t (plaquette_path (i, j)) r) as (r' & E & G).
  - unfold plaquette_path. cbn [fst snd]. repeat constructor; unfold entry; lia.
  - cbn. lia.
  - unfold total, plaquette_path. cbn [fst snd fold_right]. lia.
  - exists r'. split; [exact E|]. intro x. rewrite G, plaquette_steps. reflexivity.
Qed.
Lemma sum_dsum (f : nat -> R) : forall v, fold_left (fun s i => s + f i) (seq 0 v) 0 = dsum v f.
Proof. induction v as [|v IH]; [reflexivity|]. rewrite seq_S, fold_left_app, IH, dsum_S. reflexivity. Qed.
Lemma printed_ok n V lat t : geom_ok 4 V lat -> group_field n 4 V lat -> exists p r, GLU_balls n 4 V t lat = Some (p, r) /\
  p = dsum V (fun x => re (mtr n (plaquette_at n lat x 0 1)) + re (mtr n (plaquette_at n lat x 0 2)) + re (mtr n (plaquette_at n lat x 1 2))) / (18 * INR V) /\
  forall x, (x < V)%nat -> r x = (mtr n (plaquette_at n lat x 0 1) + mtr n (plaquette_at n lat x 0 2) + mtr n (plaquette_at n lat x 1 2))%C.
Proof.
  intros Geo U. unfold GLU_balls. change (planes 4) with [(0, 1); (0, 2); (1, 2)]%nat.
  destruct (plane_ok n 4 V lat t (fun _ => C0) 0 1 Geo U ltac:(lia) ltac:(lia)) as (r1 & E1 & G1).
  destruct (plane_ok n 4 V lat t r1 0 2 Geo U ltac:(lia) ltac:(lia)) as (r2 & E2 & G2).
  destruct (plane_ok n 4 V lat t r2 1 2 Geo U ltac:(lia) ltac:(lia)) as (r3 & E3 & G3).
  match goal with |- context [fold_left ?f [_; _; _] _] => set (F := f) end.
  assert (B : forall r p r', GLUball_lattice n 4 V t lat (plaquette_path p) r = Some (true, r') -> F (Some r) p = Some r') by (intros r p r' E; unfold F; cbn -[GLUball_lattice]; rewrite E; reflexivity).
  cbn [fold_left]. rewrite (B _ _ _ E1), (B _ _ _ E2), (B _ _ _ E3).
  assert (G : forall x, (x < V)%nat -> r3 x = (mtr n (plaquette_at n lat x 0 1) + mtr n (plaquette_at n lat x 0 2) + mtr n (plaquette_at n lat x 1 2))%C).
  { intros x Hx. rewrite G3, G2, G1. destruct (Nat.ltb_spec x V); [|lia]. cring. }
  do 2 eexists. split; [reflexivity|]. split; [|exact G]. rewrite sum_dsum, mult_INR, (Rmult_comm (INR V)). f_equal; [|f_equal; f_equal; cbn; lra].
  apply dsum_ext. intros x Hx. now rewrite G.
Qed.
