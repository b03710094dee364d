(** The clover loops are rectangles around the site. *)
From Coq Require Import PeanoNat Lia List ZArith Reals Lra Setoid Morphisms Permutation.
From Verif Require Import CMat Det Arr MatSpec MmulModel MmulProofs MatModel MatProofs MatProofs2 Su2Model Su2Proofs FieldModel FieldProofs FieldProofs2 ProjModel ProjProofs CloverModel.
Import ListNotations.
Local Open Scope C_scope.

(** * Specification: paths on the lattice *)
(** a step is a direction and whether it goes forwards *)
Definition step := (bool * nat)%type.
Definition back (s : step) : step := (negb (fst s), snd s).
Definition move (lat : lattice) (i : nat) (s : step) : nat := if fst s then nbr (lat i) (snd s) else bck (lat i) (snd s).
(** the matrix of one step: the link, or the conjugate of the link arriving from behind *)
Definition hop (n : nat) (lat : lattice) (i : nat) (s : step) : mat :=
  if fst s then lnk n lat i (snd s) else dag (lnk n lat (bck (lat i) (snd s)) (snd s)).
Fixpoint walk (n : nat) (lat : lattice) (i : nat) (p : list step) : mat :=
  match p with
  | [] => mid
  | s :: p => mmul n (hop n lat i s) (walk n lat (move lat i s) p)
  end.
Fixpoint arrive (lat : lattice) (i : nat) (p : list step) : nat :=
  match p with [] => i | s :: p => arrive lat (move lat i s) p end.
(** a steps along x, b along y, and back *)
Definition rectangle (x y : step) (a b : nat) : list step :=
  repeat x a ++ repeat y b ++ repeat (back x) a ++ repeat (back y) b.
(** the a by b rectangle in the k-th quadrant of the mu nu plane, anticlockwise from the site *)
Definition quadrant (k mu nu a b : nat) : list step :=
  match k with
  | 1 => rectangle (true, mu) (true, nu) a b
  | 2 => rectangle (false, nu) (true, mu) b a
  | 3 => rectangle (false, mu) (false, nu) a b
  | _ => rectangle (true, nu) (false, mu) b a
  end%nat.

(** * Sites by their offset in a plane *)
Fixpoint it (k : nat) (f : nat -> nat) (j : nat) : nat := match k with 0 => j | S k => f (it k f j) end%nat.
Section plane.
Variables (ND V : nat) (lat : lattice) (i mu nu : nat).
Hypothesis Geo : geom_ok ND V lat.
Hypothesis Hi : (i < V)%nat.
Hypothesis Hmu : (mu < ND)%nat.
Hypothesis Hnu : (nu < ND)%nat.

Definition zit (d : nat) (a : Z) (j : nat) : nat :=
  match a with
  | Z0 => j
  | Zpos p => it (Pos.to_nat p) (fun k => nbr (lat k) d) j
  | Zneg p => it (Pos.to_nat p) (fun k => bck (lat k) d) j
  end.
Lemma iter_lt : forall d k j, (d < ND)%nat -> (j < V)%nat ->
  (it k (fun k => nbr (lat k) d) j < V)%nat /\ (it k (fun k => bck (lat k) d) j < V)%nat.
Proof.
  intros d k j Hd Hj. induction k as [|k [A B]]; cbn [it]; [auto|].
  split; [now apply (g_nbr _ _ _ Geo)|now apply (g_bck _ _ _ Geo)].
Qed.
Lemma zit_lt : forall d a j, (d < ND)%nat -> (j < V)%nat -> (zit d a j < V)%nat.
Proof. intros d [|p|p] j Hd Hj; [assumption|apply (iter_lt d _ j Hd Hj)..]. Qed.
Lemma pos_S : forall p, exists k, Pos.to_nat p = S k.
Proof. intro p. exists (pred (Pos.to_nat p)). pose proof (Pos2Nat.is_pos p). lia. Qed.
Lemma nbr_zit : forall d a j, (d < ND)%nat -> (j < V)%nat -> nbr (lat (zit d a j)) d = zit d (a + 1) j.
Proof.
  intros d [|p|p] j Hd Hj.
  - reflexivity.
  - cbn [zit Z.add]. rewrite Pos2Nat.inj_add. change (Pos.to_nat 1) with 1%nat. rewrite Nat.add_1_r. reflexivity.
  - destruct (pos_S p) as [k E]. destruct (iter_lt d k j Hd Hj) as [_ L].
    unfold zit at 1. rewrite E. cbn [it]. rewrite (g_nb _ _ _ Geo) by assumption.
    destruct k.
    + assert (p = 1%positive) by lia. subst p. reflexivity.
    + replace (Z.neg p + 1)%Z with (Z.neg (Pos.of_nat (S k))) by lia. unfold zit. now rewrite Nat2Pos.id by lia.
Qed.
Lemma bck_zit : forall d a j, (d < ND)%nat -> (j < V)%nat -> bck (lat (zit d a j)) d = zit d (a - 1) j.
Proof.
  intros d [|p|p] j Hd Hj.
  - reflexivity.
  - destruct (pos_S p) as [k E]. destruct (iter_lt d k j Hd Hj) as [L _].
    unfold zit at 1. rewrite E. cbn [it]. rewrite (g_bn _ _ _ Geo) by assumption.
    destruct k.
    + assert (p = 1%positive) by lia. subst p. reflexivity.
    + replace (Z.pos p - 1)%Z with (Z.pos (Pos.of_nat (S k))) by lia. unfold zit. now rewrite Nat2Pos.id by lia.
  - replace (Z.neg p - 1)%Z with (Z.neg (p + 1)) by lia. cbn [zit]. rewrite Pos2Nat.inj_add. change (Pos.to_nat 1) with 1%nat. rewrite Nat.add_1_r. reflexivity.
Qed.
Lemma bck_bck : forall j d e, (j < V)%nat -> (d < ND)%nat -> (e < ND)%nat -> bck (lat (bck (lat j) d)) e = bck (lat (bck (lat j) e)) d.
Proof.
  intros j d e Hj Hd He.
  pose proof (g_bck _ _ _ Geo j d Hj Hd) as L1. pose proof (g_bck _ _ _ Geo j e Hj He) as L2.
  pose proof (g_bck _ _ _ Geo _ e L1 He) as L3.
  rewrite <- (g_nb _ _ _ Geo j e Hj He) at 1.
  rewrite <- (g_bnc _ _ _ Geo) by assumption. rewrite (g_bn _ _ _ Geo); [reflexivity| |assumption]. now apply (g_bck _ _ _ Geo).
Qed.
Lemma zit_nbr : forall d e a j, (d < ND)%nat -> (e < ND)%nat -> (j < V)%nat -> nbr (lat (zit d a j)) e = zit d a (nbr (lat j) e).
Proof.
  intros d e a j Hd He Hj. destruct a as [|p|p]; [reflexivity| |]; unfold zit; generalize (Pos.to_nat p); intro k; induction k; cbn [it]; try reflexivity.
  - rewrite (g_nn _ _ _ Geo) by (try assumption; now apply iter_lt). now rewrite IHk.
  - rewrite (g_bnc _ _ _ Geo) by (try assumption; now apply iter_lt). now rewrite IHk.
Qed.
Lemma zit_bck : forall d e a j, (d < ND)%nat -> (e < ND)%nat -> (j < V)%nat -> bck (lat (zit d a j)) e = zit d a (bck (lat j) e).
Proof.
  intros d e a j Hd He Hj. destruct a as [|p|p]; [reflexivity| |]; unfold zit; generalize (Pos.to_nat p); intro k; induction k; cbn [it]; try reflexivity.
  - rewrite <- (g_bnc _ _ _ Geo) by (try assumption; now apply iter_lt). now rewrite IHk.
  - rewrite bck_bck by (try assumption; now apply iter_lt). now rewrite IHk.
Qed.
(** the site at offset (a,b) from i *)
Definition at_ (a b : Z) : nat := zit nu b (zit mu a i).
Lemma at_lt : forall a b, (at_ a b < V)%nat.
Proof. intros. unfold at_. now repeat apply zit_lt. Qed.
Lemma nbr_mu : forall a b, nbr (lat (at_ a b)) mu = at_ (a + 1) b.
Proof. intros. unfold at_. rewrite zit_nbr by (try assumption; now apply zit_lt). now rewrite nbr_zit by assumption. Qed.
Lemma nbr_nu : forall a b, nbr (lat (at_ a b)) nu = at_ a (b + 1).
Proof. intros. unfold at_. apply nbr_zit; [assumption|now apply zit_lt]. Qed.
Lemma bck_mu : forall a b, bck (lat (at_ a b)) mu = at_ (a - 1) b.
Proof. intros. unfold at_. rewrite zit_bck by (try assumption; now apply zit_lt). now rewrite bck_zit by assumption. Qed.
Lemma bck_nu : forall a b, bck (lat (at_ a b)) nu = at_ a (b - 1).
Proof. intros. unfold at_. apply bck_zit; [assumption|now apply zit_lt]. Qed.
End plane.

(** * Products along paths *)
Lemma multab_dagdag_suNC_ok : forall n a b c, (n = 2 \/ n = 3)%nat -> SUn n (mx n b) -> SUn n (mx n c) ->
  meq n (mx n (multab_dagdag_suNC n a b c)) (mmul n (dag (mx n b)) (dag (mx n c))).
Proof.
  intros n a b c Hn SA SB. destruct Hn; subst n; [apply multab_dagdag_suNC_2_ok; now apply SUn_2|apply multab_dagdag_suNC_3_ok; now apply SUn_3].
Qed.
Section prod.
Variables (n ND V : nat) (lat : lattice).
Hypothesis Geo : geom_ok ND V lat.
Hypothesis Grp : group_field n ND V lat.
Definition good (p : list step) : Prop := forall s, In s p -> (snd s < ND)%nat.
Lemma good_cons : forall s p, good (s :: p) <-> (snd s < ND)%nat /\ good p.
Proof.
  intros. unfold good. split; [|intros [A B] x [<-|H]; auto].
  intro H. split; [apply H; now left|intros x Hx; apply H; now right].
Qed.
Lemma good_app : forall p q, good (p ++ q) <-> good p /\ good q.
Proof. intros. unfold good. setoid_rewrite in_app_iff. firstorder. Qed.
Lemma move_lt : forall i s, (i < V)%nat -> (snd s < ND)%nat -> (move lat i s < V)%nat.
Proof. intros i [[] d] Hi Hd; [now apply (g_nbr _ _ _ Geo)|now apply (g_bck _ _ _ Geo)]. Qed.
Lemma arrive_lt : forall p i, (i < V)%nat -> good p -> (arrive lat i p < V)%nat.
Proof. induction p as [|s p IH]; intros i Hi G; [assumption|]. apply good_cons in G as [A B]. cbn [arrive]. apply IH; [now apply move_lt|assumption]. Qed.
Lemma hop_SUn : forall i s, (i < V)%nat -> (snd s < ND)%nat -> SUn n (hop n lat i s).
Proof.
  intros i [[] d] Hi Hd; unfold hop; cbn [fst snd] in *; [now apply Grp|]. apply SUn_dag, Grp; [|assumption].
  now apply (g_bck _ _ _ Geo).
Qed.
Lemma walk_SUn : forall p i, (i < V)%nat -> good p -> SUn n (walk n lat i p).
Proof.
  induction p as [|s p IH]; intros i Hi G; [apply SUn_mid|]. apply good_cons in G as [A B]. cbn [walk].
  apply SUn_mmul; [now apply hop_SUn|]. apply IH; [now apply move_lt|assumption].
Qed.
Lemma walk_app : forall p q i, meq n (walk n lat i (p ++ q)) (mmul n (walk n lat i p) (walk n lat (arrive lat i p) q)).
Proof.
  induction p as [|s p IH]; intros q i; cbn [app walk arrive]; [now rewrite mmul_1_l|].
  rewrite IH. now rewrite mmul_assoc.
Qed.
Lemma arrive_app : forall p q i, arrive lat i (p ++ q) = arrive lat (arrive lat i p) q.
Proof. induction p; intros; cbn [app arrive]; auto. Qed.
Definition turn (p : list step) : list step := rev (map back p).
Lemma good_turn : forall p, good p -> good (turn p).
Proof. intros p G s Hs. apply in_rev in Hs. apply in_map_iff in Hs as [x [<- Hx]]. exact (G x Hx). Qed.
Lemma move_back : forall i s, (i < V)%nat -> (snd s < ND)%nat -> move lat (move lat i s) (back s) = i.
Proof. intros i [[] d] Hi Hd; unfold move, back; cbn [fst snd negb] in *; [now apply (g_bn _ _ _ Geo)|now apply (g_nb _ _ _ Geo)]. Qed.
Lemma hop_back : forall i s, (i < V)%nat -> (snd s < ND)%nat -> meq n (hop n lat (move lat i s) (back s)) (dag (hop n lat i s)).
Proof.
  intros i [[] d] Hi Hd; unfold hop, move, back; cbn [fst snd negb] in *.
  - now rewrite (g_bn _ _ _ Geo).
  - now rewrite dag_dag.
Qed.
Lemma turn_ok : forall p i, (i < V)%nat -> good p ->
  arrive lat (arrive lat i p) (turn p) = i /\ meq n (walk n lat (arrive lat i p) (turn p)) (dag (walk n lat i p)).
Proof.
  induction p as [|s p IH]; intros i Hi G; [split; [reflexivity|cbn; now rewrite dag_mid]|].
  apply good_cons in G as [A B]. cbn [arrive walk]. unfold turn. cbn [map rev]. fold (turn p).
  destruct (IH (move lat i s) (move_lt i s Hi A) B) as [E F].
  rewrite arrive_app, E. cbn [arrive]. split; [now apply move_back|].
  rewrite walk_app, E, F. cbn [walk]. rewrite mmul_1_r, hop_back by assumption. now rewrite dag_mmul.
Qed.

(** the array a is the product along the path p from i to j *)
Definition along (a : arr) (i : nat) (p : list step) (j : nat) : Prop :=
  (i < V)%nat /\ good p /\ arrive lat i p = j /\ meq n (mx n a) (walk n lat i p).
Lemma along_SUn : forall a i p j, along a i p j -> SUn n (mx n a).
Proof. intros a i p j (A & B & _ & D). apply (SUn_ext n (walk n lat i p)); [now symmetry|now apply walk_SUn]. Qed.
Lemma along_lnk : forall i mu j, (i < V)%nat -> (mu < ND)%nat -> nbr (lat i) mu = j -> along (O (lat i) mu) i [(true, mu)] j.
Proof.
  intros i mu j Hi Hm E. split; [assumption|]. split; [intros s [<-|[]]; assumption|]. split; [exact E|].
  cbn [walk]. rewrite mmul_1_r. reflexivity.
Qed.
Lemma along_turn : forall a i p j, along a i p j -> (j < V)%nat /\ good (turn p) /\ arrive lat j (turn p) = i /\ meq n (dag (mx n a)) (walk n lat j (turn p)).
Proof.
  intros a i p j (A & B & <- & D). destruct (turn_ok p i A B) as [E F].
  split; [now apply arrive_lt|]. split; [now apply good_turn|]. split; [assumption|]. now rewrite F, D.
Qed.
Lemma along_mul : forall t a b i p j q k, along a i p j -> along b j q k -> along (multab_suNC n t a b) i (p ++ q) k.
Proof.
  intros t a b i p j q k HA HB. destruct (multab_suNC_ok n t a b (along_SUn _ _ _ _ HA) (along_SUn _ _ _ _ HB)) as [E _].
  destruct HA as (A1 & A2 & A3 & A4), HB as (B1 & B2 & B3 & B4). split; [assumption|]. split; [now apply good_app|].
  split; [now rewrite arrive_app, A3|]. now rewrite E, walk_app, A4, B4, A3.
Qed.
Lemma along_mul_dag : forall t a b i p j q k, along a i p j -> along b k q j -> along (multab_dag_suNC n t a b) i (p ++ turn q) k.
Proof.
  intros t a b i p j q k HA HB. destruct (multab_dag_suNC_ok n t a b (along_SUn _ _ _ _ HA) (along_SUn _ _ _ _ HB)) as [E _].
  apply along_turn in HB. destruct HA as (A1 & A2 & A3 & A4), HB as (B1 & B2 & B3 & B4). split; [assumption|]. split; [now apply good_app|].
  split; [now rewrite arrive_app, A3|]. now rewrite E, walk_app, A4, B4, A3.
Qed.
Lemma along_dag_mul : forall t a b i p j q k, along a j p i -> along b j q k -> along (multabdag_suNC n t a b) i (turn p ++ q) k.
Proof.
  intros t a b i p j q k HA HB. destruct (multabdag_suNC_ok n t a b (along_SUn _ _ _ _ HA) (along_SUn _ _ _ _ HB)) as [E _].
  apply along_turn in HA. destruct HA as (A1 & A2 & A3 & A4), HB as (B1 & B2 & B3 & B4). split; [assumption|]. split; [now apply good_app|].
  split; [now rewrite arrive_app, A3|]. now rewrite E, walk_app, A4, B4, A3.
Qed.
Lemma along_dagdag : forall t a b i p j q k, (n = 2 \/ n = 3)%nat -> along a j p i -> along b k q j ->
  along (multab_dagdag_suNC n t a b) i (turn p ++ turn q) k.
Proof.
  intros t a b i p j q k Hn HA HB.
  pose proof (multab_dagdag_suNC_ok n t a b Hn (along_SUn _ _ _ _ HA) (along_SUn _ _ _ _ HB)) as E.
  apply along_turn in HA. apply along_turn in HB. destruct HA as (A1 & A2 & A3 & A4), HB as (B1 & B2 & B3 & B4). split; [assumption|]. split; [now apply good_app|].
  split; [now rewrite arrive_app, A3|]. now rewrite E, walk_app, A4, B4, A3.
Qed.
End prod.

(** * The loops of the code *)
Lemma along_eq : forall n ND V lat a i p j p' j', along n ND V lat a i p j -> p = p' -> j = j' -> along n ND V lat a i p' j'.
Proof. intros; subst; assumption. Qed.
Definition sum_of (st : arr * arr * arr) : arr := fst (fst st).
(** st' adds mul times the product along p to the sum of st *)
Definition adds (n : nat) (lat : lattice) (i : nat) (p : list step) (mul : R) (st st' : arr * arr * arr) : Prop :=
  meq n (mx n (sum_of st')) (madd (mx n (sum_of st)) (mscale (RtoC mul) (walk n lat i p))).
Lemma adds_along : forall n ND V lat sum u v mul i p j, along n ND V lat u i p j ->
  forall s0 u0 v0, s0 = sum -> adds n lat i p mul (s0, u0, v0) (a_plus_Sxb n sum u mul, u, v).
Proof.
  intros n ND V lat sum u v mul i p j (_ & _ & _ & E) s0 u0 v0 ->. unfold adds, sum_of. cbn [fst].
  unfold a_plus_Sxb. destruct (a_plus_CSxb_ok n sum u (RtoC mul)) as [F _]. now rewrite F, E.
Qed.
