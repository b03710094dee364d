(** Which paths come back to where they start. *)
From Coq Require Import Lia Lra.
From Verif Require Import CInt GeomModel GeomSpec GeomProofs GeomProofs2 Cplx CMat Arr MatModel FieldModel FieldProofs FieldProofs2 CloverProofs BallsModel BallsProofs.
Import ListNotations.
Local Open Scope Z_scope.

(** * Specification: the steps of a path along the direction mu, forwards less backwards *)
Definition net (mu : nat) (path : list Z) : Z := fold_right (fun p s => (if Z.abs p =? Z.of_nat mu + 1 then Z.sgn p else 0) + s) 0 path.
(** the path closes on the lattice of lengths ds *)
Definition closes (ds : list Z) (path : list Z) : Prop := forall mu, (mu < length ds)%nat -> (nth mu ds 1 | net mu path).

Lemma stepped_nth ds x y mu s k : in_box ds x -> stepped ds x y mu s -> (k < length ds)%nat ->
  nth k y 0 = if Nat.eqb k mu then (nth k x 0 + s) mod nth k ds 1 else nth k x 0.
Proof.
  intros B [Ln S] Hk. pose proof (in_box_length _ _ B) as L. specialize (S k).
  rewrite (nth_error_nth' y 0) in S by lia. rewrite (nth_error_nth' x 0) in S by lia. rewrite (nth_error_nth' ds 1) in S by lia.
  destruct (Nat.eqb k mu); congruence.
Qed.
Lemma dims_pos ds k : GeomSpec.lattice_ok ds -> (k < length ds)%nat -> 0 < nth k ds 1.
Proof. intros (_ & F & _) Hk. rewrite Forall_forall in F. apply F. now apply nth_In. Qed.
Lemma move_step ds lat i p x : GeomSpec.lattice_ok ds -> navig ds lat -> (i < volume ds)%nat -> entry (length ds) p -> in_box ds x -> index_of ds x = Z.of_nat i ->
  exists y, in_box ds y /\ index_of ds y = Z.of_nat (move lat i (step_of p)) /\ (move lat i (step_of p) < volume ds)%nat /\
  forall k, (k < length ds)%nat -> (nth k ds 1 | nth k y 0 - nth k x 0 - (if Z.abs p =? Z.of_nat k + 1 then Z.sgn p else 0)).
Proof.
  intros Ok Nv Hi [H1 H2] B X. unfold step_of, move. cbn [fst snd]. set (mu := (Z.to_nat (Z.abs p) - 1)%nat). assert (Hm : (mu < length ds)%nat) by (unfold mu; lia).
  destruct (Nv i mu Hi Hm) as [Nf Nb].
  assert (D : forall y s, stepped ds x y mu s -> Z.sgn p = s -> forall k, (k < length ds)%nat -> (nth k ds 1 | nth k y 0 - nth k x 0 - (if Z.abs p =? Z.of_nat k + 1 then Z.sgn p else 0))).
  { intros y s S Sg k Hk. rewrite (stepped_nth _ _ _ _ _ k B S Hk), Sg. pose proof (dims_pos ds k Ok Hk). destruct (Nat.eqb_spec k mu) as [E|E]; destruct (Z.eqb_spec (Z.abs p) (Z.of_nat k + 1)) as [F|F]; unfold mu in E; try lia.
    - rewrite Z.mod_eq by lia. exists (- ((nth k x 0 + s) / nth k ds 1)). lia.
    - exists 0. lia. }
  destruct (Z.ltb_spec 0 p).
  - destruct (neighbor_step ds _ mu x Ok Hm B X) as (j & y & Ej & Hj & By & Iy & S). rewrite Nf in Ej. injection Ej as Ej. exists y. split; [exact By|]. split; [congruence|]. split; [unfold volume; lia|]. apply (D y 1 S). lia.
  - destruct (back_step ds _ mu x Ok Hm B X) as (j & y & Ej & Hj & By & Iy & S). rewrite Nb in Ej. injection Ej as Ej. exists y. split; [exact By|]. split; [congruence|]. split; [unfold volume; lia|]. apply (D y (-1) S). lia.
Qed.
Lemma arrive_step ds lat : GeomSpec.lattice_ok ds -> navig ds lat -> forall path i x, (i < volume ds)%nat -> Forall (entry (length ds)) path -> in_box ds x -> index_of ds x = Z.of_nat i ->
  exists y, in_box ds y /\ index_of ds y = Z.of_nat (arrive lat i (map step_of path)) /\
  forall k, (k < length ds)%nat -> (nth k ds 1 | nth k y 0 - nth k x 0 - net k path).
Proof.
  intros Ok Nv. induction path as [|p path IH]; intros i x Hi F B X; cbn [map arrive net fold_right].
  - exists x. repeat split; try assumption. intros k _. exists 0. lia.
  - inversion F; subst. destruct (move_step ds lat i p x Ok Nv Hi H1 B X) as (y & By & Iy & Hy & D). destruct (IH _ y Hy H2 By Iy) as (z & Bz & Iz & D2). exists z. repeat split; try assumption.
    intros k Hk. specialize (D k Hk). specialize (D2 k Hk). unfold net in D2. replace (nth k z 0 - nth k x 0 - _) with ((nth k z 0 - nth k y 0 - fold_right (fun p s => (if Z.abs p =? Z.of_nat k + 1 then Z.sgn p else 0) + s) 0 path) + (nth k y 0 - nth k x 0 - (if Z.abs p =? Z.of_nat k + 1 then Z.sgn p else 0))) by lia.
    now apply Z.divide_add_r.
Qed.
Lemma box_nth ds x k : in_box ds x -> (k < length ds)%nat -> 0 <= nth k x 0 < nth k ds 1.
Proof. intros B. revert k. induction B as [|d c ds x Hc _ IH]; intros k Hk; cbn [length] in Hk; [lia|]. destruct k; cbn [nth]; [exact Hc|]. apply IH. lia. Qed.
Lemma closes_ok ds lat path i : GeomSpec.lattice_ok ds -> navig ds lat -> Forall (entry (length ds)) path -> (i < volume ds)%nat ->
  arrive lat i (map step_of path) = i <-> closes ds path.
Proof.
  intros Ok Nv F Hi. destruct (index_coords ds (Z.of_nat i) Ok) as (x & Bx & Ix); [unfold volume in Hi; lia|].
  destruct (arrive_step ds lat Ok Nv path i x Hi F Bx Ix) as (y & By & Iy & D). pose proof (in_box_length _ _ Bx) as Lx. pose proof (in_box_length _ _ By) as Ly. split.
  - intros E mu Hm. rewrite E, <- Ix in Iy. rewrite !index_of_horner in Iy by assumption. apply (horner_inj ds) in Iy; try assumption. subst y. specialize (D mu Hm).
    replace (net mu path) with (- (nth mu x 0 - nth mu x 0 - net mu path)) by lia. now apply Z.divide_opp_r.
  - intro Cl. assert (E : y = x).
    { apply (nth_ext _ _ 0 0); [lia|]. intros k Hk. assert (Hk' : (k < length ds)%nat) by lia. specialize (D k Hk'). specialize (Cl k Hk'). pose proof (Z.divide_add_r _ _ _ D Cl) as D2. replace (nth k y 0 - nth k x 0 - net k path + net k path) with (nth k y 0 - nth k x 0) in D2 by lia.
      pose proof (box_nth ds x k Bx Hk'). pose proof (box_nth ds y k By Hk'). destruct D2 as [q Hq]. assert (q = 0) by nia. subst q. lia. }
    subst y. rewrite Ix in Iy. lia.
Qed.
