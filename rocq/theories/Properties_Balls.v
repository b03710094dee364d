(** C74: the loops of links for glueballs *)
From Coq Require Import Lia Lra.
From Verif Require Import CInt GeomModel GeomSpec Cplx CMat Det Arr MatModel MatSpec MatProofs MatProofs2 MmulModel MmulProofs FieldModel FieldProofs FieldProofs2 CloverProofs CloverProofs5 GluonSpec GluonProofs2 BallsModel BallsProofs BallsProofs2.
Import ListNotations.
Local Open Scope R_scope.

(** A path of two or more steps, the entries adding up to zero: for every site the trace of the product of the links
    along the steps, in their order, is added to the result; nothing else changes. *)
Theorem C74_loop : forall n ND V lat tmp path result, geom_ok ND V lat -> group_field n ND V lat ->
  Forall (entry ND) path -> (2 <= length path)%nat -> total path = 0%Z ->
  exists result', GLUball_lattice n ND V tmp lat path result = Some (true, result') /\
  (forall x, (x < V)%nat -> result' x = (result x + mtr n (walk n lat x (map step_of path)))%C) /\ (forall x, (V <= x)%nat -> result' x = result x).
Proof.
  intros n ND V lat tmp path result Geo U F L T. destruct (lattice_ok_ n ND V lat Geo U tmp path result F L T) as (r & E & G). exists r. split; [exact E|]. split; intros x Hx; rewrite G; destruct (Nat.ltb_spec x V); try lia; reflexivity.
Qed.
Print Assumptions C74_loop.

(** Any other sum of the entries is refused and changes nothing. *)
Theorem C74_refused : forall n ND V lat tmp path result, total path <> 0%Z -> GLUball_lattice n ND V tmp lat path result = Some (false, result).
Proof. intros n ND V lat tmp path result T. unfold GLUball_lattice. rewrite total_fold. destruct (Z.eqb_spec (total path) 0); [contradiction|reflexivity]. Qed.
Print Assumptions C74_refused.

(** A path comes back to where it starts exactly if along every direction the steps forwards less those backwards are a
    multiple of the length of the lattice. *)
Theorem C74_closed : forall ds lat path x, GeomSpec.lattice_ok ds -> navig ds lat -> Forall (entry (length ds)) path -> (x < volume ds)%nat ->
  arrive lat x (map step_of path) = x <-> closes ds path.
Proof. exact closes_ok. Qed.
Print Assumptions C74_closed.

(** Paths that come back: the result does not depend on the gauge.  Missing: the paths that are accepted although they do not
    come back, see C74_closed_refuted. *)
Theorem C74_invariant_partial : forall n ds lat lat' g tmp path result, GeomSpec.lattice_ok ds -> navig ds lat -> let ND := length ds in let V := volume ds in
  group_field n ND V lat -> group_field n ND V lat' ->
  gauged n ND V g lat lat' -> (forall i, (i < V)%nat -> unitary n (g i)) -> Forall (entry ND) path -> (2 <= length path)%nat -> total path = 0%Z -> closes ds path ->
  exists a b, GLUball_lattice n ND V tmp lat path result = Some (true, a) /\ GLUball_lattice n ND V tmp lat' path result = Some (true, b) /\ forall x, a x = b x.
Proof.
  intros n ds lat lat' g tmp path result Ok Nv ND V U U' Gau Ug F L T Cl.
  assert (Geo : geom_ok ND V lat) by now apply navig_geom.
  assert (B : forall x, (x < V)%nat -> arrive lat x (map step_of path) = x) by (intros x Hx; now apply (C74_closed ds)).
  assert (Geo' : geom_ok ND V lat') by (apply (geom_ok_same ND V lat); [apply Gau|exact Geo]).
  destruct (lattice_ok_ n ND V lat Geo U tmp path result F L T) as (a & Ea & Ga). destruct (lattice_ok_ n ND V lat' Geo' U' tmp path result F L T) as (b & Eb & Gb).
  exists a, b. split; [exact Ea|]. split; [exact Eb|]. intro x. rewrite Ga, Gb. destruct (Nat.ltb_spec x V) as [Hx|]; [|reflexivity]. f_equal.
  rewrite (mtr_meq n _ _ (walk_gauged n ND V lat lat' g Geo Gau Ug (map step_of path) x Hx ltac:(intros s I; apply in_map_iff in I; destruct I as (p & <- & I); rewrite Forall_forall in F; specialize (F p I); unfold entry in F; cbn; lia))).
  rewrite (B x Hx), mtr_cyc. destruct (Ug x Hx) as [U1 U2]. apply mtr_meq. now rewrite <- mmul_assoc, U2, mmul_1_l.
Qed.
Print Assumptions C74_invariant_partial.

(** * SU(2) on 2 x 2 sites: the links 1, and the same with the sign changed at the site 0 *)
Definition sign_link (z : C) : arr := fun k => match k with 0%nat | 3%nat => z | _ => C0 end.
Definition ones : lattice := init_navig [2; 2]%Z (fun _ _ => sign_link C1).
Definition touches (x mu : nat) : bool := match x, mu with 0%nat, _ | 1%nat, 0%nat | 2%nat, 1%nat => true | _, _ => false end.
Definition flipped : lattice := init_navig [2; 2]%Z (fun x mu => sign_link (if touches x mu then (- C1)%C else C1)).
Definition flip (x : nat) : mat := if Nat.eqb x 0 then mscale (- C1)%C mid else mid.
Ltac small := intros i j Hi Hj; unfold mmul, dag, mx, mid, mscale; cbn [csum]; destruct i as [|[|i]]; try lia; destruct j as [|[|j]]; try lia; cbn [Nat.add Nat.mul Nat.eqb sign_link]; cring.
Lemma sign_SU z : z = C1 \/ z = (- C1)%C -> SUn 2 (mx 2 (sign_link z)).
Proof. intro Hz. apply SUn_2. split; [split; destruct Hz as [-> | ->]; small|unfold det2, mx; cbn [Nat.add Nat.mul sign_link]; destruct Hz as [-> | ->]; cring]. Qed.
Lemma two_ok : GeomSpec.lattice_ok [2; 2]%Z.
Proof. split; [discriminate|]. split; [repeat constructor; unfold two31; lia|unfold two31; cbn; lia]. Qed.
Lemma two_geom links : geom_ok 2 4 (init_navig [2; 2]%Z links).
Proof. exact (navig_geom [2; 2]%Z _ two_ok (init_navig_ok [2; 2]%Z links two_ok)). Qed.
Lemma ones_field : group_field 2 2 4 ones.
Proof. intros x mu _ _. apply (sign_SU C1). now left. Qed.
Lemma flipped_field : group_field 2 2 4 flipped.
Proof. intros x mu _ _. unfold lnk, flipped, init_navig. cbn [O]. apply sign_SU. destruct (touches x mu); auto. Qed.
Lemma flip_unitary x : unitary 2 (flip x).
Proof. unfold flip. destruct (Nat.eqb x 0); split; small. Qed.
Lemma flip_gauged : gauged 2 2 4 flip ones flipped.
Proof.
  split; [intro; split; reflexivity|]. intros x mu Hx Hm. unfold lnk, ones, flipped. cbn [O init_navig].
  destruct x as [|[|[|[|x]]]]; try lia; destruct mu as [|[|mu]]; try lia;
  match goal with |- context [nbr ?s ?m] => let v := eval vm_compute in (nbr s m) in change (nbr s m) with v end; cbn [touches]; unfold flip; cbn [Nat.eqb]; small.
Qed.

(** 1, 1, -2 adds up to zero: it is accepted, does not come back, and the result depends on the gauge. *)
Theorem C74_closed_refuted : exists n ND V lat lat' g tmp path result a b, geom_ok ND V lat /\ group_field n ND V lat /\ group_field n ND V lat' /\
  gauged n ND V g lat lat' /\ (forall i, (i < V)%nat -> unitary n (g i)) /\ Forall (entry ND) path /\ (2 <= length path)%nat /\
  GLUball_lattice n ND V tmp lat path result = Some (true, a) /\ GLUball_lattice n ND V tmp lat' path result = Some (true, b) /\
  arrive lat 0 (map step_of path) <> 0%nat /\ a 0%nat = RtoC 2 /\ b 0%nat = RtoC (-2).
Proof.
  exists 2%nat, 2%nat, 4%nat, ones, flipped, flip, (fun _ => C0), [1; 1; -2]%Z, (fun _ => C0).
  assert (F : Forall (entry 2) [1; 1; -2]%Z) by (repeat constructor; unfold entry; lia).
  destruct (C74_loop 2 2 4 ones (fun _ => C0) [1; 1; -2]%Z (fun _ => C0) (two_geom _) ones_field F ltac:(cbn; lia) eq_refl) as (a & Ea & Ga & _).
  destruct (C74_loop 2 2 4 flipped (fun _ => C0) [1; 1; -2]%Z (fun _ => C0) (two_geom _) flipped_field F ltac:(cbn; lia) eq_refl) as (b & Eb & Gb & _).
  exists a, b. split; [apply two_geom|]. split; [apply ones_field|]. split; [apply flipped_field|]. split; [apply flip_gauged|]. split; [intros; apply flip_unitary|]. split; [exact F|]. split; [cbn; lia|].
  split; [exact Ea|]. split; [exact Eb|]. split; [vm_compute; discriminate|]. rewrite Ga, Gb by lia.
  change (map step_of [1; 1; -2]%Z) with [(true, 0); (true, 0); (false, 1)]%nat. cbn [walk]. unfold hop, move. cbn [fst snd].
  assert (N : forall l, nbr (init_navig [2; 2]%Z l 0%nat) 0 = 1%nat /\ nbr (init_navig [2; 2]%Z l 1%nat) 0 = 0%nat /\ bck (init_navig [2; 2]%Z l 0%nat) 1 = 2%nat) by (intro; vm_compute; auto).
  unfold ones, flipped. destruct (N (fun _ _ => sign_link C1)) as (-> & -> & ->). destruct (N (fun x mu => sign_link (if touches x mu then (- C1)%C else C1))) as (-> & -> & ->).
  unfold lnk, init_navig. cbn [O touches]. unfold mtr, mmul, dag, mx, mid. cbn [csum Nat.add Nat.mul Nat.eqb sign_link]. unfold RtoC. split; cring.
Qed.
Print Assumptions C74_closed_refuted.

(** The plaquette printed for four dimensions: the sum over the sites and the three spatial planes, divided by 18 times the
    number of sites. *)
Theorem C74_printed : forall n V lat tmp, geom_ok 4 V lat -> group_field n 4 V lat -> exists p result, GLU_balls n 4 V tmp lat = Some (p, result) /\
  p = dsum V (fun x => re (mtr n (plaquette_at n lat x 0 1)) + re (mtr n (plaquette_at n lat x 0 2)) + re (mtr n (plaquette_at n lat x 1 2))) / (18 * INR V) /\
  forall x, (x < V)%nat -> result x = (mtr n (plaquette_at n lat x 0 1) + mtr n (plaquette_at n lat x 0 2) + mtr n (plaquette_at n lat x 1 2))%C.
Proof. intros. now apply printed_ok. Qed.
Print Assumptions C74_printed.

(** It is not an average: every plaquette of SU(3) on 2^4 sites is 1 and one half is printed. *)
Definition unit_link (n : nat) : arr := fun k => mid (k / n)%nat (k mod n)%nat.
Lemma unit_mx n : meq n (mx n (unit_link n)) mid.
Proof. intros i j Hi Hj. unfold mx, unit_link. rewrite (Nat.mul_comm n i), Nat.div_add, Nat.div_small, Nat.mod_add, Nat.mod_small by lia. reflexivity. Qed.
Definition cold : lattice := init_navig [2; 2; 2; 2]%Z (fun _ _ => unit_link 3).
Lemma cold_ok : GeomSpec.lattice_ok [2; 2; 2; 2]%Z.
Proof. split; [discriminate|]. split; [repeat constructor; unfold two31; lia|unfold two31; cbn; lia]. Qed.
Lemma cold_geom : geom_ok 4 16 cold.
Proof. exact (navig_geom [2; 2; 2; 2]%Z _ cold_ok (init_navig_ok [2; 2; 2; 2]%Z _ cold_ok)). Qed.
Lemma cold_field : group_field 3 4 16 cold.
Proof. intros x mu _ _. apply (SUn_ext 3 mid); [symmetry; apply unit_mx|apply SUn_mid]. Qed.
Lemma cold_walk : forall p x, meq 3 (walk 3 cold x p) mid.
Proof.
  induction p as [|[b mu] p IH]; intro x; [reflexivity|]. cbn [walk]. rewrite IH, mmul_1_r. assert (E : forall y nu, meq 3 (lnk 3 cold y nu) mid) by (intros; apply unit_mx).
  destruct b; unfold hop; cbn [fst snd]; rewrite E; [reflexivity|]. apply dag_mid.
Qed.
Theorem C74_average_refuted : exists n V lat tmp result, geom_ok 4 V lat /\ group_field n 4 V lat /\ (forall x mu nu, meq n (plaquette_at n lat x mu nu) mid) /\ n = 3%nat /\
  GLU_balls n 4 V tmp lat = Some (1 / 2, result).
Proof.
  exists 3%nat, 16%nat, cold, (fun _ => C0). destruct (C74_printed 3 16 cold (fun _ => C0) cold_geom cold_field) as (p & r & E & P & _). exists r.
  split; [apply cold_geom|]. split; [apply cold_field|]. split; [intros; apply cold_walk|]. split; [reflexivity|]. rewrite E. f_equal. f_equal. rewrite P.
  assert (T : mtr 3 mid = RtoC 3) by (unfold mtr, mid; cbn [csum Nat.eqb]; unfold RtoC; cring).
  rewrite (dsum_ext _ _ (fun _ => 9)) by (intros x _; unfold plaquette_at; rewrite !cold_walk, T; cbn; lra). unfold dsum. cbn [seq fold_right]. rewrite INR_IZR_INZ. cbn. lra.
Qed.
Print Assumptions C74_average_refuted.

(** * Cases meeting the hypotheses *)
(** the plaquette as a path, and a loop around the lattice there and back *)
Example C74_loop_case : Forall (entry 2) [1; 2; -1; -2]%Z /\ total [1; 2; -1; -2]%Z = 0%Z /\ geom_ok 2 4 flipped /\ group_field 2 2 4 flipped.
Proof. split; [repeat constructor; unfold entry; lia|]. split; [reflexivity|]. split; [apply two_geom|apply flipped_field]. Qed.
Example C74_refused_case : total [1; 1; 2]%Z <> 0%Z.
Proof. discriminate. Qed.
Example C74_invariant_case : GeomSpec.lattice_ok [2; 2]%Z /\ navig [2; 2]%Z ones /\ gauged 2 2 4 flip ones flipped /\ closes [2; 2]%Z [1; 2; -1; -2]%Z.
Proof. split; [apply two_ok|]. split; [apply init_navig_ok, two_ok|]. split; [apply flip_gauged|]. intros mu Hm. destruct mu as [|[|mu]]; cbn [length] in Hm; try lia; exists 0%Z; reflexivity. Qed.
(** around the lattice of two sites: closed though every step is forwards *)
Example C74_closed_case : closes [2; 2]%Z [1; 1]%Z /\ ~ closes [2; 2]%Z [1; 1; -2]%Z.
Proof. split; [intros mu Hm; destruct mu as [|[|mu]]; cbn [length] in Hm; try lia; [exists 1%Z|exists 0%Z]; reflexivity|]. intro H. destruct (H 1%nat ltac:(cbn; lia)) as [q Hq]. cbn in Hq. lia. Qed.
