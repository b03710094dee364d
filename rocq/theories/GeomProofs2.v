(* Further geometry proofs: HiRep order, Brillouin zones, translations. *)
From Verif Require Import CInt GeomModel GeomSpec GeomProofs.
From Coq Require Import ZifyBool Permutation.

(* ---------- C03: HiRep order ---------- *)
Lemma Forall_removelast {A} (P : A -> Prop) l : Forall P l -> Forall P (removelast l).
Proof.
  intros H. induction H as [|a l Ha Hl IH]; [constructor|]. destruct l; [constructor|].
  rewrite removelast_cons2. constructor; assumption.
Qed.

Lemma prodZ_rev l : prodZ (rev l) = prodZ l.
Proof.
  induction l as [|a l IH]; [reflexivity|]. cbn [rev]. rewrite prodZ_app, IH, !prodZ_cons.
  change (prodZ []) with 1. ring.
Qed.

Lemma hirep_loop_digits ds : forall i s,
  Forall (fun L => 0 < L < two31) ds -> 0 < s -> s * prodZ ds < two31 -> 0 <= i ->
  hirep2_loop ds i s = Some (digits ds (i / s), s * prodZ ds).
Proof.
  induction ds as [|d ds IH]; intros i s Hd Hs Hp Hi.
  - cbn [hirep2_loop digits]. change (prodZ []) with 1. rewrite Z.mul_1_r. reflexivity.
  - inversion Hd as [|? ? Hd0 Hds]; subst. rewrite prodZ_cons in Hp.
    assert (0 < prodZ ds) by (apply prodZ_pos, ok_pos; assumption).
    assert (0 < s * d < two31) by nia. assert (0 < s < two31) by nia.
    cbn [hirep2_loop]. rewrite (u64_id s) by (unfold two31, two64 in *; lia). cbv zeta.
    replace ((s =? 0) || (d =? 0)) with false by lia.
    rewrite sub_mod_div by lia.
    assert (Hm : 0 <= (i / s) mod d < d) by (apply Z.mod_pos_bound; lia).
    rewrite (i32_id ((i / s) mod d)) by (unfold two31 in *; lia).
    rewrite u64_id by (unfold two31, two64 in *; lia).
    rewrite i32_id by (unfold two31 in *; lia).
    rewrite IH; [|assumption|lia|nia|lia]. cbn [bindo].
    rewrite prodZ_cons. cbn [digits]. rewrite Z.div_div by lia. do 2 f_equal. ring.
Qed.

Lemma digits_app a b i : Forall (fun L => 0 < L) a -> 0 <= i ->
  digits (a ++ b) i = digits a i ++ digits b (i / prodZ a).
Proof.
  intros H. revert i. induction H as [|d a Hd Ha IH]; intros i Hi.
  - change (prodZ []) with 1. rewrite Z.div_1_r. reflexivity.
  - cbn [app digits]. rewrite prodZ_cons, IH by (apply Z.div_pos; lia).
    rewrite Z.div_div; [reflexivity|lia|apply prodZ_pos; assumption].
Qed.

(* reordering of dimensions: z fastest, then y, x, then t slowest *)
Lemma hirep_order_len {A} (d : A) l : l <> [] -> length (hirep_order d l) = length l.
Proof.
  intros H. unfold hirep_order. rewrite (app_removelast_last d H) at 3.
  rewrite !app_length, rev_length. reflexivity.
Qed.
Lemma removelast_snoc {A} (l : list A) a : removelast (l ++ [a]) = l.
Proof. induction l as [|b l IH]; [reflexivity|]. cbn [app]. destruct l; [reflexivity|].
  cbn [app] in *. rewrite removelast_cons2. f_equal. exact IH. Qed.
Lemma last_snoc {A} (l : list A) a d : last (l ++ [a]) d = a.
Proof. induction l as [|b l IH]; [reflexivity|]. cbn [app]. destruct l; [reflexivity|]. exact IH. Qed.

Lemma hirep_order_invol {A} (d : A) l : l <> [] -> hirep_order d (hirep_order d l) = l.
Proof.
  intros H. unfold hirep_order at 1. unfold hirep_order. rewrite removelast_snoc, last_snoc, rev_involutive.
  symmetry. apply app_removelast_last; assumption.
Qed.

Lemma Forall2_app_inv_snoc {A B} (P : A -> B -> Prop) a b x y : length x = length a ->
  Forall2 P (a ++ [b]) (x ++ [y]) <-> Forall2 P a x /\ P b y.
Proof.
  intros Hl. split.
  - intros H. revert x Hl H. induction a as [|a0 a IH]; intros [|x0 x] Hl H; try discriminate.
    + inversion H; subst. split; [constructor|assumption].
    + inversion H; subst. destruct (IH x); [simpl in Hl; lia|assumption|]. split; [constructor|]; assumption.
  - intros [H1 H2]. apply Forall2_app; [assumption|constructor; [assumption|constructor]].
Qed.

Lemma Forall2_rev {A B} (P : A -> B -> Prop) a b : Forall2 P a b -> Forall2 P (rev a) (rev b).
Proof.
  induction 1; [constructor|]. cbn [rev]. apply Forall2_app; [assumption|constructor; [assumption|constructor]].
Qed.

Lemma snoc_cases {A} (l : list A) : l <> [] -> exists i a, l = i ++ [a].
Proof. intros H. destruct (exists_last H) as (i & a & E). eauto. Qed.

Lemma hirep_order_box ds x : ds <> [] -> in_box ds x -> in_box (hirep_order 0 ds) (hirep_order 0 x).
Proof.
  intros Hne H. destruct (snoc_cases ds Hne) as (a & b & ->).
  pose proof (in_box_length _ _ H) as Hl. rewrite app_length in Hl. simpl in Hl.
  assert (Hx : x <> []) by (destruct x; simpl in Hl; [lia|discriminate]).
  destruct (snoc_cases x Hx) as (c & e & ->). rewrite app_length in Hl. simpl in Hl.
  apply Forall2_app_inv_snoc in H; [|lia]. destruct H as (H1 & H2).
  unfold hirep_order. rewrite !removelast_snoc, !last_snoc.
  apply Forall2_app; [apply Forall2_rev; assumption|constructor; [assumption|constructor]].
Qed.

Lemma get_hirep_digits ds i : lattice_ok ds -> 0 <= i ->
  get_mom_2piBZ_hirep2 ds i = Some (hirep_order 0 (digits (hirep_order 0 ds) i)).
Proof.
  intros (Hne & Hd & Hp) Hi. unfold get_mom_2piBZ_hirep2.
  pose proof (Forall_removelast _ _ Hd) as Hrd.
  assert (Hrv : Forall (fun L => 0 < L < two31) (rev (removelast ds))).
  { apply Forall_forall. intros y Hy. apply in_rev in Hy. rewrite Forall_forall in Hrd. auto. }
  assert (Hpp : 0 < prodZ (removelast ds)) by (apply prodZ_pos, ok_pos; assumption).
  rewrite hirep_loop_digits; [|assumption|lia|rewrite prodZ_rev; lia|lia].
  cbn [bindo]. rewrite Z.div_1_r, Z.mul_1_l, prodZ_rev.
  rewrite u64_id by (unfold two31, two64 in *; lia).
  assert (Hl : 0 < last ds 0 < two31).
  { rewrite Forall_forall in Hd. apply Hd. rewrite (app_removelast_last 0 Hne) at 2.
    apply in_or_app. right. left. reflexivity. }
  cbv zeta. replace ((prodZ (removelast ds) =? 0) || (last ds 0 =? 0)) with false by lia.
  rewrite sub_mod_div by lia.
  assert (Hm : 0 <= (i / prodZ (removelast ds)) mod last ds 0 < last ds 0) by (apply Z.mod_pos_bound; lia).
  rewrite i32_id by (unfold two31 in *; lia).
  f_equal. unfold hirep_order at 2. rewrite digits_app; [|apply ok_pos; assumption|assumption].
  cbn [digits]. rewrite prodZ_rev. unfold hirep_order. rewrite removelast_snoc, last_snoc. reflexivity.
Qed.

Lemma prodZ_hirep ds : ds <> [] -> prodZ (hirep_order 0 ds) = prodZ ds.
Proof.
  intros H. unfold hirep_order. rewrite prodZ_app, prodZ_rev.
  rewrite (app_removelast_last 0 H) at 3. rewrite prodZ_app. reflexivity.
Qed.

Lemma hirep_pos ds : lattice_ok ds -> Forall (fun L => 0 < L) (hirep_order 0 ds).
Proof.
  intros (Hne & Hd & _). unfold hirep_order. apply ok_pos in Hd.
  rewrite (app_removelast_last 0 Hne) in Hd. apply Forall_app in Hd as [H1 H2].
  apply Forall_app. split; [|assumption]. apply Forall_rev; assumption.
Qed.

(* record i is placed at the site whose coordinates have HiRep-order index i *)
Theorem hirep_coords ds i : lattice_ok ds -> 0 <= i < lvolume ds ->
  exists x, get_mom_2piBZ_hirep2 ds i = Some x /\ in_box ds x /\
            index_of (hirep_order 0 ds) (hirep_order 0 x) = i.
Proof.
  intros Hok Hi. rewrite lvolume_prod in Hi by assumption.
  pose proof (hirep_pos ds Hok) as Hpos. pose proof Hok as (Hne & Hd & Hp).
  assert (Hne2 : hirep_order 0 ds <> []) by (unfold hirep_order; destruct (rev (removelast ds)); discriminate).
  eexists. split; [apply get_hirep_digits; [assumption|lia]|].
  assert (Hb : in_box (hirep_order 0 ds) (digits (hirep_order 0 ds) i)) by (apply digits_in_box; assumption).
  assert (Hdn : digits (hirep_order 0 ds) i <> []).
  { intros E. pose proof (digits_length (hirep_order 0 ds) i) as Hl. rewrite E in Hl.
    rewrite hirep_order_len in Hl by assumption. destruct ds; [congruence|discriminate]. }
  split.
  - rewrite <- (hirep_order_invol 0 ds Hne) at 1. apply hirep_order_box; assumption.
  - rewrite hirep_order_invol by assumption.
    rewrite index_of_horner by (apply digits_length).
    apply horner_digits; [assumption|]. rewrite prodZ_hirep; assumption.
Qed.


Theorem hirep_permutation ds : lattice_ok ds ->
  (forall i, 0 <= i < lvolume ds -> exists s, hirep_site ds i = Some s /\ 0 <= s < lvolume ds) /\
  (forall i j, 0 <= i < lvolume ds -> 0 <= j < lvolume ds -> hirep_site ds i = hirep_site ds j -> i = j) /\
  (forall s, 0 <= s < lvolume ds -> exists i, 0 <= i < lvolume ds /\ hirep_site ds i = Some s).
Proof.
  intros Hok. pose proof Hok as (Hne & Hd & Hp). pose proof (ok_volume ds Hok) as Hv.
  assert (Hsite : forall i, 0 <= i < lvolume ds -> exists x, hirep_site ds i = Some (horner ds x)
            /\ in_box ds x /\ index_of (hirep_order 0 ds) (hirep_order 0 x) = i).
  { intros i Hi. destruct (hirep_coords ds i Hok Hi) as (x & E & Hx & Ei). exists x.
    unfold hirep_site. rewrite E. cbn [bindo]. rewrite gen_site_horner by (try assumption; lia). auto. }
  split; [|split].
  - intros i Hi. destruct (Hsite i Hi) as (x & E & Hx & _). exists (horner ds x).
    rewrite lvolume_prod by assumption. split; [assumption|apply horner_bound; assumption].
  - intros i j Hi Hj E. destruct (Hsite i Hi) as (x & Ex & Hx & Ei). destruct (Hsite j Hj) as (y & Ey & Hy & Ej).
    rewrite Ex, Ey in E. injection E as E. apply horner_inj in E; [|assumption|assumption]. congruence.
  - intros s Hs. destruct (site_coords ds s Hok Hs) as (Hx & E). set (x := digits ds s) in *.
    assert (Hbo : in_box (hirep_order 0 ds) (hirep_order 0 x)) by (apply hirep_order_box; assumption).
    exists (horner (hirep_order 0 ds) (hirep_order 0 x)).
    assert (Hr : 0 <= horner (hirep_order 0 ds) (hirep_order 0 x) < lvolume ds).
    { rewrite lvolume_prod by assumption. rewrite <- (prodZ_hirep ds Hne). apply horner_bound; assumption. }
    split; [assumption|]. destruct (Hsite _ Hr) as (y & Ey & Hy & Eyi). rewrite Ey. f_equal.
    assert (Hyo : in_box (hirep_order 0 ds) (hirep_order 0 y)) by (apply hirep_order_box; assumption).
    rewrite index_of_horner in Eyi by (apply in_box_length; assumption).
    apply horner_inj in Eyi; [|assumption|assumption].
    assert (Hxn : x <> []).
    { pose proof (in_box_length _ _ Hx) as Hl. intros Ex. rewrite Ex in Hl. destruct ds; [congruence|discriminate]. }
    assert (Hyn : y <> []).
    { pose proof (in_box_length _ _ Hy) as Hl. intros Ex. rewrite Ex in Hl. destruct ds; [congruence|discriminate]. }
    rewrite <- (hirep_order_invol 0 y Hyn), Eyi, hirep_order_invol by assumption. exact E.
Qed.

(* ---------- C04: Brillouin zones ---------- *)
Lemma mom_pipi_digits ds : forall mu i s DIMS,
  Forall (fun L => 0 < L < two31) ds -> 0 < s -> s * prodZ ds < two64 ->
  (mu + length ds <= DIMS)%nat -> 0 <= i ->
  mom_pipi_loop ds mu i s DIMS =
  Some (map (fun p => fst p - Z.shiftr (snd p) 1) (combine (digits ds (i / s)) ds)).
Proof.
  induction ds as [|d ds IH]; intros mu i s DIMS Hd Hs Hp HD Hi; [reflexivity|].
  inversion Hd as [|? ? Hd0 Hds]; subst. rewrite prodZ_cons in Hp.
  assert (0 < prodZ ds) by (apply prodZ_pos, ok_pos; assumption).
  cbn [mom_pipi_loop]. cbn [length] in HD.
  replace (mu =? DIMS)%nat with false by (symmetry; apply Nat.eqb_neq; lia).
  replace ((s =? 0) || (d =? 0)) with false by lia. cbv zeta.
  rewrite sub_mod_div by lia.
  assert (Hm : 0 <= (i / s) mod d < d) by (apply Z.mod_pos_bound; lia).
  rewrite Z.shiftr_div_pow2 by lia. change (2 ^ 1) with 2.
  assert (Hh : 0 <= d / 2 < two31) by (unfold two31 in *; split; [apply Z.div_pos; lia|apply Z.div_lt_upper_bound; lia]).
  rewrite (i32_id (d / 2)) by (unfold two31 in *; lia).
  assert (Hx : i32 (u64 ((i / s) mod d - d / 2)) = (i / s) mod d - d / 2).
  { assert (Hr : - two31 <= (i/s) mod d - d/2 < two31) by (unfold two31 in *; lia).
    destruct (Z.lt_ge_cases ((i/s) mod d - d/2) 0).
    - unfold u64. replace ((i/s) mod d - d/2) with ((i/s) mod d - d/2 + two64 + (-1) * two64) at 1 by ring.
      rewrite Z.mod_add by (unfold two64; lia). rewrite Z.mod_small by (unfold two31, two64 in *; lia).
      unfold i32. replace ((i/s) mod d - d/2 + two64 + two31) with ((i/s) mod d - d/2 + two31 + two32 * two32)
        by (unfold two64, two32; lia).
      rewrite Z.mod_add by (unfold two32; lia). rewrite Z.mod_small by (unfold two32, two31 in *; lia). lia.
    - rewrite u64_id by (unfold two31, two64 in *; lia). apply i32_id; lia. }
  rewrite Hx. assert (0 < s * d) by nia. rewrite u64_id by nia.
  rewrite IH; [|assumption|lia|nia|lia|lia]. cbn [bindo].
  cbn [digits combine map fst snd]. rewrite Z.div_div by lia.
  rewrite Z.shiftr_div_pow2 by lia. reflexivity.
Qed.

(* per coordinate: the shifted coordinate used by get_site_2piBZ *)
Definition zshift (d c : Z) : Z := if c <? d / 2 then c + d / 2 else c - d + d / 2.

Lemma half_bounds d : 0 < d < two31 -> 0 <= d / 2 < two31 /\ d / 2 <= d.
Proof.
  intros. assert (0 <= d / 2) by (apply Z.div_pos; lia).
  assert (d / 2 <= d) by (apply Z.div_le_upper_bound; lia). lia.
Qed.

Lemma temp_2pi ds x : in_box ds x -> forall mu DIMS, (mu + length ds <= DIMS)%nat ->
  Forall (fun L => 0 < L < two31) ds ->
  site_2piBZ_temp ds x mu DIMS = map (fun p => zshift (fst p) (snd p)) (combine ds x).
Proof.
  intros Hx. induction Hx as [|d c ds x Hc Hx IH]; intros mu DIMS HD Hd; [reflexivity|].
  inversion Hd as [|? ? Hd0 Hds]; subst. cbn [length] in HD.
  cbn [site_2piBZ_temp combine map fst snd]. f_equal; [|apply IH; [lia|assumption]].
  replace (mu =? DIMS)%nat with false by (symmetry; apply Nat.eqb_neq; lia).
  rewrite Z.shiftr_div_pow2 by lia. change (2 ^ 1) with 2. cbv zeta.
  destruct (half_bounds d Hd0) as (Hh & Hh').
  rewrite (i32_id (d/2)) by (unfold two31 in *; lia). rewrite (i32_id d) by (unfold two31 in *; lia).
  unfold zshift. destruct (Z.geb_spec c (d/2)).
  - replace (c - d <? d/2) with true by lia. replace (c <? d/2) with false by lia. reflexivity.
  - replace (c <? d/2) with true by lia. reflexivity.
Qed.

Lemma zshift_box ds x : Forall (fun L => 0 < L < two31) ds -> in_box ds x -> zone_ok ds x ->
  in_box ds (map (fun p => zshift (fst p) (snd p)) (combine ds x)).
Proof.
  intros Hd Hx. revert Hd. induction Hx as [|d c ds x Hc Hx IH]; intros Hd Hz; [constructor|].
  inversion Hd; subst. inversion Hz; subst. cbn [combine map fst snd]. constructor; [|apply IH; assumption].
  assert (Hpar : d = 2 * (d/2) + d mod 2) by (apply Z.div_mod; lia).
  assert (Hm2 : 0 <= d mod 2 < 2) by (apply Z.mod_pos_bound; lia).
  assert (Hevm : Z.even d = true -> d mod 2 = 0) by (intros He; rewrite Zmod_even, He; reflexivity).
  unfold zshift. destruct (Z.ltb_spec c (d/2)); [lia|].
  match goal with H : Z.even d = true \/ _ |- _ => destruct H as [He|Hne] end; [specialize (Hevm He)|]; lia.
Qed.

Definition zrep (d c : Z) : Z := if c <? d / 2 then c else c - d.

Lemma pipi_of_shift ds x : in_box ds x ->
  map (fun p => fst p - Z.shiftr (snd p) 1)
      (combine (map (fun p => zshift (fst p) (snd p)) (combine ds x)) ds)
  = map (fun p => zrep (fst p) (snd p)) (combine ds x).
Proof.
  induction 1 as [|d c ds x Hc Hx IH]; [reflexivity|].
  cbn [combine map fst snd]. f_equal; [|exact IH].
  rewrite Z.shiftr_div_pow2 by lia. change (2^1) with 2. unfold zshift, zrep.
  destruct (c <? d / 2); lia.
Qed.

Lemma zrep_rep ds x : in_box ds x -> zone_ok ds x ->
  zone_rep ds x (map (fun p => zrep (fst p) (snd p)) (combine ds x)).
Proof.
  intros Hx. induction Hx as [|d c ds x Hc Hx IH]; intros Hz.
  - repeat split; constructor.
  - inversion Hz; subst. destruct IH as (B1 & B2 & B3); [assumption|].
    assert (Hpar : d = 2 * (d/2) + d mod 2) by (apply Z.div_mod; lia).
    assert (Hm2 : 0 <= d mod 2 < 2) by (apply Z.mod_pos_bound; lia).
    cbn [combine map fst snd]. repeat split.
    + constructor; [|assumption].
      assert (Hevm : Z.even d = true -> d mod 2 = 0) by (intros He; rewrite Zmod_even, He; reflexivity).
      unfold zrep. destruct (Z.ltb_spec c (d/2)); [lia|].
      match goal with H : Z.even d = true \/ _ |- _ => destruct H as [He|Hne] end; [specialize (Hevm He)|]; lia.
    + constructor; [|assumption]. unfold zrep. destruct (Z.ltb_spec c (d/2)).
      * cbn [fst snd]. rewrite Z.sub_diag. apply Z.mod_0_l; lia.
      * cbn [fst snd]. replace (c - (c - d)) with (0 + 1 * d) by lia. rewrite Z.mod_add by lia. apply Z.mod_0_l; lia.
    + cbn [length]. congruence.
Qed.

Lemma temp_pipi ds x : in_box ds x -> forall mu DIMS, (mu + length ds <= DIMS)%nat ->
  Forall (fun L => 0 < L < two31) ds ->
  site_pipiBZ_temp ds (map (fun p => zrep (fst p) (snd p)) (combine ds x)) mu DIMS = x.
Proof.
  intros Hx. induction Hx as [|d c ds x Hc Hx IH]; intros mu DIMS HD Hd; [reflexivity|].
  inversion Hd as [|? ? Hd0 Hds]; subst. cbn [length] in HD.
  cbn [combine map fst snd site_pipiBZ_temp]. f_equal; [|apply IH; [lia|assumption]].
  replace (mu =? DIMS)%nat with false by (symmetry; apply Nat.eqb_neq; lia).
  destruct (half_bounds d Hd0) as (Hh & Hh').
  unfold zrep. destruct (Z.ltb_spec c (d/2)).
  - replace (c <? 0) with false by lia. reflexivity.
  - replace (c - d <? 0) with true by lia.
    unfold u64 at 2. replace (c - d) with (c - d + two64 + (-1) * two64) by ring.
    rewrite Z.mod_add by (unfold two64; lia). rewrite Z.mod_small by (unfold two31, two64 in *; lia).
    unfold u64. replace (c - d + two64 + d) with (c + 1 * two64) by ring.
    rewrite Z.mod_add by (unfold two64; lia). rewrite Z.mod_small by (unfold two31, two64 in *; lia).
    apply i32_id. unfold two31 in *; lia.
Qed.

Theorem momconv_zone ds i x : lattice_ok ds -> in_box ds x -> index_of ds x = i -> zone_ok ds x ->
  exists p, TwoPI_mpipi_momconv ds i (length ds) = Some p /\ zone_rep ds x p /\
            get_site_pipiBZ ds p (length ds) = Some i.
Proof.
  intros Hok Hx Ei Hz. pose proof (ok_volume ds Hok) as Hv. pose proof Hok as (Hne & Hd & Hp).
  rewrite index_of_horner in Ei by (apply in_box_length; assumption). subst i.
  pose proof (horner_bound _ _ Hx) as Hb.
  exists (map (fun p => zrep (fst p) (snd p)) (combine ds x)).
  split; [|split; [apply zrep_rep; assumption|]].
  - unfold TwoPI_mpipi_momconv. rewrite get_mom_digits by (try assumption; lia).
    rewrite digits_horner by assumption. cbn [bindo]. unfold get_site_2piBZ.
    rewrite temp_2pi by (try assumption; lia).
    pose proof (zshift_box ds x Hd Hx Hz) as Hs.
    rewrite gen_site_horner by (try assumption; lia). cbn [bindo]. unfold get_mom_pipi.
    pose proof (horner_bound _ _ Hs) as Hb'.
    rewrite mom_pipi_digits; [|assumption|lia|lia|lia|lia].
    rewrite Z.div_1_r, digits_horner by assumption. rewrite pipi_of_shift by assumption. reflexivity.
  - unfold get_site_pipiBZ. rewrite temp_pipi by (try assumption; lia).
    apply gen_site_horner; [assumption|assumption|lia].
Qed.

Lemma zone_ok_even ds x : in_box ds x -> Forall (fun L => Z.even L = true) ds -> zone_ok ds x.
Proof. induction 1; intros H1; inversion H1; subst; constructor; auto. apply IHForall2; assumption. Qed.

(* an odd extent: the Fourier momentum (2,0,0,0) on a 5^4 lattice is converted to (2,-1,0,0) *)
Lemma momconv_odd_wrong :
  get_mom_2piBZ [5;5;5;5] 2 4 = Some [2;0;0;0] /\
  TwoPI_mpipi_momconv [5;5;5;5] 2 4 = Some [2;-1;0;0].
Proof. split; vm_compute; reflexivity. Qed.

(* ---------- C05: translations ---------- *)
Lemma spacing_loop_spec ds x : in_box ds x -> forall sep mu DIMS, (mu + length ds <= DIMS)%nat ->
  Forall (fun L => 0 < L < two31) ds -> sep_ok ds sep ->
  spacing_loop ds x sep mu DIMS = Some (translate ds x sep).
Proof.
  intros Hx. induction Hx as [|d c ds x Hc Hx IH]; intros sep mu DIMS HD Hd Hs.
  - inversion Hs; reflexivity.
  - inversion Hd as [|? ? Hd0 Hds]; subst. inversion Hs as [|? s ? ss Hs0 Hss]; subst. cbn [length] in HD.
    cbn [spacing_loop]. rewrite IH; [|lia|assumption|assumption]. cbn [bindo].
    replace (mu <? DIMS)%nat with true by (symmetry; apply Nat.ltb_lt; lia).
    replace ((d =? 0) || (c + s <? - two31) || (two31 <=? c + s)) with false by lia.
    f_equal. cbn [translate combine map fst snd]. unfold translate. cbn [combine map fst snd]. f_equal.
    assert (E : u64 (u64 (c + s) + d) = c + s + d).
    { unfold u64. rewrite Z.add_mod_idemp_l by (unfold two64; lia). apply Z.mod_small.
      unfold two31, two64 in *; lia. }
    rewrite E. replace (c + s + d) with (c + s + 1 * d) by ring. rewrite Z.mod_add by lia.
    pose proof (Z.mod_pos_bound (c + s) d). apply i32_id. unfold two31 in *; lia.
Qed.

Lemma translate_box ds x sep : Forall (fun L => 0 < L) ds -> in_box ds x -> length sep = length ds ->
  in_box ds (translate ds x sep).
Proof.
  intros Hd Hx. revert sep Hd. induction Hx as [|d c ds x Hc Hx IH]; intros [|s sep] Hd Hl; try discriminate.
  - constructor.
  - inversion Hd; subst. unfold translate. cbn [combine map fst snd]. constructor.
    + apply Z.mod_pos_bound; lia.
    + apply IH; [assumption|simpl in Hl; lia].
Qed.

Lemma sep_ok_length ds sep : sep_ok ds sep -> length sep = length ds.
Proof. induction 1; simpl; congruence. Qed.

Theorem compute_spacing_spec ds x sep : lattice_ok ds -> in_box ds x -> sep_ok ds sep ->
  compute_spacing ds sep (index_of ds x) (length ds) = Some (index_of ds (translate ds x sep)) /\
  in_box ds (translate ds x sep).
Proof.
  intros Hok Hx Hs. pose proof (ok_volume ds Hok) as Hv. pose proof Hok as (Hne & Hd & Hp).
  pose proof (translate_box ds x sep (ok_pos _ Hd) Hx (sep_ok_length _ _ Hs)) as Ht.
  split; [|assumption].
  rewrite !index_of_horner by (apply in_box_length; assumption).
  pose proof (horner_bound _ _ Hx) as Hb.
  unfold compute_spacing. rewrite get_mom_digits by (try assumption; lia).
  rewrite digits_horner by assumption. cbn [bindo].
  rewrite spacing_loop_spec by (try assumption; lia). cbn [bindo].
  apply gen_site_horner; [assumption|assumption|lia].
Qed.

Lemma translate_add ds x s t : Forall (fun L => 0 < L) ds -> in_box ds x -> length s = length ds -> length t = length ds ->
  translate ds (translate ds x s) t = translate ds x (map (fun p => fst p + snd p) (combine s t)).
Proof.
  intros Hd Hx. revert s t Hd. induction Hx as [|d c ds x Hc Hx IH]; intros [|s0 s] [|t0 t] Hd Hl Hl'; try discriminate.
  - reflexivity.
  - inversion Hd; subst. unfold translate. cbn [combine map fst snd]. f_equal.
    + rewrite Z.add_mod_idemp_l by lia. f_equal; lia.
    + apply IH; [assumption|simpl in *; lia|simpl in *; lia].
Qed.
Lemma translate_0 ds x s : in_box ds x -> Forall2 (fun _ c => c = 0) ds s -> translate ds x s = x.
Proof.
  intros Hx. revert s. induction Hx as [|d c ds x Hc Hx IH]; intros s Hs; inversion Hs; subst; [reflexivity|].
  unfold translate. cbn [combine map fst snd]. f_equal; [|apply IH; assumption].
  rewrite Z.add_0_r. apply Z.mod_small; lia.
Qed.

Lemma index_coords ds k : lattice_ok ds -> 0 <= k < lvolume ds ->
  exists x, in_box ds x /\ index_of ds x = k.
Proof.
  intros Hok Hk. destruct (coords_of_site ds k Hok Hk) as (x & _ & Hx & E & _). eauto.
Qed.

Theorem spacing_compose ds k s t : lattice_ok ds -> 0 <= k < lvolume ds ->
  sep_ok ds s -> sep_ok ds t -> sep_ok ds (add_sep s t) ->
  (do j <- compute_spacing ds s k (length ds); compute_spacing ds t j (length ds))
  = compute_spacing ds (add_sep s t) k (length ds).
Proof.
  intros Hok Hk Hs Ht Hst. destruct (index_coords ds k Hok Hk) as (x & Hx & <-).
  destruct (compute_spacing_spec ds x s Hok Hx Hs) as (E1 & B1). rewrite E1. cbn [bindo].
  destruct (compute_spacing_spec ds _ t Hok B1 Ht) as (E2 & _). rewrite E2.
  destruct (compute_spacing_spec ds _ _ Hok Hx Hst) as (E3 & _). rewrite E3.
  rewrite translate_add; [reflexivity| |assumption|apply sep_ok_length; assumption|apply sep_ok_length; assumption].
  destruct Hok as (_ & Hd & _). apply ok_pos; assumption.
Qed.

Theorem spacing_inverse ds k s : lattice_ok ds -> 0 <= k < lvolume ds ->
  sep_ok ds s -> sep_ok ds (neg_sep s) ->
  (do j <- compute_spacing ds s k (length ds); compute_spacing ds (neg_sep s) j (length ds)) = Some k.
Proof.
  intros Hok Hk Hs Hn. destruct (index_coords ds k Hok Hk) as (x & Hx & <-).
  destruct (compute_spacing_spec ds x s Hok Hx Hs) as (E1 & B1). rewrite E1. cbn [bindo].
  destruct (compute_spacing_spec ds _ _ Hok B1 Hn) as (E2 & _). rewrite E2.
  rewrite translate_add; [| destruct Hok as (_ & Hd & _); apply ok_pos; assumption
    |assumption|apply sep_ok_length; assumption|apply sep_ok_length; assumption].
  rewrite translate_0; [reflexivity|assumption|].
  clear -Hs. induction Hs; [constructor|]. cbn [neg_sep map combine fst snd]. constructor; [lia|assumption].
Qed.

Theorem spacing_zero ds k : lattice_ok ds -> 0 <= k < lvolume ds ->
  compute_spacing ds (zero_sep ds) k (length ds) = Some k.
Proof.
  intros Hok Hk. destruct (index_coords ds k Hok Hk) as (x & Hx & <-).
  assert (Hz : sep_ok ds (zero_sep ds)).
  { destruct Hok as (_ & Hd & _). unfold zero_sep. clear -Hd. induction Hd; [constructor|]. cbn [map]. constructor; [unfold two31 in *; lia|assumption]. }
  destruct (compute_spacing_spec ds x _ Hok Hx Hz) as (E1 & B1). rewrite E1.
  rewrite translate_0; [reflexivity|assumption|].
  clear. induction ds; constructor; auto.
Qed.

Lemma nth_error_translate ds x sep k : length x = length ds -> length sep = length ds ->
  nth_error (translate ds x sep) k =
  match nth_error ds k, nth_error x k, nth_error sep k with
  | Some L, Some c, Some s => Some ((c + s) mod L)
  | _, _, _ => None
  end.
Proof.
  revert x sep k. induction ds as [|d ds IH]; intros [|c x] [|s sep] k Hl Hl'; try discriminate.
  - destruct k; reflexivity.
  - unfold translate. cbn [combine map fst snd]. destruct k as [|k]; [reflexivity|].
    cbn [nth_error]. apply IH; simpl in *; lia.
Qed.

Lemma nth_error_seq_map {A} (f : nat -> A) n k : (k < n)%nat -> nth_error (map f (seq 0 n)) k = Some (f k).
Proof.
  intros H. rewrite nth_error_map. rewrite (nth_error_nth' _ 0%nat) by (rewrite seq_length; assumption).
  cbn [option_map]. rewrite seq_nth by assumption. reflexivity.
Qed.

Lemma translate_unit_stepped ds x mu s : in_box ds x -> (mu < length ds)%nat ->
  stepped ds x (translate ds x (unit_sep ds mu s)) mu s.
Proof.
  intros Hx Hmu. pose proof (in_box_length _ _ Hx) as Hl.
  assert (Hul : length (unit_sep ds mu s) = length ds) by (unfold unit_sep; rewrite map_length, seq_length; reflexivity).
  split.
  - unfold translate. rewrite map_length, !combine_length. lia.
  - intros k. rewrite nth_error_translate by assumption.
    destruct (Nat.lt_ge_cases k (length ds)) as [Hk|Hk].
    + unfold unit_sep. rewrite nth_error_seq_map by assumption.
      destruct (nth_error ds k) as [L|] eqn:EL; [|apply nth_error_None in EL; lia].
      destruct (nth_error x k) as [c|] eqn:Ec; [|apply nth_error_None in Ec; lia].
      destruct (Nat.eqb_spec k mu); [reflexivity|].
      apply in_box_nth in Hx as (_ & Hx). specialize (Hx k L c EL Ec).
      rewrite Z.add_0_r, Z.mod_small by lia. reflexivity.
    + replace (nth_error ds k) with (@None Z) by (symmetry; apply nth_error_None; lia).
      replace (nth_error x k) with (@None Z) by (symmetry; apply nth_error_None; lia).
      destruct (Nat.eqb k mu); reflexivity.
Qed.

Lemma unit_sep_ok ds mu s : lattice_ok ds -> -1 <= s <= 1 -> sep_ok ds (unit_sep ds mu s).
Proof.
  intros (_ & Hd & _) Hs. unfold unit_sep. generalize 0%nat. induction Hd as [|d ds Hd0 Hd IH]; intros n; [constructor|].
  cbn [length seq map]. constructor; [|apply IH]. destruct (Nat.eqb n mu); lia.
Qed.

Theorem spacing_unit ds k mu : lattice_ok ds -> 0 <= k < lvolume ds -> (mu < length ds)%nat ->
  compute_spacing ds (unit_sep ds mu 1) k (length ds) = neighbor ds k mu /\
  compute_spacing ds (unit_sep ds mu (-1)) k (length ds) = back ds k mu.
Proof.
  intros Hok Hk Hmu. destruct (index_coords ds k Hok Hk) as (x & Hx & <-).
  rewrite index_of_horner by (apply in_box_length; assumption).
  split.
  - destruct (gen_shift_fwd ds x mu Hok Hx Hmu) as (y & Hs & Hy & E). rewrite E.
    destruct (compute_spacing_spec ds x _ Hok Hx (unit_sep_ok ds mu 1 Hok ltac:(lia))) as (E1 & B1).
    rewrite !index_of_horner in E1 by (apply in_box_length; assumption). rewrite E1.
    do 2 f_equal. eapply stepped_unique; [apply translate_unit_stepped; assumption|assumption].
  - destruct (gen_shift_bck ds x mu Hok Hx Hmu) as (y & Hs & Hy & E). rewrite E.
    destruct (compute_spacing_spec ds x _ Hok Hx (unit_sep_ok ds mu (-1) Hok ltac:(lia))) as (E1 & B1).
    rewrite !index_of_horner in E1 by (apply in_box_length; assumption). rewrite E1.
    do 2 f_equal. eapply stepped_unique; [apply translate_unit_stepped; assumption|assumption].
Qed.

(* a separation below -L wraps modulo 2^64 and lands on the wrong site *)
Lemma spacing_far_wrong :
  compute_spacing [3;3] [-4;0] 0 2 = Some 0 /\ index_of [3;3] [(0 + -4) mod 3; 0] = 2.
Proof. split; vm_compute; reflexivity. Qed.

(* minimal distance *)
Definition vmin (d c : Z) : Z := if c >? d / 2 then c - d else c.

Lemma vec_origin_spec ds x : in_box ds x -> forall mu DIMS, (mu + length ds <= DIMS)%nat ->
  Forall (fun L => 0 < L < two31) ds ->
  vec_from_origin_loop ds x mu DIMS = map (fun p => vmin (fst p) (snd p)) (combine ds x).
Proof.
  intros Hx. induction Hx as [|d c ds x Hc Hx IH]; intros mu DIMS HD Hd; [reflexivity|].
  inversion Hd as [|? ? Hd0 Hds]; subst. cbn [length] in HD.
  cbn [vec_from_origin_loop combine map fst snd]. f_equal; [|apply IH; [lia|assumption]].
  replace (mu <? DIMS)%nat with true by (symmetry; apply Nat.ltb_lt; lia).
  destruct (half_bounds d Hd0). rewrite Z.shiftr_div_pow2 by lia. change (2^1) with 2.
  rewrite !i32_id by (unfold two31 in *; lia). reflexivity.
Qed.

Lemma vmin_min d c r : 0 <= c < d -> (r - c) mod d = 0 ->
  vmin d c * vmin d c <= r * r /\ - d <= 2 * vmin d c <= d.
Proof.
  intros Hc Hr. apply Z.mod_divide in Hr; [|lia]. destruct Hr as (q & Hq).
  assert (Hpar : d = 2 * (d/2) + d mod 2) by (apply Z.div_mod; lia).
  assert (Hm2 : 0 <= d mod 2 < 2) by (apply Z.mod_pos_bound; lia).
  assert (Hb : - d <= 2 * vmin d c <= d).
  { unfold vmin. destruct (Z.gtb_spec c (d/2)); lia. }
  split; [|assumption].
  assert (exists k, r = vmin d c + k * d).
  { unfold vmin. destruct (c >? d/2); [exists (q+1)|exists q]; lia. }
  destruct H as (k & ->). set (v := vmin d c) in *. clearbody v. clear -Hb Hc.
  destruct (Z.eq_dec k 0) as [->|Hk]; [lia|].
  assert (0 <= k * d * (2 * v + k * d)); [|nia].
  destruct (Z.lt_ge_cases k 0).
  - assert (k * d <= - d) by nia. assert (2 * v + k * d <= 0) by lia. nia.
  - assert (d <= k * d) by nia. assert (0 <= 2 * v + k * d) by lia. nia.
Qed.

Lemma vmin_image ds x : in_box ds x -> image_of ds x (map (fun p => vmin (fst p) (snd p)) (combine ds x)).
Proof.
  induction 1 as [|d c ds x Hc Hx (IH & IHl)]; [split; constructor|].
  cbn [combine map fst snd]. split; [|cbn [length]; congruence]. constructor; [|assumption].
  cbn [fst snd]. unfold vmin. destruct (c >? d/2).
  - replace (c - d - c) with (0 + (-1) * d) by lia. rewrite Z.mod_add by lia. apply Z.mod_0_l; lia.
  - rewrite Z.sub_diag. apply Z.mod_0_l; lia.
Qed.

Lemma sumsq_cons a l : sumsq (a :: l) = a * a + sumsq l.
Proof. reflexivity. Qed.
Lemma vmin_sumsq ds x r : in_box ds x -> image_of ds x r ->
  sumsq (map (fun p => vmin (fst p) (snd p)) (combine ds x)) <= sumsq r.
Proof.
  intros Hx. revert r. induction Hx as [|d c ds x Hc Hx IH]; intros r (Hr & Hrl).
  - destruct r; [unfold sumsq; simpl; lia|discriminate].
  - cbn [combine] in Hr. inversion Hr as [|? r0 ? rs H0 Hrs]; subst. cbn [fst snd] in H0.
    cbn [combine map fst snd]. rewrite !sumsq_cons.
    assert (sumsq (map (fun p => vmin (fst p) (snd p)) (combine ds x)) <= sumsq rs).
    { apply IH. split; [assumption|]. simpl in Hrl; lia. }
    pose proof (proj1 (vmin_min d c r0 Hc H0)). lia.
Qed.

Lemma sumsq_nonneg l : 0 <= sumsq l.
Proof. induction l; [unfold sumsq; simpl; lia|]. rewrite sumsq_cons. nia. Qed.
Lemma fold_sumsq l : forall a, 0 <= a -> a + sumsq l < two64 ->
  fold_left (fun s r => u64 (s + r * r)) l a = a + sumsq l.
Proof.
  induction l as [|r l IH]; intros a Ha Hb.
  - unfold sumsq; simpl. lia.
  - cbn [fold_left]. rewrite sumsq_cons in *. pose proof (sumsq_nonneg l).
    assert (0 <= r * r) by nia. rewrite u64_id by lia. rewrite IH by lia. lia.
Qed.

Theorem compute_rsq_min ds x : lattice_ok ds -> Forall (fun L => L <= 65536) ds -> in_box ds x ->
  (length ds < 1000)%nat ->
  exists r, image_of ds x r /\
    compute_rsq ds (index_of ds x) (length ds) = Some (sumsq r) /\
    (forall r', image_of ds x r' -> sumsq r <= sumsq r').
Proof.
  intros Hok Hsm Hx Hlen. pose proof (ok_volume ds Hok) as Hv. pose proof Hok as (Hne & Hd & Hp).
  exists (map (fun p => vmin (fst p) (snd p)) (combine ds x)).
  split; [apply vmin_image; assumption|]. split; [|intros; apply vmin_sumsq; assumption].
  rewrite index_of_horner by (apply in_box_length; assumption).
  pose proof (horner_bound _ _ Hx) as Hb.
  unfold compute_rsq, get_vec_from_origin. rewrite get_mom_digits by (try assumption; lia).
  rewrite digits_horner by assumption. cbn [bindo]. rewrite vec_origin_spec by (try assumption; lia).
  set (v := map _ _).
  assert (Hvl : length v = length ds).
  { unfold v. rewrite map_length, combine_length. rewrite (in_box_length _ _ Hx). lia. }
  rewrite firstn_all2 by lia.
  assert (Hv32 : Forall (fun c => c * c <= 1073741824) v).
  { unfold v. clear -Hx Hsm. induction Hx as [|d c ds x Hc Hx IH]; [constructor|].
    inversion Hsm; subst. cbn [combine map fst snd]. constructor; [|apply IH; assumption].
    destruct (vmin_min d c c Hc) as (_ & Hb). { rewrite Z.sub_diag. apply Z.mod_0_l; lia. }
    assert (-32768 <= vmin d c <= 32768) by lia. nia. }
  replace (forallb _ v) with true.
  - f_equal. rewrite fold_sumsq; [lia|lia|].
    assert (sumsq v <= 1073741824 * Z.of_nat (length v)).
    { clear -Hv32. induction Hv32; [unfold sumsq; simpl; lia|]. rewrite sumsq_cons. cbn [length]. lia. }
    unfold two64. lia.
  - symmetry. apply forallb_forall. intros c Hc. rewrite Forall_forall in Hv32. specialize (Hv32 c Hc).
    unfold two31. lia.
Qed.
