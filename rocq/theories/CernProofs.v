From Coq Require Import Permutation.
From Verif Require Import CInt Lib GeomModel GeomSpec GeomProofs GeomProofs2 CernModel.
Local Open Scope nat_scope.

Section Store.
Context {A : Type}.
Implicit Types (js : list nat) (vs m : list A).
Lemma store_all_app js1 js2 vs1 vs2 m : length js1 = length vs1 ->
  store_all (js1 ++ js2) (vs1 ++ vs2) m = do m' <- store_all js1 vs1 m; store_all js2 vs2 m'.
Proof.
  revert vs1 m. induction js1 as [|j js1 IH]; intros [|v vs1] m H; try discriminate; [reflexivity|].
  cbn [store_all app]. unfold bindo. destruct (set_nth m j v); [|reflexivity]. apply IH. cbn in H. lia.
Qed.
Lemma load_all_spec js m vs : load_all js m = Some vs <-> Forall2 (fun j v => nth_error m j = Some v) js vs.
Proof.
  revert vs. induction js as [|j js IH]; intros vs; cbn [load_all].
  - split; intros H; [injection H as <-; constructor|inversion H; reflexivity].
  - unfold bindo. split.
    + destruct (nth_error m j) eqn:E; [|discriminate]. destruct (load_all js m) eqn:E2; [|discriminate].
      intros H; injection H as <-. constructor; [assumption|]. apply IH; reflexivity.
    + intros H; inversion H as [|? ? ? l H1 H2]; subst. rewrite H1. rewrite (proj2 (IH _) H2). reflexivity.
Qed.
Lemma load_all_ex js m : (forall j, In j js -> j < length m) -> exists vs, load_all js m = Some vs.
Proof.
  induction js as [|j js IH]; intros H; [exists []; reflexivity|]. cbn [load_all].
  destruct (nth_error_lt m j (H j (or_introl eq_refl))) as (v & ->). cbn [bindo].
  destruct IH as (vs & ->); [intros; apply H; right; assumption|]. eexists; reflexivity.
Qed.
Lemma load_all_nth js m vs : load_all js m = Some vs -> length vs = length js /\
  forall k j, nth_error js k = Some j -> nth_error vs k = nth_error m j.
Proof.
  rewrite load_all_spec. intros H. induction H as [|j v js vs Hj H IH]; [split; [reflexivity|intros [|k] j; discriminate]|].
  destruct IH as (L & IH). split; [cbn; now rewrite L|]. intros [|k] j' E; [injection E as <-; symmetry; assumption|exact (IH _ _ E)].
Qed.
Lemma store_all_spec js vs m : NoDup js -> length js = length vs -> (forall j, In j js -> j < length m) ->
  exists m', store_all js vs m = Some m' /\ length m' = length m /\
    (forall k j, nth_error js k = Some j -> nth_error m' j = nth_error vs k) /\
    (forall j, ~ In j js -> nth_error m' j = nth_error m j).
Proof.
  revert vs m. induction js as [|j js IH]; intros [|v vs] m ND L B; try discriminate.
  - exists m. repeat split. intros [|k] j; discriminate.
  - inversion ND as [|? ? NI ND']; subst.
    destruct (setn_spec m j v (B j (or_introl eq_refl))) as (m1 & E1 & L1 & N1).
    destruct (IH vs m1 ND' ltac:(cbn in L; lia) ltac:(intros; rewrite L1; apply B; right; assumption)) as (m' & E & L' & HA & HB).
    exists m'. cbn [store_all]. rewrite E1. cbn [bindo]. repeat split; [exact E|lia| |].
    + intros [|k] i Hi; [|exact (HA _ _ Hi)]. injection Hi as <-. rewrite HB by assumption. rewrite N1, Nat.eqb_refl. reflexivity.
    + intros i Hi. rewrite HB by (intros ?; apply Hi; right; assumption). rewrite N1.
      destruct (Nat.eqb_spec i j) as [->|]; [exfalso; apply Hi; left; reflexivity|reflexivity].
Qed.
End Store.

Section Slice.
Context {A : Type}.
Variables (X Y Z0 T : nat).
Definition olist {B} (o : option (list B)) : list B := match o with Some l => l | None => [] end.
Definition cls_list (t : nat) (sites : list (nat * nat * nat)) : list nat :=
  flat_map (fun s => olist (cls_links X Y Z0 T t s)) sites.
Definition links_total (t : nat) (sites : list (nat * nat * nat)) : Prop :=
  forall s, In s sites -> exists l, cls_links X Y Z0 T t s = Some l /\ length l = 8.

Lemma cls_list_len t sites : links_total t sites -> length (cls_list t sites) = 8 * length sites.
Proof.
  induction sites as [|s r IH]; intros H; [reflexivity|]. unfold cls_list in *. cbn [flat_map length].
  rewrite app_length, IH by (intros ? ?; apply H; right; assumption).
  destruct (H s (or_introl eq_refl)) as (l & -> & E). cbn [olist]. lia.
Qed.
Lemma load_all_app js1 js2 (m vs1 vs2 : list A) : load_all js1 m = Some vs1 -> load_all js2 m = Some vs2 ->
  load_all (js1 ++ js2) m = Some (vs1 ++ vs2).
Proof. rewrite !load_all_spec. apply Forall2_app. Qed.

Lemma write_sites_eq (lat : list A) t : forall sites off uout vs, links_total t sites ->
  load_all (cls_list t sites) lat = Some vs ->
  cls_write_sites X Y Z0 T lat t sites off uout = store_all (seq off (8 * length sites)) vs uout.
Proof.
  induction sites as [|s r IH]; intros off uout vs HT HL.
  - cbn in *. injection HL as <-. reflexivity.
  - destruct (HT s (or_introl eq_refl)) as (l & El & L8).
    assert (HL' := HL). unfold cls_list in HL'. cbn [flat_map] in HL'. rewrite El in HL'. cbn [olist] in HL'.
    rewrite load_all_spec in HL'. apply Forall2_app_inv_l in HL'. destruct HL' as (v1 & v2 & F1 & F2 & ->).
    cbn [cls_write_sites]. rewrite El. cbn [bindo]. rewrite (proj2 (load_all_spec _ _ _) F1). cbn [bindo].
    replace (seq off (8 * length (s :: r))) with (seq off 8 ++ seq (off + 8) (8 * length r))
      by (rewrite <- seq_app; f_equal; cbn [length]; lia).
    apply load_all_spec in F1. destruct (load_all_nth _ _ _ F1) as (Lv & _).
    rewrite store_all_app by (rewrite seq_length; lia).
    destruct (store_all (seq off 8) v1 uout); [|reflexivity]. cbn [bindo]. apply IH.
    + intros ? ?; apply HT; right; assumption.
    + apply load_all_spec; exact F2.
Qed.
Lemma read_sites_eq (uin : list A) t : forall sites off lat vs, links_total t sites ->
  load_all (seq off (8 * length sites)) uin = Some vs ->
  cls_read_sites X Y Z0 T uin t sites off lat = store_all (cls_list t sites) vs lat.
Proof.
  induction sites as [|s r IH]; intros off lat vs HT HL.
  - cbn in *. injection HL as <-. reflexivity.
  - destruct (HT s (or_introl eq_refl)) as (l & El & L8).
    replace (seq off (8 * length (s :: r))) with (seq off 8 ++ seq (off + 8) (8 * length r)) in HL
      by (rewrite <- seq_app; f_equal; cbn [length]; lia).
    rewrite load_all_spec in HL. apply Forall2_app_inv_l in HL. destruct HL as (v1 & v2 & F1 & F2 & ->).
    cbn [cls_read_sites]. rewrite El. cbn [bindo]. rewrite (proj2 (load_all_spec _ _ _) F1). cbn [bindo].
    apply load_all_spec in F1. destruct (load_all_nth _ _ _ F1) as (Lv & _). rewrite seq_length in Lv.
    unfold cls_list. cbn [flat_map]. rewrite El. cbn [olist].
    rewrite store_all_app by lia.
    destruct (store_all l v1 lat); [|reflexivity]. cbn [bindo]. apply IH.
    + intros ? ?; apply HT; right; assumption.
    + apply load_all_spec; exact F2.
Qed.
End Slice.

Section Whole.
Context {A : Type}.
Variables (X Y Z0 T : nat).
Notation n := (4 * cLCU X Y Z0).
Notation sites t := (cls_sites X Y Z0 t).
Notation L t := (cls_list X Y Z0 T t (sites t)).
Hypothesis Htot : forall t, t < T -> links_total X Y Z0 T t (sites t).
Hypothesis Hcnt : forall t, t < T -> 8 * length (sites t) = n.
Hypothesis Hall : forall l, l < n * T -> exists t, t < T /\ In l (L t).

Notation table := (flat_map (fun t => L t) (seq 0 T)).
Lemma table_len : length table = n * T.
Proof.
  assert (G : forall ts, (forall t, In t ts -> t < T) -> length (flat_map (fun t => L t) ts) = n * length ts).
  { induction ts as [|t ts IH]; intros H; [cbn; lia|]. cbn [flat_map length].
    rewrite app_length, IH by (intros; apply H; right; assumption).
    assert (t < T) by (apply H; left; reflexivity).
    rewrite cls_list_len by (apply Htot; assumption). rewrite Hcnt by assumption. lia. }
  rewrite G, seq_length; [reflexivity|]. intros t I. apply in_seq in I. lia.
Qed.
Lemma table_incl : incl (seq 0 (n * T)) table.
Proof.
  intros l I. apply in_seq in I. destruct (Hall l ltac:(lia)) as (t & Ht & H). apply in_flat_map.
  exists t. split; [apply in_seq; lia|exact H].
Qed.
Lemma table_perm : Permutation (seq 0 (n * T)) table.
Proof.
  apply NoDup_Permutation_bis; [apply seq_NoDup|rewrite table_len, seq_length; lia|exact table_incl].
Qed.
Lemma table_nodup : NoDup table.
Proof. eapply Permutation_NoDup; [exact table_perm|apply seq_NoDup]. Qed.
Lemma NoDup_app_remove_l {C} (a b : list C) : NoDup (a ++ b) -> NoDup b.
Proof. induction a as [|x a IH]; intros H; [exact H|]. inversion H; auto. Qed.
Lemma NoDup_app_remove_r {C} (a b : list C) : NoDup (a ++ b) -> NoDup a.
Proof.
  induction a as [|x a IH]; intros H; [constructor|]. inversion H as [|? ? N ND]; subst. constructor; [|auto].
  intros I. apply N, in_or_app. left; exact I.
Qed.
Lemma flat_map_nodup {B C} (f : B -> list C) ts : NoDup (flat_map f ts) ->
  (forall t, In t ts -> NoDup (f t)).
Proof.
  induction ts as [|a ts IH]; intros H t I; [destruct I|]. cbn [flat_map] in H.
  destruct I as [->|I]; [exact (NoDup_app_remove_r _ _ H)|apply IH; [exact (NoDup_app_remove_l _ _ H)|exact I]].
Qed.
Lemma app_nodup_disj {C} (a b : list C) x : NoDup (a ++ b) -> In x a -> In x b -> False.
Proof.
  induction a as [|y a IH]; intros H I J; [destruct I|]. inversion H as [|? ? N ND]; subst.
  destruct I as [->|I]; [apply N, in_or_app; right; exact J|exact (IH ND I J)].
Qed.
Lemma flat_map_disj {B C} (f : B -> list C) ts : NoDup (flat_map f ts) ->
  forall t t' x, In t ts -> In t' ts -> In x (f t) -> In x (f t') -> t = t'.
Proof.
  induction ts as [|a ts IH]; intros H t t' x I I' J J'; [destruct I|]. cbn [flat_map] in H.
  assert (D : forall u, In u ts -> In x (f u) -> In x (f a) -> False).
  { intros u Iu Ju Ja. apply (app_nodup_disj _ _ x H Ja). apply in_flat_map. exists u; auto. }
  destruct I as [->|I], I' as [->|I']; [reflexivity|exfalso; eapply D; eassumption|exfalso; eapply D; eassumption|].
  exact (IH (NoDup_app_remove_l _ _ H) _ _ _ I I' J J').
Qed.
Lemma L_nodup t : t < T -> NoDup (L t).
Proof. intros H. apply (flat_map_nodup _ _ table_nodup). apply in_seq. lia. Qed.
Lemma L_disj t t' x : t < T -> t' < T -> In x (L t) -> In x (L t') -> t = t'.
Proof. intros H H'. apply (flat_map_disj _ _ table_nodup); apply in_seq; lia. Qed.
Lemma L_bound t x : t < T -> In x (L t) -> x < n * T.
Proof.
  intros H I. assert (J : In x (seq 0 (n*T))).
  { eapply Permutation_in; [apply Permutation_sym, table_perm|]. apply in_flat_map. exists t; split; [apply in_seq; lia|exact I]. }
  apply in_seq in J. lia.
Qed.
Lemma L_len t : t < T -> length (L t) = n.
Proof. intros H. rewrite cls_list_len by (apply Htot; assumption). apply Hcnt; assumption. Qed.

Lemma write_ok (lat : list A) : length lat = n * T -> forall order, NoDup order -> (forall t, In t order -> t < T) ->
  forall uout, length uout = n * T ->
  exists u, cls_write X Y Z0 T lat order uout = Some u /\ length u = n * T /\
    (forall t k j, In t order -> nth_error (L t) k = Some j -> nth_error u (n * t + k) = nth_error lat j) /\
    (forall p, (forall t, In t order -> ~ (n * t <= p < n * t + n)) -> nth_error u p = nth_error uout p).
Proof.
  intros Ll. induction order as [|t r IH]; intros ND B uout Lu.
  - exists uout. split; [reflexivity|]. split; [assumption|]. split; [intros t k j []|reflexivity].
  - inversion ND as [|? ? NI ND']; subst. assert (Ht : t < T) by (apply B; left; reflexivity).
    destruct (load_all_ex (L t) lat) as (vs & Ev).
    { intros j I. rewrite Ll. exact (L_bound _ _ Ht I). }
    destruct (load_all_nth _ _ _ Ev) as (Lv & Nv). rewrite (L_len _ Ht) in Lv.
    assert (Hn : n * t + n <= n * T) by nia.
    destruct (store_all_spec (seq (n * t) n) vs uout (seq_NoDup _ _) ltac:(rewrite seq_length; lia)) as (u1 & E1 & L1 & N1 & O1).
    { intros j I. apply in_seq in I. lia. }
    destruct (IH ND' ltac:(intros; apply B; right; assumption) u1 ltac:(lia)) as (u & E & Lu' & HA & HB).
    exists u. cbn [cls_write]. rewrite (write_sites_eq X Y Z0 T lat t _ _ _ vs (Htot _ Ht) Ev), (Hcnt _ Ht), E1. cbn [bindo].
    split; [exact E|]. split; [exact Lu'|]. split.
    + intros t' k j [<-|I] Hk; [|exact (HA _ _ _ I Hk)].
      assert (k < n). { rewrite <- (L_len _ Ht). apply nth_error_Some. rewrite Hk. discriminate. }
      rewrite HB.
      * rewrite (N1 k). { apply Nv; exact Hk. }
        rewrite (nth_error_nth' (seq (n*t) n) 0) by (rewrite seq_length; lia). rewrite seq_nth by lia. reflexivity.
      * intros t' I' (C1 & C2). assert (t' = t) by nia. subst. contradiction.
    + intros p Hp. rewrite HB by (intros; apply Hp; right; assumption). apply O1. intros I. apply in_seq in I.
      apply (Hp t (or_introl eq_refl)). lia.
Qed.
Lemma read_ok (file : list A) : length file = n * T -> forall order, NoDup order -> (forall t, In t order -> t < T) ->
  forall lat, length lat = n * T ->
  exists u, cls_read X Y Z0 T file order lat = Some u /\ length u = n * T /\
    (forall t k j, In t order -> nth_error (L t) k = Some j -> nth_error u j = nth_error file (n * t + k)) /\
    (forall j, (forall t, In t order -> ~ In j (L t)) -> nth_error u j = nth_error lat j).
Proof.
  intros Ll. induction order as [|t r IH]; intros ND B lat Lu.
  - exists lat. split; [reflexivity|]. split; [assumption|]. split; [intros t k j []|reflexivity].
  - inversion ND as [|? ? NI ND']; subst. assert (Ht : t < T) by (apply B; left; reflexivity).
    assert (Hn : n * t + n <= n * T) by nia.
    set (uin := firstn n (skipn (n * t) file)).
    assert (Lin : length uin = n) by (unfold uin; rewrite firstn_length, skipn_length; lia).
    assert (Nin : forall k, k < n -> nth_error uin k = nth_error file (n * t + k)).
    { intros k Hk. unfold uin. rewrite nth_firstn, nth_skipn. destruct (k <? n) eqn:E; [reflexivity|].
      apply Nat.ltb_ge in E. lia. }
    destruct (load_all_ex (seq 0 n) uin) as (vs & Ev). { intros j I. apply in_seq in I. lia. }
    destruct (load_all_nth _ _ _ Ev) as (Lv & Nv). rewrite seq_length in Lv.
    destruct (store_all_spec (L t) vs lat (L_nodup _ Ht) ltac:(rewrite (L_len _ Ht); lia)) as (u1 & E1 & L1 & N1 & O1).
    { intros j I. rewrite Lu. exact (L_bound _ _ Ht I). }
    destruct (IH ND' ltac:(intros; apply B; right; assumption) u1 ltac:(lia)) as (u & E & Lu' & HA & HB).
    exists u. cbn [cls_read]. fold uin. cbv zeta. rewrite Lin. rewrite (proj2 (Nat.ltb_ge n n)) by lia.
    rewrite (read_sites_eq X Y Z0 T uin t _ _ _ vs (Htot _ Ht)) by (rewrite (Hcnt _ Ht); exact Ev).
    rewrite E1. cbn [bindo].
    split; [exact E|]. split; [exact Lu'|]. split.
    + intros t' k j [<-|I] Hk; [|exact (HA _ _ _ I Hk)].
      assert (k < n). { rewrite <- (L_len _ Ht). apply nth_error_Some. rewrite Hk. discriminate. }
      rewrite HB.
      * rewrite (N1 k j Hk). rewrite (Nv k k); [apply Nin; assumption|].
        rewrite (nth_error_nth' (seq 0 n) 0) by (rewrite seq_length; lia). rewrite seq_nth by lia. reflexivity.
      * intros t' I' J. apply NI. rewrite <- (L_disj t' t j); [assumption|apply B; right; assumption|assumption|exact J|].
        eapply nth_error_In; exact Hk.
    + intros p Hp. rewrite HB by (intros; apply Hp; right; assumption). apply O1. apply Hp. left; reflexivity.
Qed.

Lemma whole (lat mem : list A) wo : length lat = n * T -> length mem = n * T -> Permutation wo (seq 0 T) ->
  exists file, cls_write X Y Z0 T lat wo mem = Some file /\ length file = n * T /\
   (exists tab, Permutation tab (seq 0 (n * T)) /\ forall p j, nth_error tab p = Some j -> nth_error file p = nth_error lat j) /\
   (forall ro lat0, Permutation ro (seq 0 T) -> length lat0 = n * T -> cls_read X Y Z0 T file ro lat0 = Some lat).
Proof.
  intros Ll Lm Pw.
  assert (PB : forall o, Permutation o (seq 0 T) -> NoDup o /\ (forall t, In t o <-> t < T)).
  { intros o P. split; [eapply Permutation_NoDup; [apply Permutation_sym; exact P|apply seq_NoDup]|].
    intros t. split; intros H; [apply (Permutation_in _ P) in H; apply in_seq in H; lia|].
    eapply Permutation_in; [apply Permutation_sym; exact P|]. apply in_seq; lia. }
  destruct (PB _ Pw) as (NDw & Bw).
  destruct (write_ok lat Ll wo NDw (fun t => proj1 (Bw t)) mem Lm) as (file & E & Lf & HA & _).
  exists file. split; [exact E|]. split; [exact Lf|]. split.
  - exists table. split; [apply Permutation_sym, table_perm|].
    assert (G : forall k0 m p j, k0 + m = T -> nth_error (flat_map (fun t => L t) (seq k0 m)) p = Some j ->
       exists t k, t < T /\ n * k0 + p = n * t + k /\ nth_error (L t) k = Some j).
    { intros k0 m. revert k0. induction m as [|m IH]; intros k0 p j Hm Hp; [destruct p; discriminate|].
      cbn [seq flat_map] in Hp. assert (k0 < T) by lia.
      destruct (Nat.lt_ge_cases p n) as [Lp|Lp].
      - rewrite nth_error_app1 in Hp by (rewrite L_len by assumption; lia). exists k0, p. auto.
      - rewrite nth_error_app2 in Hp by (rewrite L_len by assumption; lia). rewrite L_len in Hp by assumption.
        destruct (IH (S k0) _ _ ltac:(lia) Hp) as (t & k & Ht & Hk & HL). exists t, k. split; [assumption|]. split; [lia|assumption]. }
    intros p j Hp. destruct (G 0 T p j eq_refl Hp) as (t & k & Ht & Hk & HL).
    replace p with (n * t + k) by lia. apply HA; [apply Bw; assumption|exact HL].
  - intros ro lat0 Pr L0. destruct (PB _ Pr) as (NDr & Br).
    destruct (read_ok file Lf ro NDr (fun t => proj1 (Br t)) lat0 L0) as (u & Eu & Lu & HC & _).
    rewrite Eu. f_equal. apply list_ext. intros j. destruct (Nat.lt_ge_cases j (n * T)) as [Hj|Hj].
    + destruct (Hall j Hj) as (t & Ht & I). apply In_nth_error in I. destruct I as (k & Hk).
      rewrite (HC t k j (proj2 (Br t) Ht) Hk). apply HA; [apply Bw; exact Ht|exact Hk].
    + rewrite !(proj2 (nth_error_None _ _)) by lia. reflexivity.
Qed.
End Whole.

(* the geometry *)
Section Cover.
Variables (X Y Z0 T : nat).
Notation ds := (cdims X Y Z0 T).
Hypothesis Hok : lattice_ok ds.
Hypothesis Hev : Nat.even X = true /\ Nat.even Y = true /\ Nat.even Z0 = true /\ Nat.even T = true.

Lemma site_box x y z t : x < X -> y < Y -> z < Z0 -> t < T ->
  in_box ds [Z.of_nat x; Z.of_nat y; Z.of_nat z; Z.of_nat t].
Proof. intros. repeat constructor; lia. Qed.
Lemma in_sites t x y z : In (x, y, z) (cls_sites X Y Z0 t) <->
  x < X /\ y < Y /\ z < Z0 /\ Nat.odd (x + y + z + t) = true.
Proof.
  unfold cls_sites. rewrite filter_In, in_flat_map. split.
  - intros ((x' & Ix & I) & O). apply in_flat_map in I. destruct I as (y' & Iy & I).
    apply in_map_iff in I. destruct I as (z' & E & Iz). injection E as -> -> ->.
    rewrite in_seq in *. repeat split; try lia; assumption.
  - intros (Hx & Hy & Hz & O). split; [|assumption]. exists x. split; [apply in_seq; lia|].
    apply in_flat_map. exists y. split; [apply in_seq; lia|]. apply in_map_iff. exists z. split; [reflexivity|apply in_seq; lia].
Qed.
Lemma links_ok t x y z : x < X -> y < Y -> z < Z0 -> t < T ->
  exists i b3 b0 b1 b2, gen_site ds [Z.of_nat x; Z.of_nat y; Z.of_nat z; Z.of_nat t] = Some i /\
   back ds i 3 = Some b3 /\ back ds i 0 = Some b0 /\ back ds i 1 = Some b1 /\ back ds i 2 = Some b2 /\
   cls_links X Y Z0 T t (x, y, z) =
    Some [4 * Z.to_nat i + 3; 4 * Z.to_nat b3 + 3; 4 * Z.to_nat i + 0; 4 * Z.to_nat b0 + 0;
          4 * Z.to_nat i + 1; 4 * Z.to_nat b1 + 1; 4 * Z.to_nat i + 2; 4 * Z.to_nat b2 + 2].
Proof.
  intros Hx Hy Hz Ht. set (c := [Z.of_nat x; Z.of_nat y; Z.of_nat z; Z.of_nat t]).
  assert (B : in_box ds c) by (apply site_box; assumption).
  destruct (site_of_coords ds c Hok B) as (i & Ei & Ii & _).
  destruct (back_step ds i 3 c Hok ltac:(cbn; lia) B (eq_sym Ii)) as (b3 & _ & E3 & _).
  destruct (back_step ds i 0 c Hok ltac:(cbn; lia) B (eq_sym Ii)) as (b0 & _ & E0 & _).
  destruct (back_step ds i 1 c Hok ltac:(cbn; lia) B (eq_sym Ii)) as (b1 & _ & E1 & _).
  destruct (back_step ds i 2 c Hok ltac:(cbn; lia) B (eq_sym Ii)) as (b2 & _ & E2 & _).
  exists i, b3, b0, b1, b2. repeat (split; [assumption|]).
  unfold cls_links. fold c. rewrite Ei. cbn [bindo]. rewrite E3, E0, E1, E2. reflexivity.
Qed.
Lemma tot t : t < T -> links_total X Y Z0 T t (cls_sites X Y Z0 t).
Proof.
  intros Ht ((x, y), z) I. apply in_sites in I. destruct I as (Hx & Hy & Hz & _).
  destruct (links_ok t x y z Hx Hy Hz Ht) as (i & b3 & b0 & b1 & b2 & _ & _ & _ & _ & _ & ->).
  eexists. split; reflexivity.
Qed.
Lemma half_range c : forall k, length (filter (fun z => Nat.odd (c + z)) (seq 0 (2 * k))) = k.
Proof.
  induction k as [|k IH]; [reflexivity|]. replace (2 * S k) with (2 * k + 2) by lia.
  rewrite seq_app, filter_app, app_length, IH. cbn [seq filter].
  replace (c + (0 + 2 * k)) with (c + 2 * k) by lia. replace (c + S (0 + 2 * k)) with (S (c + 2 * k)) by lia.
  rewrite Nat.odd_succ, <- Nat.negb_odd. destruct (Nat.odd (c + 2 * k)); cbn; lia.
Qed.
Lemma filter_flat_map {B C} (f : B -> list C) p l : filter p (flat_map f l) = flat_map (fun x => filter p (f x)) l.
Proof. induction l as [|a l IH]; [reflexivity|]. cbn [flat_map]. now rewrite filter_app, IH. Qed.
Lemma filter_map_len {B C} (f : B -> C) p l : length (filter p (map f l)) = length (filter (fun x => p (f x)) l).
Proof. induction l as [|a l IH]; [reflexivity|]. cbn [map filter]. destruct (p (f a)); cbn; now rewrite IH. Qed.
Lemma flat_map_len {B C} (f : B -> list C) k l : (forall x, length (f x) = k) -> length (flat_map f l) = k * length l.
Proof. intros H. induction l as [|a l IH]; [cbn; lia|]. cbn [flat_map length]. rewrite app_length, H, IH. lia. Qed.
Lemma cnt t : t < T -> 8 * length (cls_sites X Y Z0 t) = 4 * cLCU X Y Z0.
Proof.
  intros _. destruct Hev as (_ & _ & Ez & _). apply Nat.even_spec in Ez. destruct Ez as (k & Ez).
  unfold cls_sites. rewrite filter_flat_map.
  rewrite (flat_map_len _ (k * Y)).
  - rewrite seq_length. unfold cLCU. rewrite Ez. nia.
  - intros x. rewrite filter_flat_map. rewrite (flat_map_len _ k); [now rewrite seq_length|].
    intros y. rewrite filter_map_len. rewrite Ez. erewrite filter_ext; [apply (half_range (x + y + t) k)|].
    intros z. cbv beta. f_equal. lia.
Qed.
Lemma vol : lvolume ds = Z.of_nat (cLCU X Y Z0 * T).
Proof. rewrite lvolume_prod by assumption. unfold prodZ, cdims, cLCU. cbn [fold_right]. lia. Qed.

Lemma mod_step_par c L : (0 <= c < Z.of_nat L)%Z -> Nat.even L = true ->
  Z.odd ((c + 1) mod Z.of_nat L) = negb (Z.odd c).
Proof.
  intros H E. apply Nat.even_spec in E. destruct E as (k & ->).
  destruct (Z.eq_dec (c + 1) (Z.of_nat (2 * k))) as [Q|Q].
  - rewrite Q, Z.mod_same by lia. replace c with (2 * (Z.of_nat k - 1) + 1)%Z by lia.
    rewrite Z.add_comm, Z.odd_add_mul_2. reflexivity.
  - rewrite Z.mod_small by lia. replace (c + 1)%Z with (Z.succ c) by lia. rewrite Z.odd_succ, <- Z.negb_odd. reflexivity.
Qed.

Lemma in_L t x y z l : t < T -> In (x,y,z) (cls_sites X Y Z0 t) -> forall ls, cls_links X Y Z0 T t (x,y,z) = Some ls ->
  In l ls -> In l (cls_list X Y Z0 T t (cls_sites X Y Z0 t)).
Proof.
  intros Ht I ls E J. unfold cls_list. apply in_flat_map. exists (x, y, z). split; [exact I|]. rewrite E. exact J.
Qed.
Lemma box4 c : in_box ds c -> exists x y z t, c = [Z.of_nat x; Z.of_nat y; Z.of_nat z; Z.of_nat t] /\
  x < X /\ y < Y /\ z < Z0 /\ t < T.
Proof.
  intros B. unfold cdims in B.
  inversion B as [|? a ? r Ha B1]; subst. inversion B1 as [|? b ? r1 Hb B2]; subst.
  inversion B2 as [|? g ? r2 Hg B3]; subst. inversion B3 as [|? h ? r3 Hh B4]; subst. inversion B4; subst.
  exists (Z.to_nat a), (Z.to_nat b), (Z.to_nat g), (Z.to_nat h). rewrite !Z2Nat.id by lia. split; [reflexivity|lia].
Qed.
Lemma all l : l < 4 * cLCU X Y Z0 * T -> exists t, t < T /\ In l (cls_list X Y Z0 T t (cls_sites X Y Z0 t)).
Proof.
  intros Hl. destruct Hev as (Ex & Ey & Ez & Et).
  pose (i := Z.of_nat (l / 4)). pose (mu := l mod 4).
  assert (Dm := Nat.div_mod l 4 ltac:(lia)). assert (Bm := Nat.mod_upper_bound l 4 ltac:(lia)). fold mu in Dm, Bm.
  assert (Hi : (0 <= i < lvolume ds)%Z). { rewrite vol. unfold i. nia. }
  destruct (coords_of_site ds i Hok Hi) as (c & _ & B & Ic & Gc).
  destruct (box4 c B) as (x & y & z & t & -> & Hx & Hy & Hz & Ht).
  destruct (Nat.odd (x + y + z + t)) eqn:Par.
  - exists t. split; [assumption|].
    destruct (links_ok t x y z Hx Hy Hz Ht) as (i' & b3 & b0 & b1 & b2 & G' & _ & _ & _ & _ & El).
    rewrite Gc in G'. injection G' as <-.
    refine (in_L t x y z l Ht _ _ El _); [apply in_sites; repeat split; assumption|].
    replace (l / 4) with (Z.to_nat i) in Dm by (unfold i; lia). rewrite Dm. clearbody mu i.
    destruct mu as [|[|[|[|?]]]]; [..|lia]; cbn [In]; auto 10.
  - destruct (neighbor_step ds i mu _ Hok Bm B Ic) as (j & y' & Ej & Hj & By & Iy & (Ly & Sy)).
    destruct (box4 y' By) as (x1 & y1 & z1 & t1 & -> & Hx1 & Hy1 & Hz1 & Ht1).
    exists t1. split; [assumption|].
    destruct (links_ok t1 x1 y1 z1 Hx1 Hy1 Hz1 Ht1) as (j' & b3 & b0 & b1 & b2 & G' & K3 & K0 & K1 & K2 & El).
    assert (j' = j). { destruct (site_of_coords ds _ Hok By) as (j2 & G2 & I2 & _). rewrite G' in G2. injection G2 as ->. congruence. }
    subst j'.
    destruct (back_neighbor ds i mu Hok Bm Hi) as (Bk & _). rewrite Ej in Bk. cbn [bindo] in Bk.
    refine (in_L t1 x1 y1 z1 l Ht1 _ _ El _); [apply in_sites; repeat split; try assumption|].
    + assert (S0 := Sy 0). assert (S1 := Sy 1). assert (S2 := Sy 2). assert (S3 := Sy 3).
      cbn [nth_error] in S0, S1, S2, S3. unfold cdims in S0, S1, S2, S3. cbn [nth_error] in S0, S1, S2, S3.
      assert (OddZ : forall k, Nat.odd k = Z.odd (Z.of_nat k)).
      { intros k. rewrite <- Z.negb_even, <- Nat.negb_even. f_equal.
        destruct (Nat.even k) eqn:K; [apply Nat.even_spec in K; destruct K as (q & ->)|
          assert (K' : Nat.odd k = true) by (rewrite <- Nat.negb_even, K; reflexivity); apply Nat.odd_spec in K'; destruct K' as (q & ->)];
        symmetry; [rewrite Nat2Z.inj_mul; apply Z.even_spec; eexists; reflexivity|].
        rewrite Nat2Z.inj_add, Nat2Z.inj_mul. change (Z.of_nat 2) with 2%Z. change (Z.of_nat 1) with 1%Z.
        rewrite Z.add_comm, Z.even_add_mul_2. reflexivity. }
      rewrite OddZ in *. rewrite !Nat2Z.inj_add, !Z.odd_add in *.
      assert (P0 := mod_step_par (Z.of_nat x) X (conj (Nat2Z.is_nonneg x) (proj1 (Nat2Z.inj_lt x X) Hx)) Ex). assert (P1 := mod_step_par (Z.of_nat y) Y (conj (Nat2Z.is_nonneg y) (proj1 (Nat2Z.inj_lt y Y) Hy)) Ey).
      assert (P2 := mod_step_par (Z.of_nat z) Z0 (conj (Nat2Z.is_nonneg z) (proj1 (Nat2Z.inj_lt z Z0) Hz)) Ez). assert (P3 := mod_step_par (Z.of_nat t) T (conj (Nat2Z.is_nonneg t) (proj1 (Nat2Z.inj_lt t T) Ht)) Et).
      clear - S0 S1 S2 S3 P0 P1 P2 P3 Par Bm; clearbody mu.
      destruct mu as [|[|[|[|?]]]]; [..|exfalso; clear - Bm; lia]; cbn [Nat.eqb] in S0, S1, S2, S3;
        injection S0 as S0; injection S1 as S1; injection S2 as S2; injection S3 as S3;
        rewrite S0, S1, S2, S3, ?P0, ?P1, ?P2, ?P3;
        destruct (Z.odd (Z.of_nat x)), (Z.odd (Z.of_nat y)), (Z.odd (Z.of_nat z)), (Z.odd (Z.of_nat t)); cbn in Par |- *; congruence.
    + replace (l / 4) with (Z.to_nat i) in Dm by (unfold i; lia). rewrite Dm. clearbody mu i.
      destruct mu as [|[|[|[|?]]]]; [..|lia]; rewrite Bk in *.
      * injection K0 as <-. cbn [In]; auto 10.
      * injection K1 as <-. cbn [In]; auto 10.
      * injection K2 as <-. cbn [In]; auto 10.
      * injection K3 as <-. cbn [In]; auto 10.
Qed.
End Cover.
