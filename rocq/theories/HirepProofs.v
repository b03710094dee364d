From Coq Require Import Permutation.
From Verif Require Import CInt Lib GeomModel GeomSpec GeomProofs GeomProofs2 ByteModel ByteProofs CernModel CernProofs HirepModel.
Local Open Scope nat_scope.

Definition word_link (NC : nat) (l : list Z) : Prop := length l = 2 * (NC * NC) /\ Forall (fun w => 0 <= w < two64)%Z l.

Section H.
Variables (NC : nat) (big : bool) (dims : list Z).
Hypothesis HNC : NC <> 2.
Hypothesis Hok : lattice_ok dims.
Notation ND := (length dims).
Notation links i := (hirep_links dims i).
Notation V := (Z.to_nat (lvolume dims)).

Lemma mat_stride_eq : mat_stride NC = NC * NC.
Proof. unfold mat_stride. destruct (Nat.eqb_spec NC 2); [contradiction|reflexivity]. Qed.
Lemma ND_pos : 0 < ND.
Proof. destruct Hok as (H & _). destruct dims; [contradiction|cbn; lia]. Qed.
Lemma vol_pos : (0 < lvolume dims)%Z.
Proof. rewrite lvolume_prod by assumption. destruct Hok as (_ & F & _). clear - F.
  unfold prodZ. induction F as [|a l H F IH]; [cbn; lia|]. cbn [fold_right]. nia. Qed.

Lemma in_dirs mu : In mu (hirep_dirs dims) <-> mu < ND.
Proof.
  assert (P := ND_pos). unfold hirep_dirs, hND. cbn [In]. rewrite in_seq. lia.
Qed.
Lemma dirs_len : length (hirep_dirs dims) = ND.
Proof. assert (P := ND_pos). unfold hirep_dirs, hND. cbn [length]. rewrite seq_length. lia. Qed.
Lemma dirs_nodup : NoDup (hirep_dirs dims).
Proof.
  unfold hirep_dirs. constructor; [intros I; apply in_seq in I; lia|apply seq_NoDup].
Qed.
Lemma links_some i : (0 <= i < lvolume dims)%Z -> exists s, (0 <= s < lvolume dims)%Z /\ hirep_site dims i = Some s /\
  links i = Some (map (fun mu => ND * Z.to_nat s + mu) (hirep_dirs dims)).
Proof.
  intros Hi. destruct (hirep_permutation dims Hok) as (A & _). destruct (A i Hi) as (s & E & Hs).
  exists s. split; [assumption|]. split; [assumption|]. unfold hirep_links. rewrite E. reflexivity.
Qed.
Lemma js_nodup s : NoDup (map (fun mu => ND * s + mu) (hirep_dirs dims)).
Proof.
  apply FinFun.Injective_map_NoDup; [intros a b; lia|exact dirs_nodup].
Qed.

Lemma enc_ok ls : Forall (word_link NC) ls -> enc_links NC ls = Some (concat ls).
Proof.
  induction 1 as [|l ls (L & _) F IH]; [reflexivity|]. cbn [enc_links]. unfold first_entries.
  rewrite mat_stride_eq, L, (proj2 (Nat.ltb_ge _ _)) by lia. cbn [bindo]. rewrite IH. cbn [bindo concat].
  rewrite firstn_all2 by lia. reflexivity.
Qed.
Lemma concat_len ls : Forall (word_link NC) ls -> length (concat ls) = 2 * (NC * NC) * length ls.
Proof. induction 1 as [|l ls (L & _) F IH]; [cbn; lia|]. cbn [concat length]. rewrite app_length, L, IH. lia. Qed.
Lemma concat_words ls : Forall (word_link NC) ls -> Forall (fun w => 0 <= w < two64)%Z (concat ls).
Proof. induction 1 as [|l ls (_ & W) F IH]; [constructor|]. cbn [concat]. apply Forall_app. auto. Qed.
Lemma dec_ok ls : Forall (word_link NC) ls -> dec_links NC (length ls) (concat ls) = Some ls.
Proof.
  induction 1 as [|l ls (L & _) F IH]; [reflexivity|]. cbn [length dec_links concat]. unfold dec_link.
  destruct (Nat.eqb_spec NC 2); [contradiction|]. unfold dec_gen. rewrite app_length, L.
  rewrite (proj2 (Nat.ltb_ge _ _)) by lia. cbn [bindo]. rewrite firstn_app, mat_stride_eq, L, Nat.sub_diag.
  rewrite (firstn_all2 l) by lia. rewrite firstn_O, app_nil_r.
  rewrite skipn_app, L, Nat.sub_diag, skipn_all2 by lia. cbn [app skipn]. rewrite IH. reflexivity.
Qed.

Lemma swap_back u : length u = hstride NC dims -> Forall (fun w => 0 <= w < two64)%Z u ->
  exists u', swap_on (negb big) (hstride NC dims) u = Some u' /\ length u' = hstride NC dims /\
             swap_on (negb big) (hstride NC dims) u' = Some u.
Proof.
  intros L F. unfold swap_on. destruct (negb big); [|exists u; auto].
  assert (T := bswap_twice SwapByteOrder_64 two64 (hstride NC dims) (seq 0 (hstride NC dims)) (seq 0 (hstride NC dims)) u).
  assert (M := bswap_map SwapByteOrder_64 (hstride NC dims) (seq 0 (hstride NC dims)) u (Permutation_refl _) ltac:(lia)).
  unfold bswap_64 in *. rewrite M. eexists. split; [reflexivity|]. split.
  - rewrite app_length, map_length, firstn_length, skipn_length. lia.
  - rewrite M in T. cbn [bindo] in T. apply T; try apply Permutation_refl; try lia; try assumption. apply swap64_invol.
Qed.

Lemma site_rt lat i : length lat = ND * V -> Forall (word_link NC) lat -> (0 <= i < lvolume dims)%Z ->
  exists js ls u u', links i = Some js /\ load_all js lat = Some ls /\ hirep_write_site NC big true dims lat i = Some u /\
   length u = hstride NC dims /\ swap_on (negb big) (hstride NC dims) u = Some u' /\ dec_links NC ND u' = Some ls.
Proof.
  intros Ll F Hi. destruct (links_some i Hi) as (s & Hs & _ & El).
  set (js := map (fun mu => ND * Z.to_nat s + mu) (hirep_dirs dims)) in *.
  assert (B : forall j, In j js -> j < length lat).
  { intros j I. apply in_map_iff in I. destruct I as (mu & <- & I). apply in_dirs in I. rewrite Ll.
    assert (Z.to_nat s < V) by lia. nia. }
  destruct (load_all_ex js lat B) as (ls & E).
  destruct (load_all_nth _ _ _ E) as (Lls & Nls). unfold js in Lls at 1. rewrite map_length, dirs_len in Lls.
  assert (Fl : Forall (word_link NC) ls).
  { assert (G := proj1 (load_all_spec _ _ _) E). clear - G F. induction G as [|j v js ls H G IH]; constructor; [|assumption].
    rewrite Forall_forall in F. apply F. eapply nth_error_In; exact H. }
  assert (Lc : length (concat ls) = hstride NC dims).
  { rewrite (concat_len _ Fl), Lls. unfold hstride. rewrite mat_stride_eq. reflexivity. }
  destruct (swap_back (concat ls) Lc (concat_words _ Fl)) as (u & E1 & Lu & E2).
  exists js, ls, u, (concat ls). split; [exact El|]. split; [exact E|]. split.
  - unfold hirep_write_site. rewrite El. cbn [bindo]. rewrite E. cbn [bindo]. rewrite (enc_ok _ Fl). exact E1.
  - split; [exact Lu|]. split; [exact E2|]. rewrite <- Lls. apply dec_ok. exact Fl.
Qed.

Lemma sites_rt lat : length lat = ND * V -> Forall (word_link NC) lat -> forall sites,
  (forall i, In i sites -> (0 <= i < lvolume dims)%Z) ->
  exists file, hirep_write NC big true dims lat sites = Some file /\ length file = hstride NC dims * length sites /\
   forall lat0, length lat0 = length lat -> exists lat1, hirep_read_sites NC big dims sites file lat0 = Some lat1 /\
     length lat1 = length lat /\
     (forall j, nth_error lat0 j = nth_error lat j \/ (exists i js, In i sites /\ links i = Some js /\ In j js) ->
        nth_error lat1 j = nth_error lat j).
Proof.
  intros Ll F. induction sites as [|i r IH]; intros B.
  - exists []. split; [reflexivity|]. split; [cbn; lia|]. intros lat0 L0. exists lat0. split; [reflexivity|]. split; [assumption|].
    intros j [H|(i & js & [] & _)]. exact H.
  - destruct (site_rt lat i Ll F (B i (or_introl eq_refl))) as (js & ls & u & u' & El & Ed & Ew & Lu & Es & Dc).
    destruct IH as (f & Ef & Lf & IH); [intros; apply B; right; assumption|].
    exists (u ++ f). cbn [hirep_write]. rewrite Ew. cbn [bindo]. rewrite Ef. cbn [bindo]. split; [reflexivity|].
    split; [rewrite app_length; cbn [length]; lia|].
    intros lat0 L0. destruct (links_some i (B i (or_introl eq_refl))) as (s & Hs & _ & El'). rewrite El in El'. injection El' as ->.
    set (js := map (fun mu => ND * Z.to_nat s + mu) (hirep_dirs dims)) in *.
    destruct (load_all_nth _ _ _ Ed) as (Lls & Nls).
    destruct (store_all_spec js ls lat0 (js_nodup _) (eq_sym Lls)) as (lat1 & E1 & L1 & H1 & O1).
    { intros j I. apply in_map_iff in I. destruct I as (mu & <- & I). apply in_dirs in I. rewrite L0, Ll.
      assert (Z.to_nat s < V) by lia. nia. }
    destruct (IH lat1 ltac:(lia)) as (lat2 & E2 & L2 & H2).
    exists lat2. cbn [hirep_read_sites]. rewrite El. cbn [bindo].
    rewrite firstn_app, Lu, Nat.sub_diag, (firstn_all2 u) by lia. rewrite firstn_O, app_nil_r.
    cbv zeta. rewrite Lu, (proj2 (Nat.ltb_ge _ _)) by lia. rewrite Es. cbn [bindo]. unfold hND at 1. rewrite Dc. cbn [bindo].
    match goal with |- context [store_all ?a ls lat0] => change a with js end. rewrite E1. cbn [bindo]. rewrite skipn_app, Lu, Nat.sub_diag, skipn_all2 by lia. cbn [app skipn].
    split; [exact E2|]. split; [exact L2|].
    assert (Hj : forall j, In j js -> nth_error lat1 j = nth_error lat j).
    { intros j I. apply In_nth_error in I. destruct I as (k & Hk). rewrite (H1 _ _ Hk). apply Nls. exact Hk. }
    intros j [H|(i' & js' & [<-|I'] & E' & J)].
    + apply H2. left. destruct (in_dec Nat.eq_dec j js) as [I|I]; [apply Hj; exact I|rewrite O1 by exact I; exact H].
    + rewrite El in E'. injection E' as <-. apply H2. left. apply Hj; exact J.
    + apply H2. right. exists i', js'. auto.
Qed.

Theorem hirep_rt reunit lat lat0 : length lat = ND * V -> Forall (word_link NC) lat -> length lat0 = length lat ->
  exists file, hirep_write NC big true dims lat (vol_range dims) = Some file /\
    length file = 2 * (NC * NC) * ND * V /\
    hirep_read NC big dims reunit file lat0 = Some (map reunit lat).
Proof.
  intros Ll F L0. assert (VP := vol_pos).
  assert (R : forall i, In i (vol_range dims) <-> (0 <= i < lvolume dims)%Z).
  { intros i. unfold vol_range. rewrite in_map_iff. split.
    - intros (k & <- & I). apply in_seq in I. lia.
    - intros H. exists (Z.to_nat i). split; [lia|apply in_seq; lia]. }
  destruct (sites_rt lat Ll F (vol_range dims) (fun i => proj1 (R i))) as (file & E & Lf & H).
  exists file. split; [exact E|]. split.
  { rewrite Lf. unfold hstride, vol_range. rewrite mat_stride_eq, map_length, seq_length. reflexivity. }
  destruct (H lat0 L0) as (lat1 & E1 & L1 & H1). unfold hirep_read. rewrite E1. cbn [bindo]. do 2 f_equal.
  apply list_ext. intros j. destruct (Nat.lt_ge_cases j (length lat)) as [Hj|Hj].
  - apply H1. right.
    assert (Ds := Nat.div_mod j ND ltac:(assert (P := ND_pos); lia)). assert (Ms := Nat.mod_upper_bound j ND ltac:(assert (P := ND_pos); lia)).
    set (s := j / ND) in *. set (mu := j mod ND) in *.
    assert (Hs : (0 <= Z.of_nat s < lvolume dims)%Z). { clearbody s mu. assert (s < V) by nia. lia. }
    destruct (hirep_permutation dims Hok) as (_ & _ & S). destruct (S _ Hs) as (i & Hi & Ei).
    exists i. destruct (links_some i Hi) as (s' & _ & Es & El). rewrite Ei in Es. injection Es as <-.
    rewrite Nat2Z.id in El. eexists. split; [apply R; exact Hi|]. split; [exact El|].
    apply in_map_iff. exists mu. split; [symmetry; exact Ds|apply in_dirs; exact Ms].
  - rewrite !(proj2 (nth_error_None _ _)) by lia. reflexivity.
Qed.
End H.

Lemma u32_id z : (0 <= z < two32)%Z -> u32 z = z.
Proof. intros H. apply Z.mod_small. exact H. Qed.
Lemma words_back L : Forall (fun d => 0 <= d < two31)%Z L -> map u64 (map i32 (map u32 L)) = L.
Proof.
  induction 1 as [|d L H F IH]; [reflexivity|]. cbn [map]. rewrite IH. f_equal.
  rewrite u32_id by (unfold two31, two32 in *; lia). rewrite i32_id by (unfold two31 in *; lia).
  apply u64_id. unfold two31, two64 in *; lia.
Qed.
Theorem hirep_nav_rt NC big dims rest : lattice_ok dims -> (Z.of_nat NC < two31)%Z ->
  exists nav, hirep_nav NC big true dims = Some nav /\ hirep_read_nav NC big dims (nav ++ rest) = Some dims.
Proof.
  intros (Hne & F & _) HN. set (N := Z.of_nat NC :: last dims 0%Z :: removelast dims).
  assert (LN : length N = hND dims + 1).
  { unfold N, hND. rewrite (app_removelast_last 0%Z Hne) at 3. rewrite app_length. cbn. lia. }
  assert (FN : Forall (fun d => 0 <= d < two31)%Z N).
  { rewrite (app_removelast_last 0%Z Hne) in F. apply Forall_app in F. destruct F as (F1 & F2). inversion F2; subst.
    unfold N. constructor; [lia|]. constructor; [lia|]. eapply Forall_impl; [|exact F1]. cbv beta. lia. }
  assert (FU : Forall (fun w => 0 <= w < two32)%Z (map u32 N)).
  { apply Forall_map. eapply Forall_impl; [|exact FN]. intros a _. apply Z.mod_pos_bound. reflexivity. }
  assert (Fin : match map i32 (map u32 N) with
    | n :: t :: r => if (n =? Z.of_nat NC)%Z then Some (map u64 (r ++ [t])) else None | _ => None end = Some dims).
  { assert (W := words_back N FN). unfold N in *. cbn [map] in W |- *. injection W as W1 W2 W3.
    rewrite (u32_id (Z.of_nat NC)) by (unfold two31, two32 in *; lia). rewrite (i32_id (Z.of_nat NC)) by (unfold two31 in *; lia).
    rewrite Z.eqb_refl. rewrite map_app. cbn [map]. rewrite W2, W3. rewrite <- (app_removelast_last 0%Z Hne). reflexivity. }
  unfold hirep_nav, hirep_read_nav. fold N. cbv zeta.
  destruct (negb big).
  - assert (M := bswap_map SwapByteOrder_32 (hND dims + 1) (seq 0 (hND dims + 1)) (map u32 N) (Permutation_refl _)
       ltac:(rewrite map_length; lia)).
    assert (T := bswap_twice SwapByteOrder_32 two32 (hND dims + 1) (seq 0 (hND dims + 1)) (seq 0 (hND dims + 1)) (map u32 N)
       swap32_invol (Permutation_refl _) (Permutation_refl _) ltac:(rewrite map_length; lia) FU).
    unfold bswap_32. rewrite M in T |- *. cbn [bindo] in T. eexists. split; [reflexivity|].
    set (N' := map SwapByteOrder_32 (firstn (hND dims + 1) (map u32 N)) ++ skipn (hND dims + 1) (map u32 N)) in *.
    assert (L' : length N' = hND dims + 1).
    { unfold N'. rewrite app_length, map_length, firstn_length, skipn_length, map_length. lia. }
    clearbody N'. rewrite firstn_app, L', Nat.sub_diag, firstn_O, app_nil_r, (firstn_all2 N') by lia.
    rewrite L', (proj2 (Nat.ltb_ge _ _)) by lia. rewrite T. cbn [bindo]. exact Fin.
  - eexists. split; [reflexivity|].
    assert (L' : length (map u32 N) = hND dims + 1) by (rewrite map_length; exact LN).
    rewrite firstn_app, L', Nat.sub_diag, firstn_O, app_nil_r, (firstn_all2 (map u32 N)) by lia.
    rewrite L', (proj2 (Nat.ltb_ge _ _)) by lia. exact Fin.
Qed.
