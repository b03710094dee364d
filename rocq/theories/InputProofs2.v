From Coq Require Import Ascii String.
From Verif Require Import CInt Lib TextModel TextProofs InputModel InputProofs.
Import ListNotations.
Open Scope Z_scope.

(** * the result depends on nothing but the first value of each tag *)
Section Ext.
Context {D : Type} (strtod : list Z -> option D) (pow10m : D -> D) (tbl tbl' : list entry).
Hypothesis H : forall tag, look tbl tag = look tbl' tag.
Lemma ext_value tag : VALUE tbl (tag_search tbl tag) = VALUE tbl' (tag_search tbl' tag). Proof. apply H. Qed.
Lemma ext_setint old tag : setint tbl old tag = setint tbl' old tag.
Proof. unfold setint. now rewrite ext_value. Qed.
Lemma ext_getint tag : getint tbl tag = getint tbl' tag.
Proof. unfold getint. now rewrite ext_setint. Qed.
Lemma ext_setdbl tag : setdbl strtod tbl tag = setdbl strtod tbl' tag.
Proof. unfold setdbl. now rewrite ext_value. Qed.
Lemma ext_alphas : forall l mu, alphas strtod tbl mu l = alphas strtod tbl' mu l.
Proof. induction l as [|l IH]; intros mu; [reflexivity|]. cbn [alphas]. now rewrite ext_setdbl, IH. Qed.
Lemma ext_dims : forall l mu, dims_loop tbl mu l = dims_loop tbl' mu l.
Proof. induction l as [|l IH]; intros mu; [reflexivity|]. cbn [dims_loop]. now rewrite ext_setint, IH. Qed.
Lemma ext_header ND : header_type ND tbl = header_type ND tbl'.
Proof.
  assert (E : confno tbl = confno tbl') by (unfold confno; now rewrite ext_setint).
  assert (F : forall f, read_random_lattice_info ND tbl f = read_random_lattice_info ND tbl' f) by (intros; unfold read_random_lattice_info; now rewrite ext_dims, ext_setint).
  unfold header_type. now rewrite ext_value, E, F.
Qed.
Lemma ext_all NC ND : get_input_table strtod pow10m NC ND tbl = get_input_table strtod pow10m NC ND tbl'.
Proof.
  assert (E1 : get_mode tbl = get_mode tbl') by (unfold get_mode; now rewrite !ext_value).
  assert (E2 : rtrans tbl = rtrans tbl') by (unfold rtrans; now rewrite !ext_value).
  assert (E3 : config_information tbl = config_information tbl') by (unfold config_information; now rewrite !ext_value).
  assert (E4 : read_cuts_struct strtod tbl = read_cuts_struct strtod tbl') by (unfold read_cuts_struct; now rewrite !ext_value, !ext_getint, !ext_setdbl).
  assert (E5 : read_gf_struct strtod pow10m tbl = read_gf_struct strtod pow10m tbl') by (unfold read_gf_struct; now rewrite !ext_value, !ext_getint, !ext_setdbl).
  assert (E6 : read_hb_struct strtod tbl = read_hb_struct strtod tbl') by (unfold read_hb_struct; now rewrite !ext_getint, !ext_setdbl).
  assert (E7 : smearing_info strtod ND tbl = smearing_info strtod ND tbl') by (unfold smearing_info; now rewrite !ext_value, !ext_getint, !ext_alphas).
  assert (E8 : read_suNC_x_U1 strtod tbl = read_suNC_x_U1 strtod tbl') by (unfold read_suNC_x_U1; now rewrite !ext_value, !ext_setdbl).
  assert (E9 : forall m, out_details NC tbl m = out_details NC tbl' m) by (intros; unfold out_details; now rewrite !ext_value).
  unfold get_input_table. rewrite E1, E2, E3, E4, E5, E6, E7, E8, ext_header.
  destruct (get_mode tbl') as [[[m s]|]|]; [|reflexivity|reflexivity]. now rewrite E9.
Qed.
End Ext.

Lemma look_nil tag L : look (([], []) :: L) tag = if streq [] tag then Some [] else look L tag.
Proof. apply look_cons. Qed.
Lemma look_cstr L tag : look L tag = look L (cstr tag).
Proof.
  assert (E : forall w, cstr (cstr w) = cstr w).
  { induction w as [|c w IH]; [reflexivity|]. cbn. destruct (Z.eqb_spec c 0); [reflexivity|]. cbn. destruct (Z.eqb_spec c 0); [contradiction|]. now rewrite IH. }
  induction L as [|e L IH]; [reflexivity|]. rewrite !look_cons. rewrite IH. unfold streq. now rewrite E.
Qed.
Lemma cstr_clean w : clean (cstr w).
Proof. induction w as [|c w IH]; [constructor|]. cbn. destruct (Z.eqb_spec c 0); constructor; assumption. Qed.
Lemma same_first {D} (strtod : list Z -> option D) pow10m NC ND L1 L2 s1 s2 : layout L1 s1 -> layout L2 s2 -> small L1 -> small L2 ->
  (forall tag, first_value tag L1 = first_value tag L2) -> get_input_data strtod pow10m NC ND 0 s1 = get_input_data strtod pow10m NC ND 0 s2.
Proof.
  intros H1 H2 S1 S2 H. unfold get_input_data. rewrite (pack_ok L1 s1), (pack_ok L2 s2) by assumption. apply ext_all.
  intros tag. rewrite !look_nil. destruct (streq [] tag); [reflexivity|]. rewrite (look_cstr L1), (look_cstr L2).
  rewrite !look_lines by (try apply cstr_clean; eapply layout_plain; eassumption). apply H.
Qed.

(** * what a successful read contains *)
Definition is_int (L : list (list Z * list Z)) (tag : list Z) (n : Z) : Prop :=
  exists v x, first_value tag L = Some v /\ numeral v x /\ - two63 <= x < two63 /\ n = x mod two64.
Definition is_dbl {D} (strtod : list Z -> option D) (L : list (list Z * list Z)) (tag : list Z) (d : D) : Prop :=
  exists v, first_value tag L = Some v /\ strtod v = Some d.
Definition is_name {A} (L : list (list Z * list Z)) (tag : list Z) (names : list (list Z * A)) (default a : A) : Prop :=
  exists v, first_value tag L = Some v /\ (In (v, a) names \/ (~ In v (map fst names) /\ a = default)).
Definition present (L : list (list Z * list Z)) (tag : list Z) : Prop := exists v, first_value tag L = Some v.

Section Good.
Context {D : Type} (strtod : list Z -> option D) (pow10m : D -> D) (L : list (list Z * list Z)) (text : list Z).
Hypothesis HL : layout L text.
Let tbl := ([], []) :: L.
Definition good (tag : list Z) : bool := match tag with [] => false | _ => forallb (fun c => negb (c =? 0)) tag end.
Lemma good_clean tag : good tag = true -> clean tag /\ tag <> [].
Proof.
  destruct tag as [|c tag]; [discriminate|]. cbn [good]. intros H. split; [|discriminate]. apply Forall_forall. rewrite forallb_forall in H.
  intros x Hx. specialize (H x Hx). destruct (Z.eqb_spec x 0); [discriminate|assumption].
Qed.
Lemma v_look tag : good tag = true -> VALUE tbl (tag_search tbl tag) = first_value tag L.
Proof. intros H. destruct (good_clean tag H) as [H1 H2]. exact (look_table tag L text H1 H2 HL). Qed.
Lemma v_plain tag v : first_value tag L = Some v -> plain v.
Proof. apply first_value_plain. eapply layout_plain; exact HL. Qed.
Lemma v_int tag n : good tag = true -> (getint tbl tag = Some n <-> is_int L tag n).
Proof.
  intros H. rewrite getint_look. unfold look. rewrite (v_look tag H). unfold is_int. destruct (first_value tag L) as [v|] eqn:E.
  - rewrite (strtol_numeral v n (v_plain tag v E)). split.
    + intros (x & H1 & H2 & ->). exists v, x. unfold u64. auto.
    + intros (v' & x & E' & H1 & H2 & ->). injection E' as <-. exists x. unfold u64. auto.
  - split; [discriminate|]. intros (v & x & E' & _). discriminate.
Qed.
Lemma v_setint old tag n : good tag = true -> (setint tbl old tag = (true, n) <-> is_int L tag n).
Proof.
  intros H. rewrite <- (v_int tag n H). unfold getint, setint. destruct (VALUE tbl (tag_search tbl tag)) as [s|].
  - destruct (strtol s) as [[f i] v]. destruct (f && i); split; intros E; try discriminate; injection E as <-; reflexivity.
  - split; discriminate.
Qed.
Lemma v_dbl tag d : good tag = true -> (setdbl strtod tbl tag = Some d <-> is_dbl strtod L tag d).
Proof.
  intros H. unfold setdbl. rewrite (v_look tag H). unfold is_dbl. destruct (first_value tag L) as [v|] eqn:E.
  - rewrite (cstr_id v (plain_clean v (v_plain tag v E))). split; [intros; exists v; auto|]. intros (v' & E' & Hd). injection E' as <-. exact Hd.
  - split; [discriminate|]. intros (v & E' & _). discriminate.
Qed.
Lemma choose_spec {A} v (names : list (list Z * A)) d : clean v -> Forall clean (map fst names) ->
  In (v, choose v names d) names \/ (~ In v (map fst names) /\ choose v names d = d).
Proof.
  intros Hv. induction names as [|[n a] names IH]; intros Hn; [right; auto|]. cbn [map fst] in Hn. inversion Hn as [|? ? Hc Hn']; subst.
  cbn [choose]. destruct (streq v n) eqn:E.
  - apply streq_eq in E; [|assumption|assumption]. subst. left. left. reflexivity.
  - destruct (IH Hn') as [H|[H1 H2]].
    + left. right. exact H.
    + right. split; [|exact H2]. cbn [map fst In]. intros [->|Hi]; [|contradiction]. rewrite streq_refl in E. discriminate.
Qed.
Lemma v_name {A} tag v (names : list (list Z * A)) d : first_value tag L = Some v -> forallb good (map fst names) = true -> is_name L tag names d (choose v names d).
Proof.
  intros E Hg. exists v. split; [exact E|]. apply choose_spec; [apply plain_clean; exact (v_plain tag v E)|].
  apply Forall_forall. intros x Hx. rewrite forallb_forall in Hg. now apply good_clean, Hg.
Qed.
Definition dim_tag (mu : nat) : list Z := (str "DIM_" ++ dec (Z.of_nat mu))%list.
Definition alpha_tag (k : nat) : list Z := (str "ALPHA" ++ dec (Z.of_nat k))%list.
Lemma dec_clean n : 0 <= n -> forallb (fun c => negb (c =? 0)) (dec n) = true.
Proof.
  intros Hn. unfold dec. apply forallb_forall. intros c Hc.
  pose proof (digits_dig 10 ltac:(lia) (S (Z.to_nat (Z.log2 n))) n Hn) as Hd. rewrite Forall_forall in Hd. specialize (Hd c Hc).
  apply decimal_isdig in Hd. unfold decimal in Hd. destruct (Z.eqb_spec c 0); [lia|reflexivity].
Qed.
Lemma dim_good mu : good (dim_tag mu) = true.
Proof. unfold dim_tag. cbn [str String.list_ascii_of_string map app good]. cbn [forallb]. rewrite dec_clean by lia. reflexivity. Qed.
Lemma alpha_good mu : good (alpha_tag mu) = true.
Proof. unfold alpha_tag. cbn [str String.list_ascii_of_string map app good]. cbn [forallb]. rewrite dec_clean by lia. reflexivity. Qed.

Lemma v_alphas : forall l mu al, alphas strtod tbl mu l = Some al -> length al = l /\ forall k d, nth_error al k = Some d -> is_dbl strtod L (alpha_tag (mu + 1 + k)) d.
Proof.
  induction l as [|l IH]; intros mu al; cbn [alphas].
  - intros E. injection E as <-. split; [reflexivity|]. intros [|k] d; discriminate.
  - destruct (setdbl strtod tbl (str "ALPHA" ++ dec (Z.of_nat (mu + 1)))%list) as [a|] eqn:E1; [|discriminate]. cbn [bindo].
    destruct (alphas strtod tbl (S mu) l) as [r|] eqn:E2; [|discriminate]. cbn [bindo]. intros E. injection E as <-.
    destruct (IH _ _ E2) as [Hl Hr]. split; [cbn; congruence|]. intros [|k] d Hk.
    + cbn in Hk. injection Hk as <-. rewrite Nat.add_0_r. apply (v_dbl (alpha_tag (mu + 1))); [apply alpha_good|exact E1].
    + cbn in Hk. apply Hr in Hk. replace (mu + 1 + S k)%nat with (S mu + 1 + k)%nat by lia. exact Hk.
Qed.
Lemma v_dims : forall l mu ds, dims_loop tbl mu l = (true, ds) -> length ds = l /\ forall k o, nth_error ds k = Some o -> exists n, o = Some n /\ is_int L (dim_tag (mu + k)) n.
Proof.
  induction l as [|l IH]; intros mu ds; cbn [dims_loop].
  - intros E. injection E as <-. split; [reflexivity|]. intros [|k] o; discriminate.
  - destruct (setint tbl 8 (str "DIM_" ++ dec (Z.of_nat mu))%list) as [ok v] eqn:E1. destruct ok; [|discriminate].
    destruct (dims_loop tbl (S mu) l) as [b r] eqn:E2. intros E. injection E as -> <-.
    destruct (IH _ _ E2) as [Hl Hr]. split; [cbn; congruence|]. intros [|k] o Hk.
    + cbn in Hk. injection Hk as <-. exists v. split; [reflexivity|]. rewrite Nat.add_0_r. apply (v_setint 8 (dim_tag mu)); [apply dim_good|exact E1].
    + cbn in Hk. apply Hr in Hk. replace (mu + S k)%nat with (S mu + k)%nat by lia. exact Hk.
Qed.
End Good.
