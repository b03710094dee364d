(** C50: the settings of the input file (input_reader.c). Text is a list of character codes; [layout L text] says that the file is
    the list L of lines "tag = value" in some layout: words without white space, any white space between them (at least one blank after
    the tag). [first_value tag L] is the value of the first line with that tag. *)
From Coq Require Import Ascii String.
From Verif Require Import CInt Lib TextModel TextProofs InputModel InputProofs InputProofs2 InputProofs3.
Import ListNotations.
Local Open Scope string_scope.
Local Open Scope Z_scope.
Local Open Scope list_scope.

(** the file CONF/input_file of the repository *)
Definition sample : list Z :=
  str "MODE = GAUGE_FIXING" ++ nl ++
  str "HEADER = NERSC" ++ nl ++
  [9] ++ str "DIM_0 = 4" ++ nl ++
  [9] ++ str "DIM_1 = 4" ++ nl ++
  [9] ++ str "DIM_2 = 4" ++ nl ++
  [9] ++ str "DIM_3 = 8" ++ nl ++
  str "CONFNO = 400" ++ nl ++
  str "RANDOM_TRANSFORM = NO" ++ nl ++
  str "SEED = 0" ++ nl ++
  str "GFTYPE = COULOMB" ++ nl ++
  str "     " ++ [9] ++ str "GF_TUNE = 0.09" ++ nl ++
  [9] ++ str "ACCURACY = 14" ++ nl ++
  [9] ++ str "MAX_ITERS = 650" ++ nl ++
  str "CUTTYPE = GLUON_PROPS" ++ nl ++
  [9] ++ str "FIELD_DEFINITION = LINEAR" ++ nl ++
  [9] ++ str "MOM_CUT = CYLINDER_CUT" ++ nl ++
  [9] ++ str "MAX_T = 7" ++ nl ++
  [9] ++ str "MAXMOM = 4" ++ nl ++
  [9] ++ str "CYL_WIDTH = 2.0" ++ nl ++
  [9] ++ str "ANGLE = 60" ++ nl ++
  [9] ++ str "OUTPUT = ./" ++ nl ++
  str "SMEARTYPE = APE" ++ nl ++
  [9] ++ str "DIRECTION = ALL" ++ nl ++
  [9] ++ str "SMITERS = 100" ++ nl ++
  [9] ++ str "ALPHA1 = 0.6" ++ nl ++
  [9] ++ str "ALPHA2 = 0.4" ++ nl ++
  [9] ++ str "ALPHA3 = 0.2" ++ nl ++
  str "U1_MEAS = U1_RECTANGLE" ++ nl ++
  [9] ++ str "U1_ALPHA = 0.07957753876221914" ++ nl ++
  [9] ++ str "U1_CHARGE = -1.0" ++ nl ++
  str "CONFIG_INFO = 2+1DWF_b2.25_TEST" ++ nl ++
  [9] ++ str "STORAGE = NERSC_GAUGE" ++ nl ++
  str "BETA = 6.0" ++ nl ++
  str "        ITERS = 1500" ++ nl ++
  [9] ++ str "MEASURE = 1" ++ nl ++
  [9] ++ str "OVER_ITERS = 4" ++ nl ++
  [9] ++ str "SAVE = 25" ++ nl ++
  [9] ++ str "THERM = 100".
Definition sample_lines : list (list Z * list Z) := [
  (str "MODE", str "GAUGE_FIXING");
  (str "HEADER", str "NERSC");
  (str "DIM_0", str "4");
  (str "DIM_1", str "4");
  (str "DIM_2", str "4");
  (str "DIM_3", str "8");
  (str "CONFNO", str "400");
  (str "RANDOM_TRANSFORM", str "NO");
  (str "SEED", str "0");
  (str "GFTYPE", str "COULOMB");
  (str "GF_TUNE", str "0.09");
  (str "ACCURACY", str "14");
  (str "MAX_ITERS", str "650");
  (str "CUTTYPE", str "GLUON_PROPS");
  (str "FIELD_DEFINITION", str "LINEAR");
  (str "MOM_CUT", str "CYLINDER_CUT");
  (str "MAX_T", str "7");
  (str "MAXMOM", str "4");
  (str "CYL_WIDTH", str "2.0");
  (str "ANGLE", str "60");
  (str "OUTPUT", str "./");
  (str "SMEARTYPE", str "APE");
  (str "DIRECTION", str "ALL");
  (str "SMITERS", str "100");
  (str "ALPHA1", str "0.6");
  (str "ALPHA2", str "0.4");
  (str "ALPHA3", str "0.2");
  (str "U1_MEAS", str "U1_RECTANGLE");
  (str "U1_ALPHA", str "0.07957753876221914");
  (str "U1_CHARGE", str "-1.0");
  (str "CONFIG_INFO", str "2+1DWF_b2.25_TEST");
  (str "STORAGE", str "NERSC_GAUGE");
  (str "BETA", str "6.0");
  (str "ITERS", str "1500");
  (str "MEASURE", str "1");
  (str "OVER_ITERS", str "4");
  (str "SAVE", str "25");
  (str "THERM", str "100")].

(** Two files with the same first value for every tag give the same result: the layout, the order of lines with different tags, repeated
    lines and lines with other tags do not matter. *)
Theorem C50_layout_independent : forall D (strtod : list Z -> option D) pow10m NC ND L1 L2 text1 text2,
  layout L1 text1 -> layout L2 text2 -> small L1 -> small L2 -> (forall tag, first_value tag L1 = first_value tag L2) ->
  get_input_data strtod pow10m NC ND 0 text1 = get_input_data strtod pow10m NC ND 0 text2.
Proof. intros. eapply same_first; eassumption. Qed.
Print Assumptions C50_layout_independent.

(** A successful read holds, for every setting, the value on the first line with its tag: numbers are the decimal number at the start of
    the value, names are looked up in the documented lists. *)
Theorem C50_settings : forall D (strtod : list Z -> option D) pow10m NC ND L text r,
  layout L text -> small L -> get_input_data strtod pow10m NC ND 0 text = Success r -> agrees strtod pow10m NC ND L r.
Proof. intros D strtod pow10m NC ND L text r HL HS H. unfold get_input_data in H. rewrite (pack_ok L text HL HS) in H. exact (success_agrees strtod pow10m NC ND L text HL r H). Qed.
Print Assumptions C50_settings.

(** The read succeeds exactly when every tag it needs is there with a value of the right kind (and the three undefined situations do not
    occur); otherwise, outside those, it fails. *)
Theorem C50_success_iff : forall D (strtod : list Z -> option D) pow10m NC ND L text, layout L text -> small L ->
  ((exists r, get_input_data strtod pow10m NC ND 0 text = Success r) <-> complete_file strtod ND L /\ ~ undefined_file L) /\
  (get_input_data strtod pow10m NC ND 0 text = Undefined <-> undefined_file L).
Proof.
  intros D strtod pow10m NC ND L text HL HS. unfold get_input_data. rewrite (pack_ok L text HL HS). split; [split|].
  - intros [r Hr]. exact (success_complete strtod pow10m NC ND L text HL r Hr).
  - intros [H1 H2]. exact (complete_success strtod pow10m NC ND L text HL H1 H2).
  - exact (undefined_iff strtod pow10m NC ND L text HL).
Qed.
Print Assumptions C50_success_iff.

(** In particular a missing tag or a value that is not a number is never accepted. *)
Theorem C50_missing_fails : forall D (strtod : list Z -> option D) pow10m NC ND L text, layout L text -> small L -> 
  present L (str "RANDOM_TRANSFORM") -> present L (str "CONFIG_INFO") -> (forall v x, first_value (str "SEED") L = Some v -> numeral v x -> - two32 < x < two32) ->
  (exists tag, In tag (map str ["MODE"; "SEED"; "CUTTYPE"; "GFTYPE"; "SMEARTYPE"; "DIRECTION"; "U1_MEAS"; "HEADER"; "STORAGE"]) /\ first_value tag L = None) \/
  (exists tag, In tag (map str ["MAX_ITERS"; "THERM"; "ITERS"; "OVER_ITERS"; "SAVE"; "MEASURE"; "SMITERS"]) /\
     forall v, first_value tag L = Some v -> forall x, numeral v x -> ~ (- two63 <= x < two63)) \/
  (exists tag, In tag (map str ["ACCURACY"; "GF_TUNE"; "BETA"; "U1_ALPHA"; "U1_CHARGE"]) /\ forall v, first_value tag L = Some v -> strtod v = None) ->
  get_input_data strtod pow10m NC ND 0 text = Failure.
Proof.
  intros D strtod pow10m NC ND L text HL HS HR HC Hseed H. destruct (C50_success_iff D strtod pow10m NC ND L text HL HS) as [[S1 _] [U1 _]].
  destruct (get_input_data strtod pow10m NC ND 0 text) as [| |r] eqn:E; [|reflexivity|].
  - exfalso. destruct (U1 eq_refl) as [H1|[H1|[_ (v & x & Ev & Hx & Hr)]]]; [exact (H1 HR)|exact (H1 HC)|exact (Hr (Hseed v x Ev Hx))].
  - exfalso. destruct (S1 (ex_intro _ r eq_refl)) as [[P I F _ _ _ _] _]. destruct H as [(tag & Hin & Hn)|[(tag & Hin & Hn)|(tag & Hin & Hn)]].
    + destruct (P tag Hin) as [v Hv]. congruence.
    + destruct (I tag Hin) as (n & v & x & Hv & Hx & Hr & _). exact (Hn v Hv x Hx Hr).
    + destruct (F tag Hin) as (d & v & Hv & Hd). rewrite (Hn v Hv) in Hd. discriminate.
Qed.
Print Assumptions C50_missing_fails.

(** Every text without the character 0, in whatever layout: a setting that is found stands in the file after its tag and an equals sign
    (or is empty, when the scan stopped after the tag). *)
Theorem C50_located : forall text tbl tag v, Forall (fun c => c <> 0) text -> Forall (fun c => c <> 0) tag ->
  pack_inputs 0 text = Some tbl -> VALUE tbl (tag_search tbl tag) = Some v ->
  v = [] \/ exists a w1 w2 b, text = a ++ tag ++ w1 ++ [61] ++ w2 ++ v ++ b /\ Forall (fun c => space c = true) w1 /\ Forall (fun c => space c = true) w2.
Proof. exact located. Qed.
Print Assumptions C50_located.

(** the sample file: it is a layout of its 38 lines, and is read successfully (numbers with a point are left as text here) *)
Ltac bl := repeat constructor.
Lemma layout_app w0 t v rest L text : text = w0 ++ t ++ [32] ++ [61] ++ [32] ++ v ++ rest -> blank w0 -> plain t -> plain v -> apart rest -> layout L rest -> layout ((t, v) :: L) text.
Proof. intros -> H0 Ht Hv Hr HL. apply lay_line; auto; [repeat constructor|discriminate|repeat constructor]. Qed.
Definition strt (s : list Z) : option (list Z) := Some s.
Definition render (lead : list Z) (L : list (list Z * list Z)) : list Z := flat_map (fun e => lead ++ fst e ++ [32; 61; 32] ++ snd e ++ nl) L.
Lemma render_layout lead : blank lead -> forall L, Forall (fun e => plain (fst e) /\ plain (snd e)) L -> forall w, blank w -> layout L (w ++ render lead L).
Proof.
  intros Hl. induction 1 as [|[t v] L [Ht Hv] HL IH]; intros w Hw; [cbn; rewrite app_nil_r; now constructor|].
  apply (layout_app (w ++ lead) t v (nl ++ render lead L)).
  - cbn [render flat_map fst snd]. fold (render lead L). rewrite <- !app_assoc. reflexivity.
  - apply Forall_app. auto.
  - exact Ht.
  - exact Hv.
  - reflexivity.
  - apply IH. repeat constructor.
Qed.
Lemma render0 lead L : blank lead -> Forall (fun e => plain (fst e) /\ plain (snd e)) L -> layout L (render lead L).
Proof. intros Hl HL. exact (render_layout lead Hl L HL [] (Forall_nil _)). Qed.
Definition okw (w : list Z) : bool := match w with [] => false | _ => forallb (fun c => negb (space c) && negb (c =? 0)) w end.
Lemma okw_plain w : okw w = true -> plain w.
Proof.
  destruct w as [|c w]; [discriminate|]. cbn [okw]. intros H. split; [discriminate|]. apply Forall_forall. rewrite forallb_forall in H. intros x Hx.
  specialize (H x Hx). apply andb_true_iff in H. destruct H as [H1 H2]. split; [now apply negb_true_iff|]. intros ->. discriminate.
Qed.
Lemma lines_plain : Forall (fun e => plain (fst e) /\ plain (snd e)) sample_lines.
Proof.
  assert (H : forallb (fun e => okw (fst e) && okw (snd e)) sample_lines = true) by (vm_compute; reflexivity).
  apply Forall_forall. intros e He. rewrite forallb_forall in H. specialize (H e He). apply andb_true_iff in H. destruct H. split; now apply okw_plain.
Qed.
Lemma lines_small : small sample_lines.
Proof.
  split; [vm_compute; lia|]. assert (H : forallb (fun e => Nat.ltb (length (fst e)) 64 && Nat.ltb (length (snd e)) 64) sample_lines = true) by (vm_compute; reflexivity).
  apply Forall_forall. intros e He. rewrite forallb_forall in H. specialize (H e He). apply andb_true_iff in H. rewrite !Nat.ltb_lt in H. exact H.
Qed.
Example C50_layout_ex : layout sample_lines (render [9] sample_lines) /\ small sample_lines /\ pack_inputs 0 sample = Some (([], []) :: sample_lines).
Proof. split; [apply render0; [bl|exact lines_plain]|]. split; [exact lines_small|vm_compute; reflexivity]. Qed.
Example C50_sample : exists r, get_input_data strt (fun d => d) 3 4 0 sample = Success r /\
  i_mode r = MODE_GF /\ i_head r = NERSC_HEADER /\ i_flow r = 400 /\ i_storage r = OUTPUT_GAUGE /\ h_Nsave (i_hb r) = 25 /\ h_therm (i_hb r) = 0 /\
  s_alpha (i_sm r) = [str "0.6"; str "0.4"; str "0.2"] /\ i_details r = str "2+1DWF_b2.25_TEST".
Proof. eexists. split; [vm_compute; reflexivity|]. vm_compute. auto 12. Qed.

(** the same settings without one line, or with one value changed *)
Definition without (tag : list Z) : list (list Z * list Z) := filter (fun e => negb (eqs (fst e) tag)) sample_lines.
Definition with_value (tag v : list Z) : list (list Z * list Z) := map (fun e => if eqs (fst e) tag then (tag, v) else e) sample_lines.

(** What does not hold. RANDOM_TRANSFORM or CONFIG_INFO missing: the entry before the array is read. *)
Lemma filter_small f S : small S -> small (filter f S).
Proof.
  intros [H1 H2]. assert (Hl : (length (filter f S) <= length S)%nat) by (clear; induction S as [|x l IH]; cbn; [lia|destruct (f x); cbn; lia]). split; [lia|].
  apply Forall_forall. intros e He. apply filter_In in He. destruct He as [He _]. rewrite Forall_forall in H2. exact (H2 e He).
Qed.
Lemma filter_plain f S : Forall (fun e : list Z * list Z => plain (fst e) /\ plain (snd e)) S -> Forall (fun e => plain (fst e) /\ plain (snd e)) (filter f S).
Proof. intros H. apply Forall_forall. intros e He. apply filter_In in He. destruct He as [He _]. rewrite Forall_forall in H. exact (H e He). Qed.
Lemma without_small tag : small (without tag). Proof. exact (filter_small _ _ lines_small). Qed.
Lemma without_plain tag : Forall (fun e => plain (fst e) /\ plain (snd e)) (without tag). Proof. exact (filter_plain _ _ lines_plain). Qed.
Lemma without_first tag t : t <> tag -> first_value t (without tag) = first_value t sample_lines.
Proof.
  intros Ht. unfold without. generalize sample_lines. induction l as [|[a b] l IH]; [reflexivity|]. cbn [filter fst]. destruct (eqs a tag) eqn:E; cbn [negb].
  - cbn [first_value]. rewrite IH. destruct (eqs a t) eqn:E2; [|reflexivity]. apply eqs_eq in E, E2. congruence.
  - cbn [first_value]. now rewrite IH.
Qed.
Lemma without_none tag : first_value tag (without tag) = None.
Proof.
  unfold without. generalize sample_lines. induction l as [|[a b] l IH]; [reflexivity|]. cbn [filter fst]. destruct (eqs a tag) eqn:E; cbn [negb]; [exact IH|].
  cbn [first_value]. now rewrite E.
Qed.
Lemma without_undef : get_input_data strt (fun d => d) 3 4 0 (render [] (without (str "RANDOM_TRANSFORM"))) = Undefined.
Proof. vm_compute. reflexivity. Qed.
Theorem C50_unrelated_refuted : exists tag L text, layout L text /\ small L /\ first_value tag L = None /\
  (forall t, t <> tag -> first_value t L = first_value t sample_lines) /\ get_input_data strt (fun d => d) 3 4 0 text = Undefined.
Proof.
  exists (str "RANDOM_TRANSFORM"), (without (str "RANDOM_TRANSFORM")), (render [] (without (str "RANDOM_TRANSFORM"))).
  split; [apply render0; [constructor|apply without_plain]|]. split; [apply without_small|]. split; [apply without_none|]. split; [intros t; apply without_first|exact without_undef].
Qed.
Print Assumptions C50_unrelated_refuted.

(** A value that is not a plain number is taken for one: 12abc is 12, -5 is 2^64 - 5. *)
Theorem C50_malformed_refuted : 
  (exists text r, layout (with_value (str "SMITERS") (str "12abc")) text /\ get_input_data strt (fun d => d) 3 4 0 text = Success r /\ s_smiters (i_sm r) = 12) /\
  (exists text r, layout (with_value (str "SMITERS") (str "-5")) text /\ get_input_data strt (fun d => d) 3 4 0 text = Success r /\ s_smiters (i_sm r) = 18446744073709551611).
Proof.
  assert (Hp : forall v, plain v -> Forall (fun e => plain (fst e) /\ plain (snd e)) (with_value (str "SMITERS") v)).
  { intros v Hv. apply Forall_forall. intros e He. apply in_map_iff in He. destruct He as ([a b] & <- & He). cbn [fst]. pose proof lines_plain as H. rewrite Forall_forall in H.
    specialize (H _ He). destruct (eqs a (str "SMITERS")); [|exact H]. cbn [fst snd]. split; [now apply okw_plain|exact Hv]. }
  split.
  - exists (render [] (with_value (str "SMITERS") (str "12abc"))). eexists. split; [apply render0; [constructor|apply Hp; exact (okw_plain (str "12abc") eq_refl)]|]. split; [vm_compute; reflexivity|reflexivity].
  - exists (render [] (with_value (str "SMITERS") (str "-5"))). eexists. split; [apply render0; [constructor|apply Hp; exact (okw_plain (str "-5") eq_refl)]|]. split; [vm_compute; reflexivity|reflexivity].
Qed.
Print Assumptions C50_malformed_refuted.

(** CONFNO that is not a number is silently 0 (sample with another CONFNO), and a unit lattice with a missing dimension is accepted with the others unset. *)
Theorem C50_silent_refuted :
  (exists r, get_input_data strt (fun d => d) 3 4 0 (render [] (with_value (str "CONFNO") (str "abc"))) = Success r /\ i_flow r = 0) /\
  (exists r, get_input_data strt (fun d => d) 3 4 0 (render [] (filter (fun e => negb (eqs (fst e) (str "DIM_1"))) (with_value (str "HEADER") (str "UNIT")))) = Success r /\
     i_dims r = [Some 4; Some 8; None; None]).
Proof. split; eexists; (split; [vm_compute; reflexivity|reflexivity]). Qed.
Print Assumptions C50_silent_refuted.

(** A line without a value takes the tag of the next line for its value: that setting, though on a line of its own, is not found. *)
Theorem C50_empty_line_refuted : exists before after tbl,
  pack_inputs 0 (before ++ nl ++ str "MODE = HEATBATH" ++ nl ++ after) = Some tbl /\ VALUE tbl (tag_search tbl (str "MODE")) = None.
Proof. exists (str "CONFIG_INFO ="), []. eexists. split; [vm_compute; reflexivity|vm_compute; reflexivity]. Qed.
Print Assumptions C50_empty_line_refuted.
(** So does a line without blanks around the equals sign. *)
Theorem C50_blank_refuted : exists tbl, pack_inputs 0 (str "MODE=HEATBATH" ++ nl ++ str "SEED = 1") = Some tbl /\ VALUE tbl (tag_search tbl (str "MODE")) = None.
Proof. eexists. split; [vm_compute; reflexivity|vm_compute; reflexivity]. Qed.
Print Assumptions C50_blank_refuted.
(** The counter of the lines is never reset: reading the sample file a second time in the same process runs out of the table. *)
Theorem C50_twice_refuted : exists tbl, pack_inputs 0 sample = Some tbl /\ get_input_data strt (fun d => d) 3 4 (length tbl) sample = Undefined.
Proof. eexists. split; [vm_compute; reflexivity|vm_compute; reflexivity]. Qed.
Print Assumptions C50_twice_refuted.
