From Coq Require Import Ascii String.
From Verif Require Import CInt Lib TextModel TextProofs InputModel InputProofs InputProofs2.
Import ListNotations.
Open Scope Z_scope.

(** * the documented names *)
Definition names {A} (l : list (string * A)) : list (list Z * A) := map (fun p => (str (fst p), snd p)) l.
Local Open Scope string_scope.
Local Open Scope Z_scope.
Definition doc_mode := names [("GAUGE_FIXING", MODE_GF); ("CUTTING", MODE_CUTS); ("SMEARING", MODE_SMEARING); ("SUNCxU1", MODE_CROSS_U1); ("HEATBATH", MODE_HEATBATH)].
Definition doc_cut := names [("EXCEPTIONAL", EXCEPTIONAL); ("NON_EXCEPTIONAL", NONEXCEPTIONAL); ("FIELDS", FIELDS); ("SMEARED_GLUONS", SMEARED_GLUONS);
  ("INSTANTANEOUS_GLUONS", INSTANTANEOUS_GLUONS); ("CONFIGSPACE_GLUONS", CONFIGSPACE_GLUONS); ("GLUON_PROPS", GLUON_PROPS); ("STATIC_POTENTIAL", STATIC_POTENTIAL);
  ("TOPOLOGICAL_CORRELATOR", TOPOLOGICAL_CORRELATOR); ("TOPOLOGICAL_SUSCEPTIBILITY", TOPOLOGICAL_SUSCEPTIBILITY); ("TOPOLOGICAL_MOMENTS", TOPOLOGICAL_MOMENTS)].
Definition doc_momcut := names [("HYPERCUBIC_CUT", HYPERCUBIC_CUT); ("SPHERICAL_CUT", PSQ_CUT); ("CYLINDER_CUT", CYLINDER_CUT); ("CONICAL_CUT", CYLINDER_AND_CONICAL_CUT)].
Definition doc_field := names [("LOGARITHMIC", LOG_DEF)].
Definition doc_gf := names [("AXIALT", GLU_AXIALT_FIX); ("COULOMB", GLU_COULOMB_FIX); ("COULOMB_RESIDUAL", GLU_COULOMB_RESIDUAL_FIX); ("LANDAU", GLU_LANDAU_FIX); ("MAG", GLU_MAG_FIX)].
Definition doc_smear := names [("APE", SM_APE); ("STOUT", SM_STOUT); ("LOG", SM_LOG); ("HYP", SM_HYP); ("HEX", SM_HEX); ("HYL", SM_HYL); ("WFLOW_LOG", SM_WFLOW_LOG);
  ("WFLOW_STOUT", SM_WFLOW_STOUT); ("ADAPTWFLOW_LOG", SM_ADAPTWFLOW_LOG); ("ADAPTWFLOW_STOUT", SM_ADAPTWFLOW_STOUT)].
Definition doc_u1 := names [("U1_RECTANGLE", U1_RECTANGLE); ("U1_TOPOLOGICAL", U1_TOPOLOGICAL)].
Definition doc_header := names [("NERSC", NERSC_HEADER); ("HIREP", HIREP_HEADER); ("CERN", CERN_HEADER); ("MILC", MILC_HEADER); ("SCIDAC", SCIDAC_HEADER); ("LIME", LIME_HEADER);
  ("ILDG_SCIDAC", ILDG_SCIDAC_HEADER); ("ILDG_BQCD", ILDG_BQCD_HEADER); ("JLQCD", JLQCD_HEADER); ("RANDOM", RANDOM_CONFIG); ("UNIT", UNIT_GAUGE); ("INSTANTON", INSTANTON)].
(** a U(1) factor needs whole matrices *)
Definition doc_storage (NC : Z) (m : GLU_mode) := names
  match m with
  | MODE_CROSS_U1 => [("NERSC_SMALL", OUTPUT_NCxNC); ("NERSC_GAUGE", OUTPUT_NCxNC); ("NERSC_NCxNC", OUTPUT_NCxNC); ("HIREP", OUTPUT_HIREP); ("MILC", OUTPUT_MILC);
                      ("SCIDAC", OUTPUT_SCIDAC); ("ILDG", OUTPUT_ILDG); ("CERN", OUTPUT_CERN)]
  | _ => [("NERSC_SMALL", if Z.leb NC 3 then OUTPUT_SMALL else OUTPUT_NCxNC); ("NERSC_GAUGE", OUTPUT_GAUGE); ("NERSC_NCxNC", OUTPUT_NCxNC); ("HIREP", OUTPUT_HIREP);
          ("MILC", OUTPUT_MILC); ("SCIDAC", OUTPUT_SCIDAC); ("ILDG", OUTPUT_ILDG); ("CERN", OUTPUT_CERN)]
  end.
Definition fresh_head (h : header_mode) : Prop := h = UNIT_GAUGE \/ h = RANDOM_CONFIG.
Definition dims_head (h : header_mode) : Prop := h = JLQCD_HEADER \/ h = RANDOM_CONFIG \/ h = INSTANTON.
Definition seed_ok (v : list Z) (o : option Z) : Prop :=
  (o = None /\ forall x, ~ numeral v x) \/ exists x, numeral v x /\ - two32 < x < two32 /\ o = Some (x mod two32).

Definition has_int L tag : Prop := exists n, is_int L tag n.
(** every setting read is the one on the first line with its tag *)
Record agrees {D} (strtod : list Z -> option D) (pow10m : D -> D) (NC : Z) (ND : nat) (L : list (list Z * list Z)) (r : infile (D := D)) : Prop := {
  a_mode : is_name L (str "MODE") doc_mode MODE_REWRITE (i_mode r);
  a_seed : exists v, first_value (str "SEED") L = Some v /\ seed_ok v (i_seed r);
  a_cut : is_name L (str "CUTTYPE") doc_cut GLU_NOCUTS (c_dir (i_cut r));
  a_cutrest : match c_rest (i_cut r) with
    | None => c_dir (i_cut r) = GLU_NOCUTS
    | Some (mc, fd, (mt, mm, an), w, out) => is_name L (str "MOM_CUT") doc_momcut PSQ_CUT mc /\ is_name L (str "FIELD_DEFINITION") doc_field LINEAR_DEF fd /\
        is_int L (str "MAX_T") mt /\ is_int L (str "MAXMOM") mm /\ is_int L (str "ANGLE") an /\ is_dbl strtod L (str "CYL_WIDTH") w /\
        first_value (str "OUTPUT") L = Some out
    end;
  a_gf : is_name L (str "GFTYPE") doc_gf DEFAULT_NOFIX (g_type (i_gf r)) /\ (exists d, is_dbl strtod L (str "ACCURACY") d /\ g_accuracy (i_gf r) = pow10m d) /\
         is_int L (str "MAX_ITERS") (g_max_iters (i_gf r)) /\ is_dbl strtod L (str "GF_TUNE") (g_alpha (i_gf r));
  a_hb : is_dbl strtod L (str "BETA") (h_beta (i_hb r)) /\ is_int L (str "ITERS") (h_iterations (i_hb r)) /\ is_int L (str "OVER_ITERS") (h_Nor (i_hb r)) /\
         is_int L (str "SAVE") (h_Nsave (i_hb r)) /\ is_int L (str "MEASURE") (h_Nmeasure (i_hb r));
  (** a new lattice thermalises, a given one is continued *)
  a_therm : exists n, is_int L (str "THERM") n /\ (fresh_head (i_head r) -> h_therm (i_hb r) = n /\ h_continuation (i_hb r) = false) /\
            (~ fresh_head (i_head r) -> h_therm (i_hb r) = 0 /\ h_continuation (i_hb r) = true);
  a_sm : is_name L (str "SMEARTYPE") doc_smear SM_NOSMEARING (s_type (i_sm r)) /\ is_int L (str "SMITERS") (s_smiters (i_sm r)) /\
         exists v, first_value (str "DIRECTION") L = Some v /\ (s_spatial (i_sm r) = true <-> v = str "SPATIAL");
  a_alpha : length (s_alpha (i_sm r)) = (ND - 1)%nat /\ forall k d, nth_error (s_alpha (i_sm r)) k = Some d -> is_dbl strtod L (alpha_tag (k + 1)) d;
  a_u1 : is_dbl strtod L (str "U1_ALPHA") (u_alpha (i_u1 r)) /\ is_dbl strtod L (str "U1_CHARGE") (u_charge (i_u1 r)) /\
         is_name L (str "U1_MEAS") doc_u1 U1_PLAQUETTE (u_meas (i_u1 r));
  a_rtrans : exists v, first_value (str "RANDOM_TRANSFORM") L = Some v /\ (i_rtrans r = true <-> v = str "YES");
  a_head : exists v, first_value (str "HEADER") L = Some v /\ In (v, i_head r) doc_header;
  a_dims : dims_head (i_head r) -> length (i_dims r) = ND /\ (forall k o, nth_error (i_dims r) k = Some o -> exists n, o = Some n /\ is_int L (dim_tag k) n);
  a_confno : dims_head (i_head r) -> has_int L (str "CONFNO");
  a_flow : (fresh_head (i_head r) -> i_flow r = 0) /\
           (~ fresh_head (i_head r) -> is_int L (str "CONFNO") (i_flow r) \/ ((forall n, ~ is_int L (str "CONFNO") n) /\ i_flow r = 0 /\ ~ dims_head (i_head r)));
  a_storage : exists v, first_value (str "STORAGE") L = Some v /\ In (v, i_storage r) (doc_storage NC (i_mode r));
  a_details : first_value (str "CONFIG_INFO") L = Some (i_details r) }.

(** what the file must contain *)
Definition has_dbl {D} (strtod : list Z -> option D) L tag : Prop := exists d, is_dbl strtod L tag d.
Record complete_file {D} (strtod : list Z -> option D) (ND : nat) (L : list (list Z * list Z)) : Prop := {
  k_present : forall tag, In tag (map str ["MODE"; "SEED"; "CUTTYPE"; "GFTYPE"; "SMEARTYPE"; "DIRECTION"; "U1_MEAS"; "HEADER"; "STORAGE"]) -> present L tag;
  k_int : forall tag, In tag (map str ["MAX_ITERS"; "THERM"; "ITERS"; "OVER_ITERS"; "SAVE"; "MEASURE"; "SMITERS"]) -> has_int L tag;
  k_dbl : forall tag, In tag (map str ["ACCURACY"; "GF_TUNE"; "BETA"; "U1_ALPHA"; "U1_CHARGE"]) -> has_dbl strtod L tag;
  k_alpha : forall k, (k < ND - 1)%nat -> has_dbl strtod L (alpha_tag (k + 1));
  k_header : exists v h, first_value (str "HEADER") L = Some v /\ In (v, h) doc_header /\ (dims_head h -> has_int L (str "CONFNO") /\ forall k, (k < ND)%nat -> has_int L (dim_tag k));
  k_storage : exists v, first_value (str "STORAGE") L = Some v /\
    In v (map str ["NERSC_SMALL"; "NERSC_GAUGE"; "NERSC_NCxNC"; "HIREP"; "MILC"; "SCIDAC"; "ILDG"; "CERN"]);
  k_cut : forall v, first_value (str "CUTTYPE") L = Some v -> In v (map fst doc_cut) ->
    (forall tag, In tag (map str ["MOM_CUT"; "FIELD_DEFINITION"; "OUTPUT"]) -> present L tag) /\ (forall tag, In tag (map str ["MAX_T"; "MAXMOM"; "ANGLE"]) -> has_int L tag) /\
    has_dbl strtod L (str "CYL_WIDTH") }.
(** the three situations that are undefined *)
Definition undefined_file (L : list (list Z * list Z)) : Prop :=
  ~ present L (str "RANDOM_TRANSFORM") \/ ~ present L (str "CONFIG_INFO") \/
  (present L (str "MODE") /\ exists v x, first_value (str "SEED") L = Some v /\ numeral v x /\ ~ (- two32 < x < two32)).

Section Proofs.
Context {D : Type} (strtod : list Z -> option D) (pow10m : D -> D) (NC : Z) (ND : nat) (L : list (list Z * list Z)) (text : list Z).
Hypothesis HL : layout L text.
Let tbl := ([], []) :: L.
Notation fv tag := (first_value (str tag) L).
Lemma vl tag : good tag = true -> VALUE tbl (tag_search tbl tag) = first_value tag L. Proof. exact (v_look L text HL tag). Qed.
Lemma gi tag n : good tag = true -> getint tbl tag = Some n -> is_int L tag n. Proof. intros G. apply (v_int L text HL tag n G). Qed.
Lemma gi' tag n : good tag = true -> is_int L tag n -> getint tbl tag = Some n. Proof. intros G. apply (v_int L text HL tag n G). Qed.
Lemma gd tag d : good tag = true -> setdbl strtod tbl tag = Some d -> is_dbl strtod L tag d. Proof. intros G. apply (v_dbl strtod L text HL tag d G). Qed.
Lemma gd' tag d : good tag = true -> is_dbl strtod L tag d -> setdbl strtod tbl tag = Some d. Proof. intros G. apply (v_dbl strtod L text HL tag d G). Qed.

(** sscanf of the seed *)
Lemma numeral_digits v x : numeral v x -> exists b r k n q, take_sign v = (b, r) /\ get_digits 10 r 0 0 = (S k, n, q) /\ x = (if b then - n else n).
Proof.
  intros [sgn s ds rest Hs Hne Hd Hr]. exists (if s =? -1 then true else false), (ds ++ rest)%list, (pred (length ds)), (value10 ds), rest. split; [|split].
  - destruct ds as [|c ds]; [congruence|]. assert (Hc : decimal c) by (inversion Hd; assumption). unfold decimal in Hc.
    destruct Hs as [(-> & ->)|[(-> & ->)|(-> & ->)]]; cbn [app]; unfold take_sign; try reflexivity.
    destruct (Z.eqb_spec c 45); [lia|]. destruct (Z.eqb_spec c 43); [lia|]. reflexivity.
  - rewrite get_digits_app by (eapply Forall_impl; [|exact Hd]; intros; now apply decimal_isdig). rewrite get_digits_stop by assumption. rewrite value10_dv by assumption.
    destruct ds; [congruence|]. reflexivity.
  - destruct Hs as [(_ & ->)|[(_ & ->)|(_ & ->)]]; cbn [Z.eqb Pos.eqb]; lia.
Qed.
Lemma numeral_unique v x y : numeral v x -> numeral v y -> x = y.
Proof.
  intros Hx Hy. destruct (numeral_digits v x Hx) as (b & r & k & n & q & E1 & E2 & ->). destruct (numeral_digits v y Hy) as (b' & r' & k' & n' & q' & E1' & E2' & ->).
  rewrite E1 in E1'. injection E1' as <- <-. rewrite E2 in E2'. injection E2' as _ <- _. reflexivity.
Qed.
Lemma is_int_unique tag m n : is_int L tag m -> is_int L tag n -> m = n.
Proof.
  intros (v & x & E & Hx & _ & ->) (v' & y & E' & Hy & _ & ->). rewrite E in E'. injection E' as <-. now rewrite (numeral_unique v x y Hx Hy).
Qed.
Lemma scan_numeral v : plain v ->
  match scan_u 10 two32 v with
  | None => exists x, numeral v x /\ ~ (- two32 < x < two32)
  | Some o => seed_ok v o
  end.
Proof.
  intros Hv. unfold scan_u. rewrite cstr_id by (now apply plain_clean). rewrite skip_plain0 by assumption. change (10 =? 16) with false. cbv iota.
  destruct (take_sign_cases v) as (sgn & r & Ev & Hs). destruct (split_digits r) as (ds & rest & Er & Hd & Hr).
  assert (Hg : get_digits 10 r 0 0 = (length ds, value10 ds, rest)).
  { rewrite Er, get_digits_app by (eapply Forall_impl; [|exact Hd]; intros; now apply decimal_isdig). rewrite get_digits_stop by assumption. now rewrite value10_dv. }
  assert (Hpos : 0 <= value10 ds).
  { unfold value10. assert (G : forall l a, Forall decimal l -> 0 <= a -> 0 <= fold_left (fun a c => a * 10 + (c - 48)) l a).
    { induction l as [|c l IH]; intros a Hl Ha; [exact Ha|]. inversion Hl as [|? ? Hc Hl']; subst. cbn. apply IH; [assumption|]. unfold decimal in Hc. lia. }
    apply G; [assumption|lia]. }
  assert (Hcase : exists b s, take_sign v = (b, r) /\ (sgn = [] /\ s = 1 \/ sgn = [43] /\ s = 1 \/ sgn = [45] /\ s = -1) /\ s = (if b : bool then -1 else 1)).
  { destruct Hs as [(E1 & E2 & _)|[(E1 & E2)|(E1 & E2)]]; [exists false, 1|exists false, 1|exists true, (-1)]; auto 6. }
  destruct Hcase as (b & s & Et & Hsg & Hb). rewrite Et, Hg. destruct ds as [|d0 ds].
  - cbn [length]. left. split; [reflexivity|]. intros x Hx. destruct (numeral_digits v x Hx) as (b' & r' & k & n & q & Et' & Hg' & _).
    rewrite Et in Et'. injection Et' as _ <-. rewrite Hg' in Hg. discriminate.
  - cbn [length]. set (X := value10 (d0 :: ds)) in *. assert (Hn : numeral v (s * X)) by (rewrite Ev, Er; apply num_intro; auto; discriminate).
    destruct (Z.ltb_spec X two32).
    + right. exists (s * X). split; [exact Hn|]. split; [destruct b; subst s; lia|]. destruct b; subst s; [f_equal; f_equal; lia|].
      f_equal. rewrite Z.mul_1_l. symmetry. apply Z.mod_small. lia.
    + exists (s * X). split; [exact Hn|]. destruct b; subst s; lia.
Qed.

Ltac dd H := match type of H with context [match ?x with _ => _ end] => let E := fresh "E" in destruct x eqn:E; try discriminate H end.
Lemma seed_value s : fv "SEED" = Some s -> plain s.
Proof. apply (v_plain L text HL). Qed.
Lemma name_spec {A} tag v (l l' : list (list Z * A)) d : l = l' -> first_value tag L = Some v -> forallb good (map fst l) = true -> is_name L tag l' d (choose v l d).
Proof. intros <- E G. exact (v_name L text HL tag v l d E G). Qed.
Lemma eq_spec tag v w : first_value tag L = Some v -> clean w -> (streq v w = true <-> v = w).
Proof. intros E Hw. apply streq_eq; [|exact Hw]. apply plain_clean. exact (v_plain L text HL tag v E). Qed.

Lemma mode_ok m s : get_mode tbl = Some (Some (m, s)) -> is_name L (str "MODE") doc_mode MODE_REWRITE m /\ exists v, fv "SEED" = Some v /\ seed_ok v s.
Proof.
  unfold get_mode. rewrite !vl by reflexivity. destruct (fv "MODE") as [vm|] eqn:Em; [|discriminate]. destruct (fv "SEED") as [vs|] eqn:Es; [|discriminate].
  pose proof (scan_numeral vs (seed_value vs Es)) as Hs. destruct (scan_u 10 two32 vs) as [o|]; [|discriminate]. intros E. injection E as <- <-.
  split; [apply (name_spec _ _ mode_names); [reflexivity|assumption|reflexivity]|]. exists vs. auto.
Qed.
Lemma choose_opt {A} v (l : list (list Z * A)) d : match choose v (map (fun p => (fst p, Some (snd p))) l) None with None => d | Some a => a end = choose v l d.
Proof. induction l as [|[n a] l IH]; [reflexivity|]. cbn [map choose fst snd]. destruct (streq v n); [reflexivity|exact IH]. Qed.
Lemma cut_ok c : read_cuts_struct strtod tbl = Some c -> is_name L (str "CUTTYPE") doc_cut GLU_NOCUTS (c_dir c) /\
  match c_rest c with
    | None => c_dir c = GLU_NOCUTS
    | Some (mc, fd, (mt, mm, an), w, out) => is_name L (str "MOM_CUT") doc_momcut PSQ_CUT mc /\ is_name L (str "FIELD_DEFINITION") doc_field LINEAR_DEF fd /\
        is_int L (str "MAX_T") mt /\ is_int L (str "MAXMOM") mm /\ is_int L (str "ANGLE") an /\ is_dbl strtod L (str "CYL_WIDTH") w /\
        fv "OUTPUT" = Some out
    end.
Proof.
  unfold read_cuts_struct. rewrite !vl by reflexivity. destruct (fv "CUTTYPE") as [v|] eqn:Ev; [|discriminate]. cbn [bindo].
  assert (Hn : is_name L (str "CUTTYPE") doc_cut GLU_NOCUTS (match choose v cut_names None with None => GLU_NOCUTS | Some a => a end)).
  { replace (match choose v cut_names None with None => GLU_NOCUTS | Some a => a end) with (choose v doc_cut GLU_NOCUTS).
    - apply (name_spec _ _ doc_cut); [reflexivity|assumption|reflexivity].
    - change cut_names with (map (fun p => (fst p, Some (snd p))) doc_cut). symmetry. apply choose_opt. }
  destruct (choose v cut_names None) as [dir|] eqn:Ec.
  - destruct (fv "MOM_CUT") as [vm|] eqn:Em; [|discriminate]. cbn [bindo]. destruct (fv "FIELD_DEFINITION") as [vf|] eqn:Ef; [|discriminate]. cbn [bindo].
    destruct (getint tbl (str "MAX_T")) as [mt|] eqn:E1; [|discriminate]. cbn [bindo]. destruct (getint tbl (str "MAXMOM")) as [mm|] eqn:E2; [|discriminate]. cbn [bindo].
    destruct (getint tbl (str "ANGLE")) as [an|] eqn:E3; [|discriminate]. cbn [bindo]. destruct (setdbl strtod tbl (str "CYL_WIDTH")) as [w|] eqn:E4; [|discriminate]. cbn [bindo].
    destruct (fv "OUTPUT") as [o|] eqn:Eo; [|discriminate]. cbn [bindo]. intros E. injection E as <-. cbn [c_dir c_rest]. split; [exact Hn|].
    rewrite (cstr_id o (plain_clean o (v_plain L text HL _ _ Eo))).
    split; [apply (name_spec _ _ momcut_names); [reflexivity|assumption|reflexivity]|].
    split; [apply (name_spec _ _ [(str "LOGARITHMIC", LOG_DEF)]); [reflexivity|assumption|reflexivity]|].
    split; [now apply gi|]. split; [now apply gi|]. split; [now apply gi|]. split; [now apply gd|]. reflexivity.
  - intros E. injection E as <-. cbn [c_dir c_rest]. split; [exact Hn|reflexivity].
Qed.
Lemma gf_ok g : read_gf_struct strtod pow10m tbl = Some g -> is_name L (str "GFTYPE") doc_gf DEFAULT_NOFIX (g_type g) /\ (exists d, is_dbl strtod L (str "ACCURACY") d /\ g_accuracy g = pow10m d) /\
         is_int L (str "MAX_ITERS") (g_max_iters g) /\ is_dbl strtod L (str "GF_TUNE") (g_alpha g).
Proof.
  unfold read_gf_struct. rewrite !vl by reflexivity. destruct (fv "GFTYPE") as [v|] eqn:Ev; [|discriminate]. cbn [bindo].
  destruct (setdbl strtod tbl (str "ACCURACY")) as [a|] eqn:E1; [|discriminate]. cbn [bindo]. destruct (getint tbl (str "MAX_ITERS")) as [n|] eqn:E2; [|discriminate]. cbn [bindo].
  destruct (setdbl strtod tbl (str "GF_TUNE")) as [t|] eqn:E3; [|discriminate]. cbn [bindo]. intros E. injection E as <-. cbn [g_type g_accuracy g_max_iters g_alpha].
  split; [apply (name_spec _ _ gf_names); [reflexivity|assumption|reflexivity]|]. split; [exists a; split; [now apply gd|reflexivity]|]. split; [now apply gi|now apply gd].
Qed.
Lemma hb_ok b t i o sv m : read_hb_struct strtod tbl = Some (b, (t, i, o, sv, m)) -> is_dbl strtod L (str "BETA") b /\ is_int L (str "THERM") t /\ is_int L (str "ITERS") i /\
   is_int L (str "OVER_ITERS") o /\ is_int L (str "SAVE") sv /\ is_int L (str "MEASURE") m.
Proof.
  unfold read_hb_struct. destruct (setdbl strtod tbl (str "BETA")) as [a|] eqn:E1; [|discriminate]. cbn [bindo].
  destruct (getint tbl (str "THERM")) eqn:E2; [|discriminate]. cbn [bindo]. destruct (getint tbl (str "ITERS")) eqn:E3; [|discriminate]. cbn [bindo].
  destruct (getint tbl (str "OVER_ITERS")) eqn:E4; [|discriminate]. cbn [bindo]. destruct (getint tbl (str "SAVE")) eqn:E5; [|discriminate]. cbn [bindo].
  destruct (getint tbl (str "MEASURE")) eqn:E6; [|discriminate]. cbn [bindo]. intros E. injection E as <- <- <- <- <- <-.
  split; [now apply gd|]. repeat (split; [now apply gi|]). now apply gi.
Qed.
Lemma sm_ok s : smearing_info strtod ND tbl = Some s -> (is_name L (str "SMEARTYPE") doc_smear SM_NOSMEARING (s_type s) /\ is_int L (str "SMITERS") (s_smiters s) /\
         exists v, fv "DIRECTION" = Some v /\ (s_spatial s = true <-> v = str "SPATIAL")) /\
  (length (s_alpha s) = (ND - 1)%nat /\ forall k d, nth_error (s_alpha s) k = Some d -> is_dbl strtod L (alpha_tag (k + 1)) d).
Proof.
  unfold smearing_info. rewrite !vl by reflexivity. destruct (fv "SMEARTYPE") as [v|] eqn:Ev; [|discriminate]. cbn [bindo].
  destruct (fv "DIRECTION") as [d|] eqn:Ed; [|discriminate]. cbn [bindo]. destruct (getint tbl (str "SMITERS")) as [n|] eqn:E2; [|discriminate]. cbn [bindo].
  destruct (alphas strtod tbl 0 (ND - 1)) as [al|] eqn:E3; [|discriminate]. cbn [bindo]. intros E. injection E as <-. cbn [s_type s_spatial s_smiters s_alpha].
  split; [split; [apply (name_spec _ _ smear_names); [reflexivity|assumption|reflexivity]|split; [now apply gi|]]|].
  - exists d. split; [reflexivity|]. apply (eq_spec _ _ _ Ed). repeat constructor; discriminate.
  - destruct (v_alphas strtod L text HL _ _ _ E3) as [H1 H2]. split; [exact H1|]. intros k x Hk. replace (k + 1)%nat with (0 + 1 + k)%nat by lia. now apply H2.
Qed.
Lemma u1_ok u : read_suNC_x_U1 strtod tbl = Some u -> is_dbl strtod L (str "U1_ALPHA") (u_alpha u) /\ is_dbl strtod L (str "U1_CHARGE") (u_charge u) /\
         is_name L (str "U1_MEAS") doc_u1 U1_PLAQUETTE (u_meas u).
Proof.
  unfold read_suNC_x_U1. destruct (setdbl strtod tbl (str "U1_ALPHA")) as [a|] eqn:E1; [|discriminate]. cbn [bindo].
  destruct (setdbl strtod tbl (str "U1_CHARGE")) as [q|] eqn:E2; [|discriminate]. cbn [bindo]. rewrite vl by reflexivity.
  destruct (fv "U1_MEAS") as [v|] eqn:Ev; [|discriminate]. cbn [bindo]. intros E. injection E as <-. cbn [u_alpha u_charge u_meas].
  split; [now apply gd|]. split; [now apply gd|]. apply (name_spec _ _ u1_names); [reflexivity|assumption|reflexivity].
Qed.
Lemma rt_ok b : rtrans tbl = Some b -> exists v, fv "RANDOM_TRANSFORM" = Some v /\ (b = true <-> v = str "YES").
Proof.
  unfold rtrans. rewrite vl by reflexivity. destruct (fv "RANDOM_TRANSFORM") as [v|] eqn:Ev; [|discriminate]. cbn [bindo]. intros E. injection E as <-.
  exists v. split; [reflexivity|]. apply (eq_spec _ _ _ Ev). repeat constructor; discriminate.
Qed.
Lemma st_ok m st : out_details NC tbl m = Some st -> exists v, fv "STORAGE" = Some v /\ In (v, st) (doc_storage NC m).
Proof.
  unfold out_details. rewrite vl by reflexivity. destruct (fv "STORAGE") as [v|] eqn:Ev; [|discriminate]. cbn [bindo]. cbv zeta.
  set (l := (str "NERSC_SMALL", _) :: _). intros E.
  assert (Hl : l = map (fun p => (fst p, Some (snd p))) (doc_storage NC m)).
  { unfold l, doc_storage, names. replace (3 <? NC) with (negb (NC <=? 3)) by (destruct (Z.leb_spec NC 3), (Z.ltb_spec 3 NC); try lia; reflexivity).
    destruct m; cbn [map fst snd]; destruct (NC <=? 3); reflexivity. }
  exists v. split; [reflexivity|].
  assert (Hc : Forall clean (map fst l)) by (rewrite Hl; unfold doc_storage, names; destruct m; cbn [map fst snd]; repeat constructor; discriminate).
  destruct (choose_spec v l None (plain_clean v (v_plain L text HL _ _ Ev)) Hc) as [H|[_ H]]; [|congruence].
  rewrite E, Hl in H. apply in_map_iff in H. destruct H as ([n a] & Ep & Hi). cbn [fst snd] in Ep. injection Ep as -> ->. exact Hi.
Qed.
Lemma hd_ok h f ds : header_type ND tbl = Some (h, f, ds) ->
  (exists v, fv "HEADER" = Some v /\ In (v, h) doc_header) /\
  (dims_head h -> exists d, ds = Some d /\ length d = ND /\ forall k o, nth_error d k = Some o -> exists n, o = Some n /\ is_int L (dim_tag k) n) /\
  (h <> UNIT_GAUGE -> is_int L (str "CONFNO") f \/ ((forall n, ~ is_int L (str "CONFNO") n) /\ f = 0 /\ ~ dims_head h)).
Proof.
  unfold header_type. rewrite vl by reflexivity. destruct (fv "HEADER") as [v|] eqn:Ev; [|discriminate]. cbn [bindo]. cbv zeta.
  assert (Hc : Forall clean (map fst doc_header)) by (unfold doc_header, names; cbn [map fst snd]; repeat constructor; discriminate).
  pose proof (choose_spec v doc_header UNSUPPORTED (plain_clean v (v_plain L text HL _ _ Ev)) Hc) as Hch. change header_names with doc_header.
  set (c := choose v doc_header UNSUPPORTED) in *. intros E.
  assert (Hin : c <> UNSUPPORTED -> In (v, c) doc_header) by (intros Hn; destruct Hch as [H|[_ H]]; [exact H|contradiction]).
  assert (Hh : h = c /\ c <> UNSUPPORTED).
  { destruct c; try discriminate E; try (injection E as <- _ _; split; [reflexivity|discriminate]).
    all: destruct (read_random_lattice_info ND tbl (confno tbl)) as [[ok d] f']; try (destruct ok; [|discriminate E]).
    all: injection E as <- _ _; split; [reflexivity|discriminate]. }
  destruct Hh as [-> Hne]. split; [exists v; split; [reflexivity|auto]|].
  assert (Hconf : is_int L (str "CONFNO") (confno tbl) \/ ((forall n, ~ is_int L (str "CONFNO") n) /\ confno tbl = 0)).
  { unfold confno. destruct (setint tbl 0 (str "CONFNO")) as [ok n] eqn:Es. destruct ok.
    - left. apply (v_setint L text HL 0); [reflexivity|exact Es].
    - right. split; [|reflexivity]. intros m Hm. apply (v_setint L text HL 0) in Hm; [|reflexivity]. change (([], []) :: L) with tbl in Hm. rewrite Es in Hm. discriminate. }
  assert (Hr : forall d f', read_random_lattice_info ND tbl (confno tbl) = (true, d, f') ->
    (length d = ND /\ forall k o, nth_error d k = Some o -> exists n, o = Some n /\ is_int L (dim_tag k) n) /\ is_int L (str "CONFNO") f').
  { intros d f' Er. unfold read_random_lattice_info in Er. destruct (dims_loop tbl 0 ND) as [ok d0] eqn:Ed. destruct ok; [|discriminate].
    destruct (setint tbl (confno tbl) (str "CONFNO")) as [ok2 f0] eqn:Es. injection Er as -> -> ->. destruct (v_dims L text HL ND 0 d Ed) as [H1 H2].
    split; [split; [exact H1|exact H2]|]. apply (v_setint L text HL (confno tbl)); [reflexivity|exact Es]. }
  unfold dims_head. destruct c; try congruence;
    try (injection E as <- <-; split; [intros [H|[H|H]]; discriminate|]; intros _; destruct Hconf as [H|[H1 H2]]; [left; exact H|right; split; [exact H1|split; [exact H2|intros [H|[H|H]]; discriminate]]]).
  all: destruct (read_random_lattice_info ND tbl (confno tbl)) as [[ok d] f'] eqn:Er.
  all: try (destruct ok; [|discriminate]; injection E as <- <-; destruct (Hr d f' eq_refl) as [H1 H2]; split; [intros _; exists d; split; [reflexivity|exact H1]|intros _; left; exact H2]).
  injection E as <- <-. split; [intros [H|[H|H]]; discriminate|congruence].
Qed.

Lemma success_agrees r : get_input_table strtod pow10m NC ND tbl = Success r -> agrees strtod pow10m NC ND L r.
Proof.
  unfold get_input_table. intros E.
  destruct (get_mode tbl) as [gm|] eqn:E1; [|discriminate]. destruct (rtrans tbl) as [rt|] eqn:E2; [|discriminate]. destruct (config_information tbl) as [ci|] eqn:E3; [|discriminate].
  destruct gm as [[mode seed]|]; [|discriminate]. destruct (read_cuts_struct strtod tbl) as [cut|] eqn:E4; [|discriminate]. destruct (read_gf_struct strtod pow10m tbl) as [gf|] eqn:E5; [|discriminate].
  destruct (read_hb_struct strtod tbl) as [[beta [[[[therm its] nor] nsave] nmeas]]|] eqn:E6; [|discriminate]. destruct (smearing_info strtod ND tbl) as [sm|] eqn:E7; [|discriminate].
  destruct (read_suNC_x_U1 strtod tbl) as [u1|] eqn:E8; [|discriminate]. destruct (header_type ND tbl) as [[[head flow] dims]|] eqn:E9; [|discriminate].
  destruct (out_details NC tbl mode) as [st|] eqn:E10; [|discriminate]. injection E as <-.
  destruct (mode_ok _ _ E1) as [M1 M2]. destruct (cut_ok _ E4) as [C1 C2]. pose proof (gf_ok _ E5) as G. destruct (hb_ok _ _ _ _ _ _ E6) as (B1 & B2 & B3 & B4 & B5 & B6).
  destruct (sm_ok _ E7) as [S1 S2]. pose proof (u1_ok _ E8) as U. destruct (hd_ok _ _ _ E9) as (H1 & H2 & H3). pose proof (st_ok _ _ E10) as ST. pose proof (rt_ok _ E2) as RT.
  constructor; cbn [i_mode i_seed i_cut i_gf i_hb i_sm i_u1 i_rtrans i_head i_flow i_dims i_storage i_details h_beta h_therm h_iterations h_Nor h_Nsave h_Nmeasure h_continuation]; auto.
  - exists therm. split; [exact B2|]. unfold fresh_head. split; [intros [->| ->]; auto|]. intros Hn. destruct head; auto; exfalso; apply Hn; auto.
  - intros Hd. destruct (H2 Hd) as (d & -> & Hl & Hk). auto.
  - intros Hd. destruct H3 as [H3|(_ & _ & H3)]; [intros ->; destruct Hd as [Hd|[Hd|Hd]]; discriminate|exists flow; exact H3|contradiction].
  - unfold fresh_head. split; [intros [->| ->]; reflexivity|]. intros Hn. assert (Hu : head <> UNIT_GAUGE) by (intros ->; apply Hn; auto).
    specialize (H3 Hu). destruct head; auto; exfalso; apply Hn; auto.
  - revert E3. unfold config_information. rewrite vl by reflexivity. destruct (fv "CONFIG_INFO") as [v|] eqn:Ev; [|discriminate]. cbn [option_map]. intros E. injection E as <-.
    now rewrite (cstr_id v (plain_clean v (v_plain L text HL _ _ Ev))).
Qed.

Lemma int_ex tag : good tag = true -> has_int L tag -> exists n, getint tbl tag = Some n.
Proof. intros G [n Hn]. exists n. now apply gi'. Qed.
Lemma dbl_ex tag : good tag = true -> has_dbl strtod L tag -> exists n, setdbl strtod tbl tag = Some n.
Proof. intros G [n Hn]. exists n. now apply gd'. Qed.
Lemma alphas_ex : forall l mu, (forall k, (k < l)%nat -> has_dbl strtod L (alpha_tag (mu + k + 1))) -> exists al, alphas strtod tbl mu l = Some al.
Proof.
  induction l as [|l IH]; intros mu H; [exists []; reflexivity|]. cbn [alphas].
  destruct (dbl_ex (alpha_tag (mu + 1)) (alpha_good _)) as [d Ed]; [specialize (H 0%nat ltac:(lia)); now rewrite Nat.add_0_r in H|].
  change (str "ALPHA" ++ dec (Z.of_nat (mu + 1)))%list with (alpha_tag (mu + 1)). rewrite Ed. cbn [bindo].
  destruct (IH (S mu)) as [al Ea]; [|rewrite Ea; eexists; reflexivity].
  intros k Hk. specialize (H (S k) ltac:(lia)). now replace (S mu + k + 1)%nat with (mu + S k + 1)%nat by lia.
Qed.
Lemma dims_ex : forall l mu, (forall k, (k < l)%nat -> has_int L (dim_tag (mu + k))) -> exists d, dims_loop tbl mu l = (true, d).
Proof.
  induction l as [|l IH]; intros mu H; [exists []; reflexivity|]. cbn [dims_loop].
  destruct (H 0%nat ltac:(lia)) as [n Hn]. rewrite Nat.add_0_r in Hn. apply (v_setint L text HL 8) in Hn; [|apply dim_good].
  change (str "DIM_" ++ dec (Z.of_nat mu))%list with (dim_tag mu). fold tbl in Hn. rewrite Hn.
  destruct (IH (S mu)) as [d Ed]; [|rewrite Ed; eexists; reflexivity].
  intros k Hk. specialize (H (S k) ltac:(lia)). now replace (S mu + k)%nat with (mu + S k)%nat by lia.
Qed.
Lemma header_ex : (exists v h, fv "HEADER" = Some v /\ In (v, h) doc_header /\ (dims_head h -> has_int L (str "CONFNO") /\ forall k, (k < ND)%nat -> has_int L (dim_tag k))) ->
  exists x, header_type ND tbl = Some x.
Proof.
  intros (v & h & Ev & Hin & Hd). unfold header_type. rewrite vl by reflexivity. rewrite Ev. cbn [bindo]. cbv zeta. change header_names with doc_header.
  assert (Hc : choose v doc_header UNSUPPORTED = h).
  { revert Hin. unfold doc_header, names. cbn [map fst snd]. intros Hin. repeat (destruct Hin as [Hin|Hin]; [injection Hin as <- <-; reflexivity|]). destruct Hin. }
  rewrite Hc. assert (Hr : dims_head h -> exists d f, read_random_lattice_info ND tbl (confno tbl) = (true, d, f)).
  { intros Hh. destruct (Hd Hh) as [[n Hn] Hk]. unfold read_random_lattice_info. destruct (dims_ex ND 0 Hk) as [d Ed]. rewrite Ed.
    apply (v_setint L text HL (confno tbl)) in Hn; [|reflexivity]. fold tbl in Hn. rewrite Hn. eexists; eexists; reflexivity. }
  destruct h; try (eexists; reflexivity).
  - exfalso. revert Hin. unfold doc_header, names. cbn [map fst snd In]. clear. intros H. repeat (destruct H as [H|H]; [discriminate H|]). exact H.
  - destruct Hr as (d & f & ->); [unfold dims_head; auto|]. eexists; reflexivity.
  - destruct Hr as (d & f & ->); [unfold dims_head; auto|]. eexists; reflexivity.
  - destruct (read_random_lattice_info ND tbl (confno tbl)) as [[ok d] f]. eexists; reflexivity.
  - destruct Hr as (d & f & ->); [unfold dims_head; auto|]. eexists; reflexivity.
Qed.
Lemma storage_ex m : (exists v, fv "STORAGE" = Some v /\ In v (map str ["NERSC_SMALL"; "NERSC_GAUGE"; "NERSC_NCxNC"; "HIREP"; "MILC"; "SCIDAC"; "ILDG"; "CERN"])) ->
  exists st, out_details NC tbl m = Some st.
Proof.
  intros (v & Ev & Hin). unfold out_details. rewrite vl by reflexivity. rewrite Ev. cbn [bindo]. cbv zeta.
  cbn [map] in Hin. repeat (destruct Hin as [<-|Hin]; [eexists; reflexivity|]). destruct Hin.
Qed.
Lemma cut_ex : present L (str "CUTTYPE") -> (forall v, fv "CUTTYPE" = Some v -> In v (map fst doc_cut) ->
    (forall tag, In tag (map str ["MOM_CUT"; "FIELD_DEFINITION"; "OUTPUT"]) -> present L tag) /\ (forall tag, In tag (map str ["MAX_T"; "MAXMOM"; "ANGLE"]) -> has_int L tag) /\
    has_dbl strtod L (str "CYL_WIDTH")) -> exists c, read_cuts_struct strtod tbl = Some c.
Proof.
  intros [v Ev] H. unfold read_cuts_struct. rewrite !vl by reflexivity. rewrite Ev. cbn [bindo].
  assert (Hc : Forall clean (map fst cut_names)) by (unfold cut_names; cbn [map fst]; repeat constructor; discriminate).
  destruct (choose_spec v cut_names None (plain_clean v (v_plain L text HL _ _ Ev)) Hc) as [Hi|[_ Hi]]; [|rewrite Hi; eexists; reflexivity].
  destruct (choose v cut_names None) as [dir|]; [|eexists; reflexivity].
  destruct (H v Ev) as (P & I & F).
  { change doc_cut with (map (fun p => (fst p, match snd p with Some a => a | None => GLU_NOCUTS end)) cut_names). rewrite map_map. cbn [fst].
    apply (in_map fst) in Hi. exact Hi. }
  destruct (P (str "MOM_CUT") ltac:(cbn; auto 12)) as [x1 ->]. destruct (P (str "FIELD_DEFINITION") ltac:(cbn; auto 12)) as [x2 ->]. destruct (P (str "OUTPUT") ltac:(cbn; auto 12)) as [x3 ->].
  destruct (int_ex (str "MAX_T") eq_refl (I (str "MAX_T") ltac:(cbn; auto 12))) as [n1 ->]. destruct (int_ex (str "MAXMOM") eq_refl (I (str "MAXMOM") ltac:(cbn; auto 12))) as [n2 ->].
  destruct (int_ex (str "ANGLE") eq_refl (I (str "ANGLE") ltac:(cbn; auto 12))) as [n3 ->]. destruct (dbl_ex (str "CYL_WIDTH") eq_refl F) as [w ->]. cbn [bindo]. eexists; reflexivity.
Qed.
Lemma seed_cases : get_mode tbl = None <-> (present L (str "MODE") /\ exists v x, fv "SEED" = Some v /\ numeral v x /\ ~ (- two32 < x < two32)).
Proof.
  unfold get_mode. rewrite !vl by reflexivity. unfold present. destruct (fv "MODE") as [vm|] eqn:Em; [|split; [discriminate|intros [[v Hv] _]; congruence]].
  destruct (fv "SEED") as [vs|] eqn:Es; [|split; [discriminate|intros [_ (v & x & Hv & _)]; congruence]].
  pose proof (scan_numeral vs (seed_value vs Es)) as Hs. destruct (scan_u 10 two32 vs) as [o|].
  - split; [discriminate|]. intros [_ (v & x & Hv & Hx & Hr)]. injection Hv as <-. exfalso. destruct Hs as [[_ Hn]|(y & Hy & Hyr & _)]; [exact (Hn x Hx)|].
    apply Hr. now rewrite (numeral_unique vs x y Hx Hy).
  - split; [|reflexivity]. intros _. split; [exists vm; reflexivity|]. destruct Hs as (x & Hx & Hr). exists vs, x. auto.
Qed.
Lemma undefined_iff : get_input_table strtod pow10m NC ND tbl = Undefined <-> undefined_file L.
Proof.
  unfold undefined_file. rewrite <- seed_cases. unfold present.
  assert (E2 : rtrans tbl = None <-> ~ exists v, fv "RANDOM_TRANSFORM" = Some v).
  { unfold rtrans. rewrite vl by reflexivity. destruct (fv "RANDOM_TRANSFORM") as [v|]; cbn [bindo]; split; try discriminate; try reflexivity.
    - intros H. exfalso. apply H. eexists; reflexivity. - intros _ [v H]. discriminate. }
  assert (E3 : config_information tbl = None <-> ~ exists v, fv "CONFIG_INFO" = Some v).
  { unfold config_information. rewrite vl by reflexivity. destruct (fv "CONFIG_INFO") as [v|]; cbn [option_map]; split; try discriminate; try reflexivity.
    - intros H. exfalso. apply H. eexists; reflexivity. - intros _ [v H]. discriminate. }
  rewrite <- E2, <- E3. unfold get_input_table. destruct (get_mode tbl) as [gm|]; [|split; auto]. destruct (rtrans tbl) as [rt|]; [|split; auto]. destruct (config_information tbl) as [ci|]; [|split; auto].
  split; [|intros [H|[H|H]]; discriminate]. intros H. exfalso. revert H.
  destruct gm as [[mode seed]|]; [|discriminate]. destruct (read_cuts_struct strtod tbl) as [cut|]; [|discriminate]. destruct (read_gf_struct strtod pow10m tbl) as [gf|]; [|discriminate].
  destruct (read_hb_struct strtod tbl) as [[beta [[[[therm its] nor] nsave] nmeas]]|]; [|discriminate]. destruct (smearing_info strtod ND tbl) as [sm|]; [|discriminate].
  destruct (read_suNC_x_U1 strtod tbl) as [u1|]; [|discriminate]. destruct (header_type ND tbl) as [[[head flow] dims]|]; [|discriminate].
  destruct (out_details NC tbl mode) as [st|]; discriminate.
Qed.
Lemma complete_success : complete_file strtod ND L -> ~ undefined_file L -> exists r, get_input_table strtod pow10m NC ND tbl = Success r.
Proof.
  intros [P I F A H S C] Hu. rewrite <- undefined_iff in Hu. unfold get_input_table in *.
  destruct (get_mode tbl) as [gm|] eqn:E1; [|congruence]. destruct (rtrans tbl) as [rt|]; [|congruence]. destruct (config_information tbl) as [ci|]; [|congruence]. clear Hu.
  assert (Hgm : exists mode seed, gm = Some (mode, seed)).
  { revert E1. unfold get_mode. rewrite !vl by reflexivity. destruct (P (str "MODE") ltac:(cbn; auto 12)) as [x1 ->]. destruct (P (str "SEED") ltac:(cbn; auto 12)) as [x2 ->].
    destruct (scan_u 10 two32 x2); [|discriminate]. intros E. injection E as <-. eexists; eexists; reflexivity. }
  destruct Hgm as (mode & seed & ->).
  destruct (cut_ex (P (str "CUTTYPE") ltac:(cbn; auto 12)) C) as [cut ->].
  assert (Hgf : exists g, read_gf_struct strtod pow10m tbl = Some g).
  { unfold read_gf_struct. rewrite vl by reflexivity. destruct (P (str "GFTYPE") ltac:(cbn; auto 12)) as [x1 ->]. destruct (dbl_ex (str "ACCURACY") eq_refl (F (str "ACCURACY") ltac:(cbn; auto 12))) as [d1 ->].
    destruct (int_ex (str "MAX_ITERS") eq_refl (I (str "MAX_ITERS") ltac:(cbn; auto 12))) as [n1 ->]. destruct (dbl_ex (str "GF_TUNE") eq_refl (F (str "GF_TUNE") ltac:(cbn; auto 12))) as [d2 ->]. cbn [bindo]. eexists; reflexivity. }
  destruct Hgf as [gf ->].
  assert (Hhb : exists b t i o sv m, read_hb_struct strtod tbl = Some (b, (t, i, o, sv, m))).
  { unfold read_hb_struct. destruct (dbl_ex (str "BETA") eq_refl (F (str "BETA") ltac:(cbn; auto 12))) as [d1 ->]. destruct (int_ex (str "THERM") eq_refl (I (str "THERM") ltac:(cbn; auto 12))) as [n1 ->].
    destruct (int_ex (str "ITERS") eq_refl (I (str "ITERS") ltac:(cbn; auto 12))) as [n2 ->]. destruct (int_ex (str "OVER_ITERS") eq_refl (I (str "OVER_ITERS") ltac:(cbn; auto 12))) as [n3 ->].
    destruct (int_ex (str "SAVE") eq_refl (I (str "SAVE") ltac:(cbn; auto 12))) as [n4 ->]. destruct (int_ex (str "MEASURE") eq_refl (I (str "MEASURE") ltac:(cbn; auto 12))) as [n5 ->]. cbn [bindo].
    exists d1, n1, n2, n3, n4, n5. reflexivity. }
  destruct Hhb as (b & t & i & o & sv & m & ->).
  assert (Hsm : exists s, smearing_info strtod ND tbl = Some s).
  { unfold smearing_info. rewrite !vl by reflexivity. destruct (P (str "SMEARTYPE") ltac:(cbn; auto 12)) as [x1 ->]. destruct (P (str "DIRECTION") ltac:(cbn; auto 12)) as [x2 ->].
    destruct (int_ex (str "SMITERS") eq_refl (I (str "SMITERS") ltac:(cbn; auto 12))) as [n5 ->]. destruct (alphas_ex (ND - 1) 0) as [al ->]; [intros k Hk; apply A; assumption|]. cbn [bindo]. eexists; reflexivity. }
  destruct Hsm as [sm ->].
  assert (Hu1 : exists u, read_suNC_x_U1 strtod tbl = Some u).
  { unfold read_suNC_x_U1. rewrite vl by reflexivity. destruct (dbl_ex (str "U1_ALPHA") eq_refl (F (str "U1_ALPHA") ltac:(cbn; auto 12))) as [d1 ->]. destruct (dbl_ex (str "U1_CHARGE") eq_refl (F (str "U1_CHARGE") ltac:(cbn; auto 12))) as [d2 ->].
    destruct (P (str "U1_MEAS") ltac:(cbn; auto 12)) as [x1 ->]. cbn [bindo]. eexists; reflexivity. }
  destruct Hu1 as [u1 ->]. destruct (header_ex H) as [[[hd fl] dm] ->]. destruct (storage_ex mode S) as [st ->]. eexists; reflexivity.
Qed.
Lemma success_complete r : get_input_table strtod pow10m NC ND tbl = Success r -> complete_file strtod ND L /\ ~ undefined_file L.
Proof.
  intros Hr. split; [|rewrite <- undefined_iff; congruence]. destruct (success_agrees r Hr).
  destruct a_mode0 as (v1 & E1 & _), a_seed0 as (v2 & E2 & _), a_gf0 as ((v3 & E3 & _) & (d1 & D1 & _) & I1 & D2), a_hb0 as (D3 & I2 & I3 & I4 & I5), a_therm0 as (n & I6 & _),
    a_sm0 as ((v4 & E4 & _) & I7 & (v5 & E5 & _)), a_u2 as (D4 & D5 & (v6 & E6 & _)), a_head0 as (v7 & E7 & H7), a_storage0 as (v8 & E8 & H8).
  destruct a_cut0 as (v9 & E9 & H9).
  constructor.
  - cbn [map In]. unfold present. intros tag [<-|[<-|[<-|[<-|[<-|[<-|[<-|[<-|[<-|[]]]]]]]]]]; eauto.
  - cbn [map In]. unfold has_int. intros tag [<-|[<-|[<-|[<-|[<-|[<-|[<-|[]]]]]]]]; eauto.
  - cbn [map In]. unfold has_dbl. intros tag [<-|[<-|[<-|[<-|[<-|[]]]]]]; eauto.
  - destruct a_alpha0 as [Al Ak]. intros k Hk. destruct (nth_error (s_alpha (i_sm r)) k) as [d|] eqn:Ek; [exists d; now apply Ak|]. apply nth_error_None in Ek. lia.
  - exists v7, (i_head r). split; [exact E7|]. split; [exact H7|]. intros Hd. split; [now apply a_confno0|]. destruct (a_dims0 Hd) as [Dl Dk]. intros k Hk.
    destruct (nth_error (i_dims r) k) as [o|] eqn:Ek; [|apply nth_error_None in Ek; lia]. destruct (Dk k o Ek) as (m & _ & Hm). exists m. exact Hm.
  - exists v8. split; [exact E8|]. apply (in_map fst) in H8. cbn [fst] in H8. revert H8. unfold doc_storage, names. destruct (i_mode r); cbn [map fst snd]; auto.
  - intros v Ev Hin. rewrite E9 in Ev. injection Ev as <-. destruct (c_rest (i_cut r)) as [[[[[mc fd] [[mt mm] an]] w] out]|] eqn:Er.
    + destruct a_cutrest0 as ((u1 & U1 & _) & (u2 & U2 & _) & I8 & I9 & I10 & D8 & U3). cbn [map In]. unfold present, has_int, has_dbl.
      split; [intros tag [<-|[<-|[<-|[]]]]; eauto|]. split; [intros tag [<-|[<-|[<-|[]]]]; eauto|eauto].
    + exfalso. rewrite a_cutrest0 in H9. destruct H9 as [H9|[H9 _]]; [|contradiction]. revert H9. unfold doc_cut, names. cbn [map fst snd In]. clear. intros H.
      repeat (destruct H as [H|H]; [discriminate H|]). exact H.
Qed.
End Proofs.

(** * every text: a value in use stands after its tag *)
Lemma skip_ws_split s : exists w, s = (w ++ skip_ws s)%list /\ blank w /\ match skip_ws s with [] => True | c :: _ => space c = false end.
Proof.
  induction s as [|c s (w & E & Hw & Hs)]; [exists []; repeat split; constructor|]. cbn [skip_ws]. destruct (space c) eqn:Ec.
  - exists (c :: w). split; [cbn; now rewrite <- E|]. split; [constructor; assumption|exact Hs].
  - exists []. split; [reflexivity|]. split; [constructor|exact Ec].
Qed.
Lemma word_split s : s = (fst (word s) ++ snd (word s))%list /\ Forall (fun c => space c = false) (fst (word s)).
Proof.
  induction s as [|c s [E H]]; [split; [reflexivity|constructor]|]. cbn [word]. destruct (space c) eqn:Ec; [split; [reflexivity|constructor]|].
  destruct (word s) as [w r]. cbn [fst snd] in *. split; [cbn; now rewrite <- E|constructor; assumption].
Qed.
Definition stands (text t v : list Z) : Prop := exists a w1 w2 b, text = (a ++ t ++ w1 ++ [61] ++ w2 ++ v ++ b)%list /\ blank w1 /\ blank w2.
Lemma scan_stands s t v r : scan_entry s = Some (t, v, r) -> (exists a, s = (a ++ r)%list) /\ (v = [] \/ stands s t v).
Proof.
  unfold scan_entry. destruct (skip_ws_split s) as (w & Es & Hw & _). destruct (skip_ws s) as [|c0 s1] eqn:E0; [discriminate|].
  pose proof (word_split (c0 :: s1)) as [E1 _]. destruct (word (c0 :: s1)) as [t0 r0]. cbn [fst snd] in E1.
  destruct (skip_ws_split r0) as (w1 & Er & Hw1 & _). destruct (skip_ws r0) as [|c r'] eqn:E2.
  - intros E. injection E as <- <- <-. split; [exists s; now rewrite app_nil_r|left; reflexivity].
  - destruct (Z.eqb_spec c 61) as [->|_].
    + destruct (skip_ws_split r') as (w2 & Er' & Hw2 & _). pose proof (word_split (skip_ws r')) as [E3 _]. destruct (word (skip_ws r')) as [v0 r3]. cbn [fst snd] in E3.
      intros E. injection E as <- <- <-.
      assert (Ea : s = (w ++ t0 ++ w1 ++ [61] ++ w2 ++ v0 ++ r3)%list) by (rewrite Es, E1, Er; do 3 f_equal; cbn [app]; f_equal; rewrite Er', E3; reflexivity).
      split.
      * exists (w ++ t0 ++ w1 ++ [61] ++ w2 ++ v0)%list. rewrite <- !app_assoc. exact Ea.
      * right. exists w, w1, w2, r3. auto.
    + intros E. injection E as <- <- <-. split; [|left; reflexivity]. exists (w ++ t0 ++ w1)%list. rewrite <- !app_assoc, <- Er, <- E1. exact Es.
Qed.
Lemma pack_stands text : forall fuel s tbl res, (exists a, text = (a ++ s)%list) -> (forall t v, In (t, v) tbl -> v = [] \/ stands text t v) ->
  pack_loop fuel tbl s = Some res -> forall t v, In (t, v) res -> v = [] \/ stands text t v.
Proof.
  induction fuel as [|fuel IH]; intros s tbl res [a Ha] Ht; cbn [pack_loop].
  - intros E. injection E as <-. exact Ht.
  - destruct (scan_entry s) as [[[t0 v0] r0]|] eqn:Es; [|intros E; injection E as <-; exact Ht].
    destruct (_ && _ && _); [|discriminate]. intros E. destruct (scan_stands _ _ _ _ Es) as [[a' Ha'] Hv].
    apply (IH r0 (tbl ++ [(t0, v0)])%list res); [exists (a ++ a')%list; rewrite <- app_assoc, <- Ha'; exact Ha| |exact E].
    intros t v Hin. apply in_app_iff in Hin. destruct Hin as [Hin|[Hin|[]]]; [now apply Ht|]. injection Hin as <- <-.
    destruct Hv as [->|(b & w1 & w2 & c & Eq & B1 & B2)]; [left; reflexivity|]. right. exists (a ++ b)%list, w1, w2, c. split; [|auto]. rewrite <- app_assoc, <- Eq. exact Ha.
Qed.
Lemma look_in L tag v : look L tag = Some v -> exists t, In (t, v) L /\ streq t tag = true.
Proof.
  induction L as [|[t w] L IH]; [discriminate|]. rewrite look_cons. cbn [fst snd]. destruct (streq t tag) eqn:E.
  - intros H. injection H as <-. exists t. split; [left; reflexivity|exact E].
  - intros H. destruct (IH H) as (t' & Hin & Hs). exists t'. split; [right; exact Hin|exact Hs].
Qed.
Lemma located text tbl tag v : clean text -> clean tag -> pack_inputs 0 text = Some tbl -> look tbl tag = Some v -> v = [] \/ stands text tag v.
Proof.
  intros Hc Ht Hp Hl. destruct (look_in _ _ _ Hl) as (t & Hin & Hs).
  assert (H0 : forall t v, In (t, v) (repeat ([], []) 1) -> v = [] \/ stands text t v).
  { intros t' v' [E|[]]. injection E as <- <-. left. reflexivity. }
  destruct (pack_stands text _ text _ tbl (ex_intro _ [] eq_refl) H0 Hp t v Hin) as [->|Hst]; [left; reflexivity|].
  right. assert (Hct : clean t).
  { destruct Hst as (a & w1 & w2 & b & E & _). rewrite E in Hc. unfold clean in *. rewrite !Forall_app in Hc. tauto. }
  apply streq_eq in Hs; [|assumption|assumption]. now subst.
Qed.
