(* C15, C16: NERSC headers and the integrity checks. *)
From Coq Require Import String QArith Qabs.
From Verif Require Import CInt Lib TextModel HdrModel NerscModel NerscProofs.
Open Scope Z_scope.

(* C15: a header written for configuration flow > 0 is read back, whatever was in Latt before, and the
   stream is left at the data.  The real numbers come back to single precision. *)
Theorem C15_round_trip_partial : forall single big NC dims flow tr plaq chksum details user date type flow0 dims0 data,
  0 <= NC < 2 ^ 31 -> (List.length dims <= 18)%nat -> Forall (fun d => 0 <= d < 2 ^ 64) dims -> 0 < flow < 2 ^ 64 ->
  (Qabs tr <= 2)%Q -> (Qabs plaq <= 2)%Q -> 0 <= chksum < 2 ^ 32 ->
  plain details -> plain user -> match date with Some d => plain d | None => True end -> List.length dims0 = List.length dims ->
  exists plaq' tr', (Qabs (plaq' - plaq) <= 1 # 4194304)%Q /\ (Qabs (tr' - tr) <= 1 # 4194304)%Q /\
    get_header_data_NERSC NC flow0 dims0 (write_header_NERSC single big NC dims flow tr plaq chksum details user date type ++ data)
    = NOk (Nersc flow dims (negb single) big (match type with OUTPUT_OTHER => OUTPUT_NCxNC | t => t end) chksum plaq' tr' data).
Proof.
  intros. pose proof (nersc_ok single big NC dims flow tr plaq chksum details user date type) as K.
  specialize (K ltac:(assumption) ltac:(assumption) ltac:(assumption) ltac:(unfold two64; lia) ltac:(assumption) ltac:(assumption) ltac:(assumption)
    ltac:(assumption) ltac:(assumption) ltac:(assumption) flow0 dims0 data ltac:(assumption)).
  destruct (Z.eqb_spec flow 0); [lia|]. exact K.
Qed.
Print Assumptions C15_round_trip_partial.
(* and then the checks on the same field succeed: all three values agree within the tolerances *)
Theorem C15_accepted : forall single NC h plaq tr chksum, (Qabs (n_plaquette h - plaq) <= 1 # 4194304)%Q -> (Qabs (n_trace h - tr) <= 1 # 4194304)%Q ->
  n_checksum h = chksum ->
  check_sums single NC NERSC_HEADER plaq tr chksum (HeadData (n_double h) (n_checksum h) (n_plaquette h) (n_trace h)) = true /\
  (Qabs (plaq - n_plaquette h) <= PLAQ_AND_TRACE_TOL)%Q /\ (Qabs (tr - n_trace h) <= PLAQ_AND_TRACE_TOL)%Q.
Proof.
  intros single NC h plaq tr chksum A B E. split.
  - unfold check_sums. cbn [h_checksum h_plaquette h_trace]. rewrite E, Z.eqb_refl. destruct (differ _ _ _), (differ _ _ _); reflexivity.
  - rewrite Qabs_Qminus in A, B. split; (eapply Qle_trans; [eassumption|]); unfold Qle, PLAQ_AND_TRACE_TOL; cbn; lia.
Qed.
Print Assumptions C15_accepted.
(* configuration number 0 (the number of a configuration made by a fresh run) is written, but such a file
   is never accepted *)
Theorem C15_number_zero_refuted : forall single big NC dims tr plaq chksum details user date type flow0 dims0 data,
  0 <= NC < 2 ^ 31 -> (List.length dims <= 18)%nat -> Forall (fun d => 0 <= d < 2 ^ 64) dims ->
  (Qabs tr <= 2)%Q -> (Qabs plaq <= 2)%Q -> 0 <= chksum < 2 ^ 32 ->
  plain details -> plain user -> match date with Some d => plain d | None => True end -> List.length dims0 = List.length dims ->
  get_header_data_NERSC NC flow0 dims0 (write_header_NERSC single big NC dims 0 tr plaq chksum details user date type ++ data) = NFail.
Proof.
  intros. pose proof (nersc_ok single big NC dims 0 tr plaq chksum details user date type) as K.
  specialize (K ltac:(assumption) ltac:(assumption) ltac:(assumption) ltac:(unfold two64; lia) ltac:(assumption) ltac:(assumption) ltac:(assumption)
    ltac:(assumption) ltac:(assumption) ltac:(assumption) flow0 dims0 data ltac:(assumption)). exact K.
Qed.
Print Assumptions C15_number_zero_refuted.

Lemma plain_str : forall s, forallb (fun c => negb (c =? 0) && negb (c =? 10)) (str s) = true -> (List.length (str s) <=? 100)%nat = true -> plain (str s).
Proof.
  intros s A B. split; [|apply Nat.leb_le; exact B]. apply Forall_forall. intros c Hc. rewrite forallb_forall in A. specialize (A c Hc).
  apply andb_true_iff in A. destruct A as [A1 A2]. destruct (Z.eqb_spec c 0), (Z.eqb_spec c 10); try discriminate. auto.
Qed.
Example C15_ex : get_header_data_NERSC 3 0 [1; 1; 1; 1]
    (write_header_NERSC false true 3 [24; 24; 24; 64] 1120 (-1 # 1234) (588123456 # 1000000000) (CInt.u32 (-5)) (str "quenched beta=6") (str "me") (Some (str "Mon Nov 16")) OUTPUT_SMALL ++ [1; 2; 3])
  = NOk (Nersc 1120 [24; 24; 24; 64] true true OUTPUT_SMALL 4294967291 (9867074 # 16777216)%Q (-13922098 # 17179869184)%Q [1; 2; 3]).
Proof. vm_compute. reflexivity. Qed.
Example C15_ex_plain : plain (str "quenched beta=6") /\ (Qabs (588123456 # 1000000000) <= 2)%Q.
Proof. split; [apply plain_str; reflexivity|unfold Qle; cbn; lia]. Qed.
(* a label with a line break, or more than about a hundred characters without a space, makes the reader use a null pointer *)
Theorem C15_label_refuted : exists details, get_header_data_NERSC 3 0 [1; 1; 1; 1]
    (write_header_NERSC false true 3 [4; 4; 4; 8] 7 0 1 5 details (str "me") None OUTPUT_SMALL) = NUndef.
Proof. exists (str "run" ++ nl ++ str "two"). vm_compute. reflexivity. Qed.
Print Assumptions C15_label_refuted.

(* C16 *)
Lemma differ_false : forall a b t, differ a b t = false <-> (Qabs (a - b) <= t)%Q.
Proof. intros. unfold differ. rewrite negb_false_iff. apply Qle_bool_iff. Qed.
Definition close (a b t : Q) : Prop := (Qabs (a - b) <= t)%Q.

(* what success means, for each kind of file *)
Theorem C16_accepted_partial : forall single NC head plaq tr chksum H, check_sums single NC head plaq tr chksum H = true <->
  match head with
  | MILC_HEADER | SCIDAC_HEADER | ILDG_SCIDAC_HEADER => chksum = h_checksum H
  | ILDG_BQCD_HEADER => chksum = h_checksum H /\ close plaq (h_plaquette H) (1 # 1000000)
  | HIREP_HEADER | CERN_HEADER => close plaq (h_plaquette H) (inject_Z NC * (if single then 1 # 100000 else 1 # 10000000000000))
  | NERSC_HEADER => chksum = h_checksum H \/ close plaq (h_plaquette H) (1 # 1000000) \/ close tr (h_trace H) (1 # 1000000)
  | UNSUPPORTED => False
  | JLQCD_HEADER | LIME_HEADER | RANDOM_CONFIG | UNIT_GAUGE | INSTANTON => True
  end.
Proof.
  intros single NC head plaq tr chksum H. unfold close. destruct head; cbn [check_sums]; try apply Z.eqb_eq; try (split; intro; [exact I|reflexivity]).
  - split; [discriminate|tauto].
  - fold PLAQ_AND_TRACE_TOL. rewrite <- !differ_false. destruct (Z.eqb_spec chksum (h_checksum H)), (differ _ _ _), (differ _ _ _); cbn; intuition discriminate.
  - rewrite negb_true_iff, differ_false. unfold PREC_TOL. setoid_replace (10 * (if single then inject_Z NC * (1 # 1000000) else inject_Z NC * (1 # 100000000000000)))%Q
      with (inject_Z NC * (if single then 1 # 100000 else 1 # 10000000000000))%Q; [tauto|]. destruct single; ring.
  - rewrite (Qabs_Qminus plaq). rewrite <- differ_false. replace (if h_double H then PLAQ_AND_TRACE_TOL else 1 # 1000000) with (1 # 1000000)%Q by (destruct (h_double H); reflexivity).
    destruct (differ _ _ _); [split; [discriminate|intros [_ ?]; discriminate]|]. rewrite Z.eqb_eq. tauto.
  - rewrite negb_true_iff, differ_false. unfold PREC_TOL. setoid_replace (10 * (if single then inject_Z NC * (1 # 1000000) else inject_Z NC * (1 # 100000000000000)))%Q
      with (inject_Z NC * (if single then 1 # 100000 else 1 # 10000000000000))%Q; [tauto|]. destruct single; ring.
Qed.
Print Assumptions C16_accepted_partial.
(* so a NERSC file whose checksum and plaquette are both wrong is accepted *)
Theorem C16_NERSC_refuted : exists plaq tr chksum H, check_sums false 3 NERSC_HEADER plaq tr chksum H = true /\
  chksum <> h_checksum H /\ ~ close plaq (h_plaquette H) (1 # 1000).
Proof.
  exists (1 # 2)%Q, (1 # 100)%Q, 5, (HeadData true 6 (6 # 10) (1 # 100)). split; [reflexivity|]. split; [discriminate|].
  unfold close, Qle. cbn. lia.
Qed.
Print Assumptions C16_NERSC_refuted.
Theorem C16_checksum_refuted : exists head plaq tr chksum H, head <> NERSC_HEADER /\ check_sums false 3 head plaq tr chksum H = true /\
  chksum <> h_checksum H /\ ~ close tr (h_trace H) (1 # 1000).
Proof.
  exists CERN_HEADER, (1 # 2)%Q, (1 # 100)%Q, 5, (HeadData true 6 (1 # 2) (2 # 100)). split; [discriminate|]. split; [reflexivity|]. split; [discriminate|].
  unfold close, Qle. cbn. lia.
Qed.
Print Assumptions C16_checksum_refuted.
Example C16_ex : check_sums false 3 ILDG_BQCD_HEADER (1 # 2) 0 77 (HeadData true 77 (1 # 2) 0) = true /\
                 check_sums false 3 ILDG_BQCD_HEADER (1 # 2) 0 77 (HeadData true 78 (1 # 2) 0) = false /\
                 check_sums false 3 NERSC_HEADER (1 # 2) 0 77 (HeadData true 78 (1 # 3) 1) = false.
Proof. repeat split; vm_compute; reflexivity. Qed.
