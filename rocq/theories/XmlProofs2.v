From Coq Require Import String.
From Verif Require Import CInt Lib GeomProofs LimeModel LimeSpec LimeProofs TextModel TextProofs InputModel XmlModel XmlProofs.

Local Open Scope string_scope.
Local Open Scope Z_scope.

Definition tags : list (list Z) :=
  [str "/scidacRecord"; str "/scidacFile"; str "/ildgFormat"; str "spacetime"; str "colors"; str "typesize"; str "precision"; str "dims";
   str "suma"; str "field"].
Definition geo (t : list Z) : bool := match t with [c; _] => c =? 108 | _ => false end.
Definition other (t : list Z) : bool := negb (existsb (eqs t) tags) && negb (geo t).

Lemma search_geo ND mu : (mu < ND)%nat -> (ND < 12)%nat -> geo (search ND mu) = true.
Proof.
  intros H1 H2. assert (G : forallb (fun n => forallb (fun k => geo (search n k)) (seq 0 n)) (seq 0 12) = true) by (vm_compute; reflexivity).
  rewrite forallb_forall in G. specialize (G ND ltac:(apply in_seq; lia)). rewrite forallb_forall in G. apply G. apply in_seq. lia.
Qed.
Lemma geometry_other ND t mus m ts : (ND < 12)%nat -> Forall (fun k => (k < ND)%nat) mus -> geo t = false -> geometry ND t mus m ts = Some (m, ts).
Proof.
  intros HN F G. induction F as [|k mus Hk F IH]; [reflexivity|]. cbn [geometry]. destruct (eqs t (search ND k)) eqn:E; [|assumption].
  apply eqs_eq in E. subst t. rewrite search_geo in G by assumption. discriminate.
Qed.
Lemma seq_lt ND : Forall (fun k => (k < ND)%nat) (seq 0 ND).
Proof. apply Forall_forall. intros k H. apply in_seq in H. lia. Qed.

Section L.
Variables (NC : Z) (ND : nat).
Hypothesis HND : (1 <= ND < 12)%nat.

Lemma xml_other f m t ts : other t = true -> xml_loop (S f) NC ND m (t :: ts) = xml_loop f NC ND m ts.
Proof.
  intros H. unfold other in H. apply andb_true_iff in H. destruct H as [H G]. apply negb_true_iff in H, G.
  unfold tags in H. cbn [existsb] in H. repeat (apply orb_false_iff in H; let E := fresh "E" in destruct H as [E H]).
  cbn [xml_loop]. rewrite E, E0, E1, E2, E3, E4, E5, E6, E7, E8. cbn [orb].
  rewrite geometry_other by (try apply seq_lt; try assumption; lia). reflexivity.
Qed.
Lemma xml_end f m t ts : t = str "/scidacRecord" \/ t = str "/scidacFile" \/ t = str "/ildgFormat" -> xml_loop (S f) NC ND m (t :: ts) = XOk m.
Proof. intros [->|[->| ->]]; reflexivity. Qed.
Lemma xml_spacetime f m v ts : 0 < v < two31 ->
  xml_loop (S f) NC ND m (str "spacetime" :: dec v :: str "/spacetime" :: ts) = if v =? Z.of_nat ND then xml_loop f NC ND m ts else XFail m.
Proof.
  intros H. cbn [xml_loop]. change (str "/spacetime") with (47 :: str "spacetime"). rewrite get_int_dec by lia.
  change (eqs (str "spacetime") _) with false at 1. change (eqs (str "spacetime") (str "/scidacFile")) with false.
  change (eqs (str "spacetime") (str "/ildgFormat")) with false. change (eqs (str "spacetime") (str "spacetime")) with true. cbn [orb].
  destruct (Z.eqb_spec v 0); [lia|]. destruct (v =? Z.of_nat ND); reflexivity.
Qed.
Lemma xml_colors f m v ts : 0 < v < two31 ->
  xml_loop (S f) NC ND m (str "colors" :: dec v :: str "/colors" :: ts) = if v =? NC then xml_loop f NC ND m ts else XFail m.
Proof.
  intros H. unfold xml_loop; fold xml_loop. change (str "/colors") with (47 :: str "colors"). rewrite get_int_dec by lia.
  change (eqs (str "colors") (str "/scidacRecord")) with false. change (eqs (str "colors") (str "/scidacFile")) with false.
  change (eqs (str "colors") (str "/ildgFormat")) with false. change (eqs (str "colors") (str "spacetime")) with false.
  change (eqs (str "colors") (str "colors")) with true. cbn [orb].
  destruct (Z.eqb_spec v 0); [lia|]. destruct (v =? NC); reflexivity.
Qed.
Lemma xml_typesize f m v ts : 0 < v < two31 ->
  xml_loop (S f) NC ND m (str "typesize" :: dec v :: str "/typesize" :: ts) =
  if v =? 2 * Z.of_nat ND * (NC * NC) then xml_loop f NC ND (with_prec (with_type m OUTPUT_NCxNC) FLOAT_PREC) ts
  else if v =? 4 * Z.of_nat ND * (NC * NC) then xml_loop f NC ND (with_prec (with_type m OUTPUT_NCxNC) DOUBLE_PREC) ts
  else XFail (with_type m OUTPUT_NCxNC).
Proof.
  intros H. unfold xml_loop; fold xml_loop. change (str "/typesize") with (47 :: str "typesize"). rewrite get_int_dec by lia.
  change (eqs (str "typesize") (str "/scidacRecord")) with false. change (eqs (str "typesize") (str "/scidacFile")) with false.
  change (eqs (str "typesize") (str "/ildgFormat")) with false. change (eqs (str "typesize") (str "spacetime")) with false.
  change (eqs (str "typesize") (str "colors")) with false. change (eqs (str "typesize") (str "typesize")) with true. cbn [orb].
  destruct (Z.eqb_spec v 0); [lia|]. reflexivity.
Qed.
Lemma xml_precision f m p ts : p = str "F" \/ p = str "D" \/ p = str "32" \/ p = str "64" ->
  xml_loop (S f) NC ND m (str "precision" :: p :: str "/precision" :: ts) =
  xml_loop f NC ND (with_prec m (if eqs p (str "F") || eqs p (str "32") then FLOAT_PREC else DOUBLE_PREC)) ts.
Proof. intros [->|[->|[->| ->]]]; reflexivity. Qed.
Lemma xml_dims f m dims ts : length dims = ND -> length (m_dims m) = ND -> Forall (fun d => 0 <= d < two63) dims ->
  xml_loop (S f) NC ND m (str "dims" :: dims_text dims :: ts) = XOk (with_dims m dims).
Proof.
  intros L1 L2 F. destruct (dims_read (m_dims m) dims) as (w & r & E1 & E2); [destruct dims; [cbn in L1; lia|congruence]|congruence|assumption|].
  unfold xml_loop; fold xml_loop. 
  change (eqs (str "dims") (str "/scidacRecord")) with false. change (eqs (str "dims") (str "/scidacFile")) with false.
  change (eqs (str "dims") (str "/ildgFormat")) with false. change (eqs (str "dims") (str "spacetime")) with false.
  change (eqs (str "dims") (str "colors")) with false. change (eqs (str "dims") (str "typesize")) with false.
  change (eqs (str "dims") (str "precision")) with false. change (eqs (str "dims") (str "dims")) with true. cbn [orb].
  rewrite E1, E2. destruct f; reflexivity.
Qed.
Lemma xml_suma f m s ts : 0 <= s < two32 ->
  xml_loop (S f) NC ND m (str "suma" :: hex s :: str "/suma" :: ts) = xml_loop f NC ND (with_sum m s) ts.
Proof.
  intros H. unfold xml_loop; fold xml_loop.
  change (eqs (str "suma") (str "/scidacRecord")) with false. change (eqs (str "suma") (str "/scidacFile")) with false.
  change (eqs (str "suma") (str "/ildgFormat")) with false. change (eqs (str "suma") (str "spacetime")) with false.
  change (eqs (str "suma") (str "colors")) with false. change (eqs (str "suma") (str "typesize")) with false.
  change (eqs (str "suma") (str "precision")) with false. change (eqs (str "suma") (str "dims")) with false.
  change (eqs (str "suma") (str "suma")) with true. cbn [orb suma_loop].
  assert (Hs : eqs (hex s) (str "/suma") = false).
  { pose proof (hex_codes s ltac:(lia)) as F. pose proof (hex_nonempty s). destruct (hex s) as [|c l]; [congruence|].
    inversion F as [|? ? Hc F']; subst. change (str "/suma") with (47 :: str "suma"). cbn [eqs]. destruct (Z.eqb_spec c 47); [lia|reflexivity]. }
  rewrite Hs, scan_x_hex0 by assumption. cbn [bindo suma_loop]. change (eqs (str "/suma") (str "/suma")) with true. reflexivity.
Qed.
Lemma xml_geo f m mu v ts : (ND <= 4)%nat -> (mu < ND)%nat -> 0 < v < two31 -> length (m_dims m) = ND ->
  exists d, set_nth (m_dims m) mu v = Some d /\
  xml_loop (S f) NC ND m (search ND mu :: dec v :: (47 :: search ND mu) :: ts) = xml_loop f NC ND (with_dims m d) ts.
Proof.
  intros H4 Hmu Hv L. destruct (setn_spec (m_dims m) mu v ltac:(lia)) as (d & E & _). exists d. split; [exact E|].
  assert (U : u64 v = v) by (apply u64_id; unfold two31, two64 in *; lia).
  assert (G : geometry ND (search ND mu) (seq 0 ND) m (dec v :: (47 :: search ND mu) :: ts) = Some (with_dims m d, ts)).
  { assert (Cases : (ND = 1 \/ ND = 2 \/ ND = 3 \/ ND = 4)%nat) by lia.
    destruct Cases as [N|[N|[N|N]]]; rewrite N in *.
    all: repeat (destruct mu as [|mu]; [| try lia]); try lia.
    all: cbn [seq geometry].
    all: repeat match goal with |- context[eqs (search ?a ?b) (search ?c ?d)] => 
           let r := eval vm_compute in (eqs (search a b) (search c d)) in change (eqs (search a b) (search c d)) with r; cbv iota end.
    all: rewrite get_int_dec by lia; destruct (Z.eqb_spec v 0) as [Z0|Z0]; [lia|]; rewrite U, E; cbn [bindo geometry].
    all: repeat match goal with |- context[eqs (search ?a ?b) (search ?c ?d)] => 
           let r := eval vm_compute in (eqs (search a b) (search c d)) in change (eqs (search a b) (search c d)) with r; cbv iota end.
    all: reflexivity. }
  assert (T : existsb (eqs (search ND mu)) tags = false).
  { assert (B : forallb (fun n => forallb (fun k => negb (existsb (eqs (search n k)) tags)) (seq 0 n)) (seq 0 12) = true) by (vm_compute; reflexivity).
    rewrite forallb_forall in B. specialize (B ND ltac:(apply in_seq; lia)). rewrite forallb_forall in B.
    specialize (B mu ltac:(apply in_seq; lia)). now apply negb_true_iff in B. }
  unfold tags in T. cbn [existsb] in T. repeat (apply orb_false_iff in T; let E := fresh "E" in destruct T as [E T]).
  unfold xml_loop; fold xml_loop. rewrite E0, E1, E2, E3, E4, E5, E6, E7, E8, E9. cbn [orb]. rewrite G. reflexivity.
Qed.
Lemma xml_field f m ts : 0 < NC < 100 ->
  xml_loop (S f) NC ND m (str "field" :: str "su3gauge" :: str "/field" :: ts) =
  if NC =? 3 then xml_loop f NC ND (with_type m OUTPUT_NCxNC) ts else XFail m.
Proof.
  intros H. unfold xml_loop; fold xml_loop.
  change (eqs (str "field") (str "/scidacRecord")) with false. change (eqs (str "field") (str "/scidacFile")) with false.
  change (eqs (str "field") (str "/ildgFormat")) with false. change (eqs (str "field") (str "spacetime")) with false.
  change (eqs (str "field") (str "colors")) with false. change (eqs (str "field") (str "typesize")) with false.
  change (eqs (str "field") (str "precision")) with false. change (eqs (str "field") (str "dims")) with false.
  change (eqs (str "field") (str "suma")) with false. change (eqs (str "field") (str "field")) with true. cbn [orb].
  rewrite geometry_other by (try apply seq_lt; try reflexivity; lia). cbv iota.
  destruct (Z.leb_spec 100 NC); [lia|]. cbn [field_loop].
  change (eqs (str "su3gauge") (str "/field")) with false. change (eqs (str "/field") (str "/field")) with true.
  assert (P : prefix (firstn 8 (gauge_name NC)) (realFront (str "su3gauge")) = (NC =? 3)).
  { assert (B : forallb (fun k => Bool.eqb (prefix (firstn 8 (gauge_name (Z.of_nat k))) (realFront (str "su3gauge"))) (Z.of_nat k =? 3)) (seq 1 99) = true)
      by (vm_compute; reflexivity).
    rewrite forallb_forall in B. specialize (B (Z.to_nat NC) ltac:(apply in_seq; lia)). rewrite Z2Nat.id in B by lia. now apply Bool.eqb_prop in B. }
  rewrite P. destruct (NC =? 3); reflexivity.
Qed.
End L.
