(** C76: topological measurements between smearings *)
From Coq Require Import Lia.
From Verif Require Import CInt StepsModel.
Import ListNotations.
Local Open Scope Z_scope.

(** * Specification *)
(** the field after k smearings *)
Fixpoint smeared {L} (smear : L -> L) (k : nat) (lat : L) : L := match k with O => lat | S k => smear (smeared smear k lat) end.
(** the first measurement: only the susceptibility is measured before the first smearing *)
Definition first_of (k : kind) : nat := match k with Susceptibility => 0 | _ => 1 end.

Lemma smeared_S L (smear : L -> L) k lat : smeared smear k (smear lat) = smeared smear (S k) lat.
Proof. induction k as [|k IH]; [reflexivity|]. cbn [smeared] in *. now rewrite IH. Qed.
Lemma loop_ok L M smear (measure : kind -> L -> nat -> option M) k v : forall n m lat done,
  (forall j, (j < n)%nat -> measure k (smeared smear (S j) lat) (m + j)%nat = Some (v (m + j)%nat)) ->
  measurements L M smear measure k n m lat done = (true, smeared smear n lat, done ++ map (fun j => (j, v j)) (seq m n)).
Proof.
  induction n as [|n IH]; intros m lat done H; cbn [measurements]; [now rewrite app_nil_r|].
  pose proof (H 0%nat ltac:(lia)) as H0. rewrite Nat.add_0_r in H0. cbn [smeared] in H0. rewrite H0. rewrite IH.
  - rewrite smeared_S. cbn [seq map]. now rewrite <- app_assoc.
  - intros j Hj. rewrite smeared_S. replace (S m + j)%nat with (m + S j)%nat by lia. apply H. lia.
Qed.
Lemma loop_fails L M smear (measure : kind -> L -> nat -> option M) k v : forall j n m lat done, (j < n)%nat ->
  (forall i, (i < j)%nat -> measure k (smeared smear (S i) lat) (m + i)%nat = Some (v (m + i)%nat)) -> measure k (smeared smear (S j) lat) (m + j)%nat = None ->
  measurements L M smear measure k n m lat done = (false, smeared smear (S j) lat, done ++ map (fun j => (j, v j)) (seq m j)).
Proof.
  induction j as [|j IH]; intros n m lat done Hn H N; (destruct n as [|n]; [lia|]); cbn [measurements].
  - rewrite Nat.add_0_r in N. cbn [smeared] in N. rewrite N. cbn [seq map smeared]. now rewrite app_nil_r.
  - pose proof (H 0%nat ltac:(lia)) as H0. rewrite Nat.add_0_r in H0. cbn [smeared] in H0. rewrite H0. rewrite IH.
    + rewrite smeared_S. cbn [seq map]. now rewrite <- app_assoc.
    + lia.
    + intros i Hi. rewrite smeared_S. replace (S m + i)%nat with (m + S i)%nat by lia. apply H. lia.
    + rewrite smeared_S. replace (S m + j)%nat with (m + S j)%nat by lia. exact N.
Qed.
Lemma entries M (v : nat -> M) t n : (t < n)%nat -> entry_of M (map (fun j => (j, v j)) (seq 1 n)) t = Some (v (S t)).
Proof.
  intro H. unfold entry_of. assert (E : forall n m, (m <= S t < m + n)%nat -> find (fun p => Nat.eqb (fst p) (t + 1)) (map (fun j => (j, v j)) (seq m n)) = Some (S t, v (S t))).
  { clear. induction n as [|n IH]; intros m Hm; [lia|]. cbn [seq map find fst]. destruct (Nat.eqb_spec m (t + 1)) as [->|N]; [now replace (t + 1)%nat with (S t) by lia|]. apply IH. lia. }
  rewrite E by lia. reflexivity.
Qed.

(** All measurements succeed: the number k is that of the field after k smearings, k up to max_t - 1, beginning with 0 for the
    susceptibility and with 1 else; the moments written are those measured.  Missing: max_t measurements, as announced, for
    all kinds, see C76_count_refuted. *)
Theorem C76_measurements_partial : forall L M smear (measure : kind -> L -> nat -> option M) k max_t lat v, 1 <= max_t < two64 ->
  (forall j, (first_of k <= j < Z.to_nat max_t)%nat -> measure k (smeared smear j lat) j = Some (v j)) ->
  exists o, compute_Qsusc_step L M smear measure k max_t lat = Some o /\ flag _ _ o = true /\ field _ _ o = smeared smear (Z.to_nat max_t - 1) lat /\
  made _ _ o = map (fun j => (j, v j)) (seq (first_of k) (Z.to_nat max_t - first_of k)) /\
  (k = Moments -> written _ _ o = map (fun j => Some (v j)) (seq 1 (Z.to_nat max_t - 1))).
Proof.
  intros L M smear measure k max_t lat v Hm H. set (n := (Z.to_nat max_t - 1)%nat).
  assert (Hl : forall done, measurements L M smear measure k n 1 lat done = (true, smeared smear n lat, done ++ map (fun j => (j, v j)) (seq 1 n))).
  { intro done. apply loop_ok. intros j Hj. apply H. unfold n in Hj. destruct k; cbn [first_of]; lia. }
  unfold compute_Qsusc_step. fold n. destruct k; cbn [first_of] in *.
  - pose proof (H 0%nat ltac:(lia)) as H0. cbn [smeared] in H0. rewrite H0, Hl. eexists. split; [reflexivity|]. cbn [flag field made written]. repeat split; [|discriminate].
    replace (Z.to_nat max_t - 0)%nat with (S n) by (unfold n; lia). reflexivity.
  - rewrite Hl. eexists. split; [reflexivity|]. repeat split. discriminate.
  - assert (U : u64 (max_t - 1) = max_t - 1) by (unfold u64; apply Z.mod_small; lia). rewrite U. destruct (Z.eqb_spec (max_t - 1) (two64 - 1)); [lia|]. rewrite Hl. eexists. split; [reflexivity|]. repeat split. intros _. cbn [written app].
    replace (Z.to_nat (max_t - 1)) with n by (unfold n; lia). transitivity (map (fun t => Some (v (S t))) (seq 0 n)); [|rewrite <- (map_map S (fun j => Some (v j))), seq_shift; reflexivity]. apply map_ext_in. intros t Ht. apply in_seq in Ht. apply entries. lia.
Qed.
Print Assumptions C76_measurements_partial.

(** The first measurement that fails ends the run, which fails; those before it have been made. *)
Theorem C76_failure : forall L M smear (measure : kind -> L -> nat -> option M) k max_t lat v f, 1 <= max_t < two64 -> (first_of k <= f < Z.to_nat max_t)%nat ->
  (forall j, (first_of k <= j < f)%nat -> measure k (smeared smear j lat) j = Some (v j)) -> measure k (smeared smear f lat) f = None ->
  exists o, compute_Qsusc_step L M smear measure k max_t lat = Some o /\ flag _ _ o = false /\ field _ _ o = smeared smear f lat /\
  made _ _ o = map (fun j => (j, v j)) (seq (first_of k) (f - first_of k)).
Proof.
  intros L M smear measure k max_t lat v f Hm Hf H N. set (n := (Z.to_nat max_t - 1)%nat).
  assert (Hl : forall done, (1 <= f)%nat -> measurements L M smear measure k n 1 lat done = (false, smeared smear f lat, done ++ map (fun j => (j, v j)) (seq 1 (f - 1)))).
  { intros done F. replace f with (S (f - 1)) at 1 by lia. apply (loop_fails L M smear measure k v (f - 1)); [unfold n; lia| |].
    - intros i Hi. apply H. destruct k; cbn [first_of]; lia.
    - replace (S (f - 1)) with f by lia. replace (1 + (f - 1))%nat with f by lia. exact N. }
  unfold compute_Qsusc_step. fold n. destruct k; cbn [first_of] in *.
  - destruct f as [|f]; [cbn [smeared] in N; rewrite N; eexists; split; [reflexivity|]; repeat split|].
    pose proof (H 0%nat ltac:(lia)) as H0. cbn [smeared] in H0. rewrite H0, Hl by lia. eexists. split; [reflexivity|]. cbn [flag field made]. repeat split. rewrite Nat.sub_0_r. replace (S f - 1)%nat with f by lia. reflexivity.
  - rewrite Hl by lia. eexists. split; [reflexivity|]. repeat split.
  - assert (U : u64 (max_t - 1) = max_t - 1) by (unfold u64; apply Z.mod_small; lia). rewrite U. destruct (Z.eqb_spec (max_t - 1) (two64 - 1)); [lia|]. rewrite Hl by lia. eexists. split; [reflexivity|]. repeat split.
Qed.
Print Assumptions C76_failure.

(** "performing 1 measurements" of the correlator makes none and succeeds; 0 measurements of the moments are undefined, of
    the susceptibility one. *)
Theorem C76_count_refuted : exists L M smear (measure : kind -> L -> nat -> option M) lat, (forall k l j, exists x, measure k l j = Some x) /\
  (exists o, compute_Qsusc_step L M smear measure Correlator 1 lat = Some o /\ flag _ _ o = true /\ made _ _ o = []) /\
  (exists o, compute_Qsusc_step L M smear measure Susceptibility 0 lat = Some o /\ flag _ _ o = true /\ length (made _ _ o) = 1%nat) /\
  compute_Qsusc_step L M smear measure Moments 0 lat = None.
Proof.
  exists nat, nat, S, (fun _ l _ => Some l), 0%nat. split; [eauto|]. split; [eexists; split; [reflexivity|]; split; reflexivity|]. split; [eexists; split; [reflexivity|]; split; reflexivity|]. reflexivity.
Qed.
Print Assumptions C76_count_refuted.

(** * Cases meeting the hypotheses: fields are numbers, smearing halves them, the second measurement fails in the second case *)
Example C76_measurements_case : compute_Qsusc_step Z Z (fun l => l / 2) (fun _ l _ => Some l) Moments 4 100 = Some (mkOutcome _ _ true 12 [(1%nat, 50); (2%nat, 25); (3%nat, 12)] [Some 50; Some 25; Some 12]).
Proof. reflexivity. Qed.
Example C76_failure_case : compute_Qsusc_step Z Z (fun l => l / 2) (fun _ l j => if Nat.eqb j 2 then None else Some l) Susceptibility 4 100 = Some (mkOutcome _ _ false 25 [(0%nat, 100); (1%nat, 50)] []).
Proof. reflexivity. Qed.
