(** C11, the values: a site written in one of the three layouts and read back. *)
From Coq Require Import PeanoNat Lia List Reals Lra.
From Verif Require Import CMat Det Arr MatSpec MatModel MatProofs MatEx GramModel GramProofs ProjModel ProjProofs RebuildModel RebuildProofs.
Import ListNotations.
Local Open Scope C_scope.

(** What the writer lays down for a site: ND blocks, one for each direction, each holding
    real and imaginary part of the entries in row order (or the numbers of [shorten]);
    nothing behind them is touched, and the scratch array plays no role. *)
Theorem C11_site_layout : forall ND n l tmp O chunk, (2 <= n)%nat -> (l = SMALL -> (n < 4)%nat) ->
  exists ch, grab_sitedata ND n l tmp O chunk = Some ch /\
    (l <> SMALL -> forall mu i c, (mu < ND)%nat -> (c < n)%nat -> (i < match l with GAUGE => n - 1 | _ => n end)%nat ->
       (ch (2*(c + n*i) + LOOP_VAR n l * mu)%nat, ch (2*(c + n*i) + 1 + LOOP_VAR n l * mu)%nat) = mx n (O mu) i c) /\
    (l = SMALL -> forall mu j, (mu < ND)%nat -> (j < n*n - 1)%nat -> ch (j + (n*n - 1) * mu)%nat = shorten n (fun _ => 0%R) (O mu) j) /\
    (forall k, (ND * LOOP_VAR n l <= k)%nat -> ch k = chunk k).
Proof.
  intros ND n l tmp O chunk Hn Hs. destruct (grab_sitedata_ok ND n l tmp O chunk Hn Hs) as (ch & E & H & F).
  exists ch. split; [exact E|]. split; [|split; [|exact F]].
  - intros N mu i c Hmu Hc Hi.
    rewrite !H; try assumption; [exact (stored_pair n l (O mu) (c + n*i)%nat N)| |]; destruct l; cbn [LOOP_VAR]; try congruence; nia.
  - intros -> mu j Hmu Hj. exact (H mu j Hmu Hj).
Qed.
Print Assumptions C11_site_layout.

(** The round trip through a buffer that holds the site's block at its place: every
    matrix in the full layout, every group element in the truncated one, every group
    element outside the degenerate set in the minimal one. *)
Theorem C11_site_roundtrip : forall ND n l tmp O chunk ch p i u0 O0, (2 <= n)%nat ->
  (forall mu, (mu < ND)%nat -> match l with
     | NCxNC => True
     | GAUGE => SUn n (mx n (O mu))
     | SMALL => SUn n (mx n (O mu)) /\ (n < 4)%nat /\ (n = 3%nat -> (/ 2 ^ 1022 <= norm2 (O mu 1%nat) + norm2 (O mu 2%nat))%R)
     end) ->
  grab_sitedata ND n l tmp O chunk = Some ch ->
  (forall k, (k < ND * LOOP_VAR n l)%nat -> p (ND * LOOP_VAR n l * i + k)%nat = ch k) ->
  exists O1, read_site ND n l p i u0 O0 = Some O1 /\
    (forall mu, (mu < ND)%nat -> holds n (O1 mu) (O0 mu) (mx n (O mu))) /\
    (forall mu, (ND <= mu)%nat -> O1 mu = O0 mu).
Proof.
  intros ND n l tmp O chunk ch p i u0 O0 Hn S E Hp.
  apply read_site_ok; [assumption|exact S|].
  intros mu j Hmu Hj.
  assert (Hs : l = SMALL -> (n < 4)%nat) by (intros ->; exact (proj1 (proj2 (S mu Hmu)))).
  destruct (grab_sitedata_ok ND n l tmp O chunk Hn Hs) as (ch' & E' & H & _). rewrite E in E'. injection E' as <-.
  rewrite Hp by nia. now apply H.
Qed.
Print Assumptions C11_site_roundtrip.

(** The truncated layout for any matrix with orthonormal leading rows: what comes back is
    the group element with these rows, and it is the matrix written exactly if that was
    in the group. *)
Theorem C11_top_rows : forall n old u U, (2 <= n)%nat ->
  (forall i c, (i < n-1)%nat -> (c < n)%nat -> (u (2*(c + n*i))%nat, u (2*(c + n*i) + 1)%nat) = mx n U i c) ->
  (forall i j, (i < n-1)%nat -> (j < n-1)%nat -> csum n (fun c => mx n U i c * conj (mx n U j c)) = mid i j) ->
  exists V, rebuild_lat n old u GAUGE = Some V /\ SUn n (mx n V) /\
    (forall i c, (i < n-1)%nat -> (c < n)%nat -> mx n V i c = mx n U i c) /\
    (meq n (mx n V) (mx n U) <-> SUn n (mx n U)).
Proof.
  intros n old u U Hn Hu Ho. eexists. split; [reflexivity|].
  assert (K : forall j, (j < 2*(n-1)*n)%nat -> u j = stored n GAUGE U j).
  { intros j Hj. pose proof (Nat.div_mod_eq j 2) as E. pose proof (Nat.mod_upper_bound j 2 ltac:(lia)) as B.
    set (x := (j/2)%nat) in *. set (r := (j mod 2)%nat) in *.
    assert (Hx : (x < (n-1)*n)%nat) by nia.
    pose proof (Nat.div_mod_eq x n) as Ex. pose proof (Nat.mod_upper_bound x n ltac:(lia)) as Bx.
    specialize (Hu (x/n) (x mod n) ltac:(apply Nat.div_lt_upper_bound; nia) Bx)%nat.
    unfold mx in Hu. replace (x mod n + n * (x / n))%nat with x in Hu by lia.
    pose proof (stored_pair n GAUGE U x ltac:(discriminate)) as Sp. rewrite <- Sp in Hu. injection Hu as H0 H1.
    destruct r as [|[|r]]; [| |lia]; [replace j with (2*x)%nat by lia|replace j with (2*x+1)%nat by lia]; assumption. }
  destruct (complete_top_group n old u U Hn K Ho) as [G E].
  split; [exact G|]. split; [exact E|]. now apply complete_top_restores.
Qed.
Print Assumptions C11_top_rows.

(** The minimal layout for SU(3): back comes the link, or the identity. *)
Theorem C11_small_exactly : forall old u U, SUn 3 (mx 3 U) -> (forall j, (j < 8)%nat -> u j = shorten 3 (fun _ => 0%R) U j) ->
  exists V, rebuild_lat 3 old u SMALL = Some V /\
    (meq 3 (mx 3 V) (mx 3 U) <-> (/ 2 ^ 1022 <= norm2 (U 1%nat) + norm2 (U 2%nat))%R \/ meq 3 (mx 3 U) mid) /\
    ((norm2 (U 1%nat) + norm2 (U 2%nat) < / 2 ^ 1022)%R -> meq 3 (mx 3 V) mid).
Proof.
  intros old u U G Hu. exists (exhume_O 3 old u). split; [reflexivity|].
  assert (A : (/ 2 ^ 1022 <= norm2 (U 1%nat) + norm2 (U 2%nat))%R -> meq 3 (mx 3 (exhume_O 3 old u)) (mx 3 U)).
  { intro D. apply exhume_ok; [lia|exact Hu|exact G|]. intros _. exact D. }
  assert (B : (norm2 (U 1%nat) + norm2 (U 2%nat) < / 2 ^ 1022)%R -> meq 3 (mx 3 (exhume_O 3 old u)) mid).
  { intro D. apply (exhume_degenerate old u U Hu D). }
  split; [|exact B]. destruct (Rle_lt_dec (/ 2 ^ 1022) (norm2 (U 1%nat) + norm2 (U 2%nat))) as [L|L].
  - split; auto.
  - split; [intro H; right; rewrite <- H; auto|]. intros [K|K]; [now apply A|]. rewrite K. auto.
Qed.
Print Assumptions C11_small_exactly.

(** so the minimal layout loses some fields: one direction, the link diag( i , -i , 1 ) *)
Theorem C11_small_refuted : exists O, (forall mu, SUn 3 (mx 3 (O mu))) /\
  forall tmp chunk u0 O0, exists ch O1, grab_sitedata 1 3 SMALL tmp O chunk = Some ch /\ read_site 1 3 SMALL ch 0 u0 O0 = Some O1 /\
    ~ meq 3 (mx 3 (O1 0%nat)) (mx 3 (O 0%nat)).
Proof.
  exists (fun _ => dg). split; [intros _; apply SUn_3; exact dg_su3|]. intros tmp chunk u0 O0.
  destruct (grab_sitedata_ok 1 3 SMALL tmp (fun _ => dg) chunk ltac:(lia) ltac:(intro; lia)) as (ch & E & H & _).
  exists ch. unfold read_site. cbn [for_].
  destruct (read_dir_ok 3 SMALL ch u0 (1 * LOOP_VAR 3 SMALL * 0)) as (u' & -> & Hu). cbn [rebuild_lat Nat.ltb Nat.leb].
  eexists. split; [exact E|]. split; [reflexivity|]. cbn [Nat.eqb].
  assert (K : forall j, (j < 8)%nat -> u' j = stored 3 SMALL dg j).
  { intros j Hj. rewrite Hu by exact Hj. rewrite <- (H 0%nat j ltac:(lia) Hj). f_equal. cbn. lia. }
  assert (D : (norm2 (dg 1%nat) + norm2 (dg 2%nat) < DBL_MIN)%R).
  { unfold dg, norm2, DBL_MIN. cunfold. ring_simplify. apply Rinv_0_lt_compat, pow_lt. lra. }
  destruct (exhume_degenerate (O0 0%nat) u' dg K D) as [X _]. rewrite X. intro Y.
  specialize (Y 0 0 ltac:(lia) ltac:(lia))%nat. apply (f_equal re) in Y. unfold mid, mx, dg in Y. cbn [Nat.eqb Nat.add Nat.mul] in Y. cunfold. lra.
Qed.
Print Assumptions C11_small_refuted.

(** and with four colours or more neither side handles it *)
Theorem C11_small_many_colours : forall ND n tmp O chunk p i u0 O0, (4 <= n)%nat -> (0 < ND)%nat ->
  grab_sitedata ND n SMALL tmp O chunk = None /\ read_site ND n SMALL p i u0 O0 = None.
Proof.
  intros ND n tmp O chunk p i u0 O0 Hn Hd. destruct ND as [|d]; [lia|]. clear Hd.
  unfold grab_sitedata, read_site. split.
  - assert (X : forall k, for_ (S k) (fun mu s => match s with None => None | Some s => grab_link n SMALL (tmp mu) (O mu) s end) (Some (chunk, 0%nat)) = None).
    { induction k as [|k IH]; [cbn [for_]; unfold grab_link; now rewrite (proj2 (Nat.ltb_ge n 4)) by assumption|].
      cbn [for_] in *. now rewrite IH. }
    now rewrite X.
  - match goal with |- context[for_ (S d) ?b ?s0] => assert (X : forall k, for_ (S k) b s0 = None) end.
    { induction k as [|k IH].
      - cbn [for_]. destruct (read_dir n SMALL p u0 _) as [u' t']. cbn [rebuild_lat]. now rewrite (proj2 (Nat.ltb_ge n 4)) by assumption.
      - cbn [for_] in *. now rewrite IH. }
    now rewrite X.
Qed.
Print Assumptions C11_small_many_colours.

(** a genuine SU(3) link meets the hypotheses in all three layouts *)
Example C11_site_ex : SUn 3 (mx 3 ex_su3) /\ (3 < 4)%nat /\ (/ 2 ^ 1022 <= norm2 (ex_su3 1%nat) + norm2 (ex_su3 2%nat))%R /\
  exists ch, grab_sitedata 4 3 SMALL (fun _ _ => 0%R) (fun _ => ex_su3) (fun _ => 0%R) = Some ch.
Proof.
  split; [apply SUn_3; exact ex_su3_ok|]. split; [lia|]. split.
  - replace (norm2 (ex_su3 1%nat) + norm2 (ex_su3 2%nat))%R with (/ 1)%R.
    + apply Rinv_le_contravar; [lra|]. apply pow_R1_Rle. lra.
    + unfold ex_su3, lst, norm2; cbn [nth]. cunfold. lra.
  - destruct (grab_sitedata_ok 4 3 SMALL (fun _ _ => 0%R) (fun _ => ex_su3) (fun _ => 0%R) ltac:(lia) ltac:(intro; lia)) as (ch & E & _). now exists ch.
Qed.
