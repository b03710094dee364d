(** Hypercubic smearing by recursion (HYsmearND). *)
From Coq Require Import PeanoNat List Reals Lia Lra Permutation Bool.
From Verif Require GeomModel GeomSpec.
From Verif Require Import CMat MatSpec MmulModel MmulProofs MatModel MatProofs MatProofs2 Det ProjProofs FieldModel FieldProofs FieldProofs2 ExpProofs2
  SmearModel SmearProofs SmearProofs2 Properties_Smear HypModel HypSpec HypProofs HypProofs2 HypProofs3.
Import ListNotations.
Local Open Scope nat_scope.

(** the recursion with the links themselves as level 0 *)
Section Uniform.
Variables (project : projection) (n : nat) (junk : nat -> arr) (geo : lattice) (sm : nat -> R).
Definition sub (lat : field arr) (D lev s : nat) (dirs : list nat) : option arr :=
  match lev with 0 => Some (lat s (last dirs 0)) | _ => recurse_staples project n junk geo 4 sm lat lev D s dirs end.
Definition ustep (lat : field arr) (D lev i : nat) (dirs : list nat) (jj : nat) (stap : arr) : option arr :=
  let rho := last dirs 0 in
  if is_orthogonal jj dirs then
    match sub lat D lev i (dirs ++ [jj]) with None => None | Some t1 =>
    match sub lat D lev (nbr (geo i) jj) (removelast dirs ++ [jj; rho]) with None => None | Some t2 =>
    match sub lat D lev (nbr (geo i) rho) (dirs ++ [jj]) with None => None | Some t3 =>
    match sub lat D lev (bck (geo i) jj) (dirs ++ [jj]) with None => None | Some t4 =>
    match sub lat D lev (bck (geo i) jj) (removelast dirs ++ [jj; rho]) with None => None | Some t5 =>
    match sub lat D lev (nbr (geo (bck (geo i) jj)) rho) (dirs ++ [jj]) with None => None | Some t6 =>
      Some (a_plus_b n (a_plus_b n stap (multab_dag_suNC n (junk 1) (multab_suNC n (junk 0) t1 t2) t3))
             (multab_suNC n (junk 1) (multabdag_suNC n (junk 0) t4 t5) t6))
    end end end end end end
  else Some stap.
Lemma mfor_some : forall {A S} (l : list A) (f : S -> A -> S) s, mfor l (fun a s => Some (f s a)) s = Some (fold_left f l s).
Proof. intros A S l f. induction l as [|a l IH]; intro s; [reflexivity|]. cbn [mfor fold_left]. apply IH. Qed.
Lemma mfor_ext : forall {A S} (l : list A) (f g : A -> S -> option S) s, (forall a s, In a l -> f a s = g a s) -> mfor l f s = mfor l g s.
Proof.
  intros A S l f g. induction l as [|a l IH]; intros s H; [reflexivity|]. cbn [mfor]. rewrite H by now left.
  destruct (g a s); [|reflexivity]. apply IH. intros b t Hb. apply H. now right.
Qed.
Lemma last_snoc : forall (l : list nat) a, last (l ++ [a]) 0 = a.
Proof. intros. apply last_last. Qed.
Lemma last_snoc2 : forall (l : list nat) a b, last (l ++ [a; b]) 0 = b.
Proof. intros l a b. change [a; b] with ([a] ++ [b]). rewrite app_assoc. apply last_last. Qed.
Lemma recurse_uniform : forall lat D lev i dirs,
  recurse_staples project n junk geo 4 sm lat (S lev) D i dirs =
  match mfor (seq 0 D) (fun jj s => ustep lat D lev i dirs jj s) (MatModel.zero_mat n (junk 2)) with
  | None => None
  | Some stap => project (junk 3) stap (lat i (last dirs 0)) (smear_alphas 4 sm (length dirs)) (one_minus_smalpha sm (length dirs))
  end.
Proof.
  intros lat D lev i dirs. cbn [recurse_staples].
  destruct lev as [|lev].
  - match goal with |- context[fold_left ?ff ?ll ?s0] => assert (E : mfor ll (fun jj s => ustep lat D 0 i dirs jj s) s0 = Some (fold_left ff ll s0)); [|now rewrite E] end.
    rewrite <- mfor_some. apply mfor_ext. intros jj s _. unfold ustep, sub. cbv zeta.
    rewrite last_snoc, last_snoc2. destruct (is_orthogonal jj dirs); reflexivity.
  - erewrite mfor_ext; [reflexivity|]. intros jj s _. unfold ustep, sub. cbv zeta.
    destruct (is_orthogonal jj dirs); [|reflexivity].
    repeat match goal with |- match ?x with _ => _ end = match ?x with _ => _ end => destruct x; [|reflexivity] end. reflexivity.
Qed.
Lemma orth_iff : forall jj dirs, is_orthogonal jj dirs = true <-> ~ In jj dirs.
Proof.
  intros jj dirs. unfold is_orthogonal. destruct (existsb (fun d => Nat.eqb d jj) dirs) eqn:E; cbn [negb].
  - apply existsb_exists in E. destruct E as (x & Hx & Ex). apply Nat.eqb_eq in Ex. subst x. split; [discriminate|intro X; contradiction].
  - split; [|reflexivity]. intros _ X. assert (Y : existsb (fun d => Nat.eqb d jj) dirs = true) by (apply existsb_exists; exists jj; split; [assumption|apply Nat.eqb_refl]). congruence.
Qed.
Lemma except_orth : forall D dirs, filter (fun jj => is_orthogonal jj dirs) (seq 0 D) = except D dirs.
Proof.
  intros D dirs. unfold except. apply filter_ext. intro d. unfold is_orthogonal. f_equal. induction dirs as [|a l IH]; [reflexivity|].
  cbn [existsb]. now rewrite IH, Nat.eqb_sym.
Qed.
End Uniform.

(** ** what is read *)
Section Reads.
Variables (ds : list Z) (geo : lattice).
Hypothesis Hok : GeomSpec.lattice_ok ds.
Hypothesis Nav : navig ds geo.
Hypothesis H4 : length ds = 4.
Variables (project : projection) (n : nat) (junk : nat -> arr) (sm : nat -> R).
Let LCU := lcu ds.
Let T := ntime ds.
Let V := volume ds.
Let SL (i : nat) := slice_of LCU i.
(** slices read for the link last dirs at slice s, fattened in the directions not in dirs *)
Definition reach (dirs : list nat) (s s' : nat) : Prop :=
  s' = s \/ (s' = (s + 1) mod T /\ (last dirs 0 = 3 \/ ~ In 3 dirs)) \/ (s = (s' + 1) mod T /\ ~ In 3 dirs).
Lemma slT : forall i, i < V -> SL i < T.
Proof.
  intros i Hi. destruct (lcu_pos ds Hok) as (HL & HT & HV). fold LCU T V in HL, HT, HV.
  apply (slice_lt LCU T HL). now rewrite <- HV.
Qed.
Lemma nb_sl : forall i mu, i < V -> mu < 4 -> (mu = 3 -> SL (nbr (geo i) mu) = (SL i + 1) mod T) /\ (mu <> 3 -> SL (nbr (geo i) mu) = SL i) /\ nbr (geo i) mu < V.
Proof.
  intros i mu Hi Hm. destruct (lcu_pos ds Hok) as (HL & HT & HV). fold LCU T V in HL, HT, HV.
  destruct (nav_slice ds geo Hok Nav i mu) as [E1 E2]; [exact Hi|lia|]. fold LCU T in E1, E2.
  pose proof (navig_geom ds geo Hok Nav) as G. rewrite H4 in G. split; [|split].
  - intro E. rewrite (proj1 (E1 ltac:(lia))). unfold SL. apply (slice_at LCU T HL). apply Nat.mod_upper_bound. lia.
  - intro E. apply E2. lia.
  - now apply (g_nbr _ _ _ G).
Qed.
Lemma bk_sl : forall i mu, i < V -> mu < 4 -> (mu = 3 -> SL i = (SL (bck (geo i) mu) + 1) mod T) /\ (mu <> 3 -> SL (bck (geo i) mu) = SL i) /\ bck (geo i) mu < V.
Proof.
  intros i mu Hi Hm. destruct (lcu_pos ds Hok) as (HL & HT & HV). fold LCU T V in HL, HT, HV.
  pose proof (navig_geom ds geo Hok Nav) as G. rewrite H4 in G. pose proof (g_bck _ _ _ G i mu Hi Hm) as Hb.
  split; [|split].
  - intro E. destruct (nb_sl (bck (geo i) mu) mu Hb Hm) as [N _]. rewrite <- (N E). now rewrite (g_nb _ _ _ G).
  - intro E. destruct (nav_slice ds geo Hok Nav i mu) as [_ E2]; [exact Hi|lia|]. apply E2. lia.
  - exact Hb.
Qed.
Lemma succ_inj : forall a b, a < T -> b < T -> (a + 1) mod T = (b + 1) mod T -> a = b.
Proof.
  intros a b Ha Hb E. destruct (Nat.eq_dec (a + 1) T) as [X|X]; destruct (Nat.eq_dec (b + 1) T) as [Y|Y].
  - lia.
  - rewrite X, Nat.mod_same, Nat.mod_small in E by lia. lia.
  - rewrite Y, Nat.mod_same, Nat.mod_small in E by lia. lia.
  - rewrite !Nat.mod_small in E by lia. lia.
Qed.
(** the six links used at one level *)
Lemma reach_sub : forall dirs jj i s', dirs <> [] -> last dirs 0 < 4 -> jj < 4 -> ~ In jj dirs -> i < V -> s' < T ->
  let rho := last dirs 0 in let nw := dirs ++ [jj] in let orth := removelast dirs ++ [jj; rho] in
  (reach nw (SL i) s' \/ reach orth (SL (nbr (geo i) jj)) s' \/ reach nw (SL (nbr (geo i) rho)) s' \/
   reach nw (SL (bck (geo i) jj)) s' \/ reach orth (SL (bck (geo i) jj)) s' \/ reach nw (SL (nbr (geo (bck (geo i) jj)) rho)) s') -> reach dirs (SL i) s'.
Proof.
  intros dirs jj i s' Hne Hr Hj Hn Hi Hs rho nw orth.
  assert (Ed : dirs = removelast dirs ++ [rho]) by now apply app_removelast_last.
  assert (In_nw : forall d, In d nw <-> In d dirs \/ d = jj) by (intro d; unfold nw; rewrite in_app_iff; cbn; intuition).
  assert (In_or : forall d, In d orth <-> In d dirs \/ d = jj).
  { intro d. unfold orth. rewrite Ed at 2. rewrite !in_app_iff. cbn. intuition. }
  assert (Lr : In rho dirs) by (rewrite Ed; apply in_app_iff; right; now left).
  assert (Ln : last nw 0 = jj) by apply last_last. assert (Lo : last orth 0 = rho) by apply last_snoc2.
  destruct (nb_sl i jj Hi Hj) as (A1 & A2 & A3). destruct (nb_sl i rho Hi Hr) as (B1 & B2 & B3). destruct (bk_sl i jj Hi Hj) as (C1 & C2 & C3).
  destruct (nb_sl (bck (geo i) jj) rho C3 Hr) as (D1 & D2 & D3).
  pose proof (slT _ C3) as Tb. unfold reach. rewrite Ln, Lo, !In_nw, !In_or. fold rho.
  destruct (Nat.eq_dec jj 3) as [Ej|Ej].
  - assert (N3 : ~ In 3 dirs) by (intro X; apply Hn; now rewrite Ej). assert (Nr : rho <> 3) by (intro X; apply N3; now rewrite <- X).
    rewrite (A1 Ej), (B2 Nr), (D2 Nr). pose proof (C1 Ej) as C. clear - C N3 Nr Ej Tb Hs.
    intros [H|[H|[H|[H|[H|H]]]]].
    + destruct H as [H|[[H _]|[H X]]]; [auto|auto|exfalso; apply X; auto].
    + destruct H as [H|[[H [X|X]]|[H X]]]; [auto|lia|exfalso; apply X; auto|exfalso; apply X; auto].
    + destruct H as [H|[[H _]|[H X]]]; [auto|auto|exfalso; apply X; auto].
    + destruct H as [H|[[H _]|[H X]]]; [right; right; split; [congruence|auto]|left; congruence|exfalso; apply X; auto].
    + destruct H as [H|[[H [X|X]]|[H X]]]; [right; right; split; [congruence|auto]|lia|exfalso; apply X; auto|exfalso; apply X; auto].
    + destruct H as [H|[[H _]|[H X]]]; [right; right; split; [congruence|auto]|left; congruence|exfalso; apply X; auto].
  - rewrite (A2 Ej), (C2 Ej). destruct (Nat.eq_dec rho 3) as [Er|Er].
    + assert (I3 : In 3 dirs) by now rewrite <- Er. rewrite (B1 Er), (D1 Er), (C2 Ej). clear - I3 Er Ej.
      intros [H|[H|[H|[H|[H|H]]]]]; destruct H as [H|[[H X]|[H X]]]; auto; try (exfalso; apply X; left; exact I3);
        destruct X as [X|X]; auto; try (exfalso; apply X; left; exact I3); try (exfalso; lia).
    + rewrite (B2 Er), (D2 Er), (C2 Ej). clear - Er Ej.
      intros [H|[H|[H|[H|[H|H]]]]]; destruct H as [H|[[H X]|[H X]]]; auto;
        try (right; right; split; [exact H|]; intro Y; apply X; auto; fail);
        destruct X as [X|X]; try (exfalso; lia); right; left; (split; [exact H|]); right; intro Y; apply X; auto.
Qed.
Lemma sub_reads : forall (f f' : field arr) D lev i dirs, D <= 4 -> dirs <> [] -> last dirs 0 < D -> i < V ->
  (forall k nu, k < V -> nu < D -> reach dirs (SL i) (SL k) -> f k nu = f' k nu) ->
  sub project n junk geo sm f D lev i dirs = sub project n junk geo sm f' D lev i dirs.
Proof.
  intros f f' D lev. induction lev as [|lev IH]; intros i dirs HD Hne Hr Hi H.
  - unfold sub. f_equal. apply H; try assumption. now left.
  - unfold sub. rewrite !recurse_uniform.
    rewrite (H i (last dirs 0)) by (try assumption; now left).
    erewrite mfor_ext; [reflexivity|]. intros jj s Hj. apply in_seq in Hj. unfold ustep. cbv zeta.
    destruct (is_orthogonal jj dirs) eqn:Eo; [|reflexivity]. apply orth_iff in Eo.
    set (rho := last dirs 0) in *.
    assert (N1 : dirs ++ [jj] <> []) by (intro X; apply app_eq_nil in X; destruct X; discriminate).
    assert (N2 : removelast dirs ++ [jj; rho] <> []) by (intro X; apply app_eq_nil in X; destruct X; discriminate).
    assert (L1 : last (dirs ++ [jj]) 0 < D) by (rewrite last_snoc; lia).
    assert (L2 : last (removelast dirs ++ [jj; rho]) 0 < D) by (rewrite last_snoc2; lia).
    destruct (nb_sl i jj Hi ltac:(lia)) as (_ & _ & A3). destruct (nb_sl i rho Hi ltac:(lia)) as (_ & _ & B3). destruct (bk_sl i jj Hi ltac:(lia)) as (_ & _ & C3).
    destruct (nb_sl (bck (geo i) jj) rho C3 ltac:(lia)) as (_ & _ & D3).
    assert (Q : forall k, k < V -> _) by (intros k Hk; exact (reach_sub dirs jj i (SL k) Hne ltac:(fold rho; lia) ltac:(lia) Eo Hi (slT k Hk))).
    cbv zeta in Q. fold rho in Q.
    rewrite (IH i (dirs ++ [jj])), (IH (nbr (geo i) jj) (removelast dirs ++ [jj; rho])), (IH (nbr (geo i) rho) (dirs ++ [jj])),
      (IH (bck (geo i) jj) (dirs ++ [jj])), (IH (bck (geo i) jj) (removelast dirs ++ [jj; rho])), (IH (nbr (geo (bck (geo i) jj)) rho) (dirs ++ [jj])); try assumption;
      [reflexivity| | | | | |]; intros k nu Hk Hnu X; (apply H; [assumption|assumption|]); apply (Q k Hk); tauto.
Qed.
Lemma hynd_reads : forall D, (D = 3 \/ D = 4) -> reads_within (hynd_rule project n junk geo 4 sm D) D LCU T 1.
Proof.
  intros D HD f f' j mu z Hj Hm H. destruct (lcu_pos ds Hok) as (HL & HT & HV). fold LCU T V in HL, HT, HV. unfold hynd_rule.
  assert (Ed : exists k, D - 1 = S k) by (exists (D - 2); lia). destruct Ed as [k Ek]. rewrite Ek.
  pose proof (sub_reads f f' D (S k) j [mu] ltac:(lia) ltac:(discriminate) Hm ltac:(rewrite HV; exact Hj)) as Q. unfold sub in Q. rewrite Q; [reflexivity|].
  intros q nu Hq Hn X. rewrite HV in Hq. apply H; try assumption. destruct X as [X|[[X _]|[X _]]].
  - exists 0. split; [lia|]. left. rewrite Nat.add_0_r, Nat.mod_small; [exact X|]. apply slT. rewrite HV. exact Hj.
  - exists 1. split; [lia|]. left. exact X.
  - exists 1. split; [lia|]. right. exact X.
Qed.
End Reads.
