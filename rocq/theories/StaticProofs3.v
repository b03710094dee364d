(** The static potential: gauge transformations, SU(2), and a field on which the two builds differ. *)
From Coq Require Import Permutation Setoid Morphisms Lra.
From Verif Require Import CInt GeomModel GeomSpec GeomProofs GeomProofs2 Cplx CMat Det Arr MatSpec MatProofs QtopSpec QtopProofs QtopProofs2 QtopProofs4 StaticModel StaticSpec StaticProofs StaticProofs2.
From Verif Require Import FieldModel FieldProofs SmearProofs SmearProofs2.
Local Open Scope Z_scope.

Section Gauge.
Variables (sd : list Z) (L : Z).
Let ds := sd ++ [L].
Hypothesis Hok : lattice_ok ds.
Variables (n : nat) (lat lat' : lattice) (g : nat -> mat).
Hypothesis Nav : navig ds lat.
Let N := nsites sd.
Let T := Z.to_nat L.
Hypothesis Gau : gauged n (length ds) (volume ds) g lat lat'.
Hypothesis Gg : forall i, (i < volume ds)%nat -> unitary n (g i).
Let at_ (y s : nat) : nat := (y + N * (s mod T))%nat.
Lemma st_consts : (0 < T)%nat /\ (0 < N)%nat /\ volume ds = (N * T)%nat /\ SmearProofs2.lcu ds = N /\ ntime ds = T /\ (length ds - 1)%nat = length sd.
Proof.
  destruct (T_pos sd L Hok) as (A & B & _). unfold SmearProofs2.lcu, ntime, ds. rewrite removelast_last, last_last. repeat split; try assumption.
  - unfold volume. rewrite sl_volume by exact Hok. unfold N, T, nsites. pose proof (sl_prod sd L Hok). destruct (sl_pos sd L Hok). lia.
  - apply sl_dims.
Qed.
Lemma at_lt y s : (y < N)%nat -> (at_ y s < volume ds)%nat.
Proof. intro Hy. destruct st_consts as (HT & HN & -> & _). unfold at_. pose proof (Nat.mod_upper_bound s T). nia. Qed.
Lemma at_step y s : (y < N)%nat -> nbr (lat (at_ y s)) (length sd) = at_ y (s + 1).
Proof.
  intro Hy. destruct st_consts as (HT & HN & HV & HL & HNT & HD). destruct (nav_slice ds lat Hok Nav (at_ y s) (length sd) (at_lt y s Hy) ltac:(rewrite <- HD; unfold ds; rewrite app_length; cbn; lia)) as [A _].
  destruct (A (eq_sym HD)) as [-> _]. rewrite HL, HNT. unfold slice_of, at_. replace (y + N * (s mod T))%nat with (y + (s mod T) * N)%nat by lia.
  rewrite Nat.mod_add, Nat.div_add by lia. rewrite (Nat.div_small y N), (Nat.mod_small y N) by lia. cbn [Nat.add]. rewrite Nat.add_mod_idemp_l by lia. lia.
Qed.
Lemma time_line_gauged t : forall y s, (y < N)%nat ->
  meq n (time_line n lat' sd L t y s) (mmul n (mmul n (g (at_ y s)) (time_line n lat sd L t y s)) (dag (g (at_ y (s + t))))).
Proof.
  induction t as [|t IH]; intros y s Hy; cbn [time_line].
  - rewrite Nat.add_0_r, mmul_1_r. symmetry. apply Gg, at_lt, Hy.
  - rewrite IH by assumption. fold N T. change (y + N * ((s + t) mod T))%nat with (at_ y (s + t)).
    destruct Gau as [_ H]. destruct st_consts as (_ & _ & _ & _ & _ & HD).
    pose proof (H (at_ y (s + t)) (length sd) (at_lt y _ Hy) ltac:(rewrite <- HD; unfold ds; rewrite app_length; cbn; lia)) as E. unfold lnk in E. rewrite E.
    rewrite at_step by assumption. replace (s + S t)%nat with (s + t + 1)%nat by lia.
    set (A := g (at_ y s)). set (B := time_line n lat sd L t y s). set (h := g (at_ y (s + t))). set (k := dag (g (at_ y (s + t + 1)))). set (U := mx n (O (lat (at_ y (s + t))) (length sd))).
    assert (Hh : meq n (mmul n (dag h) h) mid) by (apply Gg, at_lt, Hy).
    transitivity (mmul n (mmul n (mmul n A B) (mmul n (dag h) h)) (mmul n U k)); [now rewrite !mmul_assoc|]. rewrite Hh, mmul_1_r. now rewrite !mmul_assoc.
Qed.
(** lines that close around the lattice: the traces do not change *)
Theorem loop_pairs_gauged t r : (t mod T = 0)%nat -> loop_pairs n lat' sd L t r = loop_pairs n lat sd L t r /\ same_pairs n lat' sd L t r = same_pairs n lat sd L t r.
Proof.
  intro Ht. destruct st_consts as (HT & _). destruct (sl_pos sd L Hok) as [P _].
  assert (E : forall y s, (y < N)%nat -> mtr n (time_line n lat' sd L t y s) = mtr n (time_line n lat sd L t y s)).
  { intros y s Hy. rewrite time_line_gauged by assumption. assert (at_ y (s + t) = at_ y s) as ->.
    { unfold at_. rewrite <- Nat.add_mod_idemp_r, Ht, Nat.add_0_r by lia. reflexivity. }
    rewrite mtr_cyc, <- mmul_assoc. assert (Hh : meq n (mmul n (dag (g (at_ y s))) (g (at_ y s))) mid) by (apply Gg, at_lt, Hy). now rewrite Hh, mmul_1_l. }
  split; apply csum_ext; intros s _; apply csum_ext; intros y Hy; rewrite !E by (try assumption; now apply plus_site_lt); reflexivity.
Qed.
(** transformations that are the same on a whole slice *)
Theorem line_pairs_gauged t r (h : nat -> mat) : (forall y s, (y < N)%nat -> (s < T)%nat -> g (y + N * s)%nat = h s) -> line_pairs n lat' sd L t r = line_pairs n lat sd L t r.
Proof.
  intro Hg. destruct st_consts as (HT & _). destruct (sl_pos sd L Hok) as [P _].
  assert (E : forall y s, (y < N)%nat -> g (at_ y s) = h (s mod T)%nat) by (intros y s Hy; apply Hg; [assumption|apply Nat.mod_upper_bound; lia]).
  apply csum_ext; intros s _; apply csum_ext; intros y Hy. assert (Hp : (plus_site sd y r < N)%nat) by now apply plus_site_lt.
  rewrite !time_line_gauged by assumption. rewrite !E by assumption.
  assert (Hu : forall k, unitary n (h (k mod T)%nat)) by (intro k; rewrite <- (E y k Hy); apply Gg, at_lt, Hy).
  set (A := h (s mod T)%nat). set (B := h ((s + t) mod T)%nat). set (X := time_line n lat sd L t (plus_site sd y r) s). set (Y := time_line n lat sd L t y s).
  assert (HA : meq n (mmul n (dag A) A) mid) by apply Hu. assert (HB : meq n (mmul n (dag B) B) mid) by apply Hu.
  rewrite !dag_mmul, dag_dag. transitivity (mtr n (mmul n A (mmul n (mmul n X (mmul n (mmul n (dag B) B) (dag Y))) (dag A)))); [now rewrite !mmul_assoc|].
  rewrite HB, mmul_1_l, mtr_cyc. rewrite !mmul_assoc. rewrite HA, mmul_1_r. reflexivity.
Qed.
End Gauge.

(** * SU(2) *)
Lemma SU2_trace_real U : SUn 2 U -> conj (mtr 2 U) = mtr 2 U.
Proof. intro H. apply SUn_2, SU2_form in H as [_ H]. unfold mtr. cbn [csum]. rewrite H. apply C_eq; cunfold; ring. Qed.
Section Two.
Variables (sd : list Z) (L : Z) (lat : lattice).
Let ds := sd ++ [L].
Hypothesis Hok : lattice_ok ds.
Hypothesis Gr : group_field 2 (length ds) (volume ds) lat.
Let N := nsites sd.
Lemma time_line_SU t y s : (y < N)%nat -> SUn 2 (time_line 2 lat sd L t y s).
Proof.
  intro Hy. induction t as [|t IH]; cbn [time_line]; [apply SUn_2, SU2_mid|]. apply SUn_mmul; [exact IH|].
  destruct (st_consts sd L Hok) as (HT & HN & HV & _ & _ & HD). apply Gr.
  - unfold ds. rewrite HV. pose proof (Nat.mod_upper_bound (s + t) (Z.to_nat L)). unfold N in *. nia.
  - unfold ds. rewrite app_length. cbn. lia.
Qed.
Theorem two_colours t r : conj (line_pairs 2 lat sd L t r) = line_pairs 2 lat sd L t r /\ same_pairs 2 lat sd L t r = loop_pairs 2 lat sd L t r.
Proof.
  destruct (sl_pos sd L Hok) as [P _]. split.
  - unfold line_pairs. rewrite csum_conj. apply csum_ext; intros s _. rewrite csum_conj. apply csum_ext; intros y Hy. apply SU2_trace_real. apply SUn_mmul; [|apply SUn_dag]; apply time_line_SU; [now apply plus_site_lt|exact Hy].
  - apply csum_ext; intros s _. apply csum_ext; intros y Hy. rewrite (SU2_trace_real (time_line 2 lat sd L t y s)) by (now apply time_line_SU). reflexivity.
Qed.
End Two.

(** * Three sites, the link of site y is exp(2 pi i y/3) times the identity *)
Definition w3 : C := (-1/2, sqrt 3 / 2)%R.
Definition phase3 (y : nat) : C := match y with 0%nat => C1 | 1%nat => w3 | _ => conj w3 end.
Definition lat3 : lattice := fun i => {| O := fun _ k => if Nat.eqb (k mod 4) 0 then phase3 i else C0; nbr := fun mu => if Nat.eqb mu 0 then (i + 1) mod 3 else i; bck := fun mu => if Nat.eqb mu 0 then (i + 2) mod 3 else i |}%nat.
Lemma w3_sq : (w3 * w3 = conj w3)%C /\ (conj w3 * conj w3 = w3)%C /\ (w3 * conj w3 = C1)%C /\ (C1 + w3 + conj w3 = C0)%C.
Proof. pose proof (sqrt_sqrt 3 ltac:(lra)) as Q. unfold w3. repeat split; apply C_eq; cunfold; nra. Qed.
Lemma lat3_link y mu : (y < 3)%nat -> meq 3 (mx 3 (O (lat3 y) mu)) (mscale (phase3 y) mid).
Proof. intros _ i j Hi Hj. unfold mx, lat3, mscale, mid. cbn [O]. destruct i as [|[|[|]]]; try lia; destruct j as [|[|[|]]]; try lia; cbn; ring. Qed.
Lemma phase3_unit y : (phase3 y * conj (phase3 y) = C1)%C /\ (phase3 y * phase3 y * phase3 y = C1)%C.
Proof.
  destruct w3_sq as (A & B & D & _). destruct y as [|[|y]]; cbn [phase3].
  - split; apply C_eq; cunfold; ring.
  - split; [exact D|]. rewrite A. now rewrite (cmul_swap (conj w3)).
  - assert (E : conj (conj w3) = w3) by (apply C_eq; cunfold; ring). rewrite E. split; [now rewrite cmul_swap|]. rewrite B. exact D.
Qed.
Lemma lat3_group : group_field 3 2 (volume [3; 1]) lat3.
Proof.
  intros y mu Hy _. change (volume [3; 1]) with 3%nat in Hy. unfold lnk. apply (SUn_ext 3 (mscale (phase3 y) mid)); [symmetry; now apply lat3_link|].
  destruct (phase3_unit y) as [A B]. assert (A' : (conj (phase3 y) * phase3 y = C1)%C) by now rewrite cmul_swap. apply SUn_3. split.
  - split; intros i j Hi Hj; unfold mmul, dag, mscale, mid; cbn [csum]; destruct i as [|[|[|]]]; try lia; destruct j as [|[|[|]]]; try lia; cbn [Nat.eqb];
    rewrite ?conj_mul; replace (conj C1) with C1 by (apply C_eq; cunfold; ring); replace (conj C0) with C0 by (apply C_eq; cunfold; ring);
    ring_simplify; rewrite ?A, ?A'; try reflexivity.
  - unfold det3, mscale, mid. cbn [Nat.eqb]. transitivity (phase3 y * phase3 y * phase3 y)%C; [ring|exact B].
Qed.
Lemma lat3_line y : (y < 3)%nat -> meq 3 (time_line 3 lat3 [3] 1 1 y 0) (mscale (phase3 y) mid).
Proof. intro Hy. cbn [time_line]. rewrite mmul_1_l. change (nsites [3]) with 3%nat. change (3 * ((0 + 0) mod Z.to_nat 1))%nat with 0%nat. rewrite Nat.add_0_r. now apply lat3_link. Qed.
Lemma mtr_scalar c : mtr 3 (mscale c mid) = (RtoC 3 * c)%C.
Proof. unfold mtr, mscale, mid. cbn [csum Nat.eqb]. apply C_eq; cunfold; ring. Qed.
Lemma lat3_values : line_pairs 3 lat3 [3] 1 1 1 = (RtoC 9 * w3)%C /\ loop_pairs 3 lat3 [3] 1 1 1 = (RtoC 27 * w3)%C /\ same_pairs 3 lat3 [3] 1 1 1 = C0.
Proof.
  assert (S : plus_site [3] 0 1 = 1%nat /\ plus_site [3] 1 1 = 2%nat /\ plus_site [3] 2 1 = 0%nat) by (repeat split). destruct S as (S0 & S1 & S2).
  assert (H2 : forall a b, mtr 3 (mmul 3 (mscale a mid) (dag (mscale b mid))) = (RtoC 3 * (a * conj b))%C).
  { intros a b. rewrite dag_scale, dag_mid, mmul_scale_l, mmul_1_l, !mtr_scale. unfold mtr, mid. cbn [csum Nat.eqb]. apply C_eq; cunfold; ring. }
  assert (Cc : conj (conj w3) = w3) by (apply C_eq; cunfold; ring). assert (C11 : conj C1 = C1) by (apply C_eq; cunfold; ring).
  assert (Cm : forall a, conj (RtoC 3 * a)%C = (RtoC 3 * conj a)%C) by (intro; apply C_eq; cunfold; ring).
  destruct w3_sq as (A & B & D & E). assert (D' : (conj w3 * w3 = C1)%C) by now rewrite cmul_swap.
  assert (One : forall a, (a * C1 = a)%C /\ (C1 * a = a)%C) by (intro; split; ring).
  unfold line_pairs, loop_pairs, same_pairs. change (Z.to_nat 1) with 1%nat. change (nsites [3]) with 3%nat. cbn [csum]. rewrite S0, S1, S2.
  rewrite !lat3_line by lia. rewrite !H2, !mtr_scalar. cbn [phase3]. rewrite ?Cm, ?Cc, ?C11. rewrite ?(proj1 (One _)), ?(proj2 (One _)). rewrite B.
  repeat split.
  - apply C_eq; cunfold; ring.
  - transitivity (RtoC 3 * RtoC 3 * (w3 * C1 + conj w3 * conj w3 + C1 * w3))%C; [ring|]. rewrite B. rewrite (proj1 (One _)), (proj2 (One _)). apply C_eq; cunfold; ring.
  - transitivity (RtoC 3 * RtoC 3 * (w3 * C1 + w3 * conj w3 + conj w3 * C1))%C; [ring|]. rewrite D. rewrite !(proj1 (One _)). transitivity (RtoC 3 * RtoC 3 * (C1 + w3 + conj w3))%C; [ring|]. rewrite E. ring.
Qed.
Lemma w3_im : w3 <> conj w3 /\ w3 <> C0.
Proof.
  pose proof (sqrt_lt_R0 3 ltac:(lra)) as Q. unfold w3. split; intro H; apply (f_equal snd) in H; cbn in H; lra.
Qed.
Lemma lat3_navig : navig [3; 1] lat3.
Proof. intros i mu Hi Hm. change (volume [3; 1]) with 3%nat in Hi. cbn [length] in Hm. destruct i as [|[|[|]]]; try lia; (destruct mu as [|[|]]; try lia); split; reflexivity. Qed.
