(** The projections and what is written. *)
From Coq Require Import Permutation Setoid Morphisms.
From Verif Require Import CInt GeomModel GeomSpec GeomProofs GeomProofs2 Cplx CMat Arr MatSpec MatModel MatProofs ProjModel ProjProofs FftModel FftProofs QtopModel QtopSpec QtopProofs QtopProofs2.
From Verif Require Import StaticProofs CutsModel CutsSpec CutsProofs SmearModel GluonModel GluonSpec GluonProofs.
Local Open Scope Z_scope.

(** * Sums over directions *)
Lemma dsum_S n f : dsum (S n) f = (dsum n f + f n)%R.
Proof.
  unfold dsum. rewrite seq_S, fold_right_app. cbn [fold_right Nat.add].
  assert (K : forall l a, fold_right (fun i s => (f i + s)%R) a l = (fold_right (fun i s => (f i + s)%R) 0%R l + a)%R) by (induction l as [|x l IH]; intro a; cbn [fold_right]; [ring|rewrite IH; ring]).
  rewrite K. ring.
Qed.
Lemma dsum_0 f : dsum 0 f = 0%R. Proof. reflexivity. Qed.
Lemma dsum_ext n f g : (forall i, (i < n)%nat -> f i = g i) -> dsum n f = dsum n g.
Proof. induction n as [|n IH]; intro H; [reflexivity|]. rewrite !dsum_S, IH, H by (intros; try apply H; lia). reflexivity. Qed.
Lemma dsum_mul n c f : dsum n (fun i => c * f i)%R = (c * dsum n f)%R.
Proof. induction n as [|n IH]; [rewrite !dsum_0; ring|]. rewrite !dsum_S, IH. ring. Qed.
Lemma dsum_sub n f g : dsum n (fun i => f i - g i)%R = (dsum n f - dsum n g)%R.
Proof. induction n as [|n IH]; [rewrite !dsum_0; ring|]. rewrite !dsum_S, IH. ring. Qed.
Lemma dsum_pick n m (f : nat -> R) : (m < n)%nat -> dsum n (fun i => if Nat.eqb m i then f i else 0%R) = f m.
Proof.
  induction n as [|n IH]; intro H; [lia|]. rewrite dsum_S. destruct (Nat.eq_dec m n) as [->|N].
  - rewrite Nat.eqb_refl. rewrite (dsum_ext n _ (fun _ => 0 * 0)%R). { rewrite (dsum_mul n 0 (fun _ => 0%R)). ring. }
    intros i Hi. assert (E : n <> i) by lia. apply Nat.eqb_neq in E as ->. ring.
  - rewrite IH by lia. apply Nat.eqb_neq in N as ->. ring.
Qed.
Lemma re_csum n f : re (csum n f) = dsum n (fun i => re (f i)).
Proof. induction n as [|n IH]; [reflexivity|]. rewrite dsum_S, <- IH. reflexivity. Qed.
Lemma re_real r z : re (RtoC r * z)%C = (r * re z)%R.
Proof. destruct z. cunfold. ring. Qed.

Lemma tr_entries n A B : mtr n (mmul n A (dag B)) = csum n (fun a => csum n (fun b => A a b * conj (B a b)))%C.
Proof. reflexivity. Qed.
Lemma tr_sums n N p (A : nat -> mat) :
  mtr n (mmul n (msums N (fun mu => mscale (RtoC (p mu)) (A mu))) (dag (msums N (fun mu => mscale (RtoC (p mu)) (A mu))))) =
  csum N (fun mu => csum N (fun nu => RtoC (p mu * p nu) * mtr n (mmul n (A mu) (dag (A nu))))%C).
Proof.
  rewrite tr_entries. unfold msums, mscale.
  transitivity (csum n (fun a => csum n (fun b => csum N (fun mu => csum N (fun nu => RtoC (p mu * p nu) * (A mu a b * conj (A nu a b))))))%C).
  - apply csum_ext. intros a _. apply csum_ext. intros b _. rewrite csum_conj, <- csum_mul_r. apply csum_ext. intros mu _.
    rewrite <- csum_mul_l. apply csum_ext. intros nu _. rewrite RtoC_mul, conj_mul. replace (conj (RtoC (p nu))) with (RtoC (p nu)) by (unfold RtoC, conj; cbn; f_equal; ring). ring.
  - transitivity (csum n (fun a => csum N (fun mu => csum N (fun nu => csum n (fun b => RtoC (p mu * p nu) * (A mu a b * conj (A nu a b))))))%C).
    { apply csum_ext. intros a _. rewrite csum_swap. apply csum_ext. intros mu _. apply csum_swap. }
    rewrite csum_swap. apply csum_ext. intros mu _. rewrite csum_swap. apply csum_ext. intros nu _. rewrite tr_entries.
    rewrite <- csum_mul_l. apply csum_ext. intros a _. apply csum_mul_l.
Qed.
Lemma along_sum n N p (A : nat -> mat) : along n N p A = dsum N (fun mu => dsum N (fun nu => p mu * p nu * re (mtr n (mmul n (A mu) (dag (A nu)))))%R).
Proof.
  unfold along, norm2. rewrite tr_sums, re_csum. apply dsum_ext. intros mu _. rewrite re_csum. apply dsum_ext. intros nu _. apply re_real.
Qed.
Lemma for_pairs N (f g : nat -> nat -> R) :
  for_ N (fun mu => for_ N (fun nu '(t, l) => (t + f mu nu, l + g mu nu)%R)) (0, 0)%R = (dsum N (fun mu => dsum N (f mu)), dsum N (fun mu => dsum N (g mu))).
Proof.
  assert (K : forall mu n t l, for_ n (fun nu '(t, l) => (t + f mu nu, l + g mu nu)%R) (t, l) = (t + dsum n (f mu), l + dsum n (g mu))%R).
  { intros mu. induction n as [|n IH]; intros t l; [cbn [for_]; rewrite !dsum_0; f_equal; ring|]. cbn [for_]. rewrite IH, !dsum_S. f_equal; ring. }
  assert (J : forall M, for_ M (fun mu => for_ N (fun nu '(t, l) => (t + f mu nu, l + g mu nu)%R)) (0, 0)%R = (dsum M (fun mu => dsum N (f mu)), dsum M (fun mu => dsum N (g mu)))).
  { induction M as [|M IH]; [reflexivity|]. cbn [for_]. rewrite IH, K, !dsum_S. reflexivity. }
  apply J.
Qed.
Lemma for_dsum n f : for_ n (fun mu s => (s + f mu)%R) 0%R = dsum n f.
Proof. induction n as [|n IH]; [reflexivity|]. cbn [for_]. now rewrite IH, dsum_S. Qed.

(** * The projections of one momentum *)
Definition mom_of (b : mom_build) : list Z -> list Z -> nat -> R := match b with SinMom => khat | PsqMom => kcont end.
(** the square the code divides by *)
Definition guarded (b : mom_build) (ds : list Z) (NC : nat) (k : list Z) : R :=
  if Rlt_dec (square (length ds) (mom_of b ds k)) (PREC_TOL NC) then 1%R else square (length ds) (mom_of b ds k).
Lemma lattice_mom_is b ds k mu : lattice_mom b ds k mu = mom_of b ds k mu.
Proof. destruct b; unfold lattice_mom, mom_of, khat, kcont, twiddle; [do 2 f_equal|]; unfold Rdiv; generalize (/ IZR (nth mu ds 1%Z))%R; intro; field. Qed.
Lemma psq_calc_ok b ds NC posit k : TwoPI_mpipi_momconv ds posit (length ds) = Some k ->
  exists mom, psq_calc b ds NC posit = Some (mom, guarded b ds NC k) /\ forall mu, mom mu = mom_of b ds k mu.
Proof.
  intro E. unfold psq_calc. rewrite E. cbn [bindo]. eexists. split; [|intro mu; apply lattice_mom_is].
  f_equal. f_equal. unfold guarded, square. rewrite for_dsum.
  rewrite (dsum_ext _ (fun mu => lattice_mom b ds k mu * lattice_mom b ds k mu)%R (fun mu => mom_of b ds k mu * mom_of b ds k mu)%R) by (intros; now rewrite lattice_mom_is). reflexivity.
Qed.
Lemma mtr_dag_meq n A B A' B' : meq n A A' -> meq n B B' -> mtr n (mmul n A (dag B)) = mtr n (mmul n A' (dag B')).
Proof. intros HA HB. rewrite !tr_entries. apply csum_ext. intros a Ha. apply csum_ext. intros b Hb. now rewrite HA, HB. Qed.
Lemma project_ok b ds NC (A : field arr) posit k (M : nat -> mat) : lattice_ok ds -> 0 <= posit < prodZ ds ->
  TwoPI_mpipi_momconv ds posit (length ds) = Some k ->
  (forall mu, (mu < length ds)%nat -> meq NC (mx NC (A (Z.to_nat posit) mu)) (M mu)) ->
  project_trans_long b ds NC A posit =
  Some (all_pol NC (length ds) M - along NC (length ds) (mom_of b ds k) M / guarded b ds NC k, along NC (length ds) (mom_of b ds k) M / guarded b ds NC k)%R.
Proof.
  intros Hok Hp E HM. unfold project_trans_long. destruct (psq_calc_ok b ds NC posit k E) as (mom & Ep & Em). rewrite Ep. cbn [bindo].
  rewrite lvolume_prod by assumption. replace ((0 <=? posit) && (posit <? prodZ ds))%bool with true by lia. cbv zeta.
  set (q := guarded b ds NC k). set (N := length ds).
  set (tr := fun mu nu => re (trace_ab_dag NC (A (Z.to_nat posit) mu) (A (Z.to_nat posit) nu))).
  set (cm := fun mu nu => (mom mu * mom nu * (1 / q) * tr mu nu)%R).
  change (for_ N _ _) with (for_ N (fun mu => for_ N (fun nu '(t, l) => (t + (fun mu nu => if Nat.eqb mu nu then tr mu nu - cm mu nu else - cm mu nu) mu nu, l + cm mu nu)%R)) (0, 0)%R).
  rewrite for_pairs.
  assert (T : forall mu nu, (mu < N)%nat -> (nu < N)%nat -> tr mu nu = re (mtr NC (mmul NC (M mu) (dag (M nu))))).
  { intros mu nu H1 H2. unfold tr. rewrite trace_ab_dag_ok. f_equal. apply mtr_dag_meq; now apply HM. }
  assert (L : dsum N (fun mu => dsum N (cm mu)) = (along NC N (mom_of b ds k) M / q)%R).
  { rewrite along_sum. unfold Rdiv. rewrite Rmult_comm, <- dsum_mul. apply dsum_ext. intros mu H1. rewrite <- dsum_mul. apply dsum_ext. intros nu H2.
    unfold cm. rewrite T, !Em by assumption. unfold Rdiv. ring. }
  rewrite <- L. f_equal. f_equal. unfold all_pol. rewrite <- dsum_sub. apply dsum_ext. intros mu H1.
  rewrite <- (dsum_pick N mu (fun nu => norm2 NC (M nu)) H1), <- dsum_sub. apply dsum_ext. intros nu H2.
  destruct (Nat.eqb_spec mu nu) as [->|D]; [|ring]. rewrite T by assumption. reflexivity.
Qed.

(** * What is written *)
Section Written.
Variables (b : mom_build) (sched : schedule) (ds : list Z) (NC : nat) (A : field arr) (lst : list veclist) (M : list Z -> nat -> mat) (kc : list Z -> list Z).
Hypothesis Hok : lattice_ok ds.
Hypothesis Any : any_order sched.
Hypothesis Conv : forall idx k, In (idx, k) lst -> 0 <= idx < prodZ ds /\ TwoPI_mpipi_momconv ds idx (length ds) = Some (kc k).
Hypothesis Mode : forall idx k mu, In (idx, k) lst -> (mu < length ds)%nat -> meq NC (mx NC (A (Z.to_nat idx) mu)) (M k mu).
Let n := length lst.
Let z := (n / 2)%nat.
Hypothesis Int : forall i idx k, (i < z)%nat -> nth_error lst i = Some (idx, k) -> idx < two31.
Let V := IZR (prodZ ds).
Let ND := length ds.
Definition g_norm (i : nat) : R := if Nat.ltb i z then (2 / (INR ((NC * NC - 1) * (ND - 1)) * V))%R else (2 / (INR ((NC * NC - 1) * ND) * V))%R.
Definition l_norm : R := (2 / (INR (NC * NC - 1) * V))%R.
Definition t_val (k : list Z) : R := (all_pol NC ND (M k) - along NC ND (mom_of b ds (kc k)) (M k) / guarded b ds NC (kc k))%R.
Definition l_val (k : list Z) : R := (along NC ND (mom_of b ds (kc k)) (M k) / guarded b ds NC (kc k))%R.
Lemma normed_ok i idx k tn ln s : In (idx, k) lst ->
  exists s', normed b ds NC A idx tn ln i s = Some s' /\ fst s' i = (t_val k * tn)%R /\ snd s' i = (l_val k * ln)%R /\ forall j, j <> i -> fst s' j = fst s j /\ snd s' j = snd s j.
Proof.
  intro H. destruct (Conv _ _ H) as [B E]. unfold normed. rewrite (project_ok b ds NC A idx (kc k) (M k)) by (try assumption; intros; now apply Mode).
  cbn [bindo]. eexists. split; [reflexivity|]. cbn [fst snd]. rewrite Nat.eqb_refl. split; [reflexivity|]. split; [reflexivity|].
  intros j Hj. apply Nat.eqb_neq in Hj as ->. split; reflexivity.
Qed.
Lemma first_half order : NoDup order -> (forall i, In i order -> (i < z)%nat) -> forall s, exists s',
  mfor order (fun i s => do ' (idx, _) <- nth_error lst i; normed b ds NC A (u64 (i32 idx)) (2 / (INR ((NC * NC - 1) * (ND - 1)) * V))%R l_norm i s) s = Some s' /\
  (forall i idx k, In i order -> nth_error lst i = Some (idx, k) -> fst s' i = (t_val k * g_norm i)%R /\ snd s' i = (l_val k * l_norm)%R) /\
  (forall i, ~ In i order -> fst s' i = fst s i /\ snd s' i = snd s i).
Proof.
  induction order as [|x order IH]; intros Nd Hz s; [eexists; split; [reflexivity|]; split; [intros ? ? ? []|split; reflexivity]|].
  inversion_clear Nd as [|? ? NI Nd']. cbn [mfor].
  assert (Hx : (x < z)%nat) by (apply Hz, in_eq).
  assert (Hn : (x < n)%nat) by (unfold z in Hx; pose proof (Nat.div_le_upper_bound n 2 n); lia).
  destruct (nth_error lst x) as [[idx k]|] eqn:E; [|apply nth_error_None in E; unfold n in Hn; lia]. cbn [bindo].
  assert (Hi : In (idx, k) lst) by (now apply nth_error_In with x).
  assert (Ei : u64 (i32 idx) = idx).
  { pose proof (Int x idx k Hx E) as I1. destruct (Conv _ _ Hi) as [B _]. rewrite i32_id by (unfold two31 in *; lia). unfold u64. apply Z.mod_small. unfold two31, two64 in *. lia. }
  rewrite Ei. destruct (normed_ok x idx k (2 / (INR ((NC * NC - 1) * (ND - 1)) * V))%R l_norm s Hi) as (s1 & E1 & F1 & G1 & K1). rewrite E1.
  destruct (IH Nd' (fun i Hi => Hz i (in_cons _ _ _ Hi)) s1) as (s2 & E2 & F2 & G2). exists s2. split; [exact E2|]. split.
  - intros i idx' k' [->|Hi'] En.
    + destruct (G2 i NI) as [-> ->]. rewrite E in En. injection En as <- <-. unfold g_norm. apply Nat.ltb_lt in Hx as ->. split; assumption.
    + now apply (F2 i idx').
  - intros i Hni. destruct (G2 i) as [-> ->]; [intro; apply Hni; now right|]. apply K1. intros ->. apply Hni, in_eq.
Qed.
Lemma copy_fold (f : nat -> nat) order : NoDup order -> (forall i j, In i order -> In j order -> f i <> j) -> forall t l : nat -> R,
  let r := fold_left (fun '(t, l) i => (fun k => if Nat.eqb k i then t (f i) else t k, fun k => if Nat.eqb k i then l (f i) else l k)) order (t, l) in
  (forall i, In i order -> fst r i = t (f i) /\ snd r i = l (f i)) /\ (forall i, ~ In i order -> fst r i = t i /\ snd r i = l i).
Proof.
  induction order as [|x order IH]; intros Nd Hf t l; [split; [intros i []|split; reflexivity]|]. inversion_clear Nd as [|? ? NI Nd']. cbn [fold_left].
  destruct (IH Nd' (fun i j Hi Hj => Hf i j (in_cons _ _ _ Hi) (in_cons _ _ _ Hj)) (fun k => if Nat.eqb k x then t (f x) else t k) (fun k => if Nat.eqb k x then l (f x) else l k)) as [P Q].
  split.
  - intros i [->|Hi]; [destruct (Q i NI) as [-> ->]; rewrite Nat.eqb_refl; split; reflexivity|]. destruct (P i Hi) as [-> ->].
    assert (D : f i <> x) by (apply Hf; [now right|apply in_eq]). apply Nat.eqb_neq in D as ->. split; reflexivity.
  - intros i Hi. destruct (Q i) as [-> ->]; [intro; apply Hi; now right|]. assert (D : i <> x) by (intros ->; apply Hi, in_eq). apply Nat.eqb_neq in D as ->. split; reflexivity.
Qed.
(** the entry whose numbers are written for entry i *)
Definition source (i : nat) : nat := if Nat.leb i z then i else (n - 1 - i)%nat.
Theorem compute_ok s0 : lst <> [] -> exists out, compute_gluon_prop b sched ds NC A lst s0 = Some out /\ length out = n /\
  forall i idx k, (i < n)%nat -> nth_error lst (source i) = Some (idx, k) -> nth_error out i = Some (t_val k * g_norm (source i), l_val k * l_norm)%R.
Proof.
  intro Hne. assert (Hn : (0 < n)%nat) by (unfold n; destruct lst; [contradiction|cbn; lia]).
  assert (Hz : (z < n)%nat) by (apply Nat.div_lt; lia).
  assert (Hz2 : (n <= 2 * z + 1)%nat) by (unfold z; pose proof (Nat.div_mod n 2); pose proof (Nat.mod_upper_bound n 2); lia).
  unfold compute_gluon_prop. rewrite lvolume_prod by assumption. fold n. fold z. fold ND. fold V. fold l_norm. cbv zeta.
  destruct (nth_error lst z) as [[zm kz]|] eqn:Ez; [|apply nth_error_None in Ez; unfold n in Hz; lia]. cbn [bindo].
  destruct (perm_order _ _ (Any [4] z)) as [Nd4 In4].
  destruct (first_half (sched [4] z) Nd4 (fun i Hi => proj1 (In4 i) Hi) s0) as (s1 & E1 & F1 & G1). rewrite E1. cbn [bindo].
  destruct (normed_ok z zm kz (2 / (INR ((NC * NC - 1) * ND) * V))%R l_norm s1 (nth_error_In _ _ Ez)) as ([t l] & E2 & F2 & G2 & K2). rewrite E2. cbn [bindo fst snd] in *.
  destruct (perm_order _ _ (Any [5] (n - z - 1)%nat)) as [Nd5 In5].
  set (ord := map (fun i => (z + 1 + i)%nat) (sched [5] (n - z - 1)%nat)).
  assert (Nd : NoDup ord) by (apply NoDup_map_in; [intros; lia|assumption]).
  assert (In6 : forall i, In i ord <-> (z < i < n)%nat).
  { intro i. unfold ord. rewrite in_map_iff. split; [intros (j & <- & Hj); apply In5 in Hj; lia|]. intro Hi. exists (i - z - 1)%nat. split; [lia|]. apply In5. lia. }
  destruct (copy_fold (fun i => n - i - 1)%nat ord Nd) with (t := t) (l := l) as [C1 C2]; [intros i j Hi Hj; apply In6 in Hi, Hj; lia|]. cbv zeta in C1, C2.
  destruct (fold_left _ ord (t, l)) as [t' l'] eqn:Ef. cbn [fst snd] in C1, C2.
  eexists. split; [reflexivity|]. split; [now rewrite map_length, seq_length|].
  assert (Val : forall j idx k, (j <= z)%nat -> nth_error lst j = Some (idx, k) -> t j = (t_val k * g_norm j)%R /\ l j = (l_val k * l_norm)%R).
  { intros j idx k Hj Ej. destruct (Nat.eq_dec j z) as [->|D].
    - rewrite Ez in Ej. injection Ej as <- <-. unfold g_norm. rewrite Nat.ltb_irrefl. split; assumption.
    - destruct (K2 j D) as [-> ->]. apply (F1 j idx); [apply In4; lia|assumption]. }
  intros i idx k Hi Es. rewrite nth_error_map. rewrite (nth_error_nth' (seq 0 n) 0%nat) by (now rewrite seq_length). rewrite seq_nth by assumption. cbn [option_map Nat.add].
  unfold source in *. destruct (Nat.leb_spec i z) as [Hle|Hgt].
  - destruct (C2 i) as [-> ->]; [rewrite In6; lia|]. destruct (Val i idx k Hle Es) as [-> ->]. reflexivity.
  - destruct (C1 i) as [-> ->]; [apply In6; lia|]. replace (n - i - 1)%nat with (n - 1 - i)%nat by lia. destruct (Val (n - 1 - i)%nat idx k) as [-> ->]; [lia|assumption|reflexivity].
Qed.
End Written.
