(** Correlators of lines: both builds. *)
From Coq Require Import Permutation Setoid Morphisms.
From Verif Require Import CInt GeomModel GeomSpec GeomProofs GeomProofs2 Cplx CMat Arr MatSpec MatModel MmulModel Su2Model MatProofs FftModel FftProofs QtopModel QtopSpec QtopProofs QtopProofs2 QtopProofs4 StaticModel.
Local Open Scope Z_scope.

(** * Geometry of a time slice *)
Lemma mom_loop_mask l L : forall mu i s, Forall (fun L => 0 < L < two31) l -> 0 < s -> s * prodZ l < two31 -> 0 <= i ->
  mom_2piBZ_loop (l ++ [L]) mu i s (mu + length l) = Some (digits l (i / s) ++ [0]).
Proof.
  induction l as [|d l IH]; intros mu i s Hd Hs Hp Hi.
  - cbn. rewrite Nat.add_0_r, Nat.eqb_refl. reflexivity.
  - inversion_clear Hd as [|? ? Hd0 Hds]. assert (P : 0 < prodZ l) by (apply prodZ_pos, ok_pos; assumption). rewrite prodZ_cons in Hp.
    cbn [app mom_2piBZ_loop length]. replace (mu =? mu + S (length l))%nat with false by (symmetry; apply Nat.eqb_neq; lia).
    assert (Hsd : 0 < s * d < two31) by nia. assert (Hs31 : s < two31) by nia.
    rewrite (u64_id s) by (unfold two31, two64 in *; lia). replace ((s =? 0) || (d =? 0)) with false by lia. cbv zeta.
    rewrite sub_mod_div by lia. assert (Hm : 0 <= (i / s) mod d < d) by (apply Z.mod_pos_bound; lia).
    rewrite (i32_id ((i / s) mod d)) by (unfold two31 in *; lia). rewrite (u64_id (s * d)) by (unfold two31, two64 in *; lia).
    rewrite i32_id by (unfold two31 in *; lia). replace (mu + S (length l))%nat with (S mu + length l)%nat by lia.
    rewrite IH by (try assumption; lia). cbn [bindo digits app]. now rewrite Z.div_div by lia.
Qed.
Lemma spacing_loop_mask l L x y : in_box l x -> forall sep mu, Forall (fun L => 0 < L < two31) l -> sep_ok l sep ->
  spacing_loop (l ++ [L]) (x ++ [y]) (sep ++ [0]) mu (mu + length l) = Some (translate l x sep ++ [0]).
Proof.
  intros Hx. induction Hx as [|d c ds x Hc Hx IH]; intros sep mu Hd Hs.
  - inversion Hs. cbn [app length spacing_loop bindo]. rewrite Nat.add_0_r, Nat.ltb_irrefl. reflexivity.
  - inversion Hd as [|? ? Hd0 Hds]; subst. inversion Hs as [|? s ? ss Hs0 Hss]; subst. cbn [app length].
    cbn [spacing_loop]. replace (mu + S (length ds))%nat with (S mu + length ds)%nat by lia. rewrite IH by assumption. cbn [bindo].
    replace (mu <? S mu + length ds)%nat with true by (symmetry; apply Nat.ltb_lt; lia).
    replace ((d =? 0) || (c + s <? - two31) || (two31 <=? c + s)) with false by lia.
    f_equal. unfold translate. cbn [combine map fst snd app]. f_equal.
    assert (E : u64 (u64 (c + s) + d) = c + s + d).
    { unfold u64. rewrite Z.add_mod_idemp_l by (unfold two64; lia). apply Z.mod_small. unfold two31, two64 in *; lia. }
    rewrite E. replace (c + s + d) with (c + s + 1 * d) by ring. rewrite Z.mod_add by lia.
    apply i32_id. pose proof (Z.mod_pos_bound (c + s) d). unfold two31 in *. lia.
Qed.
Lemma horner_snoc l : forall x y L, length x = length l -> horner (l ++ [L]) (x ++ [y]) = horner l x + prodZ l * y.
Proof.
  induction l as [|d l IH]; intros [|a x] y L H; try discriminate.
  - unfold prodZ. cbn [app horner fold_right]. ring.
  - cbn [app horner]. rewrite IH by (simpl in *; lia). rewrite prodZ_cons. ring.
Qed.
Lemma in_box_snoc l x y L : in_box l x -> 0 <= y < L -> in_box (l ++ [L]) (x ++ [y]).
Proof. intros H Hy. apply Forall2_app; [exact H|]. constructor; [exact Hy|constructor]. Qed.

Section Slices.
Variables (sd : list Z) (L : Z).
Let ds := sd ++ [L].
Hypothesis Hok : lattice_ok ds.
Lemma sl_pos : Forall (fun L => 0 < L) sd /\ 0 < L. Proof. pose proof (ok_pos' ds Hok) as P. apply Forall_app in P as [P1 P2]. inversion P2; auto. Qed.
Lemma sl_31 : Forall (fun L => 0 < L < two31) sd. Proof. destruct Hok as (_ & H & _). apply Forall_app in H. tauto. Qed.
Lemma sl_prod : 0 < prodZ sd < two31.
Proof. split; [apply prodZ_pos, sl_pos|]. destruct Hok as (_ & _ & H). unfold ds in H. now rewrite removelast_last in H. Qed.
Lemma sl_spatial : spatial ds = sd. Proof. unfold spatial, ds. rewrite app_length. cbn [length]. rewrite firstn_app. replace (length sd + 1 - 1)%nat with (length sd) by lia. rewrite firstn_all, Nat.sub_diag. apply app_nil_r. Qed.
Lemma sl_dims : (length ds - 1 = length sd)%nat. Proof. unfold ds. rewrite app_length. cbn. lia. Qed.
Lemma sl_lcu : lcu ds = prodZ sd.
Proof. unfold lcu, ds. rewrite removelast_last. unfold lvolume. pose proof sl_prod. rewrite lvolume_prod_gen; try lia; [apply sl_pos|unfold two31, two64 in *; lia]. Qed.
Lemma sl_LCU : LCU ds = fft_size sd. Proof. unfold LCU, fft_size. now rewrite sl_lcu. Qed.
Lemma sl_Lt : Lt ds = Z.to_nat L. Proof. unfold Lt, ds. now rewrite last_last. Qed.
Lemma sl_volume : lvolume ds = prodZ sd * L. Proof. rewrite lvolume_prod by exact Hok. unfold ds. rewrite prodZ_app, prodZ_cons. change (prodZ []) with 1. ring. Qed.
Lemma sl_lvolume_sd : lvolume sd = prodZ sd.
Proof. unfold lvolume. pose proof sl_prod. rewrite lvolume_prod_gen; try lia; [apply sl_pos|unfold two31, two64 in *; lia]. Qed.
Lemma sl_rd inp i : (i < fft_size sd)%nat -> rd (spatial ds) inp (Z.of_nat i) = Some (inp i).
Proof. intro H. rewrite sl_spatial. unfold rd. rewrite sl_lvolume_sd. unfold fft_size in H. replace ((0 <=? Z.of_nat i) && (Z.of_nat i <? prodZ sd)) with true by lia. now rewrite Nat2Z.id. Qed.
Lemma sl_mom i : 0 <= i -> get_mom_2piBZ ds i (length ds - 1) = Some (digits sd i ++ [0]).
Proof.
  intro Hi. rewrite sl_dims. unfold get_mom_2piBZ, ds. pose proof (mom_loop_mask sd L 0 i 1 sl_31 ltac:(lia)) as E. rewrite Z.div_1_r in E.
  apply E; [pose proof sl_prod; lia|assumption].
Qed.
Lemma sl_spacing k r : (k < fft_size sd)%nat -> moderate sd ->
  compute_spacing ds (digits sd (Z.of_nat r) ++ [0]) (Z.of_nat k) (length ds - 1) = Some (Z.of_nat (plus_site sd k r)).
Proof.
  intros Hk M. unfold compute_spacing. rewrite sl_mom by lia. cbn [bindo]. rewrite sl_dims. destruct sl_pos as [P HL].
  pose proof (digits_in_box sd (Z.of_nat k) P) as B.
  assert (Sep : sep_ok sd (digits sd (Z.of_nat r))).
  { pose proof (digits_in_box sd (Z.of_nat r) P) as Br. clear - Br M. revert M. unfold moderate, sep_ok.
    induction Br as [|l d ds' x Hd B IH]; intro M; [constructor|]. inversion_clear M. constructor; [unfold two31; change (2 ^ 30) with 1073741824 in *; lia|]. now apply IH. }
  unfold ds. pose proof (spacing_loop_mask sd L _ 0 B _ 0 sl_31 Sep) as E. cbn [Nat.add] in E. rewrite E. cbn [bindo].
  pose proof (translate_box sd _ (digits sd (Z.of_nat r)) P B (digits_length _ _)) as Bt.
  rewrite gen_site_horner.
  - rewrite horner_snoc by (now apply in_box_length). f_equal. rewrite plus_site_shift by exact P. unfold shift. pose proof (horner_bound _ _ Bt). lia.
  - destruct sd; discriminate.
  - apply in_box_snoc; [exact Bt|lia].
  - pose proof (ok_volume ds Hok). unfold ds in *. lia.
Qed.
End Slices.

(** * Sums and fills *)
Lemma fset_eq f i a : fset f i a i = a. Proof. unfold fset. now rewrite Nat.eqb_refl. Qed.
Lemma fset_neq f i a k : k <> i -> fset f i a k = f k. Proof. intro H. unfold fset. now apply Nat.eqb_neq in H as ->. Qed.
Lemma fset_fold (g : nat -> arr -> arr) order : NoDup order -> forall f,
  (forall i, In i order -> fold_left (fun f i => fset f i (g i (f i))) order f i = g i (f i)) /\
  (forall i, ~ In i order -> fold_left (fun f i => fset f i (g i (f i))) order f i = f i).
Proof.
  induction 1 as [|x order NI ND IH]; intro f; [split; [intros i []|reflexivity]|]. cbn [fold_left]. destruct (IH (fset f x (g x (f x)))) as [A B]. split.
  - intros i [->|Hi]; [rewrite B by assumption; apply fset_eq|]. rewrite A by assumption. rewrite fset_neq by (intros ->; contradiction). reflexivity.
  - intros i Hi. rewrite B by (intro; apply Hi; now right). apply fset_neq. intros ->. apply Hi, in_eq.
Qed.
Lemma perm_order order n : Permutation order (seq 0 n) -> NoDup order /\ forall i, In i order <-> (i < n)%nat.
Proof.
  intro P. split; [eapply Permutation_NoDup; [symmetry; exact P|apply seq_NoDup]|].
  intro i. split; intro K; [apply (Permutation_in _ P), in_seq in K; lia|apply (Permutation_in _ (Permutation_sym P)), in_seq; lia].
Qed.
Lemma cmul_swap (a b : C) : (a * b = b * a)%C. Proof. ring. Qed.
Lemma csum_first n (f : nat -> C) : csum (S n) f = (f 0%nat + csum n (fun k => f (S k)))%C.
Proof. induction n as [|n IH]; [cbn; ring|]. cbn [csum] in *. rewrite IH. ring. Qed.
Lemma csum_cycle n (f : nat -> C) : csum n (fun k => f ((k + 1) mod n)%nat) = csum n f.
Proof.
  destruct n as [|n]; [reflexivity|]. cbn [csum]. replace (n + 1)%nat with (S n) by lia. rewrite Nat.mod_same by lia. rewrite <- (csum_first n f) || idtac.
  rewrite (csum_ext _ _ (fun k => f (S k))) by (intros k Hk; f_equal; rewrite Nat.mod_small by lia; lia).
  change (csum n f + f n)%C with (csum (S n) f). rewrite csum_first. ring.
Qed.
Lemma csum_swap a b (f : nat -> nat -> C) : csum a (fun i => csum b (f i)) = csum b (fun j => csum a (fun i => f i j)).
Proof.
  induction a as [|a IH]; cbn [csum].
  - induction b as [|b IHb]; cbn [csum]; [reflexivity|]. rewrite <- IHb. ring.
  - rewrite IH. clear IH. induction b as [|b IHb]; cbn [csum]; [ring|]. rewrite <- IHb. ring.
Qed.

(** * With FFTW *)
Section Fftw.
Variables (sd : list Z) (L : Z).
Let ds := sd ++ [L].
Hypothesis Hok : lattice_ok ds.
Variables (NC : nat) (poly : nat -> arr) (idx : list nat) (sched : schedule).
Hypothesis Hidx : forall i, In i idx -> (i < fft_size sd)%nat.
Hypothesis Any : any_order sched.
Let N := fft_size sd.
Let P : Forall (fun L => 0 < L) sd. Proof. exact (proj1 (sl_pos sd L Hok)). Qed.
Let plan_ok : plan_dims ds (length ds - 1) = rev sd.
Proof. unfold plan_dims. fold (spatial ds). unfold ds. now rewrite sl_spatial. Qed.
(** sum_y tr P(y+r,t) P(y,t)^dag; the same with the two traces *)
Definition pair_tr (r t : nat) : C := csum N (fun y => mtr NC (mmul NC (mx NC (poly (plus_site sd y r + N * t)%nat)) (dag (mx NC (poly (y + N * t)%nat))))).
Definition pair_trtr (r t : nat) : C := csum N (fun y => (mtr NC (mx NC (poly (plus_site sd y r + N * t)%nat)) * conj (mtr NC (mx NC (poly (y + N * t)%nat))))%C).

Lemma add_list (inp : arr) (v : nat -> C) key (acc : arr) : (forall r, (r < N)%nat -> inp r = v r) ->
  exists acc', fill (sched key (length (map Z.of_nat idx))) (fun i => do k <- nth_error (map Z.of_nat idx) i; do x <- rd (spatial ds) inp k; Some (acc i + x)%C) acc = Some acc' /\
    forall i r, nth_error idx i = Some r -> acc' i = (acc i + v r)%C.
Proof.
  intro Hv. rewrite map_length.
  destruct (fill_range (sched key (length idx)) (length idx) (fun i => do k <- nth_error (map Z.of_nat idx) i; do x <- rd (spatial ds) inp k; Some (acc i + x)%C)
    (fun i => acc i + v (nth i idx 0%nat))%C (Any _ _)) with (a := acc) as (a' & E & F & _).
  - intros i Hi. rewrite nth_error_map, (nth_error_nth' idx 0%nat) by assumption. cbn [option_map bindo].
    assert (B : (nth i idx 0 < fft_size sd)%nat) by (apply Hidx, nth_In, Hi). unfold ds. rewrite sl_rd by assumption. cbn [bindo]. now rewrite Hv.
  - exists a'. split; [exact E|]. intros i r Hi. assert (B : (i < length idx)%nat) by (apply nth_error_Some; congruence). rewrite F by assumption.
    now rewrite (nth_error_nth idx i 0%nat Hi).
Qed.
Lemma dft_sum (sign : R) m (f : nat -> arr) k : dft sign sd (fun i => csum m (fun j => f j i)) k = csum m (fun j => dft sign sd (f j) k).
Proof.
  unfold dft. rewrite csum_swap. apply csum_ext. intros i _. symmetry.
  etransitivity; [apply csum_ext; intros j _; apply (cmul_swap (f j i))|]. rewrite csum_mul_l. ring.
Qed.
Lemma compute_trtr_ok t trtr inp out : exists trtr' inp' out', compute_trtr sched ds NC poly (map Z.of_nat idx) t trtr inp out = Some (trtr', inp', out') /\
  forall i r, nth_error idx i = Some r -> trtr' i = (trtr i + RtoC (IZR (prodZ sd)) * pair_trtr r t)%C.
Proof.
  unfold compute_trtr. rewrite plan_ok. unfold ds. rewrite sl_LCU by exact Hok. fold ds. fold N.
  destruct (fill_range (sched [Z.of_nat t; 0] N) N (fun i => Some (trace NC (poly (i + N * t)%nat))) (fun i => trace NC (poly (i + N * t)%nat)) (Any _ _) (fun i _ => eq_refl) inp) as (a & -> & A & _). cbn [bindo].
  set (F := fftw_execute FORWARD (rev sd) a out).
  destruct (fill_range (sched [Z.of_nat t; 1] N) N (fun i => Some (F i * conj (F i))%C) (fun i => F i * conj (F i))%C (Any _ _) (fun i _ => eq_refl) F) as (b & -> & B & _). cbn [bindo].
  assert (V : forall r, (r < N)%nat -> fftw_execute BACKWARD (rev sd) b a r = (RtoC (IZR (prodZ sd)) * pair_trtr r t)%C).
  { intros r Hr. rewrite fftw_execute_ok by assumption.
    rewrite (dft_ext _ _ _ (fun k => dft FORWARD sd a k * conj (dft FORWARD sd a k))%C) by (intros k Hk; rewrite B by assumption; unfold F; now rewrite fftw_execute_ok).
    rewrite convolution by exact P. f_equal. apply csum_ext. intros y Hy. rewrite plus_site_shift by exact P.
    rewrite !A by (try assumption; now apply shift_lt). now rewrite !trace_ok. }
  destruct (add_list _ _ [Z.of_nat t; 2] trtr V) as (tr' & E & G). rewrite E. cbn [bindo]. eauto.
Qed.
Lemma element_loop t sp0 : forall m inp out, exists inp' out' sp, for_ m (tr_element sched ds t) (Some (inp, out, sp0)) = Some (inp', out', sp) /\
  (forall i j, (i < N)%nat -> (j < m)%nat -> sp i j = dft FORWARD sd (fun x => sp0 x j) i) /\ (forall i j, (m <= j)%nat -> sp i j = sp0 i j).
Proof.
  induction m as [|m IH]; intros inp out; [exists inp, out, sp0; split; [reflexivity|split; [lia|reflexivity]]|].
  destruct (IH inp out) as (a & o & sp & E & F & G). cbn [for_]. rewrite E. unfold tr_element at 1. cbn [bindo]. rewrite plan_ok. unfold ds. rewrite sl_LCU by exact Hok. fold ds. fold N.
  destruct (fill_range (sched [Z.of_nat t; 3; Z.of_nat m] N) N (fun i => Some (sp i m)) (fun i => sp i m) (Any _ _) (fun i _ => eq_refl) a) as (b & -> & B & _). cbn [bindo].
  destruct (perm_order _ _ (Any [Z.of_nat t; 4; Z.of_nat m] N)) as [ND In1].
  destruct (fset_fold (fun i v => upd v m (fftw_execute FORWARD (rev sd) b o i)) _ ND sp) as [S1 S2].
  do 3 eexists. split; [reflexivity|]. split.
  - intros i j Hi Hj. rewrite S1 by (now apply In1). destruct (Nat.eq_dec j m) as [->|Nj].
    + rewrite upd_eq, fftw_execute_ok by assumption. apply dft_ext. intros x Hx. rewrite B by assumption. apply G. lia.
    + rewrite upd_neq by assumption. apply F; [assumption|lia].
  - intros i j Hj. destruct (in_dec Nat.eq_dec i (sched [Z.of_nat t; 4; Z.of_nat m] N)) as [Y|Nn].
    + rewrite S1 by assumption. rewrite upd_neq by lia. apply G. lia.
    + rewrite S2 by assumption. apply G. lia.
Qed.
Lemma compute_tr_ok t tr inp out sp : exists tr' inp' out' sp', compute_tr sched ds NC poly (map Z.of_nat idx) t tr inp out sp = Some (tr', inp', out', sp') /\
  forall i r, nth_error idx i = Some r -> tr' i = (tr i + RtoC (IZR (prodZ sd)) * pair_tr r t)%C.
Proof.
  unfold compute_tr. rewrite plan_ok. unfold ds. rewrite sl_LCU by exact Hok. fold ds. fold N. cbv zeta.
  destruct (perm_order _ _ (Any [Z.of_nat t; 5] N)) as [ND In1].
  destruct (fset_fold (fun i v => equiv NC v (poly (i + N * t)%nat)) _ ND sp) as [S1 _].
  set (sp0 := fold_left _ _ sp) in *.
  destruct (element_loop t sp0 (NC * NC) inp out) as (a & o & sp1 & -> & F & _). cbn [bindo].
  destruct (fill_range (sched [Z.of_nat t; 6] N) N (fun i => Some (trace_ab_dag NC (sp1 i) (sp1 i))) (fun i => trace_ab_dag NC (sp1 i) (sp1 i)) (Any _ _) (fun i _ => eq_refl) o) as (b & -> & B & _). cbn [bindo].
  assert (V : forall r, (r < N)%nat -> fftw_execute BACKWARD (rev sd) b a r = (RtoC (IZR (prodZ sd)) * pair_tr r t)%C).
  { intros r Hr. rewrite fftw_execute_ok by assumption.
    rewrite (dft_ext _ _ _ (fun k => csum (NC * NC) (fun j => dft FORWARD sd (fun x => sp0 x j) k * conj (dft FORWARD sd (fun x => sp0 x j) k))%C)).
    2: { intros k Hk. rewrite B by assumption. rewrite trace_ab_dag_ok, tr_mul_dag. apply csum_ext. intros j Hj. now rewrite F. }
    rewrite (dft_sum BACKWARD (NC * NC) (fun j k => dft FORWARD sd (fun x => sp0 x j) k * conj (dft FORWARD sd (fun x => sp0 x j) k))%C).
    rewrite (csum_ext _ _ (fun j => RtoC (IZR (prodZ sd)) * csum N (fun y => sp0 (shift sd y r) j * conj (sp0 y j)))%C) by (intros j Hj; now apply (convolution sd (fun x => sp0 x j) (fun x => sp0 x j) r)).
    rewrite csum_mul_l. f_equal. rewrite csum_swap. apply csum_ext. intros y Hy. rewrite plus_site_shift by exact P.
    rewrite <- (tr_mul_dag NC (sp0 (shift sd y r)) (sp0 y)).
    assert (M : forall x, (x < N)%nat -> meq NC (mx NC (sp0 x)) (mx NC (poly (x + N * t)%nat))).
    { intros x Hx. rewrite S1 by (now apply In1). apply (equiv_ok NC (sp x)). }
    rewrite (M y Hy), (M (shift sd y r) (shift_lt sd y r P)). reflexivity. }
  destruct (add_list _ _ [Z.of_nat t; 7] tr V) as (tr' & E & G). rewrite E. cbn [bindo]. do 4 eexists. split; [reflexivity|exact G].
Qed.
Theorem correlator_fftw_ok inp out sp (result trtr : arr) : (forall i, (i < length idx)%nat -> result i = C0 /\ trtr i = C0) ->
  exists res tt, correlator_fftw sched ds NC poly (map Z.of_nat idx) result trtr inp out sp = Some (res, tt) /\
  forall i r, nth_error idx i = Some r ->
    res i = (RtoC (/ IZR L) * csum (Z.to_nat L) (pair_tr r))%C /\ tt i = (RtoC (/ IZR L) * csum (Z.to_nat L) (pair_trtr r))%C.
Proof.
  intro Z0. destruct (sl_pos sd L Hok) as [_ HL]. pose proof (sl_prod sd L Hok) as HP. unfold correlator_fftw. unfold ds. rewrite sl_Lt, sl_lcu, last_last by exact Hok. fold ds.
  assert (G : forall m, exists res tt a o s, for_ m (slice_step sched ds NC poly (map Z.of_nat idx)) (Some (result, trtr, inp, out, sp)) = Some (res, tt, a, o, s) /\
    forall i r, nth_error idx i = Some r -> res i = (RtoC (IZR (prodZ sd)) * csum m (pair_tr r))%C /\ tt i = (RtoC (IZR (prodZ sd)) * csum m (pair_trtr r))%C).
  { induction m as [|m IH].
    - do 5 eexists. split; [reflexivity|]. intros i r Hi. assert (Hb : (i < length idx)%nat) by (apply nth_error_Some; congruence). destruct (Z0 i Hb) as [-> ->]. cbn [csum]. split; ring.
    - destruct IH as (res & t2 & a & o & s & E & F). cbn [for_]. rewrite E. unfold slice_step at 1. cbn [bindo].
      destruct (compute_trtr_ok m t2 a o) as (t3 & a3 & o3 & -> & F3). cbn [bindo].
      destruct (compute_tr_ok m res a3 o3 s) as (r4 & a4 & o4 & s4 & -> & F4). cbn [bindo].
      do 5 eexists. split; [reflexivity|]. intros i r Hi. rewrite (F3 i r Hi), (F4 i r Hi). destruct (F i r Hi) as [-> ->]. cbn [csum]. split; ring. }
  destruct (G (Z.to_nat L)) as (res & t2 & a & o & s & -> & F). cbn [bindo]. rewrite map_length.
  set (c := RtoC (1 / (IZR (prodZ sd) * IZR L))).
  destruct (fill_range (sched [8] (length idx)) (length idx) (fun i => Some (res i * c)%C) (fun i => res i * c)%C (Any _ _) (fun i _ => eq_refl) res) as (r' & -> & R & _). cbn [bindo].
  destruct (fill_range (sched [9] (length idx)) (length idx) (fun i => Some (t2 i * c)%C) (fun i => t2 i * c)%C (Any _ _) (fun i _ => eq_refl) t2) as (t' & -> & T & _). cbn [bindo].
  do 2 eexists. split; [reflexivity|]. intros i r Hi. assert (Hb : (i < length idx)%nat) by (apply nth_error_Some; congruence). rewrite R, T by assumption.
  destruct (F i r Hi) as [-> ->].
  assert (E : (RtoC (IZR (prodZ sd)) * c)%C = RtoC (/ IZR L)).
  { unfold c. rewrite <- RtoC_mul. f_equal. field. split; apply IZR_neq; lia. }
  rewrite <- E. split; ring.
Qed.
End Fftw.

(** * Without FFTW *)
Section Direct.
Variables (sd : list Z) (L : Z).
Let ds := sd ++ [L].
Hypothesis Hok : lattice_ok ds.
Hypothesis M : moderate sd.
Variables (NC : nat) (poly : nat -> arr) (idx : list nat) (sched : schedule).
Hypothesis Any : any_order sched.
Let N := fft_size sd.
Let P : Forall (fun L => 0 < L) sd. Proof. exact (proj1 (sl_pos sd L Hok)). Qed.
Lemma direct_sum_ok r : direct_sum ds NC poly (Z.of_nat r) =
  Some (conj (csum (Z.to_nat L) (pair_tr sd NC poly r)),
        csum (Z.to_nat L) (fun t => csum N (fun y => mtr NC (mx NC (poly (y + N * t)%nat)) * mtr NC (mx NC (poly (plus_site sd y r + N * t)%nat))))%C).
Proof.
  destruct (sl_pos sd L Hok) as [_ HL]. pose proof (sl_prod sd L Hok) as HP. unfold direct_sum. unfold ds. rewrite sl_mom by (try exact Hok; lia). cbn [bindo]. rewrite sl_LCU, sl_Lt by exact Hok. fold ds. fold N.
  set (f := fun k t => mtr NC (mmul NC (mx NC (poly (k + N * t)%nat)) (dag (mx NC (poly (plus_site sd k r + N * t)%nat))))).
  set (g := fun k t => (mtr NC (mx NC (poly (k + N * t)%nat)) * mtr NC (mx NC (poly (plus_site sd k r + N * t)%nat)))%C).
  assert (Inner : forall k m s1 s2, (k < N)%nat -> (m <= Z.to_nat L)%nat ->
    for_ m (direct_pair ds NC poly (i32 (Z.of_nat (plus_site sd k r))) k) (Some (s1, s2)) = Some (s1 + csum m (f k), s2 + csum m (g k))%C).
  { intros k m s1 s2 Hk. induction m as [|m IH]; intro Hm; [cbn; f_equal; f_equal; ring|]. cbn [for_]. rewrite IH by lia. unfold direct_pair. cbn [bindo].
    assert (B : (plus_site sd k r < N)%nat) by (apply plus_site_lt; exact P).
    assert (VN : Z.of_nat N = prodZ sd) by (unfold N, fft_size; lia).
    rewrite i32_id by lia. unfold ds. rewrite sl_LCU, sl_volume by exact Hok. fold ds. fold N.
    assert (K : Z.of_nat (plus_site sd k r + N * m) < prodZ sd * L) by (rewrite Nat2Z.inj_add, Nat2Z.inj_mul, VN; nia).
    pose proof (ok_volume _ Hok) as OV. unfold ds in OV. rewrite prodZ_app, prodZ_cons in OV. change (prodZ []) with 1 in OV.
    rewrite <- Nat2Z.inj_mul, <- Nat2Z.inj_add. rewrite u64_id by lia.
    replace (Z.of_nat (plus_site sd k r + N * m) <? prodZ sd * L) with true by lia. rewrite Nat2Z.id. rewrite trace_ab_dag_ok, !trace_ok. cbn [csum]. unfold f, g. f_equal. f_equal; ring. }
  assert (Outer : forall m, (m <= N)%nat -> for_ m (fun k s => do translate <- compute_spacing ds (digits sd (Z.of_nat r) ++ [0]) (Z.of_nat k) (length ds - 1);
      for_ (Z.to_nat L) (direct_pair ds NC poly (i32 translate) k) s) (Some (C0, C0)) = Some (csum m (fun k => csum (Z.to_nat L) (f k)), csum m (fun k => csum (Z.to_nat L) (g k)))).
  { induction m as [|m IH]; intro Hm; [reflexivity|]. cbn [for_]. rewrite IH by lia. unfold ds at 1 2. rewrite sl_spacing by (try exact Hok; try exact M; unfold N in Hm; lia). cbn [bindo].
    rewrite Inner by lia. cbn [csum]. reflexivity. }
  rewrite Outer by lia. do 2 f_equal.
  - rewrite csum_swap. rewrite csum_conj || rewrite conj_csum. apply csum_ext. intros t Ht. unfold pair_tr. rewrite csum_conj || rewrite conj_csum. apply csum_ext. intros y Hy. unfold f. fold N.
    rewrite <- mtr_dag. rewrite dag_mmul, dag_dag. reflexivity.
  - rewrite csum_swap. reflexivity.
Qed.
Theorem correlator_direct_ok result trtr :
  exists res tt, correlator_direct sched ds NC poly (map Z.of_nat idx) result trtr = Some (res, tt) /\
  forall i r, nth_error idx i = Some r ->
    res i = (RtoC (/ IZR L) * conj (csum (Z.to_nat L) (pair_tr sd NC poly r)))%C /\
    tt i = (RtoC (/ IZR L) * csum (Z.to_nat L) (fun t => csum N (fun y => mtr NC (mx NC (poly (y + N * t)%nat)) * mtr NC (mx NC (poly (plus_site sd y r + N * t)%nat)))))%C.
Proof.
  unfold correlator_direct. rewrite map_length. replace (last ds 0) with L by (unfold ds; symmetry; apply last_last). cbv zeta.
  match goal with |- context [fill ?o ?f result] => destruct (fill_range o (length idx) f (fun i => RtoC (/ IZR L) * conj (csum (Z.to_nat L) (pair_tr sd NC poly (nth i idx 0%nat))))%C (Any _ _)) with (a := result) as (r' & -> & R & _) end.
  { intros i Hi. rewrite nth_error_map, (nth_error_nth' idx 0%nat) by assumption. cbn [option_map bindo]. rewrite direct_sum_ok. cbn [bindo]. f_equal. unfold Rdiv. rewrite Rmult_1_l. ring. }
  cbn [bindo].
  match goal with |- context [fill ?o ?f trtr] => destruct (fill_range o (length idx) f (fun i => RtoC (/ IZR L) * csum (Z.to_nat L) (fun t => csum N (fun y => mtr NC (mx NC (poly (y + N * t)%nat)) * mtr NC (mx NC (poly (plus_site sd y (nth i idx 0%nat) + N * t)%nat)))))%C (Any _ _)) with (a := trtr) as (t' & -> & T & _) end.
  { intros i Hi. rewrite nth_error_map, (nth_error_nth' idx 0%nat) by assumption. cbn [option_map bindo]. rewrite direct_sum_ok. cbn [bindo]. f_equal. unfold Rdiv. rewrite Rmult_1_l. ring. }
  cbn [bindo]. do 2 eexists. split; [reflexivity|]. intros i r Hi. assert (Hb : (i < length idx)%nat) by (apply nth_error_Some; congruence).
  rewrite R, T by assumption. now rewrite (nth_error_nth idx i 0%nat Hi).
Qed.
End Direct.
