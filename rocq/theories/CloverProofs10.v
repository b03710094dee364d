(** Four or more colours: the third quadrant uses a product without the conjugations. *)
From Coq Require Import PeanoNat Lia List ZArith Reals Lra Setoid Morphisms Permutation.
From Verif Require Import CMat Det Arr MatSpec MmulModel MmulProofs MatModel MatProofs MatProofs2 Su2Model Su2Proofs FieldModel FieldProofs FieldProofs2 FieldProofs3 ProjModel ProjProofs CloverModel CloverProofs CloverProofs2 CloverProofs3 CloverProofs4 CloverProofs5 CloverProofs6 CloverProofs7 CloverProofs8.
Import ListNotations.
Local Open Scope C_scope.

Definition transp (A : mat) : mat := fun i j => A j i.
Global Instance transp_proper n : Proper (meq n ==> meq n) transp.
Proof. intros A B H i j Hi Hj. unfold transp. now apply H. Qed.
Section big.
Variables (n V : nat) (lat : lattice).
Hypothesis Hn : (4 <= n)%nat.
Hypothesis Geo : geom_ok 4 V lat.
Hypothesis Grp : group_field n 4 V lat.
(** what the third quadrant really is *)
Definition third (i mu nu : nat) : mat :=
  let s1 := bck (lat i) mu in let s2 := bck (lat s1) nu in let s3 := bck (lat i) nu in
  mmul n (mmul n (transp (mmul n (lnk n lat s2 nu) (lnk n lat s1 mu))) (lnk n lat s2 mu)) (lnk n lat s3 nu).
Lemma s3_raw : forall i mu nu sum u v,
  meq n (mx n (sum_of (compute_s3 n lat i mu nu 1 (sum, u, v)))) (madd (mx n sum) (third i mu nu)).
Proof.
  intros i mu nu sum u v. unfold compute_s3. cbv zeta. cbn [sum_of fst].
  assert (M : multab_suNC n = multab n) by (destruct n as [|[|[|[|m]]]]; [lia|lia|lia|lia|reflexivity]).
  assert (D : multab_dagdag_suNC n = multab_dagdag_n n) by (destruct n as [|[|[|[|m]]]]; [lia|lia|lia|lia|reflexivity]).
  rewrite M, D. unfold a_plus_Sxb, third.
  match goal with |- context [a_plus_CSxb n sum ?x (RtoC 1)] => destruct (a_plus_CSxb_ok n sum x (RtoC 1)) as [E _]; rewrite E end.
  match goal with |- context [multab n ?a ?x ?y] => destruct (multab_ok n a x y) as [E1 _]; rewrite E1 end.
  match goal with |- context [multab n ?a ?x ?y] => destruct (multab_ok n a x y) as [E2 _]; rewrite E2 end.
  match goal with |- context [multab_dagdag_n n ?a ?x ?y] => destruct (multab_dagdag_n_is n a x y) as [E3 _] end.
  match type of E3 with meq _ _ ?Z => assert (E4 : meq n Z (transp (mmul n (lnk n lat (bck (lat (bck (lat i) mu)) nu) nu) (lnk n lat (bck (lat i) mu) mu)))) end.
  { intros p q _ _. unfold transp, mmul, lnk. apply csum_ext. intros; ring. }
  rewrite E4 in E3. rewrite E3. intros p q _ _. unfold madd, mscale, lnk. change (RtoC 1) with C1. ring.
Qed.
Definition raw (i mu nu : nat) : mat := madd (loops_sum n lat i mu nu [(1%R, 1, 1, 1); (1%R, 2, 1, 1)]%nat) (madd (third i mu nu) (loops_sum n lat i mu nu [(1%R, 4, 1, 1)%nat])).
Lemma plane_raw : forall w i mu nu st, (i < V)%nat -> (mu < 4)%nat -> (nu < 4)%nat ->
  meq n (mx n (sum_of (plane_sum Standard n lat i mu nu w st))) (madd (mx n (sum_of st)) (raw i mu nu)).
Proof.
  intros w i mu nu st Hi Hmu Hnu. cbn [plane_sum].
  assert (A1 : forall st, addl n lat i mu nu [(1%R, 1, 1, 1)%nat] st (compute_s1 n lat i mu nu 1 st)).
  { intros [[s u] v]. apply addl_one. now apply (compute_s1_ok n 4%nat V). }
  assert (A2 : forall st, addl n lat i mu nu [(1%R, 2, 1, 1)%nat] st (compute_s2 n lat i mu nu 1 st)).
  { intros [[s u] v]. apply addl_one. now apply (compute_s2_any n 4%nat V). }
  assert (A4 : forall st, addl n lat i mu nu [(1%R, 4, 1, 1)%nat] st (compute_s4 n lat i mu nu 1 st)).
  { intros [[s u] v]. apply addl_one. now apply (compute_s4_any n 4%nat V). }
  cbv zeta. set (t2 := compute_s2 n lat i mu nu 1 (compute_s1 n lat i mu nu 1 st)).
  pose proof (addl_app n lat i mu nu [_] [_] _ _ _ (A1 st) (A2 _)) as B. fold t2 in B. unfold addl in B.
  pose proof (A4 (compute_s3 n lat i mu nu 1 t2)) as D. unfold addl in D. rewrite D.
  destruct t2 as [[s u] v]. rewrite s3_raw. cbn [sum_of fst] in B. rewrite B. unfold raw. cbn [app]. now rewrite !madd_assoc.
Qed.
Lemma kernel_raw : forall w i mu nu rho delta F G, (i < V)%nat -> (mu < 4)%nat -> (nu < 4)%nat -> (rho < 4)%nat -> (delta < 4)%nat ->
  meq n (trf n (herm (raw i mu nu))) F -> meq n (trf n (herm (raw i rho delta))) G ->
  compute_Gmunu_kernel Standard n lat i mu nu rho delta w = (re (mtr n (mmul n G G)), re (mtr n (mmul n F F)), re (mtr n (mmul n F G))).
Proof.
  intros w i mu nu rho delta F G Hi Hm Hn' Hr Hd HF HG. unfold compute_Gmunu_kernel, two_planes.
  pose proof (plane_raw w i mu nu (zero_mat n (w 4%nat), w 6%nat, w 7%nat) Hi Hm Hn') as E.
  destruct (plane_sum Standard n lat i mu nu w (zero_mat n (w 4%nat), w 6%nat, w 7%nat)) as [[s1 u] v].
  pose proof (plane_raw w i rho delta (zero_mat n (w 5%nat), u, v) Hi Hr Hd) as E'.
  destruct (plane_sum Standard n lat i rho delta w (zero_mat n (w 5%nat), u, v)) as [[s2 u2] v2].
  cbn [sum_of fst] in E, E'. destruct (zero_mat_ok n (w 4%nat)) as [Z4 _]. destruct (zero_mat_ok n (w 5%nat)) as [Z5 _].
  rewrite Z4, madd_0_l in E. rewrite Z5, madd_0_l in E'.
  assert (S : forall M, shaped n M) by (intros M K; lia).
  assert (PO : forall Q a M, meq n (mx n a) M -> meq n (mx n (Hermitian_proj n Q a)) (trf n (herm M))).
  { intros Q a M H. apply (proj_ok n Plaquette); [split; [lia|now left]|assumption|apply S]. }
  unfold compute_GG_q. rewrite !trace_ab_ok.
  pose proof (PO (w 8%nat) s1 _ E) as P1. pose proof (PO (w 9%nat) s2 _ E') as P2. rewrite HF in P1. rewrite HG in P2.
  now rewrite (mtr2 n _ _ _ _ P1 P1), (mtr2 n _ _ _ _ P2 P2), (mtr2 n _ _ _ _ P1 P2).
Qed.
End big.

(** * The witness: two sites in time, a pure gauge field *)
Definition pack (n : nat) (M : mat) : arr := fun k => M (k / n)%nat (k mod n)%nat.
Lemma mx_pack : forall n M, meq n (mx n (pack n M)) M.
Proof.
  intros n M i j Hi Hj. unfold mx, pack. replace (j + n*i)%nat with (i*n + j)%nat by lia.
  rewrite Nat.div_add_l, Nat.div_small by lia. rewrite (Nat.add_comm (i * n)), Nat.mod_add, Nat.mod_small by lia. now rewrite Nat.add_0_r.
Qed.
Definition ph : C := (3/5, 4/5)%R.
Definition twist : mat := embed 0 1 ph C0.
Definition w_gauge (i : nat) : mat := if Nat.eqb i 0 then twist else mid.
Definition w_link (i mu : nat) : mat := if Nat.eqb mu 3 then (if Nat.eqb i 0 then twist else dag twist) else mid.
Definition w_lat (n : nat) : lattice := init_navig [1; 1; 1; 2]%Z (fun i mu => pack n (w_link i mu)).
Lemma w_dims : GeomSpec.lattice_ok [1; 1; 1; 2]%Z.
Proof. split; [discriminate|]. split; [|reflexivity]. repeat (apply Forall_cons; [unfold CInt.two31; lia|]). constructor. Qed.
Lemma w_nbr : forall n i mu, (i < 2)%nat -> (mu < 4)%nat -> nbr (w_lat n i) mu = (if Nat.eqb mu 3 then 1 - i else i)%nat /\ bck (w_lat n i) mu = (if Nat.eqb mu 3 then 1 - i else i)%nat.
Proof.
  intros n i mu Hi Hm. destruct i as [|[|i]]; [| |lia]; destruct mu as [|[|[|[|mu]]]]; try lia; split; vm_compute; reflexivity.
Qed.
Lemma twist_SU : forall n, (2 <= n)%nat -> SUn n twist.
Proof. intros n Hn. apply embed_SUn; [lia|lia|lia|]. unfold unit2, ph, norm2. cbn. lra. Qed.
Lemma w_lnk : forall n i mu, meq n (lnk n (w_lat n) i mu) (w_link i mu).
Proof. intros. apply mx_pack. Qed.
Lemma w_group : forall n, (2 <= n)%nat -> group_field n 4 2 (w_lat n).
Proof.
  intros n Hn i mu Hi Hm. eapply SUn_ext; [symmetry; apply w_lnk|]. unfold w_link. pose proof (twist_SU n Hn) as T.
  destruct (Nat.eqb mu 3); [destruct (Nat.eqb i 0); [assumption|now apply SUn_dag]|apply SUn_mid].
Qed.
Lemma w_gauge_ok : forall n, (2 <= n)%nat -> group_gauge n 2 w_gauge.
Proof. intros n Hn i Hi. unfold w_gauge. destruct (Nat.eqb i 0); [now apply twist_SU|apply SUn_mid]. Qed.
Lemma w_geom : forall n, geom_ok 4 2 (w_lat n).
Proof. intro n. change 2%nat with (volume [1; 1; 1; 2]%Z). apply (navig_geom [1; 1; 1; 2]%Z); [apply w_dims|apply init_navig_ok, w_dims]. Qed.
Lemma w_pure : forall n i mu, (2 <= n)%nat -> (i < 2)%nat -> (mu < 4)%nat ->
  meq n (lnk n (w_lat n) i mu) (mmul n (w_gauge i) (dag (w_gauge (nbr (w_lat n i) mu)))).
Proof.
  intros n i mu Hn Hi Hm. rewrite w_lnk. destruct (w_nbr n i mu Hi Hm) as [-> _]. unfold w_link, w_gauge.
  pose proof (twist_SU n Hn) as [[T1 T2] _].
  destruct (Nat.eqb_spec mu 3).
  - destruct i as [|[|i]]; [| |lia]; cbn [Nat.eqb Nat.sub]; [now rewrite dag_mid, mmul_1_r|now rewrite mmul_1_l].
  - destruct i as [|[|i]]; [| |lia]; cbn [Nat.eqb]; [now symmetry|]. now rewrite dag_mid, mmul_1_r.
Qed.
Definition diag (d : nat -> C) : mat := fun i j => d i * mid i j.
Lemma diag_mmul : forall n d B, meq n (mmul n (diag d) B) (fun i j => d i * B i j).
Proof.
  intros n d B i j Hi Hj. unfold mmul, diag. rewrite (csum_ext n _ (fun k => d i * (mid i k * B k j))) by (intros; ring).
  rewrite csum_mul_l. f_equal. exact (mmul_1_l n B i j Hi Hj).
Qed.
Definition lean (x : R) : nat -> C := fun i => if Nat.eqb i 0 then RtoC x else if Nat.eqb i 1 then RtoC (- x) else C0.
Lemma lean_sum : forall n (f : C -> C) x, (2 <= n)%nat -> f C0 = C0 -> csum n (fun i => f (lean x i)) = f (RtoC x) + f (RtoC (- x)).
Proof.
  intros n f x Hn Z. destruct n as [|[|m]]; [lia|lia|]. clear Hn. induction m as [|m IH].
  - cbn [csum lean Nat.eqb]. ring.
  - cbn [csum] in *. rewrite IH. cbn [lean Nat.eqb]. rewrite Z. ring.
Qed.
Lemma raw_time : forall n i nu, (4 <= n)%nat -> (i < 2)%nat -> (nu < 3)%nat ->
  meq n (trf n (herm (raw n (w_lat n) i 3 nu))) (diag (lean (if Nat.eqb i 0 then - (24/25) else 24/25)%R)).
Proof.
  intros n i nu Hn Hi Hnu. set (x := (if Nat.eqb i 0 then - (24/25) else 24/25)%R).
  set (s := if Nat.eqb i 0 then conj ph else ph).
  assert (E : meq n (raw n (w_lat n) i 3 nu) (madd (mscale (RtoC 3) mid) (embed 0 1 (s * s) C0))).
  { unfold raw. cbn [loops_sum]. rewrite !(pure_quadrant n 2 (w_lat n) w_gauge (w_geom n) (w_gauge_ok n ltac:(lia)) (fun i mu => w_pure n i mu ltac:(lia))) by lia.
    assert (T : meq n (third n (w_lat n) i 3 nu) (embed 0 1 (s * s) C0)).
    { unfold third. destruct (w_nbr n i 3 Hi ltac:(lia)) as [_ B]. cbn [Nat.eqb] in B. rewrite B.
      destruct (w_nbr n (1 - i) nu ltac:(lia) ltac:(lia)) as [_ B2]. destruct (Nat.eqb_spec nu 3); [lia|]. rewrite B2.
      assert (U : meq n (lnk n (w_lat n) (1 - i) 3) (embed 0 1 s C0)).
      { rewrite w_lnk. unfold w_link, s, twist. cbn [Nat.eqb]. destruct i as [|[|i]]; [| |lia]; cbn [Nat.eqb Nat.sub]; [|reflexivity].
        intros p q _ _. rewrite embed_dag by lia. unfold embed. replace (- C0) with C0 by ring. reflexivity. }
      assert (U0 : forall k, meq n (lnk n (w_lat n) k nu) mid).
      { intro k. rewrite w_lnk. unfold w_link. destruct (Nat.eqb_spec nu 3); [lia|reflexivity]. }
      rewrite (U0 (bck (w_lat n i) nu)), mmul_1_r.
      assert (TT : meq n (transp (mmul n (lnk n (w_lat n) (1 - i) nu) (lnk n (w_lat n) (1 - i) 3))) (embed 0 1 s C0)).
      { intros p q Hp Hq. unfold transp. assert (W : meq n (mmul n (lnk n (w_lat n) (1 - i) nu) (lnk n (w_lat n) (1 - i) 3)) (embed 0 1 s C0)) by now rewrite U0, mmul_1_l, U.
        rewrite (W q p Hq Hp). unfold embed, mid. destruct p as [|[|p]], q as [|[|q]]; cbn [Nat.eqb]; try (apply C_eq; cunfold; cbn; ring).
        now rewrite Nat.eqb_sym. }
      rewrite TT, U, embed_mmul by lia. intros p q Hp Hq. unfold embed, mid.
      destruct p as [|[|p]], q as [|[|q]]; cbn [Nat.eqb]; try reflexivity; try (apply C_eq; cunfold; cbn; ring). }
    rewrite T. intros p q _ _. unfold madd, mscale, mzero. change (RtoC 1) with C1. replace (RtoC 3) with ((1 + 1 + 1)%R, 0%R) by (apply C_eq; cbn; ring).
    set (e := embed 0 1 (s * s) C0 p q). set (m := mid p q). destruct e, m. apply C_eq; cunfold; cbn; ring. }
  assert (H : meq n (herm (raw n (w_lat n) i 3 nu)) (diag (lean x))).
  { intros p q Hp Hq. unfold herm, aherm, mscale, msub, dag. rewrite !E by assumption. unfold madd, mscale, embed, diag, lean, mid, x, s, ph.
    destruct p as [|[|p]], q as [|[|q]]; cbn [Nat.eqb]; destruct (Nat.eqb i 0); try (apply C_eq; cunfold; cbn; lra).
    - rewrite (Nat.eqb_sym q p). destruct (Nat.eqb p q); apply C_eq; cunfold; cbn; lra.
    - rewrite (Nat.eqb_sym q p). destruct (Nat.eqb p q); apply C_eq; cunfold; cbn; lra. }
  assert (T0 : mtr n (herm (raw n (w_lat n) i 3 nu)) = C0).
  { rewrite H. unfold mtr, diag. rewrite (csum_ext n _ (fun k => lean x k)) by (intros k _; unfold mid; rewrite Nat.eqb_refl; ring).
    rewrite (lean_sum n (fun z => z) x) by (lia || reflexivity). apply C_eq; cunfold; cbn; ring. }
  unfold trf. rewrite T0. rewrite H. intros p q _ _. unfold msub, mscale, Cdiv. ring.
Qed.
Lemma raw_space : forall n i mu nu, (4 <= n)%nat -> (i < 2)%nat -> (mu < 3)%nat -> (nu < 3)%nat ->
  meq n (trf n (herm (raw n (w_lat n) i mu nu))) mzero.
Proof.
  intros n i mu nu Hn Hi Hmu Hnu.
  assert (E : meq n (raw n (w_lat n) i mu nu) (mscale (RtoC 4) mid)).
  { unfold raw. cbn [loops_sum]. rewrite !(pure_quadrant n 2 (w_lat n) w_gauge (w_geom n) (w_gauge_ok n ltac:(lia)) (fun i mu => w_pure n i mu ltac:(lia))) by lia.
    assert (U : forall k d, (d < 3)%nat -> meq n (lnk n (w_lat n) k d) mid).
    { intros k d Hd. rewrite w_lnk. unfold w_link. destruct (Nat.eqb_spec d 3); [lia|reflexivity]. }
    assert (T : meq n (third n (w_lat n) i mu nu) mid).
    { unfold third.
      assert (W : forall a c, meq n (mmul n (lnk n (w_lat n) a nu) (lnk n (w_lat n) c mu)) mid) by (intros a c; rewrite (U a nu), (U c mu) by assumption; now rewrite mmul_1_r).
      assert (W' : forall a c, meq n (transp (mmul n (lnk n (w_lat n) a nu) (lnk n (w_lat n) c mu))) mid).
      { intros a c. rewrite W. intros p q _ _. unfold transp, mid. now rewrite Nat.eqb_sym. }
      rewrite W'. rewrite (U (bck (w_lat n i) nu) nu), mmul_1_r, mmul_1_l by assumption. now apply U. }
    rewrite T. intros p q _ _. unfold madd, mscale, mzero. change (RtoC 1) with C1. replace (RtoC 4) with ((1 + 1 + 1 + 1)%R, 0%R) by (apply C_eq; cbn; ring).
    set (m := mid p q). destruct m. apply C_eq; cunfold; cbn; ring. }
  assert (H : meq n (herm (raw n (w_lat n) i mu nu)) mzero).
  { intros p q Hp Hq. unfold herm, aherm, mscale, msub, dag. rewrite !E by assumption. unfold mscale, mid, mzero.
    rewrite (Nat.eqb_sym q p). destruct (Nat.eqb p q); apply C_eq; cunfold; cbn; ring. }
  assert (T0 : mtr n (herm (raw n (w_lat n) i mu nu)) = C0).
  { rewrite H. unfold mtr, mzero. rewrite csum_0. reflexivity. }
  unfold trf. rewrite T0, H. intros p q _ _. unfold msub, mscale, Cdiv, mzero. ring.
Qed.
Lemma w_kernel : forall n w i nu rho delta, (4 <= n)%nat -> (i < 2)%nat -> (nu < 3)%nat -> (rho < 3)%nat -> (delta < 3)%nat ->
  compute_Gmunu_kernel Standard n (w_lat n) i 3 nu rho delta w = (0, 1152/625, 0)%R.
Proof.
  intros n w i nu rho delta Hn Hi Hnu Hr Hd.
  rewrite (kernel_raw n 2 (w_lat n) Hn (w_geom n) (w_group n ltac:(lia)) w i 3 nu rho delta _ _ Hi ltac:(lia) ltac:(lia) ltac:(lia) ltac:(lia)
    (raw_time n i nu Hn Hi Hnu) (raw_space n i rho delta Hn Hi Hr Hd)).
  set (x := (if Nat.eqb i 0 then - (24/25) else 24/25)%R).
  assert (Z : forall A, mtr n (mmul n A mzero) = C0).
  { intro A. unfold mtr, mmul, mzero. rewrite (csum_ext n _ (fun _ => C0)), csum_0; [reflexivity|]. intros k Hk.
    rewrite (csum_ext n _ (fun _ => C0)), csum_0; [reflexivity|]. intros; ring. }
  rewrite !Z. rewrite diag_mmul. unfold mtr, diag.
  rewrite (csum_ext n _ (fun k => lean x k * lean x k)) by (intros k _; unfold mid; rewrite Nat.eqb_refl; ring).
  rewrite (lean_sum n (fun z => z * z) x) by (lia || ring).
  change (re C0) with 0%R. f_equal. f_equal. unfold x. destruct (Nat.eqb i 0); cunfold; cbn; lra.
Qed.
Lemma w_GG : forall n w, (4 <= n)%nat -> compute_Gmunu Standard n (w_lat n) w (seq 0 2) = (6912/625, 0)%R.
Proof.
  intros n w Hn. unfold compute_Gmunu. cbn [seq fold_left]. rewrite !w_kernel by lia. cbv zeta beta iota. f_equal; lra.
Qed.
