From Coq Require Import ZArith Reals List PeanoNat Lia Lra.
From Verif Require Import CInt Cplx Arr ProjModel NumModel.
Local Open Scope C_scope.

Section V.
Variables (n : nat) (x : nat -> R).

(** ** divided differences *)
Fixpoint dd (f : nat -> C) (k i : nat) : C :=
  match k with
  | O => f i
  | S k => Cdiv (dd f k i - dd f k (i - 1)%nat) (RtoC (x i - x (i - k - 1)%nat))
  end.

Lemma divide_ok : forall k f, (k < n)%nat ->
  (forall i, (i < n)%nat -> vdm_divide n k x f i = if Nat.ltb k i then Cdiv (f i - f (i - 1)%nat) (RtoC (x i - x (i - k - 1)%nat)) else f i).
Proof.
  intros k f Hk. unfold vdm_divide.
  set (body := fun j (f0 : arr) => _).
  assert (G : forall m, (m <= n - 1 - k)%nat -> forall i, (i < n)%nat ->
    for_ m body f i = if Nat.ltb (n - 1 - m) i then Cdiv (f i - f (i - 1)%nat) (RtoC (x i - x (i - k - 1)%nat)) else f i).
  { induction m as [|m IH]; intros Hm i Hi.
    - cbn [for_]. rewrite (proj2 (Nat.ltb_ge (n - 1 - 0) i)) by lia. reflexivity.
    - cbn [for_]. unfold body at 1. cbv zeta. destruct (Nat.eq_dec i (n - 1 - m)) as [->|N].
      + rewrite upd_eq, !IH by lia.
        rewrite (proj2 (Nat.ltb_ge (n - 1 - m) (n - 1 - m))) by lia.
        rewrite (proj2 (Nat.ltb_ge (n - 1 - m) (n - 1 - m - 1))) by lia.
        rewrite (proj2 (Nat.ltb_lt (n - 1 - S m) (n - 1 - m))) by lia. reflexivity.
      + rewrite upd_neq by assumption. rewrite IH by lia.
        destruct (Nat.ltb_spec (n - 1 - m) i); destruct (Nat.ltb_spec (n - 1 - S m) i); try lia; reflexivity. }
  intros i Hi. rewrite (G (n - 1 - k)%nat) by lia.
  replace (n - 1 - (n - 1 - k))%nat with k by lia. reflexivity.
Qed.
Lemma passes_ok : forall f m, (m <= n - 1)%nat -> forall i, (i < n)%nat ->
  for_ m (fun k f => vdm_divide n k x f) f i = dd f (Nat.min m i) i.
Proof.
  intros f. induction m as [|m IH]; intros Hm i Hi; [reflexivity|]. cbn [for_].
  rewrite divide_ok by lia. rewrite !IH by lia. destruct (Nat.ltb_spec m i) as [L|L].
  - rewrite (Nat.min_l (S m) i), (Nat.min_l m i), (Nat.min_l m (i - 1)) by lia. reflexivity.
  - rewrite (Nat.min_r (S m) i), (Nat.min_r m i) by lia. reflexivity.
Qed.

(** ** Newton's form on the nodes s, ..., s+m *)
Fixpoint W (s m : nat) (t : C) : C := match m with O => C1 | S m => W s m t * (t - RtoC (x (s + m)%nat)) end.
Fixpoint NP (f : nat -> C) (s m : nat) (t : C) : C :=
  match m with O => f s | S m => NP f s m t + dd f (S m) (s + S m)%nat * W s (S m) t end.

Lemma W_first : forall m s t, W s (S m) t = (t - RtoC (x s)) * W (S s) m t.
Proof.
  induction m as [|m IH]; intros s t; [cbn; rewrite Nat.add_0_r; ring|].
  change (W s (S (S m)) t) with (W s (S m) t * (t - RtoC (x (s + S m)%nat))). rewrite IH. cbn [W].
  replace (S s + m)%nat with (s + S m)%nat by lia. ring.
Qed.
Hypothesis distinct : forall i j, (i < j < n)%nat -> x i <> x j.
Lemma dd_mul : forall f k i, (S k <= i < n)%nat -> dd f (S k) i * (RtoC (x i) - RtoC (x (i - S k)%nat)) = dd f k i - dd f k (i - 1)%nat.
Proof.
  intros f k i H. cbn [dd]. replace (i - k - 1)%nat with (i - S k)%nat by lia.
  assert (Nz : RtoC (x i - x (i - S k)%nat) <> C0).
  { intro E. injection E as E. apply (distinct (i - S k) i); [lia|lra]. }
  replace (RtoC (x i) - RtoC (x (i - S k)%nat)) with (RtoC (x i - x (i - S k)%nat)) by (unfold RtoC, Csub, Cadd, Copp; cbn; f_equal; ring).
  field. exact Nz.
Qed.
Lemma NP_shift : forall f m s t, (s + S m < n)%nat ->
  NP f (S s) m t - NP f s m t = (dd f m (s + S m)%nat - dd f m (s + m)%nat) * W (S s) m t.
Proof.
  intros f. induction m as [|m IH]; intros s t H.
  - cbn [NP dd W]. replace (s + 1)%nat with (S s) by lia. rewrite Nat.add_0_r. ring.
  - cbn [NP]. replace (S s + S m)%nat with (s + S (S m))%nat by lia.
    assert (A : NP f (S s) m t = NP f s m t + (dd f m (s + S m)%nat - dd f m (s + m)%nat) * W (S s) m t) by (rewrite <- IH by lia; ring).
    rewrite A. rewrite (W_first m s t).
    pose proof (dd_mul f m (s + S m) ltac:(lia)) as D.
    replace (s + S m - 1)%nat with (s + m)%nat in D by lia. replace (s + S m - S m)%nat with s in D by lia.
    rewrite <- D. cbn [W]. replace (S s + m)%nat with (s + S m)%nat by lia. ring.
Qed.
Lemma neville : forall f m s t, (s + S m < n)%nat ->
  (RtoC (x (s + S m)%nat) - RtoC (x s)) * NP f s (S m) t =
  (t - RtoC (x s)) * NP f (S s) m t - (t - RtoC (x (s + S m)%nat)) * NP f s m t.
Proof.
  intros f m s t H. cbn [NP].
  assert (A : NP f (S s) m t = NP f s m t + (dd f m (s + S m)%nat - dd f m (s + m)%nat) * W (S s) m t) by (rewrite <- NP_shift by lia; ring).
  rewrite A, W_first.
  pose proof (dd_mul f m (s + S m) ltac:(lia)) as D.
  replace (s + S m - 1)%nat with (s + m)%nat in D by lia. replace (s + S m - S m)%nat with s in D by lia.
  rewrite <- D. ring.
Qed.
Lemma W_zero : forall m s i, (i < m)%nat -> W s m (RtoC (x (s + i)%nat)) = C0.
Proof.
  induction m as [|m IH]; intros s i H; [lia|]. cbn [W]. destruct (Nat.eq_dec i m) as [->|N]; [ring|]. rewrite IH by lia. ring.
Qed.
Lemma interpolates : forall f m s i, (s + m < n)%nat -> (i <= m)%nat -> NP f s m (RtoC (x (s + i)%nat)) = f (s + i)%nat.
Proof.
  intros f. induction m as [|m IH]; intros s i H Hi.
  - replace i with 0%nat by lia. cbn. now rewrite Nat.add_0_r.
  - destruct (Nat.eq_dec i (S m)) as [->|N].
    + pose proof (neville f m s (RtoC (x (s + S m)%nat)) H) as E.
      pose proof (IH (S s) m ltac:(lia) ltac:(lia)) as E1. replace (S s + m)%nat with (s + S m)%nat in E1 by lia. rewrite E1 in E.
      assert (Nz : RtoC (x (s + S m)%nat) - RtoC (x s) <> C0).
      { intro Z. injection Z as Z _. cbn in Z. apply (distinct s (s + S m)); [lia|lra]. }
      set (d := RtoC (x (s + S m)%nat) - RtoC (x s)) in *.
      assert (E2 : d * NP f s (S m) (RtoC (x (s + S m)%nat)) = d * f (s + S m)%nat) by (rewrite E; ring).
      transitivity (Cinv d * (d * NP f s (S m) (RtoC (x (s + S m)%nat)))); [field; exact Nz|]. rewrite E2. field. exact Nz.
    + cbn [NP]. rewrite W_zero by lia. rewrite IH by lia. ring.
Qed.

(** ** the second loop *)
Fixpoint poly (a : nat -> C) (k len : nat) (t : C) : C := (* sum of a (k + j) t^j, j < len *)
  match len with O => C0 | S len => a k + t * poly a (S k) len t end.
Lemma poly_ext : forall len a b k t, (forall i, (k <= i < k + len)%nat -> a i = b i) -> poly a k len t = poly b k len t.
Proof. induction len as [|l IH]; intros a b k t H; [reflexivity|]. cbn. rewrite (H k) by lia. rewrite (IH a b (S k)); [reflexivity|]. intros; apply H; lia. Qed.

Lemma plug_ok : forall k f i, (k < n)%nat -> (i < n)%nat ->
  vdm_plug n k x f i = if (Nat.leb k i && Nat.ltb i (n - 1))%bool then f i - f (i + 1)%nat * RtoC (x k) else f i.
Proof.
  intros k f i Hk. unfold vdm_plug. set (body := fun j (f0 : arr) => _).
  assert (G : forall m, (m <= n - 1 - k)%nat -> forall i, (i < n)%nat ->
    for_ m body f i = if (Nat.leb k i && Nat.ltb i (k + m))%bool then f i - f (i + 1)%nat * RtoC (x k) else f i).
  { induction m as [|m IH]; intros Hm j Hj.
    - cbn [for_]. destruct (Nat.leb_spec k j); destruct (Nat.ltb_spec j (k + 0)); try lia; reflexivity.
    - cbn [for_]. unfold body at 1. cbv zeta. destruct (Nat.eq_dec j (k + m)) as [->|N].
      + rewrite upd_eq, !IH by lia.
        destruct (Nat.leb_spec k (k + m)); [|lia]. destruct (Nat.ltb_spec (k + m) (k + m)); [lia|].
        destruct (Nat.ltb_spec (k + m + 1) (k + m)); [lia|]. destruct (Nat.ltb_spec (k + m) (k + S m)); [|lia].
        rewrite !Bool.andb_false_r. reflexivity.
      + rewrite upd_neq by assumption. rewrite IH by lia.
        destruct (Nat.leb_spec k j); destruct (Nat.ltb_spec j (k + m)); destruct (Nat.ltb_spec j (k + S m)); try lia; reflexivity. }
  intro Hi. rewrite (G (n - 1 - k)%nat) by lia. replace (k + (n - 1 - k))%nat with (n - 1)%nat by lia. reflexivity.
Qed.
Lemma plug_poly : forall k f t, (k + 1 < n)%nat ->
  poly (vdm_plug n k x f) k (n - k) t = f k + (t - RtoC (x k)) * poly f (S k) (n - S k) t.
Proof.
  intros k f t Hk.
  assert (G : forall l i, (k <= i)%nat -> (i + S l = n)%nat -> poly (vdm_plug n k x f) i (S l) t = f i + (t - RtoC (x k)) * poly f (S i) l t).
  { induction l as [|l IH]; intros i Hi Hn.
    - cbn. rewrite plug_ok by lia. destruct (Nat.leb_spec k i); [|lia]. destruct (Nat.ltb_spec i (n - 1)); [lia|]. cbn. ring.
    - change (poly (vdm_plug n k x f) i (S (S l)) t) with (vdm_plug n k x f i + t * poly (vdm_plug n k x f) (S i) (S l) t).
      rewrite IH by lia. rewrite plug_ok by lia. destruct (Nat.leb_spec k i); [|lia]. destruct (Nat.ltb_spec i (n - 1)); [|lia].
      cbn [andb poly]. replace (i + 1)%nat with (S i) by lia. ring. }
  replace (n - k)%nat with (S (n - S k)) by lia. apply G; lia.
Qed.
(** Newton's form by Horner *)
Fixpoint tail (c : nat -> C) (k len : nat) (t : C) : C :=
  match len with O => C0 | S len => c k + (t - RtoC (x k)) * tail c (S k) len t end.
Lemma plugs_ok : forall c m, (m <= n - 1)%nat ->
  (forall i, (i < n - m)%nat -> for_ m (fun j f => vdm_plug n (n - 1 - j) x f) c i = c i) /\
  (forall t, poly (for_ m (fun j f => vdm_plug n (n - 1 - j) x f) c) (n - m) m t = tail c (n - m) m t).
Proof.
  intros c. induction m as [|m IH]; intro Hm.
  - split; [reflexivity|]. intro t. reflexivity.
  - destruct (IH ltac:(lia)) as [A B]. cbn [for_].
    set (g := for_ m (fun j f => vdm_plug n (n - 1 - j) x f) c) in *. split.
    + intros i Hi. rewrite plug_ok by lia. destruct (Nat.leb_spec (n - 1 - m) i); [lia|]. apply A. lia.
    + intro t. destruct m as [|m].
      * replace (n - 1)%nat with (n - 1 - 0)%nat by lia. cbn [poly tail]. rewrite plug_ok by lia.
        destruct (Nat.ltb_spec (n - 1 - 0) (n - 1)); [lia|]. rewrite Bool.andb_false_r. rewrite A by lia. ring.
      * pose proof (plug_poly (n - 1 - S m) g t ltac:(lia)) as P.
        replace (n - (n - 1 - S m))%nat with (S (S m)) in P by lia.
        replace (n - S (n - 1 - S m))%nat with (S m) in P by lia.
        replace (S (n - 1 - S m)) with (n - S m)%nat in P by lia.
        replace (n - S (S m))%nat with (n - 1 - S m)%nat by lia.
        rewrite P, B, A by lia. cbn [tail]. replace (S (n - 1 - S m)) with (n - S m)%nat by lia. reflexivity.
Qed.
(** Horner's form is Newton's sum *)
Lemma tail_np : forall f m s t, NP f s m t = tail (fun i => dd f (i - s) i) s (S m) t.
Proof.
  intros f m s t.
  assert (G : forall l c k, tail c k (S l) t = tail c k l t + c (k + l)%nat * W k l t).
  { induction l as [|l IH]; intros c k; [cbn; rewrite Nat.add_0_r; ring|].
    change (tail c k (S (S l)) t) with (c k + (t - RtoC (x k)) * tail c (S k) (S l) t). rewrite IH. cbn [tail]. rewrite W_first.
    replace (S k + l)%nat with (k + S l)%nat by lia. ring. }
  induction m as [|m IH].
  - cbn. rewrite Nat.sub_diag. cbn. ring.
  - rewrite G. cbn [NP]. rewrite IH. replace (s + S m - s)%nat with (S m) by lia. reflexivity.
Qed.

(** what the routine computes *)
Lemma vdm_ok : forall f i, (i < n)%nat ->
  solvandermonde n x f 0%nat + (RtoC (x i) - RtoC (x 0%nat)) * poly (solvandermonde n x f) 1 (n - 1) (RtoC (x i)) = f i.
Proof.
  intros f i Hi. unfold solvandermonde. set (c := for_ (n - 1) (fun k f => vdm_divide n k x f) f).
  destruct (plugs_ok c (n - 1) ltac:(lia)) as [A B]. set (r := for_ (n - 1) _ c) in *.
  rewrite (A 0%nat) by lia. replace (n - (n - 1))%nat with 1%nat in B by lia. rewrite B.
  change (tail c 0 (S (n - 1)) (RtoC (x i)) = f i).
  transitivity (tail (fun i => dd f (i - 0) i) 0 (S (n - 1)) (RtoC (x i))).
  - assert (T : forall l a b k t, (forall i, (k <= i < k + l)%nat -> a i = b i) -> tail a k l t = tail b k l t).
    { induction l as [|l IH]; intros a b k t H; [reflexivity|]. cbn. rewrite (H k) by lia. rewrite (IH a b (S k)); [reflexivity|]. intros; apply H; lia. }
    apply T. intros j Hj. unfold c. rewrite passes_ok by lia. rewrite Nat.min_r by lia. now rewrite Nat.sub_0_r.
  - rewrite <- tail_np. apply (interpolates f (n - 1) 0 i); lia.
Qed.
End V.
