(** Sliding-window sweeps update every link from the old field. *)
From Coq Require Import PeanoNat List Lia Permutation Bool.
From Verif Require Import Arr SmearModel.
Import ListNotations.

(** * loops *)
Lemma mfor_ind : forall {A S} (P : list A -> S -> Prop) l f s, P [] s ->
  (forall pre k post s, l = pre ++ k :: post -> P pre s -> exists s', f k s = Some s' /\ P (pre ++ [k]) s') ->
  exists s', mfor l f s = Some s' /\ P l s'.
Proof.
  intros A S P l f s H0 Hs.
  assert (G : forall post pre s, l = pre ++ post -> P pre s -> exists s', mfor post f s = Some s' /\ P l s').
  { induction post as [|k post IH]; intros pre s0 E HP; cbn [mfor].
    - exists s0. rewrite E, app_nil_r. auto.
    - destruct (Hs pre k post s0 E HP) as (s1 & E1 & P1). rewrite E1. apply (IH (pre ++ [k])); [now rewrite <- app_assoc|assumption]. }
  now apply (G l []).
Qed.
Lemma fold_ind : forall {A S} (P : list A -> S -> Prop) l (f : S -> A -> S) s, P [] s ->
  (forall pre k post s, l = pre ++ k :: post -> P pre s -> P (pre ++ [k]) (f s k)) -> P l (fold_left f l s).
Proof.
  intros A S P l f s H0 Hs.
  assert (G : forall post pre s, l = pre ++ post -> P pre s -> P l (fold_left f post s)).
  { induction post as [|k post IH]; intros pre s0 E HP; cbn [fold_left].
    - now rewrite E, app_nil_r.
    - apply (IH (pre ++ [k])); [now rewrite <- app_assoc|]. now apply (Hs pre k post). }
  now apply (G l []).
Qed.
Definition pairs (l : list nat) (n : nat) : list (nat * nat) := flat_map (fun i => map (pair i) (seq 0 n)) l.
Lemma in_pairs : forall l n i mu, In (i, mu) (pairs l n) <-> In i l /\ mu < n.
Proof.
  intros. unfold pairs. rewrite in_flat_map. split.
  - intros (x & Hx & H). apply in_map_iff in H. destruct H as (y & E & H). apply in_seq in H. injection E as -> ->. split; [assumption|lia].
  - intros [H L]. exists i. split; [assumption|]. apply in_map, in_seq. lia.
Qed.
Lemma NoDup_pairs : forall l n, NoDup l -> NoDup (pairs l n).
Proof.
  induction l as [|i l IH]; intros n H; cbn; [constructor|]. inversion H; subst.
  assert (D : NoDup (map (pair i) (seq 0 n))).
  { generalize 0. induction n; intro b; cbn; constructor; [|apply IHn]. intro X. apply in_map_iff in X. destruct X as (y & E & X).
    apply in_seq in X. injection E as E. lia. }
  assert (G : forall m : list (nat*nat), NoDup m -> (forall p, In p m -> fst p = i) -> NoDup (m ++ flat_map (fun i => map (pair i) (seq 0 n)) l)).
  { induction m as [|p m IHm]; intros Hm Hf; cbn; [now apply IH|]. inversion Hm; subst. constructor.
    - rewrite in_app_iff. intros [X|X]; [contradiction|]. destruct p as [a b]. apply (in_pairs l n a b) in X.
      pose proof (Hf (a, b) (or_introl eq_refl)) as Ea. cbn in Ea. subst a. tauto.
    - apply IHm; [assumption|]. intros q Hq. apply Hf. now right. }
  apply G; [assumption|]. intros p Hp. apply in_map_iff in Hp. now destruct Hp as (y & <- & _).
Qed.
Lemma mfor_app : forall {A S} (l m : list A) (f : A -> S -> option S) s,
  mfor (l ++ m) f s = match mfor l f s with None => None | Some s => mfor m f s end.
Proof. induction l as [|k l IH]; intros m f s; cbn; [reflexivity|]. destruct (f k s); [apply IH|reflexivity]. Qed.
Lemma mfor_map : forall {A B S} (g : A -> B) l (f : B -> S -> option S) s, mfor (map g l) f s = mfor l (fun a => f (g a)) s.
Proof. induction l as [|k l IH]; intros f s; cbn; [reflexivity|]. destruct (f (g k) s); [apply IH|reflexivity]. Qed.
Lemma mfor_ext : forall {A S} l (f g : A -> S -> option S) s, (forall k s, f k s = g k s) -> mfor l f s = mfor l g s.
Proof. induction l as [|k l IH]; intros f g s H; cbn; [reflexivity|]. rewrite H. destruct (g k s); [now apply IH|reflexivity]. Qed.
Lemma mfor_pairs : forall {S} l n (f : nat -> nat -> S -> option S) s,
  mfor l (fun i s => mfor (seq 0 n) (f i) s) s = mfor (pairs l n) (fun p s => f (fst p) (snd p) s) s.
Proof.
  induction l as [|i l IH]; intros n f s; cbn; [reflexivity|]. rewrite mfor_app, mfor_map.
  change (mfor (seq 0 n) (fun a s => f (fst (i, a)) (snd (i, a)) s) s) with (mfor (seq 0 n) (fun a s => f i a s) s).
  rewrite (mfor_ext (seq 0 n) (f i) (fun a s => f i a s)) by reflexivity. unfold pairs in IH.
  destruct (mfor (seq 0 n) (fun a s => f i a s) s); [apply IH|reflexivity].
Qed.
Lemma for_seq : forall {S} n (f : nat -> S -> S) s, for_ n f s = fold_left (fun s k => f k s) (seq 0 n) s.
Proof. induction n; intros f s; [reflexivity|]. rewrite seq_S, fold_left_app. cbn. now rewrite IHn. Qed.
Lemma fold_pairs : forall {S} l n (f : nat -> nat -> S -> S) s,
  fold_left (fun s i => for_ n (f i) s) l s = fold_left (fun s p => f (fst p) (snd p) s) (pairs l n) s.
Proof.
  induction l as [|i l IH]; intros n f s; cbn; [reflexivity|]. rewrite fold_left_app, for_seq, IH. unfold pairs. f_equal.
  generalize (seq 0 n). intro m. revert s. induction m as [|k m IHm]; intro s; cbn; [reflexivity|]. apply IHm.
Qed.
Lemma fold_left_ext : forall {A B} (f g : A -> B -> A) l s, (forall s k, f s k = g s k) -> fold_left f l s = fold_left g l s.
Proof. induction l as [|k l IH]; intros s H; cbn; [reflexivity|]. rewrite H. now apply IH. Qed.
Lemma putf_eq : forall {L} (f : field L) i mu v, putf f i mu v i mu = v.
Proof. intros. unfold putf. now rewrite !Nat.eqb_refl. Qed.
Lemma putf_neq : forall {L} (f : field L) i mu v j m, (j, m) <> (i, mu) -> putf f i mu v j m = f j m.
Proof.
  intros L f i mu v j m H. unfold putf. destruct (Nat.eqb_spec j i), (Nat.eqb_spec m mu); cbn [andb]; try reflexivity. subst. congruence.
Qed.
Lemma split_notin : forall {A} (l pre post : list A) k, NoDup l -> l = pre ++ k :: post -> ~ In k pre /\ In k l.
Proof.
  intros A l pre post k N E. subst l. split.
  - intro H. apply NoDup_remove_2 in N. apply N, in_app_iff. now left.
  - apply in_app_iff. right. now left.
Qed.
Lemma pair_dec : forall p q : nat * nat, {p = q} + {p <> q}.
Proof. decide equality; apply Nat.eq_dec. Qed.

(** * [compute] *)
Lemma compute_ok : forall {L Z} (rule : field L -> nat -> nat -> Z -> option (Z * L)) ND lat src ord dst z nw zn, NoDup ord ->
  (forall i mu, In i ord -> mu < ND -> rule lat (src + i) mu (z (src + i) mu) = Some (zn (src + i) mu, nw (src + i) mu)) ->
  exists dst' z', compute rule ND lat src ord dst z = Some (dst', z') /\
    (forall i mu, In i ord -> mu < ND -> dst' i mu = nw (src + i) mu) /\
    (forall i mu, ~ (In i ord /\ mu < ND) -> dst' i mu = dst i mu) /\
    (forall i mu, In i ord -> mu < ND -> z' (src + i) mu = zn (src + i) mu) /\
    (forall j mu, ~ (exists i, j = src + i /\ In i ord /\ mu < ND) -> z' j mu = z j mu).
Proof.
  intros L Z rule ND lat src ord dst z nw zn N H. unfold compute. rewrite mfor_pairs.
  destruct (mfor_ind (fun pre '(d, w) =>
    (forall i mu, In (i, mu) pre -> d i mu = nw (src + i) mu) /\ (forall i mu, ~ In (i, mu) pre -> d i mu = dst i mu) /\
    (forall i mu, In (i, mu) pre -> w (src + i) mu = zn (src + i) mu) /\
    (forall j mu, ~ (exists i, j = src + i /\ In (i, mu) pre) -> w j mu = z j mu))
    (pairs ord ND) (fun p s => let '(d, w) := s in match rule lat (src + fst p) (snd p) (w (src + fst p) (snd p)) with
    | None => None | Some (zv, v) => Some (putf d (fst p) (snd p) v, putf w (src + fst p) (snd p) zv) end) (dst, z))
    as ((d & w) & E & A1 & A2 & A3 & A4).
  - repeat split; cbn; intros; try tauto; reflexivity.
  - intros pre [i mu] post [d w] E (A1 & A2 & A3 & A4). cbn [fst snd].
    destruct (split_notin _ _ _ _ (NoDup_pairs ord ND N) E) as [Ni Hi]. apply in_pairs in Hi. destruct Hi as [Hi Hm].
    rewrite (A4 (src + i) mu). 2:{ intros (i' & Ei & X). assert (i' = i) by lia. subst. contradiction. }
    rewrite H by assumption. eexists. split; [reflexivity|]. split; [|split; [|split]].
    + intros i' mu' X. destruct (pair_dec (i', mu') (i, mu)) as [Ep|Np].
      * injection Ep as -> ->. apply putf_eq.
      * rewrite putf_neq by assumption. apply A1. apply in_app_iff in X. destruct X as [X|[X|[]]]; [assumption|congruence].
    + intros i' mu' X. assert ((i', mu') <> (i, mu)) by (intro Ep; apply X, in_app_iff; right; left; congruence).
      rewrite putf_neq by assumption. apply A2. intro Y. apply X, in_app_iff. now left.
    + intros i' mu' X. destruct (pair_dec (i', mu') (i, mu)) as [Ep|Np].
      * injection Ep as -> ->. apply putf_eq.
      * rewrite putf_neq by (intro Y; injection Y as Y1 Y2; apply Np; f_equal; lia). apply A3.
        apply in_app_iff in X. destruct X as [X|[X|[]]]; [assumption|congruence].
    + intros j mu' X. rewrite putf_neq. apply A4.
      * intros (i' & -> & Y). apply X. exists i'. split; [reflexivity|]. apply in_app_iff. now left.
      * intro Ep. injection Ep as -> ->. apply X. exists i. split; [reflexivity|]. apply in_app_iff. right. now left.
  - exists d, w. split; [|split; [|split; [|split]]].
    + exact E.
    + intros i mu Hi Hm. apply A1, in_pairs. auto.
    + intros i mu X. apply A2. now rewrite in_pairs.
    + intros i mu Hi Hm. apply A3, in_pairs. auto.
    + intros j mu X. apply A4. intros (i & -> & Y). apply X. exists i. rewrite in_pairs in Y. tauto.
Qed.

(** * the copy loops *)
Lemma swap_ok : forall {L} ND (g : bool) b ord (lat lat3 lat2 : field L), NoDup ord ->
  exists lat' lat3', fold_left (fun s i => for_ ND (fun mu '((lat, lat3) : field L * field L) =>
             let lat := if g then lat else putf lat (b + i) mu (lat3 i mu) in
             (lat, putf lat3 i mu (lat2 i mu))) s) ord (lat, lat3) = (lat', lat3') /\
    (forall i mu, In i ord -> mu < ND -> lat3' i mu = lat2 i mu) /\
    (forall i mu, In i ord -> mu < ND -> lat' (b + i) mu = if g then lat (b + i) mu else lat3 i mu) /\
    (forall j mu, ~ (exists i, j = b + i /\ In i ord /\ mu < ND) -> lat' j mu = lat j mu).
Proof.
  intros L ND g b ord lat lat3 lat2 N. rewrite fold_pairs.
  match goal with |- context[fold_left ?f ?l ?s] => pose proof (fold_ind (S := field L * field L) (fun pre '(a, c) =>
    (forall i mu, In (i, mu) pre -> c i mu = lat2 i mu) /\ (forall i mu, ~ In (i, mu) pre -> c i mu = lat3 i mu) /\
    (forall i mu, In (i, mu) pre -> a (b + i) mu = if g then lat (b + i) mu else lat3 i mu) /\
    (forall j mu, ~ (exists i, j = b + i /\ In (i, mu) pre) -> a j mu = lat j mu)) l f s) as I;
    set (st := fold_left f l s) in *; clearbody st; destruct st as [a c] end.
  exists a, c. split; [reflexivity|]. destruct I as (A1 & A2 & A3 & A4).
  - repeat split; cbn; intros; try tauto; reflexivity.
  - intros pre [i mu] post [a' c'] E (A1 & A2 & A3 & A4). cbn [fst snd].
    destruct (split_notin _ _ _ _ (NoDup_pairs ord ND N) E) as [Ni Hi]. clear Hi.
    split; [|split; [|split]].
    + intros i' mu' X. destruct (pair_dec (i', mu') (i, mu)) as [Ep|Np].
      * injection Ep as -> ->. apply putf_eq.
      * rewrite putf_neq by assumption. apply A1. apply in_app_iff in X. destruct X as [X|[X|[]]]; [assumption|congruence].
    + intros i' mu' X. assert ((i', mu') <> (i, mu)) by (intro Ep; apply X, in_app_iff; right; left; congruence).
      rewrite putf_neq by assumption. apply A2. intro Y. apply X, in_app_iff. now left.
    + intros i' mu' X. destruct (pair_dec (i', mu') (i, mu)) as [Ep|Np].
      * injection Ep as -> ->. destruct g; [|rewrite putf_eq; now apply A2]. apply A4.
        intros (i' & Ei & Y). assert (i' = i) by lia. subst. contradiction.
      * assert (Y : In (i', mu') pre) by (apply in_app_iff in X; destruct X as [X|[X|[]]]; [assumption|congruence]).
        specialize (A3 _ _ Y). destruct g; [exact A3|]. rewrite putf_neq; [exact A3|]. intro Z; injection Z as Z1 Z2; apply Np; f_equal; lia.
    + intros j mu' X. assert (Y : a' j mu' = lat j mu').
      { apply A4. intros (i' & -> & Y). apply X. exists i'. split; [reflexivity|]. apply in_app_iff. now left. }
      destruct g; [exact Y|]. rewrite putf_neq; [exact Y|]. intro Ep. injection Ep as -> ->. apply X. exists i. split; [reflexivity|].
      apply in_app_iff. right. now left.
  - split; [|split].
    + intros i mu Hi Hm. apply A1, in_pairs. auto.
    + intros i mu Hi Hm. apply A3, in_pairs. auto.
    + intros j mu X. apply A4. intros (i & -> & Y). apply X. exists i. rewrite in_pairs in Y. tauto.
Qed.
(** the loops that write one field at several places: a list of (offset, value) pairs, in
    order, for every site; offsets are such that different i do not collide *)
Fixpoint puts {L} (ws : list (nat * (nat -> nat -> L))) (lat : field L) (i mu : nat) : field L :=
  match ws with [] => lat | (o, v) :: ws => puts ws (putf lat (o + i) mu (v i mu)) i mu end.
(** the value written last at site j by iteration i *)
Fixpoint lastw {L} (ws : list (nat * (nat -> nat -> L))) (i j mu : nat) (d : L) : L :=
  match ws with [] => d | (o, v) :: ws => lastw ws i j mu (if Nat.eqb j (o + i) then v i mu else d) end.
Lemma puts_at : forall {L} ws (lat : field L) i mu j m,
  puts ws lat i mu j m = if Nat.eqb m mu then lastw ws i j mu (lat j m) else lat j m.
Proof.
  induction ws as [|[o v] ws IH]; intros lat i mu j m; cbn; [destruct (Nat.eqb m mu); reflexivity|].
  rewrite IH. unfold putf. destruct (Nat.eqb_spec m mu); [|now rewrite andb_false_r]. rewrite andb_true_r. subst. reflexivity.
Qed.
Lemma lastw_skip : forall {L} (ws : list (nat * (nat -> nat -> L))) i j mu d, (forall o v, In (o, v) ws -> j <> o + i) -> lastw ws i j mu d = d.
Proof.
  induction ws as [|[o v] ws IH]; intros i j mu d H; cbn; [reflexivity|].
  rewrite IH by (intros o' v' X; apply (H o' v'); now right).
  destruct (Nat.eqb_spec j (o + i)) as [E|E]; [|reflexivity]. now apply (H o v (or_introl eq_refl)) in E.
Qed.
Lemma last_ok : forall {L} ND n ws ord (lat : field L), Permutation ord (seq 0 n) ->
  (forall o v o' v', In (o, v) ws -> In (o', v') ws -> forall i i', i < n -> i' < n -> o + i = o' + i' -> i = i') ->
  let r := fold_left (fun s i => for_ ND (fun mu lat => puts ws lat i mu) s) ord lat in
  (forall i j mu, i < n -> mu < ND -> (exists o v, In (o, v) ws /\ j = o + i) -> r j mu = lastw ws i j mu (lat j mu)) /\
  (forall j mu, ~ (exists i o v, In (o, v) ws /\ j = o + i /\ i < n /\ mu < ND) -> r j mu = lat j mu).
Proof.
  intros L ND n ws ord lat P C r. unfold r. clear r. rewrite fold_pairs.
  assert (N : NoDup ord) by (eapply Permutation_NoDup; [symmetry; exact P|apply seq_NoDup]).
  assert (M : forall i, In i ord <-> i < n).
  { intro i. rewrite P, in_seq. lia. }
  match goal with |- context[fold_left ?f ?l ?s] => pose proof (fold_ind (fun pre a =>
    (forall i j mu, In (i, mu) pre -> (exists o v, In (o, v) ws /\ j = o + i) -> a j mu = lastw ws i j mu (lat j mu)) /\
    (forall j mu, ~ (exists i o v, In (o, v) ws /\ j = o + i /\ In (i, mu) pre) -> a j mu = lat j mu)) l f s) as I;
    set (a := fold_left f l s) in * end.
  destruct I as (A1 & A2).
  - split; cbn; intros; [tauto|reflexivity].
  - intros pre [i mu] post a' E (A1 & A2). cbn [fst snd].
    destruct (split_notin _ _ _ _ (NoDup_pairs ord ND N) E) as [Ni Hi]. apply in_pairs in Hi. destruct Hi as [Hi Hm]. apply M in Hi.
    assert (Pre : forall i' mu', In (i', mu') pre -> i' < n).
    { intros i' mu' X. assert (Y : In (i', mu') (pairs ord ND)) by (rewrite E; apply in_app_iff; now left). apply in_pairs in Y. now apply M. }
    split.
    + intros i' j mu' X (o & v & Ho & Ej). rewrite puts_at. destruct (pair_dec (i', mu') (i, mu)) as [Ep|Np].
      * injection Ep as -> ->. rewrite Nat.eqb_refl. f_equal. apply A2. intros (i' & o' & v' & Ho' & Ej' & Y).
        assert (i = i') by (apply (C o v o' v' Ho Ho'); [assumption|now apply (Pre i' mu)|lia]). subst. contradiction.
      * assert (Y : In (i', mu') pre) by (apply in_app_iff in X; destruct X as [X|[X|[]]]; [assumption|congruence]).
        pose proof (A1 i' j mu' Y (ex_intro _ o (ex_intro _ v (Logic.conj Ho Ej)))) as A.
        destruct (Nat.eqb_spec mu' mu) as [->|]; [|exact A]. rewrite lastw_skip; [exact A|].
        intros o' v' Ho' E'. assert (i' = i) by (apply (C o v o' v' Ho Ho'); [now apply (Pre i' mu)|assumption|lia]). subst. congruence.
    + intros j mu' X. rewrite puts_at.
      assert (Y : a' j mu' = lat j mu').
      { apply A2. intros (i' & o & v & Ho & Ej & Y). apply X. exists i', o, v. split; [assumption|]. split; [assumption|]. apply in_app_iff. now left. }
      destruct (Nat.eqb_spec mu' mu) as [->|]; [|exact Y]. rewrite lastw_skip; [exact Y|].
      intros o v Ho Ej. apply X. exists i, o, v. split; [assumption|]. split; [assumption|]. apply in_app_iff. right. now left.
  - split.
    + intros i j mu Hi Hm W. apply A1; [|exact W]. apply in_pairs. rewrite M. auto.
    + intros j mu X. apply A2. intros (i & o & v & Ho & Ej & Y). apply X. exists i, o, v. apply in_pairs in Y. rewrite M in Y. tauto.
Qed.

(** * Sweeps *)
Definition slice_of (LCU j : nat) : nat := j / LCU.
Definition perm_of (n : nat) (l : list nat) : Prop := Permutation l (seq 0 n).
Lemma perm_in : forall n l i, perm_of n l -> In i l <-> i < n.
Proof. intros n l i P. unfold perm_of in P. rewrite P, in_seq. lia. Qed.
Lemma perm_nodup : forall n l, perm_of n l -> NoDup l.
Proof. intros n l P. eapply Permutation_NoDup; [symmetry; exact P|apply seq_NoDup]. Qed.

Section Sweep.
Context {L Z : Type}.
Variable rule : field L -> nat -> nat -> Z -> option (Z * L).
Variables ND LCU T : nat.
Variable bk : nat -> nat.
Hypothesis HL : 0 < LCU.
Hypothesis Hbk : forall t, t < T -> bk (LCU * t) = LCU * ((t + T - 1) mod T).
Let V := LCU * T.
(** time slices at distance at most [rad] on the circle of T slices *)
Definition close (rad t s : nat) : Prop := exists d, d <= rad /\ (s = (t + d) mod T \/ t = (s + d) mod T).
(** the rule reads the given site's accumulator and links in slices at distance <= rad *)
Definition local (rad : nat) : Prop := forall f f' j mu z, j < V -> mu < ND ->
  (forall k nu, k < V -> nu < ND -> close rad (slice_of LCU j) (slice_of LCU k) -> f k nu = f' k nu) ->
  rule f j mu z = rule f' j mu z.
Variables lat0 nw : field L.
Variables z0 zn : field Z.
(** the simultaneous update is nw, with new accumulators zn *)
Hypothesis Hnw : forall j mu, j < V -> mu < ND -> rule lat0 j mu (z0 j mu) = Some (zn j mu, nw j mu).

Lemma slice_at : forall t i, i < LCU -> slice_of LCU (LCU * t + i) = t.
Proof. intros t i H. unfold slice_of. rewrite Nat.mul_comm, Nat.div_add_l, Nat.div_small by lia. lia. Qed.
Lemma slice_lt : forall j, j < V -> slice_of LCU j < T.
Proof. intros j H. apply Nat.div_lt_upper_bound; [lia|exact H]. Qed.
Lemma slice_dec : forall j, exists i, i < LCU /\ j = LCU * slice_of LCU j + i.
Proof. intro j. exists (j mod LCU). split; [apply Nat.mod_upper_bound; lia|]. apply Nat.div_mod. lia. Qed.
Lemma at_lt : forall t i, t < T -> i < LCU -> LCU * t + i < V.
Proof. intros t i Ht Hi. unfold V. nia. Qed.
Lemma off_eq : forall a b i i', i < LCU -> i' < LCU -> LCU * a + i = LCU * b + i' -> a = b /\ i = i'.
Proof. intros a b i i' Hi Hi' E. assert (a = b) by nia. subst. lia. Qed.

Lemma sweep_ok : forall sc lat2 lat3 lat4, 0 < T -> local 1 ->
  perm_of LCU (o_first sc) -> perm_of LCU (o_last sc) ->
  (forall t, t < T -> perm_of LCU (o_slice sc t) /\ perm_of LCU (o_swap sc t)) ->
  exists lat' a2 a3 a4 z', sweep rule ND LCU T bk sc lat0 lat2 lat3 lat4 z0 = Some (lat', a2, a3, a4, z') /\
    (forall j mu, j < V -> mu < ND -> lat' j mu = nw j mu /\ z' j mu = zn j mu) /\
    (forall j mu, ~ (j < V /\ mu < ND) -> lat' j mu = lat0 j mu /\ z' j mu = z0 j mu).
Proof.
  intros sc lat2 lat3 lat4 HT Loc P1 P2 P3. unfold sweep.
  assert (B0 : bk 0 = LCU * (T - 1)).
  { replace 0 with (LCU * 0) at 1 by lia. rewrite Hbk by lia. cbn [Nat.add]. now rewrite Nat.mod_small by lia. }
  rewrite B0.
  destruct (compute_ok rule ND lat0 (LCU * (T - 1)) (o_first sc) lat4 z0 nw zn) as (a4 & z1 & E1 & A1 & _ & A2 & A3).
  { eapply perm_nodup; eassumption. }
  { intros i mu Hi Hm. apply Hnw; [|assumption]. rewrite (perm_in _ _ _ P1) in Hi. apply at_lt; lia. }
  rewrite E1. clear E1.
  match goal with |- context[mfor (seq 0 (T - 1)) ?f ?s] => destruct (mfor_ind (S := field L * field L * field L * field Z) (fun (pre : list nat) st =>
     let '(l, c2, c3, z) := st in let k := length pre in
     (forall j mu, j < V -> mu < ND -> slice_of LCU j + 1 < k -> l j mu = nw j mu) /\
     (forall j mu, ~ (j < V /\ mu < ND /\ slice_of LCU j + 1 < k) -> l j mu = lat0 j mu) /\
     (0 < k -> forall i mu, i < LCU -> mu < ND -> c3 i mu = nw (LCU * (k - 1) + i) mu) /\
     (forall j mu, j < V -> mu < ND -> (slice_of LCU j < k \/ slice_of LCU j = T - 1) -> z j mu = zn j mu) /\
     (forall j mu, ~ (j < V /\ mu < ND /\ (slice_of LCU j < k \/ slice_of LCU j = T - 1)) -> z j mu = z0 j mu))
     (seq 0 (T - 1)) f s) as ((((l & c2) & c3) & z) & E & I1 & I2 & I3 & I4 & I5) end.
  - cbn [length]. split; [intros; lia|]. split; [reflexivity|]. split; [lia|]. split.
    + intros j mu Hj Hm [X|X]; [lia|]. destruct (slice_dec j) as (i & Hi & Ej). rewrite Ej, X. apply A2; [|assumption]. now apply (perm_in _ _ _ P1).
    + intros j mu X. apply A3. intros (i & -> & Hi & Hm). rewrite (perm_in _ _ _ P1) in Hi. apply X.
      split; [apply at_lt; lia|]. split; [assumption|]. right. now apply slice_at.
  - intros pre k post [[[l c2] c3] z] Es (I1 & I2 & I3 & I4 & I5).
    assert (Ek : k = length pre /\ k < T - 1).
    { assert (Hk : k < T - 1 /\ nth_error (seq 0 (T-1)) (length pre) = Some k).
      { split; [assert (X : In k (seq 0 (T-1))) by (rewrite Es; apply in_app_iff; right; now left); apply in_seq in X; lia|].
        rewrite Es, nth_error_app2, Nat.sub_diag by lia. reflexivity. }
      destruct Hk as [Hk Hn]. assert (Hp : length pre < T - 1) by (rewrite <- (seq_length (T-1) 0); apply nth_error_Some; congruence).
      apply nth_error_nth with (d := 0) in Hn. rewrite seq_nth in Hn by assumption. lia. }
    destruct Ek as [Ek Hk]. rewrite <- Ek in *. rewrite app_length, <- Ek. cbn [length]. cbv zeta.
    destruct (P3 k ltac:(lia)) as [Pa Pb].
    destruct (compute_ok rule ND l (LCU * k) (o_slice sc k) c2 z nw zn) as (c2' & z' & E2 & C1 & _ & C2 & C3).
    { eapply perm_nodup; eassumption. }
    { intros i mu Hi Hm. rewrite (perm_in _ _ _ Pa) in Hi. assert (Hj : LCU * k + i < V) by (apply at_lt; lia).
      assert (Sj : slice_of LCU (LCU * k + i) = k) by now apply slice_at.
      rewrite I5 by (rewrite Sj; lia). rewrite <- Hnw by assumption. apply Loc; try assumption.
      intros q nu Hq Hnu (d & Hd & Cl). apply I2. rewrite Sj in Cl. pose proof (slice_lt q Hq) as Hs.
      intros (_ & _ & X). assert (D : d = 0 \/ d = 1) by lia. destruct D as [D|D]; subst d.
      - rewrite !Nat.add_0_r, !Nat.mod_small in Cl by lia. lia.
      - rewrite !Nat.mod_small in Cl by lia. lia. }
    rewrite E2. clear E2.
    destruct (swap_ok ND (Nat.eqb k 0) (bk (LCU * k)) (o_swap sc k) l c3 c2') as (l' & c3' & E3 & D1 & D2 & D3); [eapply perm_nodup; eassumption|].
    cbv zeta in E3. rewrite E3. clear E3. eexists. split; [reflexivity|]. cbv beta iota. rewrite Hbk in D2, D3 by lia.
    assert (Bk : 0 < k -> (k + T - 1) mod T = k - 1).
    { intro. replace (k + T - 1) with (k - 1 + 1 * T) by lia. rewrite Nat.mod_add, Nat.mod_small by lia. reflexivity. }
    split; [|split; [|split; [|split]]].
    + intros j mu Hj Hm X. destruct (slice_dec j) as (i & Hi & Ej).
      destruct (Nat.eq_dec (slice_of LCU j + 1) k) as [Y|Y].
      * assert (K0 : 0 < k) by lia. rewrite Bk in D2 by assumption. rewrite Ej. replace (slice_of LCU j) with (k - 1) by lia.
        rewrite D2 by (try rewrite (perm_in _ _ _ Pb); assumption). destruct (Nat.eqb_spec k 0); [lia|]. apply I3; assumption.
      * rewrite D3; [apply I1; [assumption|assumption|lia]|]. intros (i' & Ej' & Hi' & _). rewrite (perm_in _ _ _ Pb) in Hi'.
        rewrite Bk in Ej' by lia. rewrite Ej in Ej'. apply off_eq in Ej'; [lia|assumption|assumption].
    + intros j mu X. destruct (Nat.eqb_spec k 0) as [K|K].
      * destruct (in_dec Nat.eq_dec (j - LCU * ((k + T - 1) mod T)) (o_swap sc k)) as [Y|Y].
        -- destruct (le_lt_dec (LCU * ((k + T - 1) mod T)) j) as [Z1|Z1].
           ++ destruct (lt_dec mu ND) as [Hm|Hm].
              ** specialize (D2 (j - LCU * ((k + T - 1) mod T)) mu Y Hm). replace (LCU * ((k + T - 1) mod T) + (j - LCU * ((k + T - 1) mod T))) with j in D2 by lia.
                 rewrite D2. apply I2. lia.
              ** rewrite D3; [apply I2; tauto|]. intros (i' & _ & _ & Z2). lia.
           ++ rewrite D3; [apply I2; lia|]. intros (i' & Z2 & _). lia.
        -- rewrite D3; [apply I2; lia|]. intros (i' & Z2 & Z3 & _). apply Y. replace (j - _) with i' by lia. assumption.
      * rewrite D3; [apply I2; intuition lia|]. intros (i' & Ej & Hi' & Hm). rewrite (perm_in _ _ _ Pb) in Hi'. rewrite Bk in Ej by lia.
        apply X. subst j. rewrite slice_at by assumption. split; [apply at_lt; lia|]. split; [assumption|lia].
    + intros _ i mu Hi Hm. rewrite D1 by (try rewrite (perm_in _ _ _ Pb); assumption). replace (k + 1 - 1) with k by lia.
      apply C1; [now apply (perm_in _ _ _ Pa)|assumption].
    + intros j mu Hj Hm X. destruct (slice_dec j) as (i & Hi & Ej). destruct (Nat.eq_dec (slice_of LCU j) k) as [Y|Y].
      * rewrite Ej, Y. apply C2; [now apply (perm_in _ _ _ Pa)|assumption].
      * rewrite C3; [apply I4; [assumption|assumption|lia]|]. intros (i' & Ej' & Hi' & _). rewrite (perm_in _ _ _ Pa) in Hi'.
        rewrite Ej in Ej'. apply off_eq in Ej'; [lia|assumption|assumption].
    + intros j mu X. rewrite C3; [apply I5; intuition lia|]. intros (i' & Ej' & Hi' & Hm). rewrite (perm_in _ _ _ Pa) in Hi'.
      apply X. subst j. rewrite slice_at by assumption. split; [apply at_lt; lia|]. split; [assumption|lia].
  - rewrite E. clear E. rewrite seq_length in *.
    rewrite Hbk by lia. set (ws := [(LCU * ((T - 1 + T - 1) mod T), c3); (LCU * (T - 1), a4)]).
    destruct (last_ok ND LCU ws (o_last sc) l P2) as [F1 F2].
    { intros o v o' v' Ho Ho' i i' Hi Hi' Eo. cbn in Ho, Ho'.
      destruct Ho as [Ho|[Ho|[]]], Ho' as [Ho'|[Ho'|[]]]; injection Ho as Ho1 Ho2; injection Ho' as Ho1' Ho2'; subst o o';
        apply off_eq in Eo; tauto. }
    do 5 eexists. split; [reflexivity|].
    change (fold_left _ (o_last sc) l) with (fold_left (fun s i => for_ ND (fun mu lat => puts ws lat i mu) s) (o_last sc) l).
    set (r := fold_left _ _ _) in *. clearbody r. split.
    + intros j mu Hj Hm. pose proof (slice_lt j Hj) as Hs. destruct (slice_dec j) as (i & Hi & Ej). split; [|apply I4; [assumption|assumption|lia]].
      destruct (Nat.eq_dec (slice_of LCU j) (T - 1)) as [Y|Y].
      * rewrite (F1 i j mu Hi Hm). 2:{ exists (LCU * (T - 1)), a4. split; [right; now left|]. now rewrite <- Y. }
        cbn [ws lastw]. rewrite <- Y, <- Ej, Nat.eqb_refl. rewrite A1 by (try apply (perm_in _ _ _ P1); assumption). rewrite <- Y, <- Ej. reflexivity.
      * destruct (Nat.eq_dec (slice_of LCU j + 1) (T - 1)) as [W|W].
        -- assert (Bt : (T - 1 + T - 1) mod T = T - 2) by (replace (T - 1 + T - 1) with (T - 2 + 1 * T) by lia; rewrite Nat.mod_add, Nat.mod_small; lia).
           rewrite (F1 i j mu Hi Hm).
           2:{ exists (LCU * (T - 2)), c3. split; [left; now rewrite Bt|]. replace (T - 2) with (slice_of LCU j) by lia. assumption. }
           cbn [ws lastw]. rewrite Bt. replace (T - 2) with (slice_of LCU j) by lia. rewrite <- Ej, Nat.eqb_refl.
           destruct (Nat.eqb_spec j (LCU * (T - 1) + i)) as [X|X]; [rewrite Ej in X; apply off_eq in X; [lia|assumption|assumption]|].
           rewrite I3 by (assumption || lia). replace (T - 1 - 1) with (slice_of LCU j) by lia. now rewrite <- Ej.
        -- rewrite F2; [apply I1; [assumption|assumption|lia]|]. intros (i' & o & v & Ho & Ej' & Hi' & _).
           assert (Bt : 1 < T -> (T - 1 + T - 1) mod T = T - 2) by (intro; replace (T - 1 + T - 1) with (T - 2 + 1 * T) by lia; rewrite Nat.mod_add, Nat.mod_small; lia).
           cbn in Ho. destruct Ho as [Ho|[Ho|[]]]; injection Ho as Ho _; subst o; rewrite Ej in Ej'; apply off_eq in Ej'; try assumption; try lia.
    + intros j mu X. split; [|apply I5; intuition lia]. rewrite F2; [apply I2; intuition lia|]. intros (i & o & v & Ho & Ej & Hi & Hm). apply X.
      split; [|assumption]. cbn in Ho. subst j. destruct Ho as [Ho|[Ho|[]]]; injection Ho as Ho _; subst o; apply at_lt; try assumption; try lia.
      apply Nat.mod_upper_bound. lia.
Qed.

(** two slices of lat3 *)
Lemma swap2_ok : forall (g : bool) b ord (lat lat3 lat2 : field L), perm_of LCU ord ->
  exists lat' lat3', fold_left (fun s i => for_ ND (fun mu '((lat, lat3) : field L * field L) =>
             let lat := if g then putf lat (b + i) mu (lat3 i mu) else lat in
             let lat3 := putf lat3 i mu (lat3 (i + LCU) mu) in
             (lat, putf lat3 (i + LCU) mu (lat2 i mu))) s) ord (lat, lat3) = (lat', lat3') /\
    (forall i mu, i < LCU -> mu < ND -> lat3' i mu = lat3 (i + LCU) mu /\ lat3' (i + LCU) mu = lat2 i mu) /\
    (forall i mu, i < LCU -> mu < ND -> lat' (b + i) mu = if g then lat3 i mu else lat (b + i) mu) /\
    (forall j mu, ~ (exists i, j = b + i /\ i < LCU /\ mu < ND) -> lat' j mu = lat j mu).
Proof.
  intros g b ord lat lat3 lat2 P. pose proof (perm_nodup _ _ P) as N. rewrite fold_pairs.
  match goal with |- context[fold_left ?f ?l ?s] => pose proof (fold_ind (S := field L * field L) (fun pre '(a, c) =>
    (forall i mu, In (i, mu) pre -> c i mu = lat3 (i + LCU) mu /\ c (i + LCU) mu = lat2 i mu) /\
    (forall i mu, i < LCU -> ~ In (i, mu) pre -> c i mu = lat3 i mu /\ c (i + LCU) mu = lat3 (i + LCU) mu) /\
    (forall i mu, In (i, mu) pre -> a (b + i) mu = if g then lat3 i mu else lat (b + i) mu) /\
    (forall j mu, ~ (exists i, j = b + i /\ In (i, mu) pre) -> a j mu = lat j mu)) l f s) as I;
    set (st := fold_left f l s) in *; clearbody st; destruct st as [a c] end.
  exists a, c. split; [reflexivity|]. destruct I as (A1 & A2 & A3 & A4).
  - split; [cbn; tauto|]. split; [split; reflexivity|]. split; [cbn; tauto|reflexivity].
  - intros pre [i mu] post [a' c'] E (A1 & A2 & A3 & A4). cbn [fst snd].
    destruct (split_notin _ _ _ _ (NoDup_pairs ord ND N) E) as [Ni Hi]. apply in_pairs in Hi. destruct Hi as [Hi Hm]. rewrite (perm_in _ _ _ P) in Hi.
    assert (Pre : forall i' mu', In (i', mu') pre -> i' < LCU).
    { intros i' mu' X. assert (Y : In (i', mu') (pairs ord ND)) by (rewrite E; apply in_app_iff; now left). apply in_pairs in Y. now apply (perm_in _ _ _ P). }
    destruct (A2 i mu Hi Ni) as [Ca Cb].
    assert (Np : forall i' mu', i' < LCU -> (i', mu') <> (i, mu) -> forall v w,
       putf (putf c' i mu v) (i + LCU) mu w i' mu' = c' i' mu' /\ putf (putf c' i mu v) (i + LCU) mu w (i' + LCU) mu' = c' (i' + LCU) mu').
    { intros i' mu' Hi' Nn v w. split; rewrite !putf_neq; try reflexivity; intro X; injection X as X1 X2; try lia; try congruence.
      apply Nn. f_equal; lia. }
    split; [|split; [|split]].
    + intros i' mu' X. destruct (pair_dec (i', mu') (i, mu)) as [Ep|Nn].
      * injection Ep as -> ->. split; [|apply putf_eq]. rewrite putf_neq, putf_eq; [exact Cb|]. intro Y; injection Y as Y1; lia.
      * assert (Y : In (i', mu') pre) by (apply in_app_iff in X; destruct X as [X|[X|[]]]; [assumption|congruence]).
        destruct (Np i' mu' (Pre _ _ Y) Nn (c' (i + LCU) mu) (lat2 i mu)) as [R1 R2]. rewrite R1, R2. now apply A1.
    + intros i' mu' Hi' X. assert (Nn : (i', mu') <> (i, mu)) by (intro Ep; apply X, in_app_iff; right; left; congruence).
      destruct (Np i' mu' Hi' Nn (c' (i + LCU) mu) (lat2 i mu)) as [R1 R2]. rewrite R1, R2. apply A2; [assumption|]. intro Y. apply X, in_app_iff. now left.
    + intros i' mu' X. destruct (pair_dec (i', mu') (i, mu)) as [Ep|Nn].
      * injection Ep as -> ->. destruct g; [rewrite putf_eq; exact Ca|]. apply A4.
        intros (i' & Ei & Y). assert (i' = i) by lia. subst. contradiction.
      * assert (Y : In (i', mu') pre) by (apply in_app_iff in X; destruct X as [X|[X|[]]]; [assumption|congruence]).
        specialize (A3 _ _ Y). destruct g; [|exact A3]. rewrite putf_neq; [exact A3|]. intro W; injection W as W1 W2; apply Nn; f_equal; lia.
    + intros j mu' X. assert (Y : a' j mu' = lat j mu').
      { apply A4. intros (i' & -> & Y). apply X. exists i'. split; [reflexivity|]. apply in_app_iff. now left. }
      destruct g; [|exact Y]. rewrite putf_neq; [exact Y|]. intro Ep. injection Ep as -> ->. apply X. exists i. split; [reflexivity|].
      apply in_app_iff. right. now left.
  - split; [|split].
    + intros i mu Hi Hm. apply A1, in_pairs. rewrite (perm_in _ _ _ P). auto.
    + intros i mu Hi Hm. apply A3, in_pairs. rewrite (perm_in _ _ _ P). auto.
    + intros j mu X. apply A4. intros (i & -> & Y). apply X. exists i. rewrite in_pairs, (perm_in _ _ _ P) in Y. tauto.
Qed.
Lemma bk2 : forall t, t < T -> bk (bk (LCU * t)) = LCU * (((t + T - 1) mod T + T - 1) mod T).
Proof. intros t Ht. rewrite Hbk by assumption. apply Hbk. apply Nat.mod_upper_bound. lia. Qed.
Lemma mod_down : forall t d, d <= t -> 0 < d -> t < T -> (t + T - d) mod T = t - d.
Proof. intros t d Hd Hd0 Ht. replace (t + T - d) with (t - d + 1 * T) by lia. rewrite Nat.mod_add, Nat.mod_small by lia. reflexivity. Qed.
(** [off] = LCU gives the simultaneous update; with [off] = 0, slice T-3 receives the links of slice T-4 *)
Lemma sweep_improved_ok : forall off sc lat2 lat3 lat4, 2 <= T -> off = 0 \/ off = LCU -> local 2 ->
  perm_of (2 * LCU) (o_first sc) -> perm_of LCU (o_last sc) ->
  (forall t, t < T -> perm_of LCU (o_slice sc t) /\ perm_of LCU (o_swap sc t)) ->
  exists lat' a2 a3 a4 z', sweep_improved off rule ND LCU T bk sc lat0 lat2 lat3 lat4 z0 = Some (lat', a2, a3, a4, z') /\
    (forall j mu, j < V -> mu < ND -> (off = LCU \/ T = 2 \/ slice_of LCU j + 3 <> T -> lat' j mu = nw j mu) /\ z' j mu = zn j mu) /\
    (off = 0 -> 4 <= T -> forall i mu, i < LCU -> mu < ND -> lat' (LCU * (T - 3) + i) mu = nw (LCU * (T - 4) + i) mu) /\
    (forall j mu, ~ (j < V /\ mu < ND) -> lat' j mu = lat0 j mu /\ z' j mu = z0 j mu).
Proof.
  intros off sc lat2 lat3 lat4 HT Hoff Loc P1 P2 P3. unfold sweep_improved. destruct (Nat.ltb_spec T 2) as [X|_]; [lia|].
  assert (B0 : bk (bk 0) = LCU * (T - 2)).
  { replace 0 with (LCU * 0) at 1 by lia. rewrite bk2 by lia. cbn [Nat.add]. rewrite (Nat.mod_small (T - 1)) by lia.
    f_equal. rewrite mod_down; lia. }
  rewrite B0.
  destruct (compute_ok rule ND lat0 (LCU * (T - 2)) (o_first sc) lat4 z0 nw zn) as (a4 & z1 & E1 & A1 & _ & A2 & A3).
  { eapply perm_nodup; eassumption. }
  { intros i mu Hi Hm. apply Hnw; [|assumption]. rewrite (perm_in _ _ _ P1) in Hi. unfold V. nia. }
  rewrite E1. clear E1.
  match goal with |- context[mfor (seq 0 (T - 2)) ?f ?s] => destruct (mfor_ind (S := field L * field L * field L * field Z) (fun (pre : list nat) st =>
     let '(l, c2, c3, z) := st in let k := length pre in
     (forall j mu, j < V -> mu < ND -> slice_of LCU j + 2 < k -> l j mu = nw j mu) /\
     (forall j mu, ~ (j < V /\ mu < ND /\ slice_of LCU j + 2 < k) -> l j mu = lat0 j mu) /\
     ((0 < k -> forall i mu, i < LCU -> mu < ND -> c3 (i + LCU) mu = nw (LCU * (k - 1) + i) mu) /\
      (1 < k -> forall i mu, i < LCU -> mu < ND -> c3 i mu = nw (LCU * (k - 2) + i) mu)) /\
     (forall j mu, j < V -> mu < ND -> (slice_of LCU j < k \/ T - 2 <= slice_of LCU j) -> z j mu = zn j mu) /\
     (forall j mu, ~ (j < V /\ mu < ND /\ (slice_of LCU j < k \/ T - 2 <= slice_of LCU j)) -> z j mu = z0 j mu))
     (seq 0 (T - 2)) f s) as ((((l & c2) & c3) & z) & E & I1 & I2 & I3 & I4 & I5) end.
  - cbn [length]. split; [intros; lia|]. split; [reflexivity|]. split; [split; lia|]. split.
    + intros j mu Hj Hm [X|X]; [lia|]. destruct (slice_dec j) as (i & Hi & Ej). pose proof (slice_lt j Hj).
      replace j with (LCU * (T - 2) + (j - LCU * (T - 2))) by nia. apply A2; [|assumption]. apply (perm_in _ _ _ P1). unfold V in Hj. nia.
    + intros j mu X. apply A3. intros (i & -> & Hi & Hm). rewrite (perm_in _ _ _ P1) in Hi. apply X.
      split; [unfold V; nia|]. split; [assumption|]. right. unfold slice_of. apply Nat.div_le_lower_bound; lia.
  - intros pre k post [[[l c2] c3] z] Es (I1 & I2 & I3 & I4 & I5).
    assert (Ek : k = length pre /\ k < T - 2).
    { assert (Hk : k < T - 2 /\ nth_error (seq 0 (T-2)) (length pre) = Some k).
      { split; [assert (X : In k (seq 0 (T-2))) by (rewrite Es; apply in_app_iff; right; now left); apply in_seq in X; lia|].
        rewrite Es, nth_error_app2, Nat.sub_diag by lia. reflexivity. }
      destruct Hk as [Hk Hn]. assert (Hp : length pre < T - 2) by (rewrite <- (seq_length (T-2) 0); apply nth_error_Some; congruence).
      apply nth_error_nth with (d := 0) in Hn. rewrite seq_nth in Hn by assumption. lia. }
    destruct Ek as [Ek Hk]. rewrite <- Ek in *. rewrite app_length, <- Ek. cbn [length]. cbv zeta.
    destruct (P3 k ltac:(lia)) as [Pa Pb].
    destruct (compute_ok rule ND l (LCU * k) (o_slice sc k) c2 z nw zn) as (c2' & z' & E2 & C1 & _ & C2 & C3).
    { eapply perm_nodup; eassumption. }
    { intros i mu Hi Hm. rewrite (perm_in _ _ _ Pa) in Hi. assert (Hj : LCU * k + i < V) by (apply at_lt; lia).
      assert (Sj : slice_of LCU (LCU * k + i) = k) by now apply slice_at.
      rewrite I5 by (rewrite Sj; lia). rewrite <- Hnw by assumption. apply Loc; try assumption.
      intros q nu Hq Hnu (d & Hd & Cl). apply I2. rewrite Sj in Cl. pose proof (slice_lt q Hq) as Hs.
      intros (_ & _ & X). assert (D : d = 0 \/ d = 1 \/ d = 2) by lia. destruct D as [D|[D|D]]; subst d;
        rewrite ?Nat.add_0_r, !Nat.mod_small in Cl by lia; lia. }
    rewrite E2. clear E2.
    destruct (swap2_ok (Nat.ltb 1 k) (bk (bk (LCU * k))) (o_swap sc k) l c3 c2' Pb) as (l' & c3' & E3 & D1 & D2 & D3).
    cbv zeta in E3. rewrite E3. clear E3. eexists. split; [reflexivity|]. cbv beta iota. rewrite bk2 in D2, D3 by lia.
    set (m := ((k + T - 1) mod T + T - 1) mod T) in *.
    assert (Bk : 1 < k -> m = k - 2).
    { intro. unfold m. rewrite (mod_down k 1) by lia. rewrite mod_down; lia. }
    clearbody m.
    split; [|split; [|split; [|split]]].
    + intros j mu Hj Hm X. destruct (slice_dec j) as (i & Hi & Ej).
      destruct (Nat.eq_dec (slice_of LCU j + 2) k) as [Y|Y].
      * assert (K0 : 1 < k) by lia. rewrite Bk in D2 by assumption. rewrite Ej. replace (slice_of LCU j) with (k - 2) by lia.
        rewrite D2 by assumption. destruct (Nat.ltb_spec 1 k); [|lia]. apply (proj2 I3); assumption.
      * rewrite D3; [apply I1; [assumption|assumption|lia]|]. intros (i' & Ej' & Hi' & _).
        rewrite Bk in Ej' by lia. rewrite Ej in Ej'. apply off_eq in Ej'; [lia|assumption|assumption].
    + intros j mu X. destruct (Nat.ltb_spec 1 k) as [K|K].
      * rewrite D3; [apply I2; intuition lia|]. intros (i' & Ej & Hi' & Hm). rewrite Bk in Ej by lia.
        apply X. subst j. rewrite slice_at by assumption. split; [apply at_lt; lia|]. split; [assumption|lia].
      * destruct (le_lt_dec (LCU * m) j) as [Z1|Z1]; [destruct (lt_dec (j - LCU * m) LCU) as [Z2|Z2]; [destruct (lt_dec mu ND) as [Hm|Hm]|]|].
        -- specialize (D2 (j - LCU * m) mu Z2 Hm). replace (LCU * m + (j - LCU * m)) with j in D2 by lia. rewrite D2. apply I2. lia.
        -- rewrite D3; [apply I2; tauto|]. intros (i' & _ & _ & Z3). lia.
        -- rewrite D3; [apply I2; lia|]. intros (i' & Z3 & Z4 & _). lia.
        -- rewrite D3; [apply I2; lia|]. intros (i' & Z3 & _). lia.
    + split.
      * intros _ i mu Hi Hm. rewrite (proj2 (D1 i mu Hi Hm)). replace (k + 1 - 1) with k by lia.
        apply C1; [now apply (perm_in _ _ _ Pa)|assumption].
      * intros K i mu Hi Hm. rewrite (proj1 (D1 i mu Hi Hm)). replace (k + 1 - 2) with (k - 1) by lia. apply (proj1 I3); [lia|assumption|assumption].
    + intros j mu Hj Hm X. destruct (slice_dec j) as (i & Hi & Ej). destruct (Nat.eq_dec (slice_of LCU j) k) as [Y|Y].
      * rewrite Ej, Y. apply C2; [now apply (perm_in _ _ _ Pa)|assumption].
      * rewrite C3; [apply I4; [assumption|assumption|lia]|]. intros (i' & Ej' & Hi' & _). rewrite (perm_in _ _ _ Pa) in Hi'.
        rewrite Ej in Ej'. apply off_eq in Ej'; [lia|assumption|assumption].
    + intros j mu X. rewrite C3; [apply I5; intuition lia|]. intros (i' & Ej' & Hi' & Hm). rewrite (perm_in _ _ _ Pa) in Hi'.
      apply X. subst j. rewrite slice_at by assumption. split; [apply at_lt; lia|]. split; [assumption|lia].
  - rewrite E. clear E. rewrite seq_length in *. rewrite bk2, Hbk by lia.
    set (m1 := (T - 2 + T - 1) mod T) in *. set (m2 := (m1 + T - 1) mod T) in *.
    assert (L1 : m1 < T) by (apply Nat.mod_upper_bound; lia). assert (L2 : m2 < T) by (apply Nat.mod_upper_bound; lia).
    assert (M1 : 3 <= T -> m1 = T - 3) by (intro; unfold m1; rewrite mod_down; lia).
    assert (M2 : 4 <= T -> m2 = T - 4) by (intro; unfold m2; rewrite M1 by lia; rewrite mod_down; lia).
    assert (M1' : T = 2 -> m1 = 1) by (intro H; unfold m1; rewrite H; reflexivity).
    assert (M2' : T = 2 -> m2 = 0) by (intro H; unfold m2; rewrite M1' by assumption; rewrite H; reflexivity).
    assert (M2'' : T = 3 -> m2 = 2) by (intro H; unfold m2; rewrite M1 by lia; rewrite H; reflexivity).
    clearbody m2. clearbody m1.
    set (ws := [(LCU * m2, c3); (LCU * m1, fun i mu => c3 (i + off) mu); (LCU * (T - 2), a4); (LCU * (T - 1), fun i mu => a4 (i + LCU) mu)]).
    destruct (last_ok ND LCU ws (o_last sc) l P2) as [F1 F2].
    { intros o v o' v' Ho Ho' i i' Hi Hi' Eo.
      assert (O : forall o v, In (o, v) ws -> exists q, o = LCU * q) by (intros q w Hq; cbn in Hq;
         destruct Hq as [Hq|[Hq|[Hq|[Hq|[]]]]]; injection Hq as Hq _; eexists; symmetry; exact Hq).
      destruct (O o v Ho) as [q ->], (O o' v' Ho') as [q' ->]. apply off_eq in Eo; tauto. }
    do 5 eexists. split; [reflexivity|].
    replace (fold_left _ (o_last sc) l) with (fold_left (fun s i => for_ ND (fun mu lat => puts ws lat i mu) s) (o_last sc) l).
    2:{ apply fold_left_ext. intros s0 i. apply for_ext. intros mu t _. unfold ws. cbn [puts].
        replace (LCU * (T - 2) + i + LCU) with (LCU * (T - 1) + i) by nia. reflexivity. }
    set (r := fold_left _ _ _) in *. clearbody r.
    assert (NE : forall q i j, i < LCU -> j = LCU * slice_of LCU j + i -> (j =? LCU * q + i) = (slice_of LCU j =? q)).
    { intros q i j Hi Ej. destruct (Nat.eqb_spec j (LCU * q + i)) as [X|X], (Nat.eqb_spec (slice_of LCU j) q) as [Y|Y]; try reflexivity.
      - exfalso. apply Y. rewrite X. now apply slice_at.
      - exfalso. apply X. rewrite <- Y. exact Ej. }
    assert (W : forall i j mu, i < LCU -> mu < ND -> j = LCU * slice_of LCU j + i -> slice_of LCU j < T ->
      (slice_of LCU j = T - 1 -> r j mu = a4 (i + LCU) mu) /\ (slice_of LCU j = T - 2 -> r j mu = a4 i mu) /\
      (slice_of LCU j + 3 = T -> r j mu = c3 (i + off) mu) /\ (slice_of LCU j + 4 = T -> r j mu = c3 i mu)).
    { intros i j mu Hi Hm Ej Hs.
      assert (G : T - 4 <= slice_of LCU j -> r j mu = lastw ws i j mu (l j mu)).
      { intro G. apply F1; try assumption. cbn [In ws].
        assert (D : slice_of LCU j = T - 1 \/ slice_of LCU j = T - 2 \/ slice_of LCU j + 3 = T \/ slice_of LCU j + 4 = T) by lia.
        destruct D as [D|[D|[D|D]]].
        - exists (LCU * (T - 1)). eexists. split; [right; right; right; left; reflexivity|]. now rewrite <- D.
        - exists (LCU * (T - 2)). eexists. split; [right; right; left; reflexivity|]. now rewrite <- D.
        - exists (LCU * m1). eexists. split; [right; left; reflexivity|]. rewrite M1 by lia. replace (T - 3) with (slice_of LCU j) by lia. exact Ej.
        - exists (LCU * m2). eexists. split; [left; reflexivity|]. rewrite M2 by lia. replace (T - 4) with (slice_of LCU j) by lia. exact Ej. }
      cbn [lastw ws] in G. rewrite !(NE _ i j Hi Ej) in G.
      repeat split; intro X; rewrite G by lia.
      - rewrite X, Nat.eqb_refl. reflexivity.
      - rewrite X, Nat.eqb_refl. destruct (Nat.eqb_spec (T - 2) (T - 1)); [lia|reflexivity].
      - rewrite M1 by lia. destruct (Nat.eqb_spec (slice_of LCU j) (T - 1)); [lia|].
        destruct (Nat.eqb_spec (slice_of LCU j) (T - 2)); [lia|]. destruct (Nat.eqb_spec (slice_of LCU j) (T - 3)); [reflexivity|lia].
      - rewrite M1, M2 by lia. destruct (Nat.eqb_spec (slice_of LCU j) (T - 1)); [lia|].
        destruct (Nat.eqb_spec (slice_of LCU j) (T - 2)); [lia|]. destruct (Nat.eqb_spec (slice_of LCU j) (T - 3)); [lia|].
        destruct (Nat.eqb_spec (slice_of LCU j) (T - 4)); [reflexivity|lia]. }
    destruct I3 as [I3 I3']. split; [|split].
    + intros j mu Hj Hm. pose proof (slice_lt j Hj) as Hs. destruct (slice_dec j) as (i & Hi & Ej). split; [|apply I4; [assumption|assumption|lia]].
      intro Ok. destruct (W i j mu Hi Hm Ej Hs) as (W1 & W2 & W3 & W4).
      destruct (Nat.eq_dec (slice_of LCU j) (T - 1)) as [Y|Y]; [|destruct (Nat.eq_dec (slice_of LCU j) (T - 2)) as [Y2|Y2];
        [|destruct (Nat.eq_dec (slice_of LCU j + 3) T) as [Y3|Y3]; [|destruct (Nat.eq_dec (slice_of LCU j + 4) T) as [Y4|Y4]]]].
      * rewrite W1 by assumption. rewrite A1; [|apply (perm_in _ _ _ P1); lia|assumption]. f_equal. nia.
      * rewrite W2 by assumption. rewrite A1; [|apply (perm_in _ _ _ P1); lia|assumption]. f_equal. nia.
      * rewrite W3 by assumption. assert (off = LCU) by lia. subst off. rewrite I3 by (assumption || lia). f_equal. nia.
      * rewrite W4 by assumption. rewrite I3' by (assumption || lia). f_equal. nia.
      * rewrite F2; [apply I1; [assumption|assumption|lia]|]. intros (i' & o & v & Ho & Ej' & Hi' & _).
        cbn in Ho. rewrite Ej in Ej'.
        destruct Ho as [Ho|[Ho|[Ho|[Ho|[]]]]]; injection Ho as Ho _; subst o; apply off_eq in Ej'; try assumption; try lia.
    + intros -> T4 i mu Hi Hm. destruct (W i (LCU * (T - 3) + i) mu Hi Hm) as (_ & _ & W3 & _); rewrite ?slice_at by assumption; [reflexivity|lia|].
      rewrite W3 by (rewrite slice_at by assumption; lia). rewrite Nat.add_0_r. rewrite I3' by (assumption || lia). f_equal. f_equal. lia.
    + intros j mu X. split; [|apply I5; intuition lia]. rewrite F2; [apply I2; intuition lia|]. intros (i & o & v & Ho & Ej & Hi & Hm). apply X.
      split; [|assumption]. cbn in Ho. subst j. destruct Ho as [Ho|[Ho|[Ho|[Ho|[]]]]]; injection Ho as Ho _; subst o; apply at_lt; try assumption; try lia.
Qed.
(** the step with a full copy of the lattice *)
Lemma RK3step_ok : forall ord ord' lat2, perm_of V ord -> perm_of V ord' ->
  exists lat' a2 z', RK3step_gen rule ND ord ord' lat0 lat2 z0 = Some (lat', a2, z') /\
    (forall j mu, j < V -> mu < ND -> lat' j mu = nw j mu /\ z' j mu = zn j mu) /\
    (forall j mu, ~ (j < V /\ mu < ND) -> lat' j mu = lat0 j mu /\ z' j mu = z0 j mu).
Proof.
  intros ord ord' lat2 P P'. unfold RK3step_gen.
  destruct (compute_ok rule ND lat0 0 ord lat2 z0 nw zn) as (a2 & z1 & E1 & A1 & _ & A2 & A3).
  { eapply perm_nodup; eassumption. }
  { intros i mu Hi Hm. apply Hnw; [|assumption]. now rewrite (perm_in _ _ _ P) in Hi. }
  rewrite E1. do 3 eexists. split; [reflexivity|].
  destruct (last_ok ND V [(0, a2)] ord' lat0 P') as [F1 F2].
  { intros o v o' v' Ho Ho' i i' Hi Hi' Eo. cbn in Ho, Ho'. destruct Ho as [Ho|[]], Ho' as [Ho'|[]]. injection Ho as <- _. injection Ho' as <- _. lia. }
  cbn [puts] in F1, F2. cbn [Nat.add] in *. split.
  - intros j mu Hj Hm. split; [|apply A2; [now apply (perm_in _ _ _ P)|assumption]].
    rewrite (F1 j j mu Hj Hm) by (exists 0, a2; split; [now left|reflexivity]). cbn. rewrite Nat.eqb_refl. apply A1; [now apply (perm_in _ _ _ P)|assumption].
  - intros j mu X. split.
    + apply F2. intros (i & o & v & Ho & Ej & Hi & Hm). destruct Ho as [Ho|[]]. injection Ho as <- _. apply X. subst j. auto.
    + apply A3. intros (i & -> & Hi & Hm). rewrite (perm_in _ _ _ P) in Hi. auto.
Qed.
(** smear3D: a rule that stays on the slice *)
Lemma sweep3D_ok : forall ords ords' lat2, local 0 -> (forall t, t < T -> perm_of LCU (ords t) /\ perm_of LCU (ords' t)) ->
  exists lat' a2 z', sweep3D rule ND LCU T ords ords' lat0 lat2 z0 = Some (lat', a2, z') /\
    (forall j mu, j < V -> mu < ND -> lat' j mu = nw j mu /\ z' j mu = zn j mu) /\
    (forall j mu, ~ (j < V /\ mu < ND) -> lat' j mu = lat0 j mu /\ z' j mu = z0 j mu).
Proof.
  intros ords ords' lat2 Loc P3. unfold sweep3D.
  match goal with |- context[mfor (seq 0 T) ?f ?s] => destruct (mfor_ind (S := field L * field L * field Z) (fun (pre : list nat) st =>
     let '(l, c2, z) := st in let k := length pre in
     (forall j mu, j < V -> mu < ND -> slice_of LCU j < k -> l j mu = nw j mu /\ z j mu = zn j mu) /\
     (forall j mu, ~ (j < V /\ mu < ND /\ slice_of LCU j < k) -> l j mu = lat0 j mu /\ z j mu = z0 j mu))
     (seq 0 T) f s) as (((l & c2) & z) & E & I1 & I2) end.
  - cbn [length]. split; [intros; lia|]. split; reflexivity.
  - intros pre k post [[l c2] z] Es (I1 & I2).
    assert (Ek : k = length pre /\ k < T).
    { assert (Hk : k < T /\ nth_error (seq 0 T) (length pre) = Some k).
      { split; [assert (X : In k (seq 0 T)) by (rewrite Es; apply in_app_iff; right; now left); apply in_seq in X; lia|].
        rewrite Es, nth_error_app2, Nat.sub_diag by lia. reflexivity. }
      destruct Hk as [Hk Hn]. assert (Hp : length pre < T) by (rewrite <- (seq_length T 0); apply nth_error_Some; congruence).
      apply nth_error_nth with (d := 0) in Hn. rewrite seq_nth in Hn by assumption. lia. }
    destruct Ek as [Ek Hk]. rewrite <- Ek in *. rewrite app_length, <- Ek. cbn [length]. cbv zeta.
    destruct (P3 k Hk) as [Pa Pb].
    destruct (compute_ok rule ND l (LCU * k) (ords k) c2 z nw zn) as (c2' & z' & E2 & C1 & _ & C2 & C3).
    { eapply perm_nodup; eassumption. }
    { intros i mu Hi Hm. rewrite (perm_in _ _ _ Pa) in Hi. assert (Hj : LCU * k + i < V) by (apply at_lt; lia).
      assert (Sj : slice_of LCU (LCU * k + i) = k) by now apply slice_at.
      rewrite (proj2 (I2 _ mu ltac:(rewrite Sj; lia))). rewrite <- Hnw by assumption. apply Loc; try assumption.
      intros q nu Hq Hnu (d & Hd & Cl). apply I2. rewrite Sj in Cl. pose proof (slice_lt q Hq) as Hs.
      intros (_ & _ & X). assert (d = 0) by lia. subst d. rewrite !Nat.add_0_r, !Nat.mod_small in Cl by lia. lia. }
    rewrite E2. clear E2. eexists. split; [reflexivity|]. cbv beta iota.
    destruct (last_ok ND LCU [(LCU * k, c2')] (ords' k) l Pb) as [F1 F2].
    { intros o v o' v' Ho Ho' i i' Hi Hi' Eo. cbn in Ho, Ho'. destruct Ho as [Ho|[]], Ho' as [Ho'|[]]. injection Ho as <- _. injection Ho' as <- _. lia. }
    cbn [puts] in F1, F2. set (r := fold_left _ _ _) in *. clearbody r. split.
    + intros j mu Hj Hm X. destruct (slice_dec j) as (i & Hi & Ej). destruct (Nat.eq_dec (slice_of LCU j) k) as [Y|Y].
      * split.
        -- rewrite (F1 i j mu Hi Hm) by (exists (LCU * k), c2'; split; [now left|rewrite <- Y; exact Ej]).
           cbn [lastw]. rewrite <- Y, <- Ej, Nat.eqb_refl. rewrite C1 by (try apply (perm_in _ _ _ Pa); assumption). rewrite <- Y, <- Ej. reflexivity.
        -- rewrite Ej, Y. apply C2; [now apply (perm_in _ _ _ Pa)|assumption].
      * destruct (I1 j mu Hj Hm ltac:(lia)) as [J1 J2]. rewrite <- J1, <- J2. split.
        -- apply F2. intros (i' & o & v & Ho & Ej' & Hi' & _). destruct Ho as [Ho|[]]. injection Ho as <- _. rewrite Ej in Ej'. apply off_eq in Ej'; tauto.
        -- apply C3. intros (i' & Ej' & Hi' & _). rewrite (perm_in _ _ _ Pa) in Hi'. rewrite Ej in Ej'. apply off_eq in Ej'; tauto.
    + intros j mu X. destruct (I2 j mu ltac:(intuition lia)) as [J1 J2]. rewrite <- J1, <- J2. split.
      * apply F2. intros (i' & o & v & Ho & Ej' & Hi' & Hm). destruct Ho as [Ho|[]]. injection Ho as <- _. apply X. subst j.
        rewrite slice_at by assumption. split; [apply at_lt; lia|]. split; [assumption|lia].
      * apply C3. intros (i' & Ej' & Hi' & Hm). rewrite (perm_in _ _ _ Pa) in Hi'. apply X. subst j.
        rewrite slice_at by assumption. split; [apply at_lt; lia|]. split; [assumption|lia].
  - do 3 eexists. split; [exact E|]. rewrite seq_length in *. split.
    + intros j mu Hj Hm. apply I1; try assumption. now apply slice_lt.
    + intros j mu X. apply I2. tauto.
Qed.
End Sweep.
