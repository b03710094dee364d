From Coq Require Import String.
From Verif Require Import CInt Lib GeomProofs TextModel TextProofs InputModel LimeModel XmlModel.

(* ---- specification: s consists of the non-empty words ts, set apart by characters of d ---- *)
Definition clean (d t : list Z) : Prop := Forall (fun c => ~ In c d) t.
Inductive splits (d : list Z) : list Z -> list (list Z) -> Prop :=
  | splits_nil : splits d [] []
  | splits_sep c s ts : In c d -> splits d s ts -> splits d (c :: s) ts
  | splits_end t : t <> [] -> clean d t -> splits d t [t]
  | splits_word t c s ts : t <> [] -> clean d t -> In c d -> splits d s ts -> splits d (t ++ c :: s) (t :: ts).

Lemma among_In d c : among d c = true <-> In c d.
Proof.
  unfold among. rewrite existsb_exists. split.
  - intros (x & Hx & E). apply Z.eqb_eq in E. now subst.
  - intros H. exists c. split; [assumption|apply Z.eqb_refl].
Qed.
Lemma among_not d c : ~ In c d -> among d c = false.
Proof. intros H. destruct (among d c) eqn:E; [|reflexivity]. apply among_In in E. contradiction. Qed.

Lemma pieces_word d t : clean d t -> forall s cur, pieces d (t ++ s) cur = pieces d s (rev t ++ cur).
Proof.
  induction 1 as [|c t Hc H IH]; intros s cur; [reflexivity|]. cbn [app pieces]. rewrite among_not by assumption.
  rewrite IH. cbn [rev]. now rewrite <- app_assoc.
Qed.

Definition nonempty (t : list Z) : bool := match t with [] => false | _ => true end.
Lemma tokens_def d s : tokens d s = filter nonempty (pieces d s []). Proof. reflexivity. Qed.
Lemma nonempty_app a b : a <> [] -> nonempty (a ++ b) = true. Proof. destruct a; [congruence|reflexivity]. Qed.
Lemma filter_app' {A} (p : A -> bool) a b : filter p (a ++ b) = filter p a ++ filter p b.
Proof. induction a as [|x a IH]; [reflexivity|]. cbn. destruct (p x); cbn; now rewrite IH. Qed.

Lemma tokens_word d w c s : clean d w -> w <> [] -> In c d -> tokens d (w ++ c :: s) = w :: tokens d s.
Proof.
  intros Hw Hn Hc. rewrite !tokens_def, pieces_word by assumption. cbn [pieces]. apply among_In in Hc. rewrite Hc.
  rewrite app_nil_r, rev_involutive. cbn [filter]. destruct w; [congruence|reflexivity].
Qed.
Lemma tokens_one d w : clean d w -> w <> [] -> tokens d w = [w].
Proof.
  intros Hw Hn. rewrite tokens_def. rewrite <- (app_nil_r w) at 1. rewrite pieces_word by assumption. cbn [pieces].
  rewrite app_nil_r, rev_involutive. cbn [filter]. destruct w; [congruence|reflexivity].
Qed.
Lemma tokens_sep d c s : In c d -> tokens d (c :: s) = tokens d s.
Proof. intros Hc. rewrite !tokens_def. cbn [pieces]. apply among_In in Hc. rewrite Hc. reflexivity. Qed.
Lemma splits_tokens d s ts : splits d s ts -> tokens d s = ts.
Proof.
  induction 1 as [|c s ts Hc H IH|t Hn Ht|t c s ts Hn Ht Hc H IH]; [reflexivity| | |].
  - now rewrite tokens_sep.
  - now apply tokens_one.
  - rewrite tokens_word by assumption. now rewrite IH.
Qed.
(* literal pieces *)
Definition ends (d L : list Z) : bool := match rev L with c :: _ => among d c | [] => false end.
Definition starts (d L : list Z) : bool := match L with c :: _ => among d c | [] => false end.
Lemma pieces_last d a c s cur : In c d -> pieces d (a ++ c :: s) cur = pieces d a cur ++ pieces d s [].
Proof.
  intros Hc. revert cur. induction a as [|x a IH]; intros cur; cbn [app pieces].
  - apply among_In in Hc. now rewrite Hc.
  - destruct (among d x); [cbn [app]; now rewrite IH|apply IH].
Qed.
Lemma tokens_lit d L s : ends d L = true -> tokens d (L ++ s) = tokens d L ++ tokens d s.
Proof.
  unfold ends. intros H. destruct (rev L) as [|c l] eqn:E; [discriminate|]. apply among_In in H.
  assert (EL : L = rev l ++ [c]) by (rewrite <- (rev_involutive L), E; reflexivity).
  rewrite EL, <- app_assoc. cbn [app]. rewrite !tokens_def, !pieces_last by assumption. rewrite !filter_app'. cbn. now rewrite app_nil_r.
Qed.
Lemma tokens_mid d w L s : clean d w -> w <> [] -> starts d L = true -> tokens d (w ++ L ++ s) = w :: tokens d (L ++ s).
Proof.
  intros Hw Hn H. destruct L as [|c L]; [discriminate|]. cbn in H. apply among_In in H.
  cbn [app]. rewrite tokens_word by assumption. now rewrite tokens_sep.
Qed.
Lemma tokens_clean d s : Forall (clean d) (tokens d s).
Proof.
  rewrite tokens_def. assert (G : forall s cur, clean d cur -> Forall (clean d) (filter nonempty (pieces d s cur))).
  { clear s. induction s as [|c s IH]; intros cur Hc; cbn [pieces].
    - cbn. destruct (nonempty (rev cur)); constructor; [|constructor]. now apply Forall_rev.
    - destruct (among d c) eqn:E.
      + cbn [filter]. specialize (IH [] (Forall_nil _)). destruct (nonempty (rev cur)); [constructor; [now apply Forall_rev|assumption]|assumption].
      + apply IH. constructor; [|assumption]. intros F. apply among_In in F. congruence. }
  apply G. constructor.
Qed.

(* ---- strtok ---- *)
Lemma till_word d w c s : clean d w -> In c d -> till_d d (w ++ c :: s) = (w, s).
Proof.
  induction 1 as [|x w Hx H IH]; intros Hc; cbn [app till_d].
  - apply among_In in Hc. now rewrite Hc.
  - rewrite among_not by assumption. now rewrite IH.
Qed.
Lemma till_end d w : clean d w -> till_d d w = (w, []).
Proof. induction 1 as [|x w Hx H IH]; [reflexivity|]. cbn [till_d]. rewrite among_not by assumption. now rewrite IH. Qed.
Lemma skip_clean d w s : clean d w -> w <> [] -> skip_d d (w ++ s) = w ++ s.
Proof. intros H Hn. destruct H as [|x w Hx H]; [congruence|]. cbn [app skip_d]. now rewrite among_not. Qed.
Lemma strtok_word d w c s : clean d w -> w <> [] -> In c d -> strtok d (w ++ c :: s) = Some (w, s).
Proof.
  intros H Hn Hc. unfold strtok. rewrite skip_clean by assumption. destruct w as [|x w]; [congruence|]. cbn [app].
  change (x :: w ++ c :: s) with ((x :: w) ++ c :: s). now rewrite till_word.
Qed.
Lemma strtok_end d w : clean d w -> w <> [] -> strtok d w = Some (w, []).
Proof.
  intros H Hn. unfold strtok. rewrite <- (app_nil_r w). rewrite skip_clean by assumption. rewrite app_nil_r.
  destruct w as [|x w]; [congruence|]. now rewrite till_end.
Qed.
Lemma till_length d s : (length (snd (till_d d s)) <= length s)%nat.
Proof.
  induction s as [|c s IH]; [cbn; lia|]. cbn [till_d]. destruct (among d c); [cbn; lia|].
  destruct (till_d d s) as [t r]. cbn in *. lia.
Qed.
Lemma skip_length d s : (length (skip_d d s) <= length s)%nat.
Proof. induction s as [|c s IH]; [cbn; lia|]. cbn [skip_d]. destruct (among d c); cbn in *; lia. Qed.
Lemma strtok_length d s t r : strtok d s = Some (t, r) -> (length r < length s)%nat.
Proof.
  unfold strtok. intros E. pose proof (skip_length d s) as L. destruct (skip_d d s) as [|c s'] eqn:E1; [discriminate|].
  injection E as E. assert (Hc : among d c = false).
  { clear -E1. induction s as [|x s IH]; [discriminate|]. cbn [skip_d] in E1. destruct (among d x) eqn:E; [auto|]. now injection E1 as -> ->. }
  cbn [till_d] in E. rewrite Hc in E. pose proof (till_length d s') as L1. destruct (till_d d s') as [t' r']. injection E as <- <-. cbn in *. lia.
Qed.

(* ---- numbers ---- *)
Lemma dec_digits n : 0 <= n -> Forall (isdig 10) (dec n). Proof. intros H. apply digits_dig; lia. Qed.
Lemma dec_nonempty n : dec n <> [].
Proof. pose proof (digits_len 10 (S (Z.to_nat (Z.log2 n))) n ltac:(lia)) as L. unfold dec. destruct (digits 10 _ n); [cbn in L; lia|congruence]. Qed.
Lemma hex_nonempty n : hex n <> [].
Proof. pose proof (digits_len 16 (S (Z.to_nat (Z.log2 n))) n ltac:(lia)) as L. unfold hex. destruct (digits 16 _ n); [cbn in L; lia|congruence]. Qed.
Lemma dec_codes n : 0 <= n -> Forall (fun c => 48 <= c <= 57) (dec n).
Proof.
  intros H. eapply Forall_impl; [|apply dec_digits; exact H]. intros c (d & E & Hd). unfold digit_val in E.
  destruct ((48 <=? c) && (c <=? 57)) eqn:E1; [apply andb_true_iff in E1; destruct E1 as [A B]; apply Z.leb_le in A, B; lia|].
  destruct ((97 <=? c) && (c <=? 102)) eqn:E2; [apply andb_true_iff in E2; destruct E2 as [A B]; apply Z.leb_le in A, B; injection E as <-; lia|].
  destruct ((65 <=? c) && (c <=? 70)) eqn:E3; [apply andb_true_iff in E3; destruct E3 as [A B]; apply Z.leb_le in A, B; injection E as <-; lia|].
  discriminate.
Qed.
Lemma hex_codes n : 0 <= n -> Forall (fun c => (48 <= c <= 57) \/ (97 <= c <= 102) \/ (65 <= c <= 70)) (hex n).
Proof. intros H. apply digits_range; lia. Qed.
Lemma dec_clean d n : 0 <= n -> Forall (fun c => c < 48 \/ 57 < c) d -> clean d (dec n).
Proof.
  intros H Hd. eapply Forall_impl; [|apply dec_codes; exact H]. intros c Hc I. rewrite Forall_forall in Hd. specialize (Hd _ I). cbn in *. lia.
Qed.
Lemma dec_sep n : 0 <= n -> clean sep (dec n). Proof. intros H. apply dec_clean; [assumption|]. repeat constructor; lia. Qed.
Lemma dec_blank n : 0 <= n -> clean blank1 (dec n). Proof. intros H. apply dec_clean; [assumption|]. repeat constructor; lia. Qed.
Lemma hex_sep n : 0 <= n -> clean sep (hex n).
Proof. intros H. eapply Forall_impl; [|apply hex_codes; exact H]. intros c Hc [<-|[<-|[]]]; cbn in Hc; lia. Qed.
Lemma dec_nz n : 0 <= n -> Forall (fun c => c <> 0) (dec n).
Proof. intros H. eapply Forall_impl; [|apply dec_codes; exact H]. cbn. lia. Qed.
Lemma hex_nz n : 0 <= n -> Forall (fun c => c <> 0) (hex n).
Proof. intros H. eapply Forall_impl; [|apply hex_codes; exact H]. cbn. lia. Qed.
Lemma dec_hd n : 0 <= n -> exists c l, dec n = c :: l /\ 48 <= c <= 57.
Proof. intros H. pose proof (dec_codes n H) as F. pose proof (dec_nonempty n). destruct (dec n) as [|c l]; [congruence|]. inversion F; eauto. Qed.
Lemma skip_ws_dec n : 0 <= n -> skip_ws (dec n) = dec n.
Proof.
  intros H. destruct (dec_hd n H) as (c & l & E & Hc). rewrite E. cbn [skip_ws]. replace (space c) with false; [reflexivity|].
  symmetry. unfold space. apply orb_false_iff. split; [apply Z.eqb_neq; lia|]. apply andb_false_iff. right. apply Z.leb_gt. lia.
Qed.
Lemma realFront_dec n : 0 <= n -> realFront (dec n) = dec n.
Proof. intros H. unfold realFront. rewrite <- (app_nil_r (dec n)) at 1. rewrite skip_clean; [apply app_nil_r| |apply dec_nonempty]. apply dec_clean; [assumption|]. repeat constructor; lia. Qed.
Lemma strtol_dec n : 0 <= n < two63 -> strtol (dec n) = (true, true, n).
Proof.
  intros H. unfold strtol. rewrite cstr_id by (apply dec_nz; lia). rewrite skip_ws_dec by lia.
  destruct (dec_hd n ltac:(lia)) as (c & l & E & Hc).
  assert (T : take_sign (dec n) = (false, dec n)).
  { rewrite E. cbn [take_sign]. destruct (Z.eqb_spec c 45); [lia|]. destruct (Z.eqb_spec c 43); [lia|]. reflexivity. }
  rewrite T. pose proof (dec_val n [] ltac:(lia)) as (k & D). rewrite app_nil_r in D. rewrite D. cbn [get_digits].
  unfold LONG_MAX, LONG_MIN. destruct (Z.ltb_spec (two63 - 1) n); [lia|]. destruct (Z.ltb_spec n (- two63)); [unfold two63 in *; lia|]. reflexivity.
Qed.
Lemma dim_of_dec n : 0 <= n < two63 -> dim_of (dec n) = n.
Proof. intros H. unfold dim_of. rewrite strtol_dec by assumption. apply u64_id. unfold two63, two64 in *. lia. Qed.
Lemma scan_x_hex0 n : 0 <= n < two32 -> scan_x (hex n) = Some (Some n).
Proof.
  intros H. pose proof (scan_x_hex n H) as E. unfold scan_x, scan_u in *.
  rewrite cstr_id by (apply hex_nz; lia). rewrite cstr_id in E by (constructor; [lia|apply hex_nz; lia]).
  replace (skip_ws (32 :: hex n)) with (skip_ws (hex n)) in E by reflexivity. exact E.
Qed.
Lemma prefix_slash tag t : (forall c l, t = c :: l -> c <> 47) -> prefix (47 :: tag) t = false.
Proof. intros H. destruct t as [|c l]; [reflexivity|]. cbn [prefix]. destruct (Z.eqb_spec 47 c) as [<-|]; [exfalso; now apply (H 47 l)|reflexivity]. Qed.
Lemma prefix_self p l : prefix p (p ++ l) = true.
Proof. induction p as [|x p IH]; [reflexivity|]. cbn [app prefix]. now rewrite Z.eqb_refl. Qed.
Lemma prefix_refl p : prefix p p = true. Proof. rewrite <- (app_nil_r p) at 2. apply prefix_self. Qed.
(* <tag>n</tag> *)
Lemma get_int_dec tag n ts : 0 <= n < two31 -> get_int_tag tag (dec n :: (47 :: tag) :: ts) = (n, ts).
Proof.
  intros H. unfold get_int_tag. cbn [int_loop]. rewrite prefix_slash.
  - rewrite realFront_dec by lia. rewrite strtol_dec by (unfold two31, two63 in *; lia). cbn [negb orb].
    rewrite prefix_refl. rewrite i32_id by lia. reflexivity.
  - intros c l E. destruct (dec_hd n ltac:(lia)) as (c' & l' & E' & Hc). rewrite E in E'. injection E' as -> _. lia.
Qed.

(* ---- the list of dimensions ---- *)
Lemma dims_text_cons d r : r <> [] -> dims_text (d :: r) = dec d ++ 32 :: dims_text r.
Proof. destruct r; [congruence|reflexivity]. Qed.
Lemma set_nth_mid {A} (pre : list A) x post v : set_nth (pre ++ x :: post) (length pre) v = Some (pre ++ v :: post).
Proof. induction pre as [|a pre IH]; [reflexivity|]. cbn [app set_nth length]. now rewrite IH. Qed.
Lemma dims_words_text : forall rest fuel pre old, rest <> [] -> Forall (fun d => 0 <= d < two63) rest -> length old = length rest ->
  (length rest < fuel)%nat -> dims_words fuel (pre ++ old) (length pre) (dims_text rest) = Some (pre ++ rest, []).
Proof.
  induction rest as [|d rest IH]; intros fuel pre old Hn F L Hf; [congruence|]. destruct old as [|o old]; [discriminate|]. cbn in L, Hf.
  destruct fuel as [|fuel]; [lia|]. apply Forall_cons_iff in F. destruct F as [Hd F].
  assert (Hs : eqs (dec d) (str "/dims") = false).
  { destruct (dec_hd d ltac:(lia)) as (c & l & E & Hc). rewrite E. change (str "/dims") with [47; 100; 105; 109; 115]. cbn [eqs]. destruct (Z.eqb_spec c 47); [lia|reflexivity]. }
  destruct rest as [|d' rest].
  - cbn [dims_text dims_words]. rewrite strtok_end by (apply dec_blank || apply dec_nonempty; lia). rewrite Hs.
    rewrite dim_of_dec by assumption. rewrite set_nth_mid. cbn [bindo]. destruct old; [|discriminate].
    destruct fuel; [cbn in Hf; lia|]. reflexivity.
  - rewrite dims_text_cons by congruence. cbn [dims_words]. rewrite strtok_word; [|apply dec_blank; lia|apply dec_nonempty|now left]. rewrite Hs.
    rewrite dim_of_dec by assumption. rewrite set_nth_mid. cbn [bindo].
    replace (pre ++ d :: old) with ((pre ++ [d]) ++ old) by (now rewrite <- app_assoc).
    replace (S (length pre)) with (length (pre ++ [d])) by (rewrite app_length; cbn; lia).
    rewrite IH; [now rewrite <- app_assoc|congruence|assumption|cbn in *; lia|cbn in *; lia].
Qed.
Lemma dims_text_len : forall rest, (length rest <= length (dims_text rest))%nat.
Proof.
  induction rest as [|d r IH]; [cbn; lia|]. destruct r as [|d' r].
  - cbn [dims_text]. pose proof (dec_nonempty d). destruct (dec d); [congruence|cbn; lia].
  - rewrite dims_text_cons by congruence. rewrite app_length. cbn [length] in *. lia.
Qed.
Lemma dims_text_clean : forall rest, Forall (fun d => 0 <= d) rest -> clean sep (dims_text rest).
Proof.
  induction rest as [|d r IH]; intros F; [constructor|]. apply Forall_cons_iff in F. destruct F as [Hd F]. destruct r as [|d' r].
  - now apply dec_sep.
  - rewrite dims_text_cons by congruence. apply Forall_app. split; [now apply dec_sep|]. constructor; [|now apply IH]. intros [E|[E|[]]]; discriminate.
Qed.
Lemma dims_text_nz : forall rest, Forall (fun d => 0 <= d) rest -> Forall (fun c => c <> 0) (dims_text rest).
Proof.
  induction rest as [|d r IH]; intros F; [constructor|]. apply Forall_cons_iff in F. destruct F as [Hd F]. destruct r as [|d' r].
  - now apply dec_nz.
  - rewrite dims_text_cons by congruence. apply Forall_app. split; [now apply dec_nz|]. constructor; [lia|now apply IH].
Qed.
Lemma dims_text_nonempty rest : rest <> [] -> dims_text rest <> [].
Proof. intros H. pose proof (dims_text_len rest). destruct rest; [congruence|]. destruct (dims_text _); [cbn in *; lia|congruence]. Qed.
(* one <dims> element *)
Lemma dims_read old dims : dims <> [] -> length old = length dims -> Forall (fun d => 0 <= d < two63) dims ->
  exists w r, strtok blank1 (dims_text dims) = Some (w, r) /\
  (do d <- set_nth old 0 (dim_of w); dims_words (S (length r)) d 1 r) = Some (dims, []).
Proof.
  intros Hn L F. destruct dims as [|d r]; [congruence|]. destruct old as [|o old]; [discriminate|]. injection L as L.
  apply Forall_cons_iff in F. destruct F as [Hd F]. destruct r as [|d' r].
  - exists (dec d), []. cbn [dims_text]. split; [apply strtok_end; [apply dec_blank; lia|apply dec_nonempty]|].
    destruct old; [|discriminate]. cbn [set_nth bindo]. rewrite dim_of_dec by assumption. reflexivity.
  - rewrite dims_text_cons by congruence. exists (dec d), (dims_text (d' :: r)).
    split; [apply strtok_word; [apply dec_blank; lia|apply dec_nonempty|now left]|].
    cbn [set_nth bindo]. rewrite dim_of_dec by assumption. change 1%nat with (length [d]). change (d :: old) with ([d] ++ old).
    rewrite dims_words_text; [reflexivity|congruence|assumption|exact L|]. pose proof (dims_text_len (d' :: r)). lia.
Qed.
