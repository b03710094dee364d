(** C44: writing configurations.  C45: continued runs.  C46: schedules.  C51: the memory decision. *)
From Coq Require Import String ZArith Reals List PeanoNat Lia Lra Permutation Bool.
From Verif Require Import CInt Lib TextModel HdrModel RngModel RngProofs2 RunModel RunProofs.
Import ListNotations.
Local Open Scope Z_scope.

(** * C44 *)
(** A file that can be read by the process is never touched, and the call fails. *)
Theorem C44_refuses : forall image can room w c t, write_configuration image can room (Present true w c) t = Wrote (-1) (Present true w c).
Proof. reflexivity. Qed.
Print Assumptions C44_refuses.
(** Full claim: success means that the complete file is there and that nothing was there before.
    Missing: the cases of the refutations below (output type 0, no room on the device, an existing file
    that may be written but not read).  Outside them success is exactly that. *)
Theorem C44_success_partial : forall image can room t s code t',
  s <> NO_OUTPUT -> (List.length (image s) <= room)%nat -> (forall w c, t <> Present false w c) ->
  write_configuration image can room t s = Wrote code t' -> code = 0 ->
  t = Absent /\ exists r w, t' = Present r w (image s).
Proof.
  intros image can room t s code t' Hs Hr Ht E Hc. unfold write_configuration in E. destruct t as [|[|] w c].
  - cbn [file_exists fopen_w] in E. destruct can; [|discriminate]. split; [reflexivity|]. exists true, true.
    destruct s; try congruence; cbn [write_lat put List.length app] in E; rewrite Nat.sub_0_r, firstn_all2 in E by assumption; congruence.
  - cbn in E. injection E as <- <-. discriminate.
  - destruct (Ht w c eq_refl).
Qed.
Print Assumptions C44_success_partial.
Example C44_success_case : write_configuration (fun _ => [1; 2; 3]) true 100 Absent OUTPUT_CERN = Wrote 0 (Present true true [1; 2; 3]).
Proof. reflexivity. Qed.
(** a failing call changes nothing *)
Theorem C44_failure : forall image can room t s code t', write_configuration image can room t s = Wrote code t' -> code <> 0 -> t' = t.
Proof.
  intros image can room t s code t' E Hc. unfold write_configuration in E. destruct (file_exists t); [congruence|].
  destruct (fopen_w can t); [|discriminate]. destruct (write_lat image s). congruence.
Qed.
Print Assumptions C44_failure.
(** a file without read permission but with write permission is overwritten *)
Theorem C44_overwrites_refuted : exists image c t', write_configuration image true 100 (Present false true c) OUTPUT_GAUGE = Wrote 0 t' /\ t' <> Present false true c.
Proof. exists (fun _ => [1; 2; 3]), [9; 9; 9; 9], (Present false true [1; 2; 3]). split; [reflexivity|discriminate]. Qed.
Print Assumptions C44_overwrites_refuted.
(** a full device and an output type without a writer both give success *)
Theorem C44_full_refuted : exists image room t', write_configuration image true room Absent OUTPUT_GAUGE = Wrote 0 t' /\ forall r w, t' <> Present r w (image OUTPUT_GAUGE).
Proof. exists (fun _ => [1; 2; 3]), 2%nat, (Present true true [1; 2]). split; [reflexivity|discriminate]. Qed.
Theorem C44_no_output_refuted : exists image t', write_configuration image true 100 Absent NO_OUTPUT = Wrote 0 t' /\ t' = Present true true [].
Proof. exists (fun _ => [1]), (Present true true []). split; reflexivity. Qed.
(** a target that cannot be opened: a null stream is used *)
Theorem C44_null_refuted : exists image can t, write_configuration image can 100 t OUTPUT_GAUGE = WUndefined.
Proof. exists (fun _ => [1]), false, Absent. reflexivity. Qed.
Print Assumptions C44_null_refuted.

(** * C45 *)
(** [upd] is one combined update on a fixed number of threads, [reunit] what saving does to the running
    configuration, [Inv] an invariant of the generator states that bounds their words.  The run on [flow],
    ..., iterations-1 gives [trF]: what entered each update.  Take a save point [sp] in it whose file was
    not there when the run began.  The same run stopped there leaves files [fsS] which hold a
    configuration [l]; the run restarted from them, as the input file for a continuation does, has exactly
    the remaining trace, and the same last configuration, generator and files.
    Missing: the sequence number [q] in the configuration file is the save point only if no thread saves
    before the counter is updated, or if the save point is also a measurement; see the refutation. *)
Theorem C45_restart_partial : forall (L : Type) (upd : L -> rng -> L * rng) (reunit : L -> L) g be Nth (Inv : rng -> Prop)
    late hb name p flow lat0 s0 fs0 latF sF fsF trF sp,
  (g = MWC_1038 \/ g = MWC_4096 \/ g = XOR_1024 \/ (g = KISS /\ be = true)) -> Z.of_nat Nth < two32 ->
  (forall s, Inv s -> wfb g Nth s) -> (forall l s, Inv s -> Inv (snd (upd l s))) ->
  stem name = Some p -> 0 <= flow -> Inv s0 ->
  (forall b, lookup L (rand_name p flow) fs0 = Some (Rand L b) -> forall s, read_par_rng_state g be Nth b = Restored s -> Inv s) ->
  hb_update L upd reunit g be Nth late hb name flow lat0 s0 fs0 = HRun L latF sF fsF trF ->
  flow < sp < iterations hb -> sp mod Nsave hb = 0 -> lookup L (conf_name p sp) fs0 = None ->
  exists q fsS l tr1 tr2,
    (exists latS sS trS, hb_update L upd reunit g be Nth late
       {| therm := therm hb; iterations := sp + 1; Nmeasure := Nmeasure hb; Nsave := Nsave hb; continuation := continuation hb |}
       name flow lat0 s0 fs0 = HRun L latS sS fsS trS) /\
    lookup L (conf_name p sp) fsS = Some (Conf L q l) /\
    (late sp = false \/ sp mod Nmeasure hb = 0 -> q = sp) /\
    trF = tr1 ++ tr2 /\ List.length tr1 = Z.to_nat (sp - flow) /\
    forall s, hb_update L upd reunit g be Nth late (fst (poke false hb sp)) (conf_name p sp) (snd (poke false hb sp)) l s fsS
              = HRun L latF sF fsF tr2.
Proof.
  intros L upd reunit g be Nth Inv late hb name p flow lat0 s0 fs0 latF sF fsF trF sp Hg HN HI Hu Hst Hfl W0 Wr E Hsp Hm Hfree.
  apply (continue_ok L upd reunit g be Nth Hg HN Inv HI Hu late hb (fst (poke false hb sp)) name p flow lat0 s0 fs0 latF sF fsF trF sp); try assumption; try reflexivity.
  repeat split.
Qed.
Print Assumptions C45_restart_partial.

(** Saving does not disturb a run: if the configurations of a run are unchanged by reunitarisation, the
    trajectory depends neither on which files exist already nor on the schedule of the saves. *)
Theorem C45_saves_inert : forall (L : Type) (upd : L -> rng -> L * rng) (reunit : L -> L) g be Nth,
  (g = MWC_1038 \/ g = MWC_4096 \/ g = XOR_1024 \/ (g = KISS /\ be = true)) -> Z.of_nat Nth < two32 ->
  forall Inv : rng -> Prop, (forall s, Inv s -> wfb g Nth s) -> (forall l s, Inv s -> Inv (snd (upd l s))) ->
  forall P : L -> Prop, (forall l s, P l -> P (fst (upd l s))) -> (forall l, P l -> reunit l = l) ->
  forall late late' hb p n a i lat s fs fs' lat1 s1 fs1 tr, P lat -> Inv s ->
  hb_loop L upd reunit g be Nth n late hb p a i lat s fs = Some (lat1, s1, fs1, tr) ->
  exists fs1', hb_loop L upd reunit g be Nth n late' hb p a i lat s fs' = Some (lat1, s1, fs1', tr).
Proof.
  intros L upd reunit g be Nth Hg HN Inv HI Hu P Pu Pr late late' hb p n a i lat s fs fs' lat1 s1 fs1 tr HP W E.
  exact (loop_files L upd reunit g be Nth Hg HN Inv HI Hu P Pu Pr late late' hb p n a i lat s fs fs' lat1 s1 fs1 tr HP W E).
Qed.
Print Assumptions C45_saves_inert.

(** a small run: the "configuration" is a number, two threads, XOR_1024 *)
Definition ex_rng : rng := Rng [[1;2;3;4;5;6;7;8;9;10;11;12;13;14;15;16]; [21;22;23;24;25;26;27;28;29;30;31;32;33;34;35;36]] [3; 5] [].
Definition ex_upd (l : Z) (s : rng) : Z * rng := match draw XOR_1024 0 s with Some (v, s') => (l + v mod 1000, s') | None => (l, s) end.
Example C45_invariant : (forall l s, wfb XOR_1024 2 s /\ idxok XOR_1024 s -> wfb XOR_1024 2 (snd (ex_upd l s)) /\ idxok XOR_1024 (snd (ex_upd l s)))
  /\ wfb XOR_1024 2 ex_rng /\ idxok XOR_1024 ex_rng.
Proof.
  split; [|split].
  - intros l s (W & I). destruct (draw_ok XOR_1024 2 0 s ltac:(lia) W I) as ((v & s') & E & _ & W' & I'). unfold ex_upd. rewrite E. split; assumption.
  - unfold wfb, tabok, ex_rng. cbn -[Z.pow]. repeat split; repeat (constructor; [try split; try (cbn; lia); repeat (constructor; [cbn; lia|]); constructor|]); constructor.
  - intros [|[|[|j]]] i; cbn; intros E; try discriminate; injection E as <-; cbn; lia.
Qed.
Definition ex_hb : hb_info := {| therm := 2; iterations := 6; Nmeasure := 2; Nsave := 3; continuation := false |}.
Definition ex_run (late : Z -> bool) := hb_update Z ex_upd (fun l => l - l mod 2) XOR_1024 false 2 late ex_hb (str "conf.0") 0 7 ex_rng [].
Example C45_run : match ex_run (fun _ => false) with
  | HRun _ lat s fs tr => (map (fun x => fst (fst x)) tr, map fst fs) = ([0; 1; 2; 3; 4; 5], [str "conf.3.rand"; str "conf.3"])
  | _ => False end.
Proof. vm_compute. reflexivity. Qed.
Example C45_run_restarted : match ex_run (fun _ => false) with
  | HRun _ lat s fs tr =>
     match lookup Z (str "conf.3") fs with
     | Some (Conf _ q l) => q = 3 /\
        hb_update Z ex_upd (fun l => l - l mod 2) XOR_1024 false 2 (fun _ => false) (fst (poke false ex_hb 3)) (str "conf.3") 3 l ex_rng fs
        = HRun Z lat s fs (skipn 3 tr)
     | _ => False end
  | _ => False end.
Proof. vm_compute. split; reflexivity. Qed.
(** The number in the header can be that of the iteration before; the restart, which takes it from the
    header, then finds no generator state and starts a new random sequence. *)
Theorem C45_number_refuted : exists late lat s fs tr q l,
  ex_run late = HRun Z lat s fs tr /\ lookup Z (str "conf.3") fs = Some (Conf Z q l) /\ q <> 3 /\
  hb_update Z ex_upd (fun l => l - l mod 2) XOR_1024 false 2 late (fst (poke false ex_hb q)) (str "conf.3") q l ex_rng fs = HNewSequence Z.
Proof.
  exists (fun _ => true). remember (ex_run (fun _ => true)) as r eqn:E. vm_compute in E. rewrite E.
  do 6 eexists. split; [reflexivity|]. split; [vm_compute; reflexivity|]. split; [discriminate|]. vm_compute. reflexivity.
Qed.
Print Assumptions C45_number_refuted.
(** The buffer for the file names holds iteration numbers of at most seven digits. *)
Theorem C45_buffer_refuted : exists flow, 0 <= flow < two31 /\
  forall late hb s, hb_update Z ex_upd (fun l => l) XOR_1024 false 2 late hb (str "conf.10000000") flow 7 s [] = HUndefined Z.
Proof. exists 10000000. split; [unfold two31; lia|]. intros. unfold hb_update. reflexivity. Qed.
(** save and measurement intervals of zero divide by zero *)
Theorem C45_interval_refuted : exists hb, forall late s,
  hb_update Z ex_upd (fun l => l) XOR_1024 false 2 late hb (str "conf.0") 0 7 s [] = HUndefined Z.
Proof.
  exists {| therm := 0; iterations := 6; Nmeasure := 2; Nsave := 0; continuation := false |}. intros. unfold hb_update.
  reflexivity.
Qed.
Print Assumptions C45_interval_refuted.

(** * C46 *)
Local Open Scope R_scope.
(** Sums: for every distribution of the sites over threads, every order inside a thread and every order of
    the threads the sum of the reduction is the sum over all sites. *)
Theorem C46_sums : forall parts l, Permutation (List.concat parts) l -> reduction parts = fold_right Rplus 0 l.
Proof. exact reduction_ok. Qed.
Print Assumptions C46_sums.
Example C46_sums_case : Permutation (List.concat [[3; 1]; []; [2]]) [1; 2; 3].
Proof. cbn. apply (Permutation_trans (l' := [1; 3; 2])); [apply perm_swap|]. apply perm_skip, perm_swap. Qed.
(** Maximum, full claim: every interleaving gives the largest value.  Missing: with two threads it may not
    (below); what holds for every interleaving is that the result is 0 or one of the values, and that one
    thread alone gives the largest. *)
Theorem C46_maximum_partial : forall parts m, theta_max parts m -> m = 0 \/ In m (List.concat parts).
Proof. exact theta_max_in. Qed.
Print Assumptions C46_maximum_partial.
Theorem C46_maximum_one_thread : forall l m, theta_max [l] m -> m = fold_left Rmax l 0.
Proof. exact theta_single. Qed.
Print Assumptions C46_maximum_one_thread.
Theorem C46_maximum_refuted : exists parts m m', theta_max parts m /\ theta_max parts m' /\ m <> m'.
Proof.
  exists [[5]; [7]], 5, 7. split; [|split; [|lra]].
  - exists [Idle []; Idle []]. split; [|repeat constructor]. cbn [map].
    eapply ts_step; [apply (t_check_gt 0 [] [Idle [7]] 5 []); lra|].
    eapply ts_step; [apply (t_check_gt 0 [Pending 5 []] [] 7 []); lra|].
    eapply ts_step; [apply (t_store 0 [Pending 5 []] [] 7 [])|].
    eapply ts_step; [apply (t_store 7 [] [Idle []] 5 [])|]. apply ts_refl.
  - exists [Idle []; Idle []]. split; [|repeat constructor]. cbn [map].
    eapply ts_step; [apply (t_check_gt 0 [] [Idle [7]] 5 []); lra|].
    eapply ts_step; [apply (t_store 0 [] [Idle [7]] 5 [])|].
    eapply ts_step; [apply (t_check_gt 5 [Idle []] [] 7 []); lra|].
    eapply ts_step; [apply (t_store 5 [Idle []] [] 7 [])|]. apply ts_refl.
Qed.
Print Assumptions C46_maximum_refuted.
Local Open Scope Z_scope.

(** * C51 *)
(** what a fresh program answers *)
Definition fresh (NC ND V mem : Z) (t : output) : Z := fst (have_memory_readers_writers NC ND V mem (-1) t).
(** Full claim: the n-th answer is that of a fresh program.  It holds for the first; later ones repeat a
    stored decision, which is that of the first request unless that request was for a type with a fixed
    answer (then fast). *)
Theorem C51_answers_partial : forall NC ND V mem t r,
  exists d, (d = FAST \/ d = SLOW) /\ answers NC ND V mem (-1) (t :: r) = fresh NC ND V mem t :: repeat d (List.length r) /\
    (expensive_more NC ND V t <> None -> d = fresh NC ND V mem t) /\
    (expensive_more NC ND V t = None -> d = FAST).
Proof.
  assert (G : forall NC ND V mem d r, d <> -1 -> answers NC ND V mem d r = repeat d (List.length r)).
  { intros NC ND V mem d r Hd. induction r as [|t r IH]; cbn [answers List.length repeat]; [reflexivity|].
    unfold have_memory_readers_writers. destruct (Z.eqb_spec d (-1)); [congruence|]. now rewrite IH. }
  intros NC ND V mem t r. unfold fresh. cbn [answers]. unfold have_memory_readers_writers. cbn [Z.eqb Pos.eqb].
  destruct (expensive_more NC ND V t) as [e|].
  - destruct (e <? mem); [exists FAST|exists SLOW]; (split; [tauto|]); (split; [cbn [fst]; rewrite G by discriminate; reflexivity|]); split; [reflexivity|discriminate|reflexivity|discriminate].
  - exists FAST. split; [tauto|]. destruct t; (split; [cbn [fst]; rewrite G by discriminate; reflexivity|]); split; [congruence|reflexivity|congruence|reflexivity|congruence|reflexivity|congruence|reflexivity|congruence|reflexivity|congruence|reflexivity|congruence|reflexivity|congruence|reflexivity|congruence|reflexivity].
Qed.
Print Assumptions C51_answers_partial.
(** The answer for a fresh program, in bytes: the field (complex numbers of 16 bytes, V sites, ND directions) and its neighbour table
    (4 byte integers, forward and backward) together with the whole data of the file must be less than the memory.  For the complete
    matrices the neighbour table is counted twice. *)
Definition table_bytes (ND V : Z) : Z := V * ND * 2 * 4.
Definition field_bytes (NC ND V : Z) : Z := V * ND * (NC * NC) * 16 + table_bytes ND V.
Theorem C51_fresh : forall NC ND V mem,
  (fresh NC ND V mem OUTPUT_SMALL = FAST <-> field_bytes NC ND V + V * ND * (NC * NC - 1) * 8 < mem) /\
  (fresh NC ND V mem OUTPUT_GAUGE = FAST <-> field_bytes NC ND V + V * ND * (NC * (NC - 1)) * 16 < mem) /\
  (forall t, In t [OUTPUT_NCxNC; OUTPUT_MILC; OUTPUT_SCIDAC; OUTPUT_ILDG] ->
     (fresh NC ND V mem t = FAST <-> field_bytes NC ND V + (V * ND * (NC * NC) * 16 + table_bytes ND V) < mem)) /\
  fresh NC ND V mem OUTPUT_HIREP = FAST /\ fresh NC ND V mem OUTPUT_CERN = SLOW.
Proof.
  intros NC ND V mem.
  assert (G : forall t e e', expensive_more NC ND V t = Some e -> e = e' -> (fresh NC ND V mem t = FAST <-> e' < mem)).
  { intros t e e' E <-. unfold fresh, have_memory_readers_writers. cbn [Z.eqb Pos.eqb]. rewrite E.
    destruct (Z.ltb_spec e mem); cbn [fst]; split; intros; try reflexivity; try lia. discriminate. }
  unfold field_bytes, table_bytes.
  split; [eapply G; [reflexivity|unfold gauge_fields; ring]|]. split; [eapply G; [reflexivity|unfold gauge_fields; ring]|].
  split; [|now split]. intros t [<-|[<-|[<-|[<-|[]]]]]; (eapply G; [reflexivity|unfold gauge_fields; ring]).
Qed.
Print Assumptions C51_fresh.
(** The same request, the same machine, other earlier requests. *)
Theorem C51_history_refuted : exists mem, 
  answers 3 4 65536 mem (-1) [OUTPUT_CERN; OUTPUT_CERN] = [SLOW; FAST] /\
  fresh 3 4 65536 mem OUTPUT_NCxNC = SLOW /\ answers 3 4 65536 mem (-1) [OUTPUT_CERN; OUTPUT_NCxNC] = [SLOW; FAST] /\
  answers 3 4 65536 mem (-1) [OUTPUT_SMALL; OUTPUT_NCxNC] = [FAST; FAST] /\
  fresh 3 4 65536 mem OUTPUT_HIREP = FAST /\ answers 3 4 65536 mem (-1) [OUTPUT_NCxNC; OUTPUT_HIREP] = [SLOW; SLOW].
Proof. exists 70000000. vm_compute. repeat split. Qed.
Print Assumptions C51_history_refuted.
