(** Landau gauge fixing by (Fourier accelerated) steepest descent and conjugate gradients:
    Gfix/lin_derivs.c, Gfix/FACG.c, Gfix/CG.c (set_gauge_matrix), line_search_Landau and egauge_Landau of
    Gfix/line_search.c, theta_test_lin of Gfix/gftests.c, Gfix/Landau.c, gen_p_sq of Geometry/geometry.c.

    Real numbers for floating point numbers.  The default build in what is not an argument: the linear
    definition of the fields (deriv_lin), exp_approx (the linear step and Gram-Schmidt), no MLG fields, no
    LUXURY_GAUGE, NC <= 18.  Allocations succeed, printing is left out.  Work-shared loops run in any order
    [sched key n].  red[k + CLINE * thread]: the sum over the threads, which is all that is used, so [red k];
    the compensation of its sums is 0.  The threads run the same statements between barriers, so one thread
    is modelled (iters: see FASD).  None = undefined behaviour, or, with [fuel], not finished. *)
From Verif Require Import CInt GeomModel Cplx CMat Arr MatModel ProjModel GramModel FieldModel FftModel QtopModel SmearModel GluonModel NumModel.
Local Open Scope Z_scope.

(** GLU_definitions.h:229-233 *)
Definition TRUE_HERM (NC : nat) : nat := match NC with 3%nat => (HERMSIZE 3 - 1)%nat | _ => HERMSIZE NC end.

(** * The derivative *)
Section Derivative.
Local Open Scope R_scope.
(** lin_derivs.c:30-53 trace_deriv *)
Definition trace_deriv (NC : nat) (sum : arr) : R :=
  match NC with
  | 3%nat => 4 * (re (sum 0%nat) * re (sum 0%nat) + re (sum 3%nat) * re (sum 3%nat) + re (sum 0%nat) * re (sum 3%nat)
      + re (sum 1%nat) * re (sum 1%nat) + im (sum 1%nat) * im (sum 1%nat)
      + re (sum 2%nat) * re (sum 2%nat) + im (sum 2%nat) * im (sum 2%nat)
      + re (sum 4%nat) * re (sum 4%nat) + im (sum 4%nat) * im (sum 4%nat))
  | 2%nat => 4 * (re (sum 0%nat) * re (sum 0%nat) + re (sum 1%nat) * re (sum 1%nat) + im (sum 1%nat) * im (sum 1%nat))
  | _ => 2 * trace_ab_herm_short NC sum sum
  end.
(** 56-72 latt_deriv_AntiHermitian_proj; tmp: A and shiftA before *)
Definition latt_deriv (NC MAX_DIR : nat) (tmp : arr) (lat : lattice) (i : nat) (sum : arr) : arr * R :=
  let sum := for_ MAX_DIR (fun mu sum =>
    let A := Hermitian_proj_short NC tmp (O (lat i) mu) in
    let shiftA := Hermitian_proj_short NC tmp (O (lat (bck (lat i) mu)) mu) in
    a_plus_Sxbminc_short NC sum 1 shiftA A) sum in
  (sum, trace_deriv NC sum).
(** 75-192 fast_deriv_AntiHermitian_proj, NC = 3: the sums REsum0, REsum1, IMsum1, ... *)
Definition fast_step_3 (q s : arr) (st : R * R * R * R * R * R * R * R) : R * R * R * R * R * R * R * R :=
  let '(R0, R1, I1, R2, I2, R3, R4, I4) := st in
  let R0 := R0 + (2 * im (s 0%nat) - im (s 4%nat) - im (s 8%nat)) in
  let R0 := R0 + (-2 * im (q 0%nat) + im (q 4%nat) + im (q 8%nat)) in
  let R1 := R1 + (re (s 1%nat) - re (s 3%nat) - re (q 1%nat) + re (q 3%nat)) in
  let I1 := I1 + (im (s 1%nat) + im (s 3%nat) - im (q 1%nat) - im (q 3%nat)) in
  let R2 := R2 + (re (s 2%nat) - re (s 6%nat) - re (q 2%nat) + re (q 6%nat)) in
  let I2 := I2 + (im (s 2%nat) + im (s 6%nat) - im (q 2%nat) - im (q 6%nat)) in
  let R3 := R3 + (2 * im (s 4%nat) - im (s 0%nat) - im (s 8%nat)) in
  let R3 := R3 + (-2 * im (q 4%nat) + im (q 0%nat) + im (q 8%nat)) in
  let R4 := R4 + (re (s 5%nat) - re (s 7%nat) - re (q 5%nat) + re (q 7%nat)) in
  let I4 := I4 + (im (s 5%nat) + im (s 7%nat) - im (q 5%nat) - im (q 7%nat)) in
  (R0, R1, I1, R2, I2, R3, R4, I4).
(** 75: the literal 0.4444444444444444, as the 4/9 meant *)
Definition VAL : R := 4 / 9.
Definition fast_deriv_3 (ND : nat) (lat : lattice) (i : nat) (sum : arr) : arr * R :=
  let '(R0, R1, I1, R2, I2, R3, R4, I4) := for_ ND (fun mu => fast_step_3 (O (lat i) mu) (O (lat (bck (lat i) mu)) mu)) (0, 0, 0, 0, 0, 0, 0, 0) in
  let half := 1/2 in
  let sum := upd sum 0 (RtoC (R0 / 3)) in
  let sum := upd sum 1 (half * I1, - R1 * half) in
  let sum := upd sum 2 (half * I2, - R2 * half) in
  let sum := upd sum 3 (RtoC (R3 / 3)) in
  let sum := upd sum 4 (half * I4, - R4 * half) in
  (sum, VAL * (R0 * R0 + R3 * (R3 + R0)) + (R1 * R1 + I1 * I1 + R2 * R2 + I2 * I2 + R4 * R4 + I4 * I4)).
(** NC = 2 *)
Definition fast_deriv_2 (ND : nat) (lat : lattice) (i : nat) (sum : arr) : arr * R :=
  let '(R0, R1, I1) := for_ ND (fun mu '(R0, R1, I1) =>
    let q := O (lat i) mu in
    let s := O (lat (bck (lat i) mu)) mu in
    (R0 + (im (s 0%nat) - im (q 0%nat)), R1 + (re (s 1%nat) - re (q 1%nat)), I1 + (im (s 1%nat) - im (q 1%nat)))) (0, 0, 0) in
  (upd (upd sum 0 (RtoC R0)) 1 (I1, - R1), R0 * R0 + R1 * R1 + I1 * I1).
Definition fast_deriv (NC ND : nat) (tmp : arr) (lat : lattice) (i : nat) (sum : arr) : arr * R :=
  match NC with
  | 3%nat => fast_deriv_3 ND lat i sum
  | 2%nat => fast_deriv_2 ND lat i sum
  | _ => latt_deriv NC ND tmp lat i (for_ (HERMSIZE NC) (fun nu sum => upd sum nu C0) sum)
  end.
(** gftests.c:207-245 theta_test_lin, the value returned (the maximum is not used).  temp is set to 0 *)
Definition theta_test_lin (sched : schedule) (NC V MAX_DIR : nat) (tmp : arr) (lat : lattice) : R :=
  2 * fold_left (fun tr i => tr + snd (latt_deriv NC MAX_DIR tmp lat i (fun _ => C0))) (sched [0%Z] V) 0 / INR (NC * V).
End Derivative.

(** * FACG.c *)
Section Steps.
Local Open Scope R_scope.
(** 37-75 FA_deriv: component c of in at one site, and the sum into red[LINE_NSTEPS+2] *)
Definition i_times (z : C) : C := (Ci * creal z - cimag z)%C.
Definition in_of (NC c : nat) (sum : arr) : C :=
  match NC with
  | 3%nat => match c with
    | 0%nat => (Ci * creal (sum 0%nat) - creal (sum 3%nat))%C
    | 1%nat => i_times (sum 1%nat) | 2%nat => i_times (sum 2%nat) | _ => i_times (sum 4%nat) end
  | 2%nat => match c with 0%nat => (Ci * creal (sum 0%nat))%C | _ => i_times (sum 1%nat) end
  | _ => i_times (sum c)
  end.
Definition fields := nat -> arr.
Definition reds := nat -> R.
Definition add_red (red : reds) (k : nat) (v : R) : reds := fun j => if Nat.eqb j k then red j + v else red j.
Definition FA_deriv (sched : schedule) (NC ND V : nat) (tmp : arr) (lat : lattice) (red : reds) (inp : fields) : reds * fields :=
  fold_left (fun '(red, inp) i =>
    let '(sum, v) := fast_deriv NC ND tmp lat i (fun _ => C0) in
    (add_red red 5 v, fun c k => if (Nat.eqb k i && Nat.ltb c (TRUE_HERM NC))%bool then in_of NC c sum else inp c k)) (sched [1%Z] V) (red, inp).
(** 78-97 FOURIER_ACCELERATE3, in and out *)
Definition FOURIER_ACCELERATE3 (b : fft_build) (sched : schedule) (dims : list Z) (NC : nat) (psq : nat -> R) (s : fields * fields) : fields * fields :=
  match b with
  | NoFFTW => s
  | WithFFTW => fold_left (fun '(inp, out) mu =>
      let o := fftw_execute FORWARD (plan_dims dims (length dims)) (inp mu) (out mu) in
      let o := for_ (Z.to_nat (lvolume dims)) (fun i o => upd o i (o i * RtoC (psq i))%C) o in
      let v := fftw_execute BACKWARD (plan_dims dims (length dims)) o (inp mu) in
      (fun c => if Nat.eqb c mu then v else inp c, fun c => if Nat.eqb c mu then o else out c)) (sched [2%Z] (TRUE_HERM NC)) s
  end.
(** geometry.c:165-184 gen_p_sq with DIMS = ND; Landau.c:282 *)
Definition gen_p_sq (dims : list Z) (i : Z) : option R :=
  let ND := length dims in
  do n <- get_mom_2piBZ dims i ND;
  let kcos := for_ ND (fun mu kcos => kcos + cos (IZR (nth mu n 0%Z) * twiddle dims mu)) 0 in
  Some (if Req_EM_T kcos (INR ND) then 1 else 2 * (INR ND - kcos)).
Definition psq_landau (dims : list Z) (i : nat) : option R :=
  do p2 <- gen_p_sq dims (Z.of_nat i);
  Some (4 * INR (length dims) / IZR (lvolume dims) / p2).

(** CG.c:47-100 set_gauge_matrix; gx before: tmp *)
Definition set_gauge_matrix (NC : nat) (tmp : arr) (inp : fields) (alpha : R) (i : nat) : arr :=
  let al := RtoC alpha in
  let gx := match NC with
    | 3%nat =>
        let gx := upd tmp 0 (C1 + Ci * al * cimag (inp 0%nat i))%C in
        let gx := upd gx 1 (al * inp 1%nat i)%C in
        let gx := upd gx 3 (- conj (gx 1%nat))%C in
        let gx := upd gx 4 (C1 - Ci * al * creal (inp 0%nat i))%C in
        let gx := upd gx 6 (- al * conj (inp 2%nat i))%C in
        upd gx 7 (- al * conj (inp 3%nat i))%C
    | 2%nat =>
        let gx := upd tmp 0 (C1 + Ci * al * cimag (inp 0%nat i))%C in
        let gx := upd gx 1 (al * inp 1%nat i)%C in
        upd gx 2 (- conj (gx 1%nat))%C
    | _ => add_constant NC (rebuild_antihermitian NC tmp (fun mu => (al * inp mu i)%C)) C1
    end in
  gram_reunit NC gx.
(** line_search.c:60-97 egauge_Landau *)
Definition egauge_Landau (sched : schedule) (NC ND V : nat) (tmp : arr) (inp : fields) (alpha : R) (lat : lattice) : lattice :=
  fold_left (fun lat i => for_ ND (fun mu lat =>
    put lat i mu (gtransform_local NC tmp (set_gauge_matrix NC tmp inp alpha i) (O (lat i) mu) (set_gauge_matrix NC tmp inp alpha (nbr (lat i) mu)))) lat)
    (sched [3%Z] V) lat.
(** 273-339 line_search_Landau *)
Definition PL1 : R := 15 / 100.
Definition PL2 : R := 30 / 100.
Definition line_sums (NC ND : nat) (tmp : arr) (inp : fields) (lat : lattice) (i : nat) : R * R * R :=
  let g := set_gauge_matrix NC tmp inp in
  for_ ND (fun mu '(v0, v1, v2) =>
    (v0 + re (trace NC (O (lat i) mu)),
     v1 + Re_trace_abc_dag_suNC NC (g PL1 i) (O (lat i) mu) (g PL1 (nbr (lat i) mu)),
     v2 + Re_trace_abc_dag_suNC NC (g PL2 i) (O (lat i) mu) (g PL2 (nbr (lat i) mu)))) (0, 0, 0).
Definition line_search_Landau (sched : schedule) (NC ND V : nat) (tmp : arr) (inp : fields) (red : reds) (lat : lattice) : reds * lattice :=
  let red := fold_left (fun red i => let '(v0, v1, v2) := line_sums NC ND tmp inp lat i in add_red (add_red (add_red red 0 v0) 1 v1) 2 v2) (sched [4%Z] V) red in
  let min := approx_minimum 0 PL1 PL2 (- red 0%nat) (- red 1%nat) (- red 2%nat) in
  (red, egauge_Landau sched NC ND V tmp inp min lat).

(** FACG.c:100-150 sum_PR3: the two sums of one site *)
Definition PR3_site (NC : nat) (inp old : fields) (i : nat) : R * R :=
  let a := fun c => inp c i in
  let d := fun c => (inp c i - old c i)%C in
  let sq := fun c => 2 * (re (a c) * re (a c) + im (a c) * im (a c)) in
  let pr := fun c => 2 * (re (a c) * re (d c) + im (a c) * im (d c)) in
  match NC with
  | 3%nat => (2 * (re (a 0%nat) * re (a 0%nat) + im (a 0%nat) * im (a 0%nat) + re (a 0%nat) * im (a 0%nat)) + sq 1%nat + sq 2%nat + sq 3%nat,
              pr 0%nat + (re (a 0%nat) * im (d 0%nat) + im (a 0%nat) * re (d 0%nat)) + pr 1%nat + pr 2%nat + pr 3%nat)
  | 2%nat => (2 * (im (a 0%nat) * im (a 0%nat)) + sq 1%nat, 2 * (im (a 0%nat) * im (d 0%nat)) + pr 1%nat)
  | _ => (trace_ab_herm_short NC a a, trace_ab_herm_short NC a d)
  end.
Definition sum_PR3 (sched : schedule) (NC V : nat) (inp old : fields) (red : reds) : reds :=
  fold_left (fun red i => let '(s1, s2) := PR3_site NC inp old i in add_red (add_red red 3 s1) 4 s2) (sched [5%Z] V) red.
(** 153-184 sum_DER3 *)
Definition DER3_site (NC : nat) (inp : fields) (i : nat) : R :=
  let a := fun c => inp c i in
  let sq := fun c => re (a c) * re (a c) + im (a c) * im (a c) in
  2 * match NC with
  | 3%nat => re (a 0%nat) * re (a 0%nat) + im (a 0%nat) * im (a 0%nat) + re (a 0%nat) * im (a 0%nat) + sq 1%nat + sq 2%nat + sq 3%nat
  | 2%nat => sq 0%nat + sq 1%nat
  | _ => 1/2 * trace_ab_herm_short NC a a
  end.
Definition sum_DER3 (sched : schedule) (NC V : nat) (inp : fields) (red : reds) : reds :=
  fold_left (fun red i => add_red red 3 (DER3_site NC inp i)) (sched [6%Z] V) red.
End Steps.

(** * The iterations *)
(** the fixed data of a run: Latt.gf_alpha, psq, uninitialised memory *)
Record run := mkRun { bld : fft_build; sch : schedule; dims_ : list Z; nc : nat; gf_alpha : R; psq_ : nat -> R; tmp_ : arr }.
Section Run.
Variable r : run.
Let NC := nc r.
Let ND := length (dims_ r).
Let V := Z.to_nat (lvolume (dims_ r)).
Local Open Scope R_scope.
(** GLU_definitions.h:427, 452-454 *)
Definition GFNORM_LANDAU : R := 1 / INR (NC * V).
Definition CG_TOL : R := 5 / 10 ^ 11.
Definition deriv_and_accelerate (red : reds) (lat : lattice) (s : fields * fields) : reds * (fields * fields) :=
  let '(red, inp) := FA_deriv (sch r) NC ND V (tmp_ r) lat red (fst s) in
  (red, FOURIER_ACCELERATE3 (bld r) (sch r) (dims_ r) NC (psq_ r) (inp, snd s)).

(** 186-203 steep_Landau_FA and 205-241 steep_Landau_FASD with GLU_GFIX_SD *)
Fixpoint steep_Landau_FASD (fuel : nat) (acc : R) (max_iters loc_iters : Z) (lat : lattice) (s : fields * fields) : option (Z * R * lattice * (fields * fields)) :=
  match fuel with
  | 0%nat => None
  | S fuel =>
      let '(red, s) := deriv_and_accelerate (fun _ => 0) lat s in
      let lat := egauge_Landau (sch r) NC ND V (tmp_ r) (fst s) (gf_alpha r) lat in
      let tr := red 5%nat * GFNORM_LANDAU in
      let loc_iters := u64 (loc_iters + 1) in
      if Rlt_dec acc tr then (if (loc_iters <? max_iters)%Z then steep_Landau_FASD fuel acc max_iters loc_iters lat s else Some (loc_iters, tr, lat, s))
      else Some (loc_iters, tr, lat, s)
  end.
(** 395-446 FASD by one thread; the int returned by the above to a size_t *)
Definition GIVEN_UP : Z := 123456789.
Fixpoint FASD_top (fuel : nat) (acc : R) (max_iters iters : Z) (lat : lattice) (s : fields * fields) : option (Z * R * lattice * (fields * fields)) :=
  match fuel with
  | 0%nat => None
  | S fuel' =>
      do ' (l, th, lat, s) <- steep_Landau_FASD fuel acc max_iters 0 lat s;
      let loc_iters := u64 (i32 l) in
      if (max_iters <=? loc_iters)%Z then
        if Rlt_dec th (1000 * acc) then FASD_top fuel' acc max_iters (u64 (iters + 0)) lat s
        else Some (u64 (GIVEN_UP + loc_iters), th, lat, s)
      else Some (u64 (iters + loc_iters), th, lat, s)
  end.
Definition FASD (fuel : nat) (acc : R) (max_iters : Z) (lat : lattice) (s : fields * fields) : option (Z * R * lattice * (fields * fields)) :=
  let th := theta_test_lin (sch r) NC V ND (tmp_ r) lat in
  if Rlt_dec th acc then Some (0%Z, th, lat, s) else FASD_top fuel acc max_iters 0 lat s.

(** 243-346 steep_Landau_FACG.  The loop from the label top on; reds (not set to 0 before the first
    step), in_old, sn, inold *)
Definition cg_state : Type := reds * lattice * (fields * fields) * fields * fields * R.
Definition beta_of (tr sum_conj insum inold : R) : R :=
  if Rlt_dec tr CG_TOL then insum / inold else (if Rlt_dec (sum_conj / inold) 0 then 0 else sum_conj / inold).
Definition cg_step (st : cg_state) : R * cg_state :=
  let '(_, lat, s, sn, in_old, inold) := st in
  let '(red, s) := deriv_and_accelerate (fun _ => 0) lat s in
  let tr := red 5%nat * GFNORM_LANDAU in
  let red := sum_PR3 (sch r) NC V (fst s) in_old red in
  let insum := red 3%nat in
  let sum_conj := red 4%nat in
  let beta := beta_of tr sum_conj insum inold in
  let inold := insum in
  let own := fun f g : fields => fun c j => if (Nat.ltb c (TRUE_HERM NC) && Nat.ltb j V)%bool then f c j else g c j in
  let sn := own (fun c j => (fst s c j + RtoC beta * sn c j)%C) sn in
  let in_old := own (fst s) in_old in
  let '(red, lat) := if Rlt_dec CG_TOL tr then line_search_Landau (sch r) NC ND V (tmp_ r) sn red lat
                     else (red, egauge_Landau (sch r) NC ND V (tmp_ r) sn (gf_alpha r) lat) in
  (tr, (red, lat, s, sn, in_old, inold)).
Fixpoint cg_loop (fuel : nat) (acc : R) (max_iters loc_iters : Z) (st : cg_state) : option (Z * R * cg_state) :=
  match fuel with
  | 0%nat => None
  | S fuel =>
      let '(tr, st) := cg_step st in
      let loc_iters := u64 (loc_iters + 1) in
      if Rlt_dec acc tr then (if (loc_iters <? max_iters)%Z then cg_loop fuel acc max_iters loc_iters st else Some (loc_iters, tr, st))
      else Some (loc_iters, tr, st)
  end.
Definition steep_Landau_FACG (fuel : nat) (acc : R) (max_iters : Z) (st : cg_state) : option (Z * R * cg_state) :=
  let '(red, lat, s, sn, in_old, _) := st in
  let '(red, s) := deriv_and_accelerate red lat s in
  let '(red, lat) := line_search_Landau (sch r) NC ND V (tmp_ r) (fst s) red lat in
  let own := fun f g : fields => fun c j => if (Nat.ltb c (TRUE_HERM NC) && Nat.ltb j V)%bool then f c j else g c j in
  let red := sum_DER3 (sch r) NC V (fst s) red in
  cg_loop fuel acc max_iters 0 (red, lat, s, own (fst s) sn, own (fst s) in_old, red 3%nat).
(** 348-393 FACG: red from calloc *)
Fixpoint FACG_top (fuel : nat) (acc : R) (max_iters : Z) (st : cg_state) : option (Z * R * cg_state) :=
  match fuel with
  | 0%nat => None
  | S fuel' =>
      do ' (l, th, st) <- steep_Landau_FACG fuel acc max_iters st;
      let loc_iters := u64 (i32 l) in
      if (max_iters <=? loc_iters)%Z then
        if Rlt_dec th (1000 * acc) then FACG_top fuel' acc max_iters st else Some (GIVEN_UP, th, st)
      else Some (loc_iters, th, st)
  end.
Definition FACG (sn in_old : fields) (fuel : nat) (acc : R) (max_iters : Z) (lat : lattice) (s : fields * fields) : option (Z * R * lattice * (fields * fields)) :=
  let th := theta_test_lin (sch r) NC V ND (tmp_ r) lat in
  if Rlt_dec th acc then Some (0%Z, th, lat, s)
  else
    do ' (iters, th, (_, lat, s, _, _, _)) <- FACG_top fuel acc max_iters (fun _ => 0, lat, s, sn, in_old, 0);
    Some (iters, th, lat, s).
End Run.

(** * Landau.c *)
(** 256-374 Landau; callback: FA_callback with the accuracy and the limit; grab k: the lattice after the
    k-th reading of the file and random transformation, None: it could not be read.  The value returned,
    the accuracy and the lattice (before the reunitarisation of output_fixing_info, 371) *)
Definition GF_GLU_FAILURES : nat := 7.
Section Driver.
Variable callback : lattice -> fields * fields -> option (Z * R * lattice * (fields * fields)).
Variable grab : nat -> option lattice.
Fixpoint restarts (max_iter : Z) (todo failure : nat) (iters : Z) (th : R) (lat : lattice) (s : fields * fields) : option (Z * R * lattice) :=
  match todo with
  | 0%nat => Some (u64 (-1), th, lat)
  | S todo =>
      match grab failure with
      | None => Some (iters, th, lat)
      | Some lat =>
          do ' (iters_loc, th, lat, s) <- callback lat s;
          if iters_loc =? GIVEN_UP then restarts max_iter todo (failure + 1) (u64 (iters + max_iter)) th lat s
          else Some (u64 (iters + iters_loc), th, lat)
      end
  end.
Definition Landau (max_iter : Z) (lat : lattice) (s : fields * fields) : option (Z * R * lattice) :=
  do ' (iters, th, lat, s) <- callback lat s;
  if iters =? GIVEN_UP then restarts max_iter (GF_GLU_FAILURES - 1) 1 iters th lat s else Some (iters, th, lat).
(** Wrappers/GF_wrap.c:64-82 GF_wrap_landau: the size_t to an int *)
Definition GF_wrap_landau (max_iter : Z) (lat : lattice) (s : fields * fields) : option (Z * R * lattice) :=
  do ' (iters, th, lat) <- Landau max_iter lat s; Some (i32 iters, th, lat).
End Driver.
