(** Correlators and moments of the topological charge density: Field/Qslab.c, Field/Qmoments.c,
    Field/Qcorr.c.  The charge density array itself (compute_Gmunu_array) is in CloverModel.v.

    Work-shared loops run their iterations in any order: [sched key n] is the order used for the
    loop named by key.  None = undefined behaviour.  Output to files and to the screen is left out;
    allocations succeed. *)
From Verif Require Import CInt GeomModel Cplx CMat Arr FftModel.
From Verif Require CloverModel.
Local Open Scope Z_scope.

(** the build: with FFTW3 or without *)
Inductive fft_build := WithFFTW | NoFFTW.
Definition schedule := list Z -> nat -> list nat.

(** read of q[i], out of bounds = None *)
Definition rd (dims : list Z) (q : arr) (i : Z) : option C :=
  if (0 <=? i) && (i <? lvolume dims) then Some (q (Z.to_nat i)) else None.
(** a loop that sets a[i] = f(i) *)
Definition fill (order : list nat) (f : nat -> option C) (a : arr) : option arr :=
  fold_left (fun s i => do a <- s; do v <- f i; Some (upd a i v)) order (Some a).
(** a serial loop for( i = 0 ; i < n ; i++ ) sum += f(i) *)
Definition total (n : nat) (f : nat -> option R) : option R :=
  for_ n (fun i s => do s <- s; do v <- f i; Some (s + v)%R) (Some 0%R).

(** const double NORM, NORMSQ: Qslab.c:74-75, Qcorr.c:89-90, Qmoments.c:157, 177-178 *)
Definition NORM : R := CloverModel.NORM.
Definition NORMSQ : R := (NORM * NORM)%R.

(** * Qslab.c *)
(** get_mom_2piBZ_slab, Qslab.c:32-49: the text of geometry.c:104-120 with the extents as argument *)
Definition get_mom_2piBZ_slab (Dims : list Z) (i : Z) (DIMS : nat) : option (list Z) := mom_2piBZ_loop Dims 0 i 1 DIMS.
(** slab_idx, 53-63: int + size_t is a size_t *)
Definition slab_idx (dims slab_dims : list Z) (SLAB_DIR : nat) (T0 : Z) (i : Z) : option Z :=
  do x <- get_mom_2piBZ_slab slab_dims i (length dims);
  do xd <- nth_error x SLAB_DIR;
  do L <- nth_error dims SLAB_DIR;
  if L =? 0 then None else
  do x' <- set_nth x SLAB_DIR (i32 (u64 (u64 xd + T0) mod L));
  gen_site dims x'.
(** lines 109-117: the extents of the slab, and subvol *)
Fixpoint slab_dims (dims : list Z) (SLAB_DIR : nat) (T1 : Z) (mu : nat) : list Z :=
  match dims with [] => [] | L :: ds => (if Nat.eqb mu SLAB_DIR then T1 else L) :: slab_dims ds SLAB_DIR T1 (S mu) end.

(** sum_slab with FFTW, lines 137-153 *)
Definition slab_fftw (sched : schedule) (dims : list Z) (q : arr) (dir : nat) (T1 T0 : Z) (inp out : arr) : option (R * arr * arr) :=
  let sd := slab_dims dims dir T1 0 in
  let subvol := Z.to_nat (lvolume sd) in
  let plan := plan_dims sd (length dims) in
  do inp <- fill (sched [T1; T0; 0] subvol) (fun i => do src <- slab_idx dims sd dir T0 (Z.of_nat i); rd dims q src) inp;
  let out := fftw_execute FORWARD plan inp out in
  do out <- fill (sched [T1; T0; 1] subvol) (fun i => Some (out i * conj (out i))%C) out;
  let inp := fftw_execute BACKWARD plan out inp in
  do s <- total subvol (fun i => Some (re (inp i)));
  Some (s, inp, out).
(** sum_slab without FFTW, lines 156-165, on one thread (see [race] below) *)
Definition slab_direct (dims : list Z) (q : arr) (dir : nat) (T1 T0 : Z) : option R :=
  let sd := slab_dims dims dir T1 0 in
  let subvol := Z.to_nat (lvolume sd) in
  for_ subvol (fun i s =>
    do s <- s;
    do src <- slab_idx dims sd dir T0 (Z.of_nat i);
    do qs <- rd dims q src;
    let qsrc := re qs in                          (* const double qsrc = qtop[ src ] *)
    for_ subvol (fun j s =>
      do s <- s;
      do snk <- slab_idx dims sd dir T0 (Z.of_nat j);
      do qk <- rd dims q snk;
      Some (s + re (RtoC qsrc * qk)%C)%R) (Some s)) (Some 0%R).
(** the loop over T0, lines 131-168; the FFTW arrays are allocated for each T1 *)
Definition slab_tsum (b : fft_build) (sched : schedule) (dims : list Z) (q : arr) (dir : nat) (L T1 : Z) (inp out : arr) : option R :=
  match b with
  | WithFFTW =>
      do ' (s, _, _) <- for_ (Z.to_nat L) (fun T0 st =>
        do ' (tsum, inp, out) <- st;
        do ' (s, inp, out) <- slab_fftw sched dims q dir T1 (Z.of_nat T0) inp out;
        Some ((tsum + s)%R, inp, out)) (Some (0%R, inp, out));
      Some (s / IZR (lvolume (slab_dims dims dir T1 0)))%R        (* lines 171-172 *)
  | NoFFTW => total (Z.to_nat L) (fun T0 => slab_direct dims q dir T1 (Z.of_nat T0))
  end.
(** compute_slabs, 67-199: the values ct[T1-1], T1 = 1..L *)
Definition compute_slabs (b : fft_build) (sched : schedule) (dims : list Z) (q : arr) (dir : nat) (inp out : Z -> arr) : option (list R) :=
  do L <- nth_error dims dir;
  fold_right (fun k r =>
    let T1 := Z.of_nat k + 1 in
    do t <- slab_tsum b sched dims q dir L T1 (inp T1) (out T1);
    do r <- r; Some ((t * NORMSQ / IZR L)%R :: r)) (Some []) (seq 0 (Z.to_nat L)).
(** compute_Qsusc 201-222: all directions, and the printed charge and its square (lines 97-101) *)
Definition slab_charge (dims : list Z) (q : arr) : option (R * R) :=
  do sum <- total (Z.to_nat (lvolume dims)) (fun i => Some (re (q i)));
  Some ((sum * NORM)%R, (sum * sum * NORMSQ)%R).
Definition compute_Qsusc (b : fft_build) (sched : nat -> schedule) (dims : list Z) (q : arr) (inp out : Z -> arr) : option (list (list R)) :=
  fold_right (fun mu r => do c <- compute_slabs b (sched mu) dims q mu inp out; do r <- r; Some (c :: r))
    (Some []) (seq 0 (length dims)).

(** lines 156-165 with several threads: sum_slab is shared and is neither a reduction variable nor
    protected, "sum_slab += v" is a read followed by a write.  A thread has a list of values to add,
    or has read the sum and is about to write r. *)
Inductive adder := Adding (vs : list R) | Writing (r : R) (vs : list R).
Inductive race_step : R * list adder -> R * list adder -> Prop :=
| r_read : forall m a b v vs, race_step (m, a ++ Adding (v :: vs) :: b) (m, a ++ Writing (m + v)%R vs :: b)
| r_write : forall m a b r vs, race_step (m, a ++ Writing r vs :: b) (r, a ++ Adding vs :: b).
Inductive race_steps : R * list adder -> R * list adder -> Prop :=
| rs_refl : forall s, race_steps s s
| rs_step : forall s s' s'', race_step s s' -> race_steps s' s'' -> race_steps s s''.
(** m is a value sum_slab may have after the loop when thread number j adds the values parts[j] *)
Definition race (parts : list (list R)) (m : R) : Prop :=
  exists ts, race_steps (0%R, map Adding parts) (m, ts) /\ Forall (fun t => t = Adding []) ts.
(** the values added by the iterations [is] of the outer loop *)
Definition slab_addends (dims : list Z) (q : arr) (dir : nat) (T1 T0 : Z) (is : list nat) : option (list R) :=
  let sd := slab_dims dims dir T1 0 in
  let subvol := Z.to_nat (lvolume sd) in
  let val := fun i => do src <- slab_idx dims sd dir T0 (Z.of_nat i); rd dims q src in
  fold_right (fun i r =>
    fold_right (fun j r => do qs <- val i; do qk <- val j; do r <- r; Some (re (RtoC (re qs) * qk)%C :: r)) r (seq 0 subvol))
    (Some []) is.

(** * Qmoments.c *)
Definition NQMOMENTS : nat := 12.
(** loc_idx, Qmoments.c:53-70; get_mom_2piBZ_loc (33-50) is the same text again *)
Definition loc_idx (dims loc_dims : list Z) (DIR : nat) (slice i : Z) : option Z :=
  do x <- mom_2piBZ_loop loc_dims 0 i 1 (length dims);
  do x' <- set_nth x DIR slice;
  gen_site dims x'.
(** the table fac, line 83-85 *)
Definition fac : list Z := [1; 1; 2; 6; 24; 120; 720; 5040; 40320; 362880; 362800; 39916800].
(** lines 99-112: Qt[t], any order of the slices *)
Definition slice_sums (sched : schedule) (dims : list Z) (q : arr) (norm : R) (dir : nat) (Qt : arr) : option arr :=
  let ld := slab_dims dims dir 1 0 in
  do L <- nth_error dims dir;
  fill (sched [] (Z.to_nat L)) (fun t =>
    do s <- for_ (Z.to_nat (lvolume ld)) (fun i s =>
      do s <- s; do k <- loc_idx dims ld dir (Z.of_nat t) (Z.of_nat i); do v <- rd dims q k; Some (s + v)%C) (Some C0);
    Some (s * RtoC norm)%C) Qt.
Definition int_ok (z : Z) : bool := (- two31 <=? z) && (z <? two31).
(** the body of the loop over t, lines 123-127; tpow is an array of int: overflow is undefined *)
Definition moment_step (LT : Z) (Qt : arr) (s : option (R * (Z -> Z))) (t : Z) : option (R * (Z -> Z)) :=
  do ' (sum, tpow) <- s;
  let posit := Z.rem (t + LT) LT in
  if int_ok (tpow posit * t)
  then Some ((sum + IZR (tpow posit) * re (Qt (Z.to_nat posit)))%R, fun k => if k =? posit then tpow posit * t else tpow k)
  else None.
(** t = -LT/2+1 .. LT/2-1, line 123 *)
Definition moment_times (LT : Z) : list Z := map (fun k => Z.quot (- LT) 2 + 1 + Z.of_nat k) (seq 0 (Z.to_nat (Z.quot LT 2 - (Z.quot (- LT) 2 + 1)))).
(** lines 121-137: the moments from n on, with the current powers *)
Fixpoint moment_loop (LT : Z) (Qt : arr) (fs : list Z) (n : Z) (tpow : Z -> Z) : option (list R) :=
  match fs with
  | [] => Some []
  | f :: fs' =>
      do ' (sum, tpow) <- fold_left (moment_step LT Qt) (moment_times LT) (Some (0%R, tpow));
      let sum := (sum / IZR f)%R in
      do r <- moment_loop LT Qt fs' (n + 1) tpow;
      Some ((if Z.land n 3 <? 2 then sum else - sum)%R :: r)
  end.
(** Time_Moments, 73-151: Moment[ n + NQMOMENTS*DIR ], n = 0..11 *)
Definition Time_Moments (sched : schedule) (dims : list Z) (q : arr) (norm : R) (dir : nat) (Qt : arr) : option (list R) :=
  do L <- nth_error dims dir;
  do Qt <- slice_sums sched dims q norm dir Qt;
  moment_loop L Qt fac 0 (fun _ => 1).
(** sum_source q(source) q(source+separation), Qmoments.c:206-216 without FFTW *)
Definition autocorr (dims : list Z) (q : arr) (i : Z) : option C :=
  do separation <- get_mom_2piBZ dims i (length dims);
  for_ (Z.to_nat (lvolume dims)) (fun source s =>
    do s <- s;
    do sink <- compute_spacing dims separation (Z.of_nat source) (length dims);
    do v <- rd dims q sink;
    Some (s + q source * v)%C) (Some C0).
(** compute_Q2_moments, 172-228, in direction mu: the array that is handed on, and its normalisation *)
Definition Q2_array (b : fft_build) (sched : schedule) (dims : list Z) (inp out : arr) : option (arr * R) :=
  let V := Z.to_nat (lvolume dims) in
  match b with
  | WithFFTW =>
      let plan := plan_dims dims (length dims) in
      let out := fftw_execute FORWARD plan inp out in
      do out <- fill (sched [0] V) (fun i => Some (out i * conj (out i))%C) out;
      Some (fftw_execute BACKWARD plan out inp, (NORMSQ / IZR (lvolume dims))%R)
  | NoFFTW =>
      do out <- fill (sched [0] V) (fun i => autocorr dims inp (Z.of_nat i)) out;
      Some (out, NORMSQ)
  end.
(** compute_Qmoments 231-284: the moments of Q and of Q^2 in every direction *)
Definition compute_Qmoments (b : fft_build) (sched : schedule) (tsched : nat -> schedule) (dims : list Z) (q out : arr) (Qt : nat -> arr)
  : option (list (list R) * list (list R)) :=
  let all := fun a norm => fold_right (fun mu r => do c <- Time_Moments (tsched mu) dims a norm mu (Qt mu); do r <- r; Some (c :: r))
               (Some []) (seq 0 (length dims)) in
  do m1 <- all q NORM;
  do ' (a, norm) <- Q2_array b sched dims q out;
  do m2 <- all a norm;
  Some (m1, m2).

(** * Qcorr.c *)
(** temporal_correlator, Qcorr.c:36-80: ct[t] *)
Definition temporal_correlator (dims : list Z) (q : arr) : option (list R) :=
  let LCU := Z.to_nat (lcu dims) in
  fold_right (fun t r =>
    do s <- total LCU (fun i => Some (re (q (LCU * t + i)%nat)));
    do r <- r; Some (s :: r)) (Some []) (seq 0 (Z.to_nat (last dims 0))).
(** compute_Qcorr, 86-229: the correlator at the sites of the list, and the temporal correlator *)
Definition compute_Qcorr (b : fft_build) (sched : schedule) (dims : list Z) (q out : arr) (list_idx : list Z) : option (list R * list R) :=
  let V := Z.to_nat (lvolume dims) in
  match b with
  | WithFFTW =>
      let plan := plan_dims dims (length dims) in
      let mulfac := (NORMSQ / IZR (lvolume dims))%R in
      let out := fftw_execute FORWARD plan q out in
      do out <- fill (sched [0] V) (fun i => Some (out i * (conj (out i) * RtoC mulfac))%C) out;
      let inp := fftw_execute BACKWARD plan out q in
      do qcorr <- fold_right (fun i r => do v <- rd dims inp i; do r <- r; Some (re v :: r)) (Some []) list_idx;
      do ct <- temporal_correlator dims inp;
      Some (qcorr, ct)
  | NoFFTW =>
      do qcorr <- fold_right (fun i r =>
        do separation <- get_mom_2piBZ dims i (length dims);
        do s <- total V (fun source =>
          do sink <- compute_spacing dims separation (Z.of_nat source) (length dims);
          do v <- rd dims q sink;
          Some (re (q source * v)%C));
        do r <- r; Some ((s * NORMSQ)%R :: r)) (Some []) list_idx;
      do ct <- temporal_correlator dims q;
      Some (qcorr, ct)
  end.
(** the values printed at line 137 *)
Definition Qcorr_print (dims : list Z) (q : arr) : option (R * R * R) :=
  let V := Z.to_nat (lvolume dims) in
  do sum <- total V (fun i => Some (re (q i)));
  do sumsq <- total V (fun i => Some (re (q i * q i)%C));
  Some ((sum * NORM)%R, (sum * sum * NORMSQ)%R, (sumsq * NORMSQ)%R).
