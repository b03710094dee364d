(** Correlators of Polyakov lines (the static quark potential): Field/POLY.c:114-419, without the
    smearing before it, the list of separations (C39) and the output.

    Work-shared loops run in any order, [sched key n].  None = undefined behaviour.  The contents of
    freshly allocated memory are arguments. *)
From Verif Require Import CInt GeomModel Cplx CMat Arr MatModel MmulModel Su2Model FftModel QtopModel.
From Verif Require FieldModel.
Local Open Scope Z_scope.

Definition fset (f : nat -> arr) (i : nat) (a : arr) : nat -> arr := fun k => if Nat.eqb k i then a else f k.
Definition spatial (dims : list Z) : list Z := firstn (length dims - 1) dims.
Definition LCU (dims : list Z) : nat := Z.to_nat (lcu dims).
Definition Lt (dims : list Z) : nat := Z.to_nat (last dims 0).

(** compute_trtr, POLY.c:118-146.  state: trtr, FFTW.in, FFTW.out *)
Definition compute_trtr (sched : schedule) (dims : list Z) (NC : nat) (poly : nat -> arr) (idx : list Z) (t : nat)
    (trtr inp out : arr) : option (arr * arr * arr) :=
  let plan := plan_dims dims (length dims - 1) in
  let key := fun k => [Z.of_nat t; k] in
  do inp <- fill (sched (key 0) (LCU dims)) (fun i => Some (trace NC (poly (i + LCU dims * t)%nat))) inp;
  let out := fftw_execute FORWARD plan inp out in
  do out <- fill (sched (key 1) (LCU dims)) (fun i => Some (out i * conj (out i))%C) out;
  let inp := fftw_execute BACKWARD plan out inp in
  do trtr <- fill (sched (key 2) (length idx)) (fun i => do k <- nth_error idx i; do v <- rd (spatial dims) inp k; Some (trtr i + v)%C) trtr;
  Some (trtr, inp, out).
(** compute_tr, 150-193: the transform of one matrix element after the other *)
Definition tr_element (sched : schedule) (dims : list Z) (t j : nat) (st : option (arr * arr * (nat -> arr))) : option (arr * arr * (nat -> arr)) :=
  let plan := plan_dims dims (length dims - 1) in
  let key := fun k => [Z.of_nat t; k; Z.of_nat j] in
  do ' (inp, out, sp) <- st;
  do inp <- fill (sched (key 3) (LCU dims)) (fun i => Some (sp i j)) inp;
  let out := fftw_execute FORWARD plan inp out in
  let sp := fold_left (fun sp i => fset sp i (upd (sp i) j (out i))) (sched (key 4) (LCU dims)) sp in
  Some (inp, out, sp).
Definition compute_tr (sched : schedule) (dims : list Z) (NC : nat) (poly : nat -> arr) (idx : list Z) (t : nat)
    (tr inp out : arr) (sp : nat -> arr) : option (arr * arr * arr * (nat -> arr)) :=
  let plan := plan_dims dims (length dims - 1) in
  let key := fun k => [Z.of_nat t; k] in
  let sp := fold_left (fun sp i => fset sp i (equiv NC (sp i) (poly (i + LCU dims * t)%nat))) (sched (key 5) (LCU dims)) sp in
  do ' (inp, out, sp) <- for_ (NC * NC) (tr_element sched dims t) (Some (inp, out, sp));
  do out <- fill (sched (key 6) (LCU dims)) (fun i => Some (trace_ab_dag NC (sp i) (sp i))) out;
  let inp := fftw_execute BACKWARD plan out inp in
  do tr <- fill (sched (key 7) (length idx)) (fun i => do k <- nth_error idx i; do v <- rd (spatial dims) inp k; Some (tr i + v)%C) tr;
  Some (tr, inp, out, sp).
(** static_quark_correlator with FFTW, 196-253.  state: result, trtr, in, out, slice_poly *)
Definition slice_step (sched : schedule) (dims : list Z) (NC : nat) (poly : nat -> arr) (idx : list Z) (t : nat)
    (st : option (arr * arr * arr * arr * (nat -> arr))) : option (arr * arr * arr * arr * (nat -> arr)) :=
  do ' (result, trtr, inp, out, sp) <- st;
  do ' (trtr, inp, out) <- compute_trtr sched dims NC poly idx t trtr inp out;
  do ' (result, inp, out, sp) <- compute_tr sched dims NC poly idx t result inp out sp;
  Some (result, trtr, inp, out, sp).
Definition correlator_fftw (sched : schedule) (dims : list Z) (NC : nat) (poly : nat -> arr) (idx : list Z)
    (result trtr inp out : arr) (sp : nat -> arr) : option (arr * arr) :=
  do ' (result, trtr, _, _, _) <- for_ (Lt dims) (slice_step sched dims NC poly idx) (Some (result, trtr, inp, out, sp));
  let NORM := (1 / (IZR (lcu dims) * IZR (last dims 0%Z)))%R in
  do result <- fill (sched [8] (length idx)) (fun i => Some (result i * RtoC NORM)%C) result;
  do trtr <- fill (sched [9] (length idx)) (fun i => Some (trtr i * RtoC NORM)%C) trtr;
  Some (result, trtr).
(** static_quark_correlator without FFTW, 259-309; "int translate" *)
Definition direct_pair (dims : list Z) (NC : nat) (poly : nat -> arr) (translate : Z) (k t : nat) (s : option (C * C)) : option (C * C) :=
  do ' (tr, tracetrace) <- s;
  let source := (k + LCU dims * t)%nat in
  let sink := u64 (translate + Z.of_nat (LCU dims) * Z.of_nat t) in
  if sink <? lvolume dims
  then Some (tr + trace_ab_dag NC (poly source) (poly (Z.to_nat sink)), tracetrace + trace NC (poly source) * trace NC (poly (Z.to_nat sink)))%C
  else None.
Definition direct_sum (dims : list Z) (NC : nat) (poly : nat -> arr) (idx : Z) : option (C * C) :=
  do separation <- get_mom_2piBZ dims idx (length dims - 1);
  for_ (LCU dims) (fun k s =>
    do translate <- compute_spacing dims separation (Z.of_nat k) (length dims - 1);
    for_ (Lt dims) (direct_pair dims NC poly (i32 translate) k) s) (Some (C0, C0)).
Definition correlator_direct (sched : schedule) (dims : list Z) (NC : nat) (poly : nat -> arr) (idx : list Z) (result trtr : arr) : option (arr * arr) :=
  let NORM := (1 / IZR (last dims 0%Z))%R in
  do result <- fill (sched [0] (length idx)) (fun i => do k <- nth_error idx i; do ' (tr, _) <- direct_sum dims NC poly k; Some (tr * RtoC NORM)%C) result;
  do trtr <- fill (sched [0] (length idx)) (fun i => do k <- nth_error idx i; do ' (_, t2) <- direct_sum dims NC poly k; Some (t2 * RtoC NORM)%C) trtr;
  Some (result, trtr).

(** Coul_staticpot, 335-339 and 375-402: the lines are lengthened by one link in every round *)
Definition line_site (dims : list Z) (i t : nat) : nat := Z.to_nat (u64 (Z.of_nat i + u64 (Z.of_nat t * lcu dims)) mod lvolume dims).
Definition lengthen (dims : list Z) (NC : nat) (lat : FieldModel.lattice) (t : nat) (order : list nat) (poly : nat -> arr) : nat -> arr :=
  fold_left (fun poly i => fset poly i (multab_atomic_right NC (poly i) (FieldModel.O (lat (line_site dims i t)) (length dims - 1)%nat))) order poly.
Record memory := { m_in : arr; m_out : arr; m_sp : nat -> arr }.
Definition correlate (b : fft_build) (sched : schedule) (dims : list Z) (NC : nat) (poly : nat -> arr) (idx : list Z) (result trtr : arr) (mem : memory) : option (arr * arr) :=
  match b with
  | WithFFTW => correlator_fftw sched dims NC poly idx result trtr (m_in mem) (m_out mem) (m_sp mem)
  | NoFFTW => correlator_direct sched dims NC poly idx result trtr
  end.
(** the rounds t, t+1, ... : result and trtr are set to zero, lines 380-382, and written, 394 *)
Fixpoint rounds (b : fft_build) (sched : nat -> schedule) (dims : list Z) (NC : nat) (lat : FieldModel.lattice) (idx : list Z) (mem : nat -> memory)
    (n t : nat) (poly : nat -> arr) (result trtr : arr) : option (list (list C * list C)) :=
  match n with
  | 0%nat => Some []
  | S n =>
      do result <- fill (sched t [-1] (length idx)) (fun _ => Some C0) result;
      do trtr <- fill (sched t [-1] (length idx)) (fun _ => Some C0) trtr;
      let poly := lengthen dims NC lat t (sched t [-2] (Z.to_nat (lvolume dims))) poly in
      do ' (result, trtr) <- correlate b (sched t) dims NC poly idx result trtr (mem t);
      do r <- rounds b sched dims NC lat idx mem n (t + 1) poly result trtr;
      Some ((map result (seq 0 (length idx)), map trtr (seq 0 (length idx))) :: r)
  end.
(** T >= 1 (otherwise failure, line 327): what is written for t = 1 .. T-1 *)
Definition Coul_staticpot (b : fft_build) (sched : nat -> schedule) (dims : list Z) (NC : nat) (lat : FieldModel.lattice) (idx : list Z)
    (mem : nat -> memory) (poly0 : nat -> arr) (result trtr : arr) (T : nat) : option (list (list C * list C)) :=
  rounds b sched dims NC lat idx mem (T - 1) 1 (fun i => identity NC (poly0 i)) result trtr.
