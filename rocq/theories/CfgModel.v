(** The configuration space gluon correlator: Cuts/config_gluons.c.

    The linear definition of the gauge field (LINEAR_DEF) only; CUT_FORWARD is defined nowhere.  The
    smearing before (353) and the printed gauge fixing accuracy (68-92, 363) are left out, so is the
    file (366-367, 387-390).  Work-shared loops run in any order, [sched key n]; the loop whose
    iterations share the variable mu (138-155) is in order here and as interleaved threads in
    [race_step].  None = undefined behaviour, or, with [fuel], not finished. *)
From Verif Require Import CInt GeomModel Cplx CMat Arr MatModel ProjModel FftModel QtopModel CutsModel.
From Verif Require Import SmearModel StaticModel GluonModel.
Local Open Scope Z_scope.

(** * With FFTW *)
(** 105-136: the transform of the fields *)
Definition fft_fields (sched : schedule) (dims : list Z) (NC : nat) (inp out : arr) (A : field arr) : option (field arr * arr * arr) :=
  for_ (length dims) (fun mu => for_ (NC * NC) (fft_element sched dims mu)) (Some (A, inp, out)).
(** 146-149: one iteration, alone *)
Definition convolve (ND NC : nat) (A : field arr) (i : nat) : C := for_ ND (fun mu sum => (sum + trace_ab_dag NC (A i mu) (A i mu))%C) C0.
(** spatial_correlator, 97-185.  A work-shared loop over t with private i, 166-179 *)
Definition correlator_fftw (sched : schedule) (dims : list Z) (NC : nat) (gsnorm : R) (spacing : Z) (inp out : arr) (A : field arr) (gsp : nat -> R) : option (Z * (nat -> R)) :=
  let V := Z.to_nat (lvolume dims) in
  if last dims 0 <? spacing then Some (-1, gsp)
  else
    do ' (A, inp, out) <- fft_fields sched dims NC inp out A;
    do inp <- fill (seq 0 V) (fun i => Some (convolve (length dims) NC A i)) inp;
    let out := fftw_execute FORWARD (plan_dims dims (length dims)) inp out in
    Some (0, fold_left (fun gsp t k => if Nat.eqb k t then (for_ (LCU dims) (fun i sum => (sum + re (out (i + LCU dims * t)%nat))%R) 0 * gsnorm)%R else gsp k) (sched [3] (Lt dims)) gsp).

(** The loop 138-155 by several threads.  mu is declared at line 108 outside of the parallel region and
    not private, so it is one variable for all threads.  A thread: its site, its next statement and its
    "sum". *)
Inductive point := Start | Test | Add | Step | Done.
Definition thread : Type := nat * point * C.
Definition race_state : Type := nat * list thread.
Definition set_thread (l : list thread) (k : nat) (t : thread) : list thread := firstn k l ++ t :: skipn (S k) l.
(** thread k goes on by one statement *)
Definition race_step (ND NC : nat) (A : field arr) (k : nat) (s : race_state) : option race_state :=
  let '(mu, l) := s in
  match nth_error l k with
  | Some (i, Start, sum) => Some (0%nat, set_thread l k (i, Test, C0))
  | Some (i, Test, sum) => Some (mu, set_thread l k (i, if Nat.ltb mu ND then Add else Done, sum))
  | Some (i, Add, sum) => if Nat.ltb mu ND then Some (mu, set_thread l k (i, Step, (sum + trace_ab_dag NC (A i mu) (A i mu))%C)) else None
  | Some (i, Step, sum) => Some ((mu + 1)%nat, set_thread l k (i, Test, sum))
  | _ => Some s
  end.
Fixpoint race_run (ND NC : nat) (A : field arr) (order : list nat) (s : race_state) : option race_state :=
  match order with [] => Some s | k :: order => do s <- race_step ND NC A k s; race_run ND NC A order s end.
(** every thread has one of the sites *)
Definition race_start (sites : list nat) (mu : nat) : race_state := (mu, map (fun i => (i, Start, C0)) sites).
Definition all_done (s : race_state) : Prop := forall i p c, In (i, p, c) (snd s) -> p = Done.

(** * Without FFTW *)
(** the inner sums 276-291 (and 200-218): the trace of x with y *)
Definition contract_sites (ND NC : nat) (A : field arr) (x y : nat) (loc_tr : R) : R :=
  for_ (ND - 1) (fun mu s => (s + trace_ab_herm NC (A x mu) (A y mu))%R) loc_tr.
(** spatial_pointsource, 252-303 *)
Definition pointsource_t (dims : list Z) (NC : nat) (A : field arr) (t : nat) : R :=
  let loc_tr := for_ (Lt dims) (fun tau loc_tr =>
    let idx1 := (LCU dims * tau)%nat in
    let idx2 := (LCU dims * ((tau + t) mod Lt dims))%nat in
    for_ (LCU dims) (fun i loc_tr => for_ (LCU dims) (fun j => contract_sites (length dims) NC A (i + idx1) (j + idx2)) loc_tr) loc_tr) 0%R in
  (loc_tr * 2 / IZR (u64 (u64 (lcu dims * lcu dims) * last dims 0%Z)))%R.
Definition pointsource (sched : schedule) (dims : list Z) (NC : nat) (A : field arr) (gs : nat -> R) : option (nat -> R) :=
  let h := (Lt dims / 2 + 1)%nat in
  let gs := fold_left (fun gs t k => if Nat.eqb k t then pointsource_t dims NC A t else gs k) (sched [4] h) gs in
  Some (fold_left (fun gs t k => if Nat.eqb k (h + t) then gs (Lt dims - (h + t))%nat else gs k) (sched [5] (Lt dims - h)%nat) gs).
(** contract_slices, 191-220 *)
Definition contract_slices (dims : list Z) (NC : nat) (A : field arr) (x t_ref : nat) : R :=
  (for_ (LCU dims) (fun j => contract_sites (length dims) NC A x (j + t_ref)) 0 / IZR (lcu dims))%R.
(** the values of nu in the loop 242-246 *)
Fixpoint strided (fuel : nat) (L spacing nu : Z) : option (list Z) :=
  match fuel with
  | O => None
  | S fuel => if nu <? L then do r <- strided fuel L spacing (u64 (nu + spacing)); Some (nu :: r) else Some []
  end.
(** recurse_sum, 223-248; vec: the entries set so far, the others are 0 *)
Fixpoint recurse_sum (fuel : nat) (dims : list Z) (NC : nat) (A : field arr) (idx1 idx2 : nat) (spacing : Z) (rest vec : list Z) (norm : Z) : option (R * Z) :=
  match rest with
  | [] =>
      do s <- gen_site dims (vec ++ [0]);
      let xidx := u64 (Z.of_nat idx1 + s) in
      if xidx <? lvolume dims then Some (contract_slices dims NC A (Z.to_nat xidx) idx2, u64 (norm + 1)) else None
  | L :: rest =>
      do nus <- strided fuel L spacing 0;
      mfor nus (fun nu '(sum, norm) => do ' (v, norm) <- recurse_sum fuel dims NC A idx1 idx2 spacing rest (vec ++ [nu]) norm; Some ((sum + v)%R, norm)) (0%R, norm)
  end.
(** 318-332 *)
Definition sparse_t (fuel : nat) (dims : list Z) (NC : nat) (A : field arr) (spacing : Z) (t : nat) : option R :=
  do ' (loc_tr, norm) <- for_ (Lt dims) (fun tau s =>
    do ' (loc_tr, norm) <- s;
    do ' (v, norm) <- recurse_sum fuel dims NC A (LCU dims * tau) (LCU dims * ((tau + t) mod Lt dims)) spacing (spatial dims) [] norm;
    Some ((loc_tr + v)%R, norm)) (Some (0%R, 0));
  Some (loc_tr * 2 / IZR norm)%R.
(** spatial_correlator, 306-336 *)
Definition correlator_direct (fuel : nat) (sched : schedule) (dims : list Z) (NC : nat) (spacing : Z) (A : field arr) (gs : nat -> R) : option (Z * (nat -> R)) :=
  if spacing =? 1 then do gs <- pointsource sched dims NC A gs; Some (0, gs)
  else
    do gs <- mfor (sched [6] (Lt dims)) (fun t gs => do v <- sparse_t fuel dims NC A spacing t; Some (fun k => if Nat.eqb k t then v else gs k)) gs;
    Some (0, gs).

(** cuts_struct_configspace, 340-408: what is written, if something is.  gsp: the memory allocated *)
Definition cuts_configspace (b : fft_build) (fuel : nat) (sched : schedule) (dims : list Z) (NC : nat) (max_t : Z) (temp inp out : arr) (gsp : nat -> R) (A : field arr) : option (Z * list R) :=
  let A := log_fields (length dims) NC temp (sched [0] (Z.to_nat (lvolume dims))) A in
  let spat_norm := (1 / IZR (u64 (u64 (Z.of_nat (length dims - 1) * lcu dims) * lvolume dims)))%R in
  do ' (flag, gsp) <- match b with
    | WithFFTW => correlator_fftw sched dims NC spat_norm max_t inp out A gsp
    | NoFFTW => correlator_direct fuel sched dims NC max_t A gsp
    end;
  if flag =? -1 then Some (-1, []) else Some (0, map gsp (seq 0 (Lt dims))).
