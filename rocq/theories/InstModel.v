(** The instantaneous gluon propagators: Cuts/3Dcuts.c.

    The linear definition of the gauge field (LINEAR_DEF) only; CUT_FORWARD is defined nowhere.  The
    list of momenta is CutsModel.get_mom_veclist in the first ND-1 directions.  check_psq (131-133)
    only decides whether to go on, its list is not empty here; the output format is not part of this.
    Work-shared loops run in any order, [sched key n].  None = undefined behaviour. *)
From Verif Require Import CInt GeomModel Cplx CMat Arr MatModel ProjModel FftModel QtopModel CutsModel.
From Verif Require Import SmearModel StaticModel GluonModel.
Local Open Scope Z_scope.

(** one matrix element on one time slice, 92-102 *)
Definition fft_slice (sched : schedule) (dims : list Z) (t mu j : nat) (st : option (field arr * arr * arr)) : option (field arr * arr * arr) :=
  let N := LCU dims in
  let key := fun k => [k; Z.of_nat t; Z.of_nat mu; Z.of_nat j] in
  do ' (A, inp, out) <- st;
  do out <- fill (sched (key 1) N) (fun i => Some (A (i + N * t)%nat mu j)) out;
  let inp := fftw_execute BACKWARD (plan_dims dims (length dims - 1)) out inp in
  Some (fold_left (fun A i => putf A (i + N * t)%nat mu (upd (A (i + N * t)%nat mu) j (inp i))) (sched (key 2) N) A, inp, out).
(** mom_gauge_spatial, 44-112 with FFTW; without it (114-123) nothing is done to the links and the
    failure it returns is not looked at (129) *)
Definition mom_gauge_spatial (fftw : bool) (sched : schedule) (dims : list Z) (NC : nat) (temp inp out : arr) (A : field arr) : option (field arr) :=
  if fftw then
    let A := log_fields (length dims) NC temp (sched [0] (Z.to_nat (lvolume dims))) A in
    do ' (A, _, _) <- for_ (Lt dims) (fun t => for_ (length dims) (fun mu => for_ (NC * NC) (fft_slice sched dims t mu))) (Some (A, inp, out));
    Some A
  else Some A.
(** the sums of one momentum, 190-207 *)
Definition inst_sums (dims : list Z) (NC : nat) (A : field arr) (idx cidx : Z) : option (R * R) :=
  let ND := length dims in
  for_ (Lt dims) (fun t st =>
    do ' (sp, tm) <- st;
    let mom := Z.of_nat (LCU dims * t) + idx in
    let cnj := Z.of_nat (LCU dims * t) + cidx in
    if (0 <=? mom) && (mom <? lvolume dims) && (0 <=? cnj) && (cnj <? lvolume dims) then
      let m := Z.to_nat mom in
      let c := Z.to_nat cnj in
      Some (for_ (ND - 1) (fun mu s => (s + re (trace_ab NC (A m mu) (A c mu)))%R) sp, (tm + re (trace_ab NC (A m (ND - 1)%nat) (A c (ND - 1)%nat)))%R)
    else None) (Some (0%R, 0%R)).
(** 177-221: the numbers of momentum i *)
Definition inst_prop (dims : list Z) (NC : nat) (A : field arr) (lst : list veclist) (i : nat) : option (R * R) :=
  let ND := length dims in
  let V := IZR (lvolume dims) in
  let n := length lst in
  let g2_norm := if Nat.ltb 2 ND then (2 / (INR ((NC * NC - 1) * (ND - 2)) * V))%R else (2 / (INR (NC * NC - 1) * V))%R in
  let g0_norm := if Nat.ltb 1 ND then (2 / (INR ((NC * NC - 1) * (ND - 1)) * V))%R else (2 / (INR (NC * NC - 1) * V))%R in
  let midpoint := ((n - 1) / 2)%nat in
  do ' (idx, _) <- nth_error lst i;
  do ' (cidx, _) <- nth_error lst (n - i - 1)%nat;
  do ' (sp, tm) <- inst_sums dims NC A idx cidx;
  let norm := if Nat.eqb i midpoint then g0_norm else g2_norm in
  Some ((sp * norm)%R, (tm * norm)%R).
(** cuts_spatial, 126-240.  s0: the allocated arrays.  Result: what is written, 224 *)
Definition cuts_spatial (fftw : bool) (sched : schedule) (dims : list Z) (NC : nat) (lst : list veclist) (temp inp out : arr) (s0 : (nat -> R) * (nat -> R)) (A : field arr) : option (list (R * R)) :=
  do A <- mom_gauge_spatial fftw sched dims NC temp inp out A;
  do A <- correct_pspace_landau sched dims NC (length dims - 1) lst A;
  do s <- mfor (sched [4] (length lst)) (fun i s => do ' (sp, tm) <- inst_prop dims NC A lst i;
    Some (fun k => if Nat.eqb k i then sp else fst s k, fun k => if Nat.eqb k i then tm else snd s k)) s0;
  Some (map (fun i => (fst s i, snd s i)) (seq 0 (length lst))).
