(** The adaptive Wilson flow, Smear/adaptive_flow.c: the control of the step size and of the measurements.

    Real numbers for floating point numbers.  One thread is modelled: all threads run the same statements with
    their own copies of the variables.  A step of the flow (step_distance, Smear/wflowfuncs.c), the plaquette
    (get_plaq_th below) and the energy (the sum GT of update_meas_list) are arguments, functions of the field.
    WFLOW_TIME_ONLY is not set.  Allocations succeed: if allocate_WF (212) fails, FLAG is returned without having
    been set.  None = division by 0, or, with [fuel], not finished. *)
From Verif Require Import CInt Cplx CMat Arr MatModel FieldModel QtopModel.
Import ListNotations.
Local Open Scope R_scope.

(** 36-55 *)
Definition adaptfmax (a b : R) : R := if Rlt_dec b a then a else b.
Definition adaptfmin (a b : R) : R := if Rlt_dec a b then a else b.
(** 61-70 *)
Definition ADAPTIVE_EPS : R := 1 / 1000000.
Definition ADAPTIVE_SHRINK : R := - (32 / 100).
Definition ADAPTIVE_GROWTH : R := - (24 / 100).
Definition ADAPTIVE_SAFE : R := 9 / 10.
(** 187 *)
Definition ADAPTIVE_ERRCON : R := Rpower (5 / ADAPTIVE_SAFE) (1 / ADAPTIVE_GROWTH).
Definition FINETWIDDLE : R := 6 / 100.
(** Headers/GLU_definitions.h:583,591 *)
Definition WFLOW_TIME_STOP : R := 20.
Definition WFLOW_MEAS_START : R := 0.
(** wflowfuncs.c:31-32 T0_STOP and W0_STOP *)
Definition T0_STOP (NC : nat) : R := 1125 / 10000 * INR (NC * NC - 1) / INR NC.

(** 73-82 get_plaq_th with av_plaquette_th (Field/plaqs_links.c:267-295): the sum over the threads of red[3] *)
Definition get_plaq_th (sched : schedule) (NC ND V : nat) (tmp : arr) (lat : lattice) : option R :=
  if Nat.eqb (NC * (ND - 1) * (ND - 2) * V) 0 then None else
  Some (fold_left (fun p i => p + for_ ND (fun mu p => for_ mu (fun nu p => p + face NC tmp lat i mu nu) p) 0) (sched [0%Z] V) 0 / INR (NC * (ND - 1) * (ND - 2) * V)).

Section Flow.
Context {A : Type}.
Record flow : Type := mkFlow { step : R -> A -> A; plaq : A -> R; energy : A -> R; stop : R }.
Variable w : flow.

(** 84-168 twostep_adaptive.  left = 20 - counter.  Success, lat_two, dt, errmax, new_plaq *)
Definition error (lat : A) (dt t yscal : R) : R :=
  let old_plaq := plaq w (step w dt lat) in
  let new_plaq := plaq w (step w (5 / 10 * dt) (step w (5 / 10 * dt) lat)) in
  Rabs ((t + dt) * (t + dt) * (new_plaq - old_plaq) / yscal) / ADAPTIVE_EPS.
Definition shorten (dt errmax : R) : R :=
  let del_temp := ADAPTIVE_SAFE * dt * Rpower errmax ADAPTIVE_SHRINK in
  let tol := 1 / 10 * dt in
  if Rlt_dec 0 del_temp then adaptfmax del_temp tol else adaptfmin del_temp tol.
Fixpoint twostep_adaptive (left : nat) (lat : A) (dt t yscal : R) : option (bool * A * R * R * R) :=
  if Req_EM_T yscal 0 then None else
  let two := step w (5 / 10 * dt) (step w (5 / 10 * dt) lat) in
  let errmax := error lat dt t yscal in
  match left with
  | S left' => if Rlt_dec 1 errmax then twostep_adaptive left' lat (shorten dt errmax) t yscal else Some (true, two, dt, errmax, plaq w two)
  | 0%nat => Some (false, two, dt, errmax, plaq w two)
  end.

(** struct wfmeas: time, Gt, avplaq (update_meas_list, wflowfuncs.c:575-605) *)
Record meas : Type := mkMeas { time : R; Gt : R; avplaq : R }.
Definition measure (lat : A) (t p : R) : meas := mkMeas t (t * t * energy w lat) p.
Record state : Type := mkState { f_lat : A; f_t : R; f_dt : R; f_err : R; f_yscal : R; f_flow : R; f_w : R; f_list : list meas; f_count : Z; f_meas : nat }.

(** 305-324, 334-354: the fine measurements; which value is looked at (flow or wapprox), past_the_post *)
Fixpoint fine (fuel : nat) (value : state -> R) (past : nat) (s : state) : option state :=
  match fuel with
  | 0%nat => None
  | S fuel' =>
    let lat := step w (f_dt s) (f_lat s) in
    let t := f_t s + f_dt s in
    let m := measure lat t (plaq w lat) in
    let s' := mkState lat t (f_dt s) (f_err s) (f_yscal s) (Gt m) ((Gt m - f_flow s) * t / f_dt s) (m :: f_list s) (u64 (f_count s + 1)) (f_meas s + 1) in
    let past := if Rlt_dec (stop w) (value s') then S past else past in
    if Rle_dec (Rabs (stop w - value s')) (stop w * FINETWIDDLE) then (if Nat.ltb past 3 then fine fuel' value past s' else Some s') else Some s'
  end.
Definition fine_if (fuel : nat) (value : state -> R) (s : state) : option state :=
  if Rle_dec (Rabs (stop w - value s)) (stop w * FINETWIDDLE) then
    fine fuel value 0 (mkState (f_lat s) (f_t s) (f_t s / 100) (f_err s) (f_yscal s) (f_flow s) (f_w s) (f_list s) (f_count s) (f_meas s))
  else Some s.

(** 247-368 from the label top on; flag: FLAG == GLU_SUCCESS.  fabs( delta_t ) < DBL_MIN is delta_t = 0 *)
Fixpoint top (fuel : nat) (smiters : Z) (s : state) : option (bool * state) :=
  match fuel with
  | 0%nat => None
  | S fuel' =>
    do '(ok, lat, dt, errmax, new_plaq) <- twostep_adaptive 20 (f_lat s) (f_dt s) (f_t s) (f_yscal s);
    let count := if ok then f_count s else smiters in
    let yscal := 2 * new_plaq - f_yscal s in
    let t := f_t s + dt in
    let flag := if Req_EM_T dt 0 then false else ok in
    let s1 :=
      if Rlt_dec WFLOW_MEAS_START t then
        let m := measure lat t new_plaq in
        mkState lat t dt errmax yscal (Gt m) (if Req_EM_T (f_flow s) 0 then 0 else (Gt m - f_flow s) * t / dt) (m :: f_list s) count (f_meas s + 1)
      else mkState lat t dt errmax yscal (f_flow s) (f_w s) (f_list s) count (f_meas s) in
    do s2 <- fine_if fuel f_flow s1;
    do s3 <- fine_if fuel f_w s2;
    let dt := if Rlt_dec ADAPTIVE_ERRCON (f_err s3) then ADAPTIVE_SAFE * f_dt s3 * Rpower (f_err s3) ADAPTIVE_GROWTH else ADAPTIVE_SAFE * 5 * f_dt s3 in
    let s4 := mkState (f_lat s3) (f_t s3) dt (f_err s3) (f_yscal s3) (f_flow s3) (f_w s3) (f_list s3) (u64 (f_count s3 + 1)) (f_meas s3) in
    if Rlt_dec (f_w s4) (stop w * (15 / 10)) then
      if (f_count s4 <? smiters)%Z then
        if Rlt_dec (f_t s4) WFLOW_TIME_STOP then (if flag then top fuel' smiters s4 else Some (flag, s4)) else Some (flag, s4)
      else Some (flag, s4)
    else Some (flag, s4)
  end.
(** 226-243 and 370-385; delta_t = SIGN * Latt.sm_alpha[0] *)
Definition flow_adaptive_RK3 (fuel : nat) (smiters : Z) (inplaq delta_t : R) (lat : A) : option (bool * state) :=
  let m := measure lat 0 inplaq in
  do '(flag, s) <- top fuel smiters (mkState lat 0 delta_t 10 inplaq 0 0 [m] 0 0);
  if Rlt_dec WFLOW_TIME_STOP (f_t s) then
    let dt := WFLOW_TIME_STOP - f_t s in
    let lat := step w dt (f_lat s) in
    let t := f_t s + dt in
    Some (flag, mkState lat t dt (f_err s) (f_yscal s) (f_flow s) (f_w s) (measure lat t (plaq w lat) :: f_list s) (u64 (f_count s + 1)) (f_meas s + 1))
  else Some (flag, s).
End Flow.
Arguments flow : clear implicits.
Arguments state : clear implicits.
