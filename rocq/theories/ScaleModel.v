(** Scale setting along the flow: /repo/src/Smear/wflow.c flow_RK3 (the list of
    measurements), /repo/src/Smear/wflowfuncs.c update_meas_list, scaleset, evaluate_scale.

    What the flow measures is a parameter: the k-th integration step gives the
    values of Gt and of the average plaquette.  double is modelled by the reals. *)
From Coq Require Import ZArith Reals List PeanoNat.
From Verif Require Import CInt Cplx Arr ProjModel NumModel.
Import ListNotations.
Local Open Scope R_scope.

(** struct wfmeas (time, Gt, avplaq), wflowfuncs.c 574-605; a list is newest first *)
Record meas := { m_time : R; m_Gt : R; m_plaq : R }.

(** the elements der[0], ..., der[N-1] *)
Fixpoint ders (x y : list R) (N k : nat) : option (list R) :=
  match k with
  | O => Some []
  | S k => match ders x y N k, spline_der x y N k with Some l, Some v => Some (l ++ [v]) | _, _ => None end
  end.
(** the loop of evaluate_scale, lines 301-311: the last crossing from below *)
Fixpoint crossing (y : list R) (scale : R) (k : nat) : nat :=
  match k with
  | O => O
  | S k => match k, nth_error y k, nth_error y (k - 1) with
           | S _, Some b, Some a => if Rlt_dec scale b then (if Rlt_dec a scale then k else crossing y scale k) else crossing y scale k
           | _, _, _ => crossing y scale k
           end
  end.
(** evaluate_scale 293-324, the first N elements of x and y; None = undefined
    (in particular an element of der is read that was never written) *)
Definition evaluate_scale (x y : list R) (N : nat) (scale : R) : option R :=
  let up := crossing y scale N in
  if Nat.eqb up 0 then Some (-1)
  else match ders x y N N with None => None | Some der => solve_spline x y der scale (Z.of_nat up) end.

(** scaleset 436-505 on a list of count+1 measurements: (t0, w0), -1 for "not
    bracketed".  The product of line 486 at i = count uses an element of der that is
    not written, but the result is not used afterwards; it is left out. *)
Definition gt_of (clover : bool) (m : meas) : R :=
  if clover then m_Gt m else m_time m * m_time m * 32 * (1 - m_plaq m).
Fixpoint mulR (a b : list R) : list R := match a, b with x :: a, y :: b => x * y :: mulR a b | _, _ => [] end.
Definition scaleset (l : list meas) (count : nat) (T_0 W_0 : R) (clover : bool) : option (R * R) :=
  if Nat.ltb (length l) (count + 1) then None (* curr -> next is NULL *)
  else
    let l := rev (firstn (count + 1) l) in
    let time := map m_time l in let GT := map (gt_of clover) l in
    if Nat.eqb count 0 then Some (-1, -1)
    else match evaluate_scale time GT count T_0 with
         | None => None
         | Some t0 =>
             if Req_EM_T t0 (-1) then Some (-1, -1)
             else match ders time GT count count with
                  | None => None
                  | Some der => match evaluate_scale time (mulR time der) count W_0 with
                                | None => None
                                | Some w0 => Some (t0, w0)
                                end
                  end
         end.

(** flow_RK3, wflow.c 38-184: the list and meas_count.  [obs k] is what is measured after
    the k-th step (k = 0: before the first), [obsc] what is measured after the correction step. *)
Section Flow.
Variables (delta_t : R) (smiters : nat) (START STOP W0STOP : R) (obs : nat -> R * R) (obsc : R * R).

Definition rec (t : R) (o : R * R) : meas := {| m_time := t; m_Gt := fst o; m_plaq := snd o |}.
Fixpoint flow_loop (fuel count meas_count : nat) (flow wapprox : R) (head : list meas) : option (nat * nat * list meas) :=
  match fuel with
  | O => None
  | S fuel =>
      let count := S count in
      let t := INR count * delta_t in
      let '(flow, wapprox, head, meas_count) :=
        if Rle_dec START t then
          let m := rec t (obs count) in
          (m_Gt m, (m_Gt m - flow) * m_time m / delta_t, m :: head, S meas_count)
        else (flow, wapprox, head, meas_count) in
      if (if Rlt_dec wapprox (W0STOP * (3/2)) then Nat.ltb count smiters else false) then
        if Rlt_dec t STOP then flow_loop fuel count meas_count flow wapprox head
        else Some (count, meas_count, head)
      else Some (count, meas_count, head)
  end.
(** the list before scaleset, the value of meas_count and that of count; a loop of at most [fuel] rounds.
    In the code [flow] is 0 at the start although flow_next is set (lines 91, 98). *)
Definition flow_RK3 (fuel : nat) : option (list meas * nat * nat) :=
  match flow_loop fuel 0 0 0 0 [rec 0 (obs 0)] with
  | None => None
  | Some (count, meas_count, head) =>
      let t := INR count * delta_t in
      if Rlt_dec STOP t then Some (rec t obsc :: head, S meas_count, S count)
      else Some (head, meas_count, count)
  end.
End Flow.
