(** What is reported about a gauge fixed field: const_time (the linear definition), gauge_functional and the
    maximum of theta_test_lin, all of Gfix/gftests.c.

    Real numbers for floating point numbers.  Work-shared loops run in any order [sched key n].  The
    logarithmic fields of const_time are not modelled.  None = not a number. *)
From Verif Require Import CInt Cplx CMat Arr MatModel ProjModel FieldModel QtopModel NumModel LandauModel.
Import ListNotations.
Local Open Scope R_scope.

(** gftests.c:40-54 and 65-78 const_time, the sum over the sites LCU * t to LCU * t + LCU - 1; tmp: A, not set *)
Definition slice_field (NC ND LCU : nat) (tmp : arr) (lat : lattice) (t : nat) : arr :=
  for_ LCU (fun i sum => a_plus_b NC sum (Hermitian_proj NC tmp (O (lat (i + LCU * t)%nat) (ND - 1)%nat))) (zero_mat NC tmp).
(** 79-117 the difference of two slices.  NC = 3: 81-88; NC = 2: 97-99, where both terms of the first
    difference are sum1; else 107-114 *)
Definition slice_difference (NC : nat) (tmp sum1 sum2 : arr) : R :=
  match NC with
  | 3%nat =>
    0 + Rabs (re (sum1 0%nat) - re (sum2 0%nat)) + cabs (sum1 1%nat - sum2 1%nat)%C + cabs (sum1 2%nat - sum2 2%nat)%C
      + Rabs (re (sum1 4%nat) - re (sum2 4%nat)) + cabs (sum1 5%nat - sum2 5%nat)%C
  | 2%nat => 0 + Rabs (re (sum1 0%nat) - re (sum1 0%nat)) + cabs (sum1 1%nat - sum2 1%nat)%C
  | _ => let dif := b_min_c NC tmp sum1 sum2 in for_ (NC * NC) (fun i av => av + cabs (dif i)) 0
  end.
(** 35-129 const_time, *const_lin; T is Latt.dims[ ND - 1 ].  1.0 / 0 times the sum 0 is not a number *)
Definition const_time (sched : schedule) (NC ND LCU T : nat) (tmp : arr) (lat : lattice) : option R :=
  let sum1 := slice_field NC ND LCU tmp lat 0 in
  let average := fold_left (fun av k => av + slice_difference NC tmp sum1 (slice_field NC ND LCU tmp lat (S k))) (sched [0%Z] (T - 1)%nat) 0 in
  if Nat.eqb (NC * NC * (T - 1)) 0 then None else Some (average * (1 / INR (NC * NC * (T - 1)))).

(** 131-147 gauge_functional *)
Definition gauge_functional (sched : schedule) (NC ND V : nat) (lat : lattice) : R :=
  1 - fold_left (fun tr i => tr + for_ ND (fun mu loc => loc + re (trace NC (O (lat i) mu))) 0) (sched [1%Z] V) 0 / INR (ND * NC * V).

(** 215-250 the maximum of theta_test_lin.  A thread goes through its sites; at a site with the value res it
    tests res > *max without the lock (238), and if so writes *max = res under the lock (239-241).  Each
    test and each write is one step; the steps of the threads interleave in any way. *)
Record worker : Type := mkWorker { todo : list R; writes : option R }.
Inductive max_step : R * list worker -> R * list worker -> Prop :=
| step_less : forall m a b res l, ~ m < res -> max_step (m, a ++ mkWorker (res :: l) None :: b) (m, a ++ mkWorker l None :: b)
| step_more : forall m a b res l, m < res -> max_step (m, a ++ mkWorker (res :: l) None :: b) (m, a ++ mkWorker l (Some res) :: b)
| step_write : forall m a b res l, max_step (m, a ++ mkWorker l (Some res) :: b) (res, a ++ mkWorker l None :: b).
Inductive max_steps : R * list worker -> R * list worker -> Prop :=
| steps_none : forall s, max_steps s s
| steps_more : forall s s1 s2, max_step s s1 -> max_steps s1 s2 -> max_steps s s2.
Definition start_max (sites : list (list R)) : R * list worker := (0, map (fun l => mkWorker l None) sites).
Definition finished (s : R * list worker) : Prop := Forall (fun w => todo w = [] /\ writes w = None) (snd s).
(** the values of the sites, one list for each thread (233-235) *)
Definition site_values (NC MAX_DIR : nat) (tmp : arr) (lat : lattice) (parts : list (list nat)) : list (list R) :=
  map (map (fun i => snd (latt_deriv NC MAX_DIR tmp lat i (fun _ => C0)))) parts.
