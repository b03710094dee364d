(** The gluon propagator in momentum space: Cuts/cuts.c:34-120 (mom_gauge and the case GLUON_PROPS
    of cuts_struct), Cuts/pspace_landau.c, Cuts/glueprop.c.

    The fields are the linear definition of the gauge field (LINEAR_DEF); LOG_DEF is not modelled.
    CUT_FORWARD is defined nowhere in the sources, the transform is the backward one.  With FFTW
    (without it cuts_struct fails, cuts.c:109-117).  The derivatives with more neighbours
    (deriv_linn ...) only change a number that is printed and is left out here, pspace_landau.c:
    33, 49-56, 72-79.  The list of momenta is that of CutsModel.get_mom_veclist.  Work-shared loops
    run in any order, [sched key n].  None = undefined behaviour. *)
From Verif Require Import CInt GeomModel Cplx CMat Arr MatModel ProjModel FftModel QtopModel CutsModel.
From Verif Require Import SmearModel.
Local Open Scope Z_scope.

(** cuts.c:50-58.  temp: contents of the stack before *)
Definition log_fields (ND NC : nat) (temp : arr) (order : list nat) (A : field arr) : field arr :=
  fold_left (fun A i => for_ ND (fun mu A => putf A i mu (equiv NC (A i mu) (Hermitian_proj NC temp (A i mu)))) A) order A.
(** one matrix element, cuts.c:82-92 *)
Definition fft_element (sched : schedule) (dims : list Z) (mu j : nat) (st : option (field arr * arr * arr)) : option (field arr * arr * arr) :=
  let V := Z.to_nat (lvolume dims) in
  let key := fun k => [k; Z.of_nat mu; Z.of_nat j] in
  do ' (A, inp, out) <- st;
  do out <- fill (sched (key 1) V) (fun i => Some (A i mu j)) out;
  let inp := fftw_execute BACKWARD (plan_dims dims (length dims)) out inp in
  Some (fold_left (fun A i => putf A i mu (upd (A i mu) j (inp i))) (sched (key 2) V) A, inp, out).
(** mom_gauge, cuts.c:36-101 *)
Definition mom_gauge (sched : schedule) (dims : list Z) (NC : nat) (temp inp out : arr) (A : field arr) : option (field arr) :=
  let A := log_fields (length dims) NC temp (sched [0] (Z.to_nat (lvolume dims))) A in
  do ' (A, _, _) <- for_ (length dims) (fun mu => for_ (NC * NC) (fft_element sched dims mu)) (Some (A, inp, out));
  Some A.

(** Latt.twiddles, init.c:69 *)
Definition twiddle (dims : list Z) (mu : nat) : R := (2 * PI / IZR (nth mu dims 1%Z))%R.
(** the factors of one momentum, pspace_landau.c:42-80 *)
Definition pspace_site (dims : list Z) (NC DIMS idx : nat) (k : list Z) (A : field arr) : field arr :=
  for_ DIMS (fun mu A =>
    let cache := (1/2 * IZR (nth mu k 0%Z) * twiddle dims mu)%R in
    let p_mu := (2 * sin cache)%R in
    let exp_cache : C := (cos cache, (1/2 * p_mu)%R) in
    for_ (NC * NC) (fun j A => putf A idx mu (upd (A idx mu) j (A idx mu j * exp_cache)%C)) A) A.
(** correct_pspace_landau, pspace_landau.c:28-86 *)
Definition correct_pspace_landau (sched : schedule) (dims : list Z) (NC DIMS : nat) (lst : list veclist) (A : field arr) : option (field arr) :=
  mfor (sched [3] (length lst)) (fun i A =>
    do ' (idx, k) <- nth_error lst i;
    if (0 <=? idx) && (idx <? lvolume dims) then Some (pspace_site dims NC DIMS (Z.to_nat idx) k A) else None) A.

(** SIN_MOM is defined unless PSQ_MOM is, GLU_definitions.h:351-353 *)
Inductive mom_build := SinMom | PsqMom.
Definition lattice_mom (b : mom_build) (dims k : list Z) (mu : nat) : R :=
  match b with
  | SinMom => (2 * sin (IZR (nth mu k 0%Z) * twiddle dims mu * (1/2)))%R
  | PsqMom => (IZR (nth mu k 0%Z) * twiddle dims mu)%R
  end.
(** PREC_TOL, GLU_definitions.h:362 *)
Definition PREC_TOL (NC : nat) : R := (INR NC * (1 / 10 ^ 14))%R.
(** psq_calc, glueprop.c:32-51: mom and p^2 *)
Definition psq_calc (b : mom_build) (dims : list Z) (NC : nat) (posit : Z) : option ((nat -> R) * R) :=
  do k <- TwoPI_mpipi_momconv dims posit (length dims);
  let mom := lattice_mom b dims k in
  let tspsq := for_ (length dims) (fun mu s => (s + mom mu * mom mu)%R) 0%R in
  Some (mom, if Rlt_dec tspsq (PREC_TOL NC) then 1%R else tspsq).
(** project_trans_long, 66-89 *)
Definition project_trans_long (b : mom_build) (dims : list Z) (NC : nat) (A : field arr) (posit : Z) : option (R * R) :=
  do ' (mom, psq) <- psq_calc b dims NC posit;
  let spsq := (1 / psq)%R in
  if (0 <=? posit) && (posit <? lvolume dims) then
    Some (for_ (length dims) (fun mu => for_ (length dims) (fun nu '(transverse, longitudinal) =>
      let tr := trace_ab_dag NC (A (Z.to_nat posit) mu) (A (Z.to_nat posit) nu) in
      let common := (mom mu * mom nu * spsq * re tr)%R in
      ((transverse + (if Nat.eqb mu nu then re tr - common else - common))%R, (longitudinal + common)%R))) (0%R, 0%R))
  else None.
(** the numbers for one momentum times the norms *)
Definition normed (b : mom_build) (dims : list Z) (NC : nat) (A : field arr) (posit : Z) (tnorm lnorm : R) (i : nat) (s : (nat -> R) * (nat -> R)) : option ((nat -> R) * (nat -> R)) :=
  do ' (t, l) <- project_trans_long b dims NC A posit;
  Some (fun k => if Nat.eqb k i then t * tnorm else fst s k, fun k => if Nat.eqb k i then l * lnorm else snd s k)%R.
(** compute_gluon_prop, 92-151.  In the first loop "const int posit", line 123; project_trans_long
    takes a size_t.  s0: the allocated arrays.  Result: what is written to the file, 143. *)
Definition compute_gluon_prop (b : mom_build) (sched : schedule) (dims : list Z) (NC : nat) (A : field arr) (lst : list veclist)
    (s0 : (nat -> R) * (nat -> R)) : option (list (R * R)) :=
  let ND := length dims in
  let V := IZR (lvolume dims) in
  let n := length lst in
  let g2_norm := (2 / (INR ((NC * NC - 1) * (ND - 1)) * V))%R in
  let g0_norm := (2 / (INR ((NC * NC - 1) * ND) * V))%R in
  let long_norm := (2 / (INR (NC * NC - 1) * V))%R in
  let zero_pos := (n / 2)%nat in
  do ' (zero_mom, _) <- nth_error lst zero_pos;
  do s <- mfor (sched [4] zero_pos) (fun i s => do ' (idx, _) <- nth_error lst i; normed b dims NC A (u64 (i32 idx)) g2_norm long_norm i s) s0;
  do s <- normed b dims NC A zero_mom g0_norm long_norm zero_pos s;
  let '(t, l) := fold_left (fun '(t, l) i => (fun k => if Nat.eqb k i then t (n - i - 1)%nat else t k, fun k => if Nat.eqb k i then l (n - i - 1)%nat else l k))
    (map (fun i => zero_pos + 1 + i)%nat (sched [5] (n - zero_pos - 1)%nat)) s in
  Some (map (fun i => (t i, l i)) (seq 0 n)).
(** cuts_struct with GLUON_PROPS, cuts.c:122-172 *)
Definition gluon_props (b : mom_build) (sched : schedule) (dims : list Z) (NC : nat) (lst : list veclist) (temp inp out : arr) (s0 : (nat -> R) * (nat -> R)) (A : field arr) : option (list (R * R)) :=
  do A <- mom_gauge sched dims NC temp inp out A;
  do A <- correct_pspace_landau sched dims NC (length dims) lst A;
  compute_gluon_prop b sched dims NC A lst s0.
