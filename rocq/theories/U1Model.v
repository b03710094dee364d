(** Quenched U(1) fields: U1/SUNCxU1_config.c, U1/U1_obs.c, U1/U1_top.c and gen_p_sq_feyn.

    Real numbers for floating point numbers.  The generator (par_rng.c) is left out: the numbers of
    par_polar_box are the argument [noise].  The counts of U1_top.c are kept as integers (they fit in an
    int unless an angle exceeds about 10^8).  The printing and the timer are left out.  Work-shared loops
    run in any order [sched key n].  None = undefined behaviour. *)
From Verif Require Import CInt GeomModel GeomSpec Cplx CMat Arr MatModel FftModel QtopModel.
From Verif Require Import SmearModel GluonModel.
Local Open Scope Z_scope.

(** * The momenta *)
(** geometry.c:189-211 gen_p_sq_feyn: the value and the flag *)
Definition gen_p_sq_feyn (dims : list Z) (i : Z) : option (R * Z) :=
  let ND := length dims in
  do n <- get_mom_2piBZ dims i ND;
  let '(kcos, flag) := for_ ND (fun mu '(kcos, flag) =>
    ((kcos + cos (IZR (nth mu n 0%Z) * twiddle dims mu))%R,
     if negb (flag =? 0) && Nat.ltb mu (ND - 1) then (if Z.abs (nth mu n 0) >? 0 then 0 else 1) else flag)) (0%R, 1) in
  Some (if Req_EM_T kcos (INR ND) then 1%R else (2 * (INR ND - kcos))%R, flag).
(** SUNCxU1_config.c:213-223: one entry of psq *)
Definition psq_entry (dims : list Z) (i : nat) : option R :=
  do ' (p2, flag) <- gen_p_sq_feyn dims (Z.of_nat i);
  Some (if flag =? 1 then 0%R else (1 / sqrt p2)%R).
(** 40-54 compute_zeropoint *)
Definition compute_zeropoint (dims : list Z) : Z :=
  match dims with
  | [d0; d1; d2; d3] => Z.shiftr (u64 (d0 * u64 (1 + u64 (d1 * u64 (1 + u64 (d2 * u64 (1 + d3))))))) 1
  | _ => Z.shiftr (fold_right (fun L check => u64 (L * u64 (1 + check))) (last dims 0) (removelast (tl dims))) 1
  end.
(** 57-76 conjugate_site *)
Definition conjugate_site (dims : list Z) (i : Z) : option Z :=
  do x <- get_mom_pipi dims i (length dims);
  get_site_2piBZ dims (map Z.opp x) (length dims).
(** 79-118 periodic_dft; inp mu is FFTW -> in[mu] *)
Definition draw (sched : schedule) (dims : list Z) (psq : nat -> R) (noise inp : nat -> arr) : nat -> arr :=
  fold_left (fun inp i mu k => if (Nat.eqb k i && Nat.ltb mu (length dims))%bool then (RtoC (psq i) * noise mu i)%C else inp mu k)
    (sched [0] (Z.to_nat (lvolume dims))) inp.
Definition symmetrise (dims : list Z) (i : nat) (inp : nat -> arr) : option (nat -> arr) :=
  if Z.of_nat i <? lvolume dims then
    do b <- conjugate_site dims (Z.of_nat i);
    if Z.of_nat i =? b then Some (fun mu k => if (Nat.eqb k i && Nat.ltb mu (length dims))%bool then RtoC (re (inp mu i)) else inp mu k)
    else if b <? Z.of_nat i then Some inp
    else if b <? lvolume dims then Some (fun mu k => if (Nat.eqb k (Z.to_nat b) && Nat.ltb mu (length dims))%bool then conj (inp mu i) else inp mu k)
    else None
  else None.
Definition periodic_dft (sched : schedule) (dims : list Z) (psq : nat -> R) (noise inp : nat -> arr) : option (nat -> arr) :=
  mfor (seq 0 (Z.to_nat (compute_zeropoint dims + 1))) (symmetrise dims) (draw sched dims psq noise inp).

(** * The fields *)
(** 121-192 create_u1 (162-188: one iteration of the loop over links) *)
Definition u1_link (ND NC : nat) (rv e charge : R) (i : nat) (s : (nat -> arr) * field arr) : (nat -> arr) * field arr :=
  let '(out, lat) := s in
  let idx := (i / ND)%nat in
  let mu := (i mod ND)%nat in
  let a := (re (out mu idx) * rv)%R in
  let out := fun m k => if (Nat.eqb m mu && Nat.eqb k idx)%bool then RtoC a else out m k in
  let U1 := cis (re (out mu idx) * e * charge) in
  let lat := fun x m k => if (Nat.eqb x idx && Nat.eqb m mu && Nat.ltb k (NC * NC))%bool then (lat x m k * U1)%C else lat x m k in
  (out, lat).
Definition create_u1 (sched : schedule) (dims : list Z) (NC : nat) (alpha charge : R) (psq : nat -> R) (noise inp out : nat -> arr) (lat : field arr) : option ((nat -> arr) * field arr) :=
  let ND := length dims in
  let e := sqrt (4 * PI * alpha) in
  do inp <- periodic_dft sched dims psq noise inp;
  let rv := (1 / sqrt (IZR (lvolume dims)))%R in
  let out := fold_left (fun out mu m => if Nat.eqb m mu then fftw_execute FORWARD (plan_dims dims ND) (inp mu) (out mu) else out m) (sched [1] ND) out in
  Some (fold_left (fun s i => u1_link ND NC rv e charge i s) (sched [2] (Z.to_nat (lvolume dims) * ND)%nat) (out, lat)).
(** 195-240 suNC_cross_u1: the return value, FFTW.out at the end and the links *)
Definition suNC_cross_u1 (b : fft_build) (sched : schedule) (dims : list Z) (NC : nat) (alpha charge : R) (noise inp out : nat -> arr) (psq : nat -> R) (lat : field arr) : option (Z * (nat -> arr) * field arr) :=
  match b with
  | NoFFTW => Some (-1, out, lat)
  | WithFFTW =>
      do psq <- mfor (seq 0 (Z.to_nat (lvolume dims))) (fun i psq => do v <- psq_entry dims i; Some (fun k => if Nat.eqb k i then v else psq k)) psq;
      do ' (out, lat) <- create_u1 sched dims NC alpha charge psq noise inp out lat;
      Some (0, out, lat)
  end.
(** Wrappers/GLUlib_wrap.c:318-345 read_and_U1 from line 336 on, writing to a file that can be written
    (write_configuration returns GLU_SUCCESS): the return value and the links written *)
Definition read_and_U1 (b : fft_build) (sched : schedule) (dims : list Z) (NC : nat) (alpha charge : R) (noise inp out : nat -> arr) (psq : nat -> R) (lat : field arr) : option (Z * field arr) :=
  do ' (_, _, lat) <- suNC_cross_u1 b sched dims NC alpha charge noise inp out psq lat;
  Some (0, lat).

(** * Observables; O mu is U[mu] *)
(** lat[i].neighbor[mu], also the result of gen_shift used as an index *)
Definition next_site (dims : list Z) (i mu : nat) : option nat :=
  do j <- neighbor dims (Z.of_nat i) mu;
  if j <? lvolume dims then Some (Z.to_nat j) else None.
Definition msum_pairs {X} (ND : nat) (f : nat -> nat -> X -> option X) (x : X) : option X :=
  mfor (seq 1 (ND - 1)) (fun mu => mfor (seq 0 mu) (fun nu => f mu nu)) x.
(** U1_obs.c:29-59 non_plaquette: *plaq and the value returned *)
Definition plaq_site (dims : list Z) (O : nat -> arr) (i : nat) : option (R * R) :=
  msum_pairs (length dims) (fun mu nu '(loc_sum, loc_plaq) =>
    do s <- next_site dims i mu;
    do t <- next_site dims i nu;
    let temp := (re (O mu i) + re (O nu s) - re (O mu t) - re (O nu i))%R in
    Some (loc_sum + cos temp, loc_plaq + temp * temp)%R) (0%R, 0%R).
Definition u1_norm (dims : list Z) : Z := u64 (u64 (lvolume dims * Z.of_nat (length dims)) * (Z.of_nat (length dims) - 1)).
Definition non_plaquette (sched : schedule) (dims : list Z) (O : nat -> arr) : option (R * R) :=
  let denom := (2 / IZR (u1_norm dims))%R in
  do ' (sum, plaquette) <- mfor (sched [3] (Z.to_nat (lvolume dims))) (fun i '(sum, plaquette) =>
    do ' (a, b) <- plaq_site dims O i; Some (sum + a, plaquette + b)%R) (0%R, 0%R);
  Some (sum * denom, plaquette * denom)%R.
(** 62-103 U1_rectangle *)
Definition rect_site (dims : list Z) (O : nat -> arr) (i : nat) : option (R * R) :=
  msum_pairs (length dims) (fun mu nu '(loc_rec, loc_ncrec) =>
    do s <- next_site dims i mu;
    do t <- next_site dims s mu;
    do v <- next_site dims i nu;
    do u <- next_site dims v mu;
    let cache := (re (O mu i) + re (O mu s) + re (O nu t) - re (O mu u) - re (O mu v) - re (O nu i))%R in
    let loc_rec := (loc_rec + cos cache)%R in
    let loc_ncrec := (loc_ncrec + cache * cache)%R in
    do t2 <- next_site dims s nu;
    do u <- next_site dims v nu;
    let cache := (re (O mu i) + re (O nu s) + re (O nu t2) - re (O mu u) - re (O nu v) - re (O nu i))%R in
    Some (loc_rec + cos cache, loc_ncrec + cache * cache)%R) (0%R, 0%R).
Definition U1_rectangle (sched : schedule) (dims : list Z) (O : nat -> arr) : option (R * R) :=
  let denom := (1 / IZR (u1_norm dims))%R in
  do ' (sum, sum_nc) <- mfor (sched [4] (Z.to_nat (lvolume dims))) (fun i '(sum, sum_nc) =>
    do ' (a, b) <- rect_site dims O i; Some (sum + a, sum_nc + b)%R) (0%R, 0%R);
  Some (sum * denom, sum_nc * denom)%R.
(** 106-116 normU *)
Definition normU (sched : schedule) (dims : list Z) (U : nat -> arr) : R :=
  let sum := fold_left (fun sum i => for_ (length dims) (fun mu sum => (sum + re (U mu i))%R) sum) (sched [5] (Z.to_nat (lvolume dims))) 0%R in
  sqrt (sum * sum / IZR (lvolume dims)).

(** U1_top.c:50-63 noncompact_face *)
Definition noncompact_face (dims : list Z) (O : nat -> arr) (i mu nu : nat) : option R :=
  let a := re (O mu i) in
  do temp <- next_site dims i mu;
  let b := re (O nu temp) in
  let d := re (O nu i) in
  do temp <- next_site dims i nu;
  let c := re (O mu temp) in
  Some (a + b - c - d)%R.
(** conversion of a double to an int: towards zero *)
Definition trunc (x : R) : Z := if Rle_dec 0 x then Int_part x else - Int_part (- x).
(** GLU_definitions.h:139 *)
Definition TWOPI : R := (6283185307179586 / 1000000000000000)%R.
(** 42-46 mod_2pi: the cast binds more tightly than the division.  Angles beyond int are undefined *)
Definition mod_2pi (theta : R) : option Z :=
  if Rlt_dec (Rabs theta) (IZR two31) then Some (trunc (IZR (trunc theta) / TWOPI)) else None.
(** 66-74 obtain_S *)
Definition obtain_S (dims : list Z) (O : nat -> arr) (i mu nu : nat) : option Z :=
  do theta <- noncompact_face dims O i mu nu; mod_2pi theta.
(** 77-96 dirac_sheet, for a winding S *)
Definition dirac_sheet (sched : schedule) (dims : list Z) (S : nat -> nat -> nat -> option Z) : option Z :=
  mfor (sched [6] (Z.to_nat (lvolume dims))) (fun i sheet =>
    do loc <- mfor (seq 0 (length dims)) (fun mu => mfor (seq 0 mu) (fun nu loc => do temp <- S i mu nu; Some (loc + Z.abs temp))) 0;
    Some (sheet + loc)) 0.
(** 99-133 dirac: M[mu][i], written by the iteration of i only, from 0 *)
Definition dirac_at (dims : list Z) (S : nat -> nat -> nat -> option Z) (mu i : nat) : option Z :=
  let ND := length dims in
  mfor (seq 0 ND) (fun nu M =>
    if Nat.eqb nu mu then Some M
    else mfor (seq 0 ND) (fun rho => mfor (seq 0 rho) (fun sigma M =>
      if (Nat.eqb sigma mu || Nat.eqb rho mu || Nat.eqb sigma nu || Nat.eqb rho nu)%bool then Some M
      else
        let factor := if Nat.eqb (nu mod 2) 1 then 1 else -1 in
        do temp <- next_site dims i nu;
        do s1 <- S temp rho sigma;
        do s0 <- S i rho sigma;
        Some (M + factor * (s1 - s0)))) M) 0.
(** 27-40 current *)
Definition current (sched : schedule) (dims : list Z) (M : nat -> nat -> option Z) : option Z :=
  mfor (sched [7] (length dims)) (fun mu monopole =>
    do loc <- mfor (seq 0 (Z.to_nat (lvolume dims))) (fun i loc => do m <- M mu i; Some (loc + Z.abs m)) 0;
    Some (monopole + loc)) 0.
(** 136-151 non_Qtop; a face of directions beyond ND reads beyond the fields *)
Definition charge_at (dims : list Z) (O : nat -> arr) (i : nat) : option R :=
  do a <- noncompact_face dims O i 0 1; do b <- noncompact_face dims O i 2 3;
  do c <- noncompact_face dims O i 0 2; do d <- noncompact_face dims O i 3 1;
  do e <- noncompact_face dims O i 0 3; do f <- noncompact_face dims O i 1 2;
  Some (a * b + c * d + e * f)%R.
Definition non_Qtop (sched : schedule) (dims : list Z) (O : nat -> arr) : option R :=
  do charge <- mfor (sched [8] (Z.to_nat (lvolume dims))) (fun i charge => do q <- charge_at dims O i; Some (charge + q)%R) 0%R;
  Some (charge * (1583143494411527678811 / 1000000000000000000000000))%R.
(** 154-178 U1_topological: monopole, d_sheet, qtop *)
Definition U1_topological (sched : schedule) (dims : list Z) (O : nat -> arr) : option (Z * Z * R) :=
  let S := obtain_S dims O in
  do monopole <- current sched dims (dirac_at dims S);
  do d_sheet <- dirac_sheet sched dims S;
  do qtop <- non_Qtop sched dims O;
  Some (monopole, d_sheet, qtop).
