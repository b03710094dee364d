(* Model of the momentum cuts of src/Cuts/cut_routines.c in exact real arithmetic (default
   configuration: SIN_MOM, no CYLINDER_AS).  Vectors are functions of the direction; only directions
   below ND = length dims are looked at.  TWOPI (GLU_definitions.h:139) is 2 pi. *)
From Coq Require Import Reals List ZArith Bool.
From Verif Require Import CInt.
Import ListNotations.
Open Scope R_scope.

(* a counted loop "for( mu = 0 ; mu < n ; mu++ ) s += f(mu)" from 0 *)
Fixpoint fsum (n : nat) (f : nat -> R) : R := match n with O => 0 | S m => fsum m f + f m end.

Definition Rleb (a b : R) : bool := if Rle_dec a b then true else false.
Definition Rltb (a b : R) : bool := if Rlt_dec a b then true else false.

(* cut_routines.c:76-83: the smallest of the first DIMS extents *)
Definition small (dims : list Z) (DIMS : nat) : Z :=
  match dims with
  | [] => 1%Z
  | d0 :: r => fold_left (fun s d => if (d <? s)%Z then d else s) (firstn (DIMS - 1) r) d0
  end.
Definition dim (dims : list Z) (mu : nat) : R := IZR (nth mu dims 0%Z).
(* cut_routines.c:85-86 *)
Definition rats (dims : list Z) (DIMS : nat) (mu : nat) : R := IZR (small dims DIMS) / dim dims mu.

(* the integer momentum as a function of the direction *)
Definition comp (k : list Z) (mu : nat) : R := IZR (nth mu k 0%Z).

(* geometry.c:149-166 compute_p with SIN_MOM; Latt.twiddles[mu] = TWOPI / dims[mu] (init.c:69) *)
Definition compute_p (dims : list Z) (k : list Z) (DIMS : nat) (mu : nat) : R :=
  if (mu <? DIMS)%nat then 2 * sin (comp k mu * (2 * PI / dim dims mu) * (1 / 2)) else 0.

(* cut_routines.c:96-112 get_diagonal: subvol is 2^mu in direction mu < DIMS *)
Definition get_diagonal (i DIMS : nat) (mu : nat) : R :=
  if (mu <? DIMS)%nat then
    if Nat.eqb (((i - i mod 2 ^ mu) / 2 ^ mu) mod 2) 0 then -1 else 1
  else 0.

(* cut_routines.c:186-219 cylinder_DF; diagonals = 2 << (ND-1) = 2^ND *)
Definition cylinder_DF (nd DIMS : nat) (q : nat -> R) (cyl_width : R) : bool :=
  let norm := 1 / (2 * sqrt (INR DIMS)) in
  existsb (fun i =>
      let x := get_diagonal i DIMS in
      let scalar_prod := fsum nd (fun nu => q nu * x nu) * norm in
      let mod_ := fsum nd (fun nu => (q nu - scalar_prod * x nu) * (q nu - scalar_prod * x nu)) in
      Rleb (sqrt mod_) cyl_width)
    (seq 0 (2 ^ nd)).

(* PREC_TOL = NC * 1E-14 (GLU_definitions.h), NC = 3 *)
Definition PREC_TOL : R := 3 / 100000000000000.
(* cut_routines.c:56 ang *)
Definition ang (deg : Z) : R := IZR deg * (1745329251994330 / 100000000000000000).

(* cut_routines.c:236-286 cylinder_CJD *)
Definition cylinder_CJD (nd DIMS : nat) (q : nat -> R) (cyl_width : R) (arc : Z) : bool :=
  let q2 := fsum DIMS (fun mu => q mu * q mu) in
  if Rltb q2 PREC_TOL then true
  else
    let qnorm := 1 / sqrt q2 in
    existsb (fun i =>
        let x := get_diagonal i DIMS in
        let nnorm := qnorm / sqrt (fsum DIMS (fun nu => x nu * x nu)) in
        let scalar_prod := fsum DIMS (fun nu => q nu * x nu * nnorm) in
        let theta := acos scalar_prod in
        let delta_q := sin theta / qnorm in
        Rleb delta_q cyl_width && Rleb theta (ang arc))
      (seq 0 (2 ^ nd)).

(* cut_routines.c:291-303 *)
Definition gen_calc_psq (rat : nat -> R) (k : list Z) (DIMS : nat) : R :=
  fsum DIMS (fun mu => (rat mu * comp k mu) * (rat mu * comp k mu)).
(* cut_routines.c:306-323: all DIMS directions counted in flag *)
Fixpoint hyp_flag (rat : nat -> R) (k : list Z) (root : R) (DIMS : nat) : nat :=
  match DIMS with
  | O => O
  | S m => (hyp_flag rat k root m + if Rleb (Rabs (comp k m * rat m)) root then 1 else 0)%nat
  end.
Definition gen_calc_hyp (rat : nat -> R) (k : list Z) (root : R) (DIMS : nat) : bool :=
  Nat.eqb (hyp_flag rat k root DIMS) DIMS.

(* GLU_enum.h:188-192; struct cut_info, GLU_types.h:94-104 *)
Inductive cut_type := HYPERCUBIC_CUT | PSQ_CUT | CYLINDER_CUT | CYLINDER_AND_CONICAL_CUT | OTHER_CUT.
Record cut_info := { ctype : cut_type; max_mom : Z; angle : Z; cyl_width : R }.

(* cut_routines.c:326-379 safe_momenta.  [sd]: the number of directions simorb_ratios was last called
   with (it fixes the globals small and rats) *)
Definition safe_momenta (dims : list Z) (sd : nat) (ci : cut_info) (DIMS : nat) (n : list Z) : bool :=
  let nd := length dims in
  let rat := rats dims sd in
  let latt_width := 2 * PI * cyl_width ci / IZR (small dims sd) in
  match ctype ci with
  | HYPERCUBIC_CUT => gen_calc_hyp rat n (sqrt (IZR (max_mom ci))) DIMS
  | CYLINDER_CUT =>
      if Rleb (gen_calc_psq rat n DIMS) (IZR (max_mom ci)) then
        cylinder_DF nd DIMS (compute_p dims n DIMS) latt_width
      else false
  | CYLINDER_AND_CONICAL_CUT =>
      if Rleb (gen_calc_psq rat n DIMS) (IZR (max_mom ci)) then
        cylinder_CJD nd DIMS (compute_p dims n DIMS) latt_width (angle ci)
      else false
  | PSQ_CUT | OTHER_CUT => Rleb (gen_calc_psq rat n DIMS) (IZR (max_mom ci))
  end.
