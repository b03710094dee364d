(** The choice among gauge copies before Landau gauge fixing: luxury_copy_fast, Gfix/Landau.c (a build with
    LUXURY_GAUGE; BEST_COPY unless WORST_COPY is set, Headers/GLU_definitions.h:441-445).

    Real numbers for floating point numbers.  The gauge fixing called (FACG, or FASD with GLU_GFIX_SD) and
    random_transform for the k-th copy are arguments.  Allocations succeed.  None = undefined behaviour, or the
    gauge fixing called does not end. *)
From Verif Require Import CInt Cplx CMat Arr MatModel FieldModel QtopModel LandauModel ReportModel.
Import ListNotations.
Local Open Scope R_scope.

Section Copies.
Variable best_copy : bool.
Variable fixing : R -> Z -> lattice -> fields * fields -> option (Z * R * lattice * (fields * fields)).
Variable random : nat -> lattice -> lattice.
Variable functional : lattice -> R.
(** 121-125 *)
Definition first_link : R := if best_copy then 1 else 0.
(** 153-158 the comparison; max is 1000 *)
Definition accepted (newlink maxlink : R) (iters : Z) : bool :=
  ((if best_copy then (if Rlt_dec newlink maxlink then true else false) else (if Rlt_dec maxlink newlink then true else false)) && negb (iters =? 1000)%Z && negb (iters =? GIVEN_UP)%Z)%bool.
(** 127-174 the loop over the copies; best = None: lat_best has not been set *)
Fixpoint copies (todo k : nat) (lat : lattice) (s : fields * fields) (maxlink : R) (best : option lattice) (iters : Z) : option (fields * fields * option lattice * Z) :=
  match todo with
  | 0%nat => Some (s, best, iters)
  | S todo =>
      do ' (iters, _, lat_copy, s) <- fixing (1 / 1000000) 1000 (random k lat) s;
      let newlink := functional lat_copy in
      if accepted newlink maxlink iters then copies todo (S k) lat s newlink (Some lat_copy) iters
      else copies todo (S k) lat s maxlink best iters
  end.
(** 92-211 luxury_copy_fast; 177-183: reads lat_best *)
Definition luxury_copy_fast (luxury_gauge : nat) (acc : R) (max_iters : Z) (lat : lattice) (s : fields * fields) : option (Z * R * lattice * (fields * fields)) :=
  do ' (s, best, iters) <- copies luxury_gauge 0 lat s first_link None 0;
  do lat <- best;
  do ' (it, th, lat, s) <- fixing acc max_iters lat s;
  Some (u64 (iters + it), th, lat, s).
End Copies.
