(** Topological measurements between smearings, Field/Qsusc.c: compute_Qsusc_step.

    The smearing (which reports nothing back), the three measurements and their failures are parameters; the measurements do
    not change the field.  None = undefined behaviour: for the moments and max_t = 0 the size max_t - 1 is 2^64 - 1, and the loop
    over it writes outside the array.  Files and printing are not modelled, the moments are what write_moments is given. *)
From Verif Require Import CInt.
Import ListNotations.
Local Open Scope Z_scope.

Inductive kind := Susceptibility | Correlator | Moments.
Section step.
Variables L M : Type.
Variable smear : L -> L.
(** compute_Qsusc, compute_Qcorr, compute_Qmoments of the field and the number of the measurement: what is written, None on failure *)
Variable measure : kind -> L -> nat -> option M.
(** Qsusc.c:62-82: measurement = m, ..., m + n - 1; flag, field, measurements made *)
Fixpoint measurements (k : kind) (n m : nat) (lat : L) (done : list (nat * M)) : bool * L * list (nat * M) :=
  match n with
  | O => (true, lat, done)
  | S n =>
      let lat := smear lat in
      match measure k lat m with
      | None => (false, lat, done)
      | Some v => measurements k n (S m) lat (done ++ [(m, v)])
      end
  end.
(** cut_output.c:401-434: entry t of Qmom is that of the measurement t + 1; None = memory that was never set *)
Definition entry_of (done : list (nat * M)) (t : nat) : option M :=
  match find (fun p => Nat.eqb (fst p) (t + 1)) done with Some p => Some (snd p) | None => None end.
Record outcome := mkOutcome { flag : bool; field : L; made : list (nat * M); written : list (option M) }.
(** 33-102 *)
Definition compute_Qsusc_step (k : kind) (max_t : Z) (lat : L) : option outcome :=
  match k with
  | Moments =>
      if u64 (max_t - 1) =? two64 - 1 then None else
      let '(fl, lat, done) := measurements k (Z.to_nat max_t - 1) 1 lat [] in
      Some (mkOutcome fl lat done (map (entry_of done) (seq 0 (Z.to_nat (u64 (max_t - 1))))))
  | Susceptibility =>
      match measure k lat 0%nat with
      | None => Some (mkOutcome false lat [] [])
      | Some v => let '(fl, lat, done) := measurements k (Z.to_nat max_t - 1) 1 lat [(0%nat, v)] in Some (mkOutcome fl lat done [])
      end
  | Correlator => let '(fl, lat, done) := measurements k (Z.to_nat max_t - 1) 1 lat [] in Some (mkOutcome fl lat done [])
  end.
End step.
