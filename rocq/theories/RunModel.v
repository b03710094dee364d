(* Model of src/Wrappers/GLUlib_wrap.c (write_configuration), src/Update/KPHB.c (hb_update),
   src/Utils/GLU_memcheck.c (have_memory_readers_writers) and the maximum of src/Gfix/gftests.c. *)
From Coq Require Import String Reals.
From Verif Require Import CInt TextModel RngModel.
Open Scope Z_scope.

(* ---- write_configuration ---- *)
(* GLU_enum.h: GLU_output *)
Inductive output := NO_OUTPUT | OUTPUT_SMALL | OUTPUT_GAUGE | OUTPUT_NCxNC | OUTPUT_MILC | OUTPUT_ILDG | OUTPUT_SCIDAC | OUTPUT_HIREP | OUTPUT_CERN.

(* the directory entry of the target, as seen by this process *)
Inductive target := Absent | Present (readable writable : bool) (content : list Z).

(* fopen( name , "r" ) != NULL, GLUlib_wrap.c:157-167 file_exists *)
Definition file_exists (t : target) : bool := match t with Present true _ _ => true | _ => false end.
(* fopen( name , "w" ): creates or truncates; None = NULL *)
Definition fopen_w (can_create : bool) (t : target) : option target :=
  match t with
  | Absent => if can_create then Some (Present true true []) else None
  | Present r true _ => Some (Present r true [])
  | Present _ false _ => None
  end.
(* stdio output to a device with room for [room] more bytes; fwrite's result is not looked at by any of
   the writers *)
Definition put (room : nat) (t : target) (bytes : list Z) : target :=
  match t with Present r w c => Present r w (c ++ firstn (room - List.length c) bytes) | Absent => Absent end.

(* writers.c:330-419 write_lat: code and bytes it hands to stdio.  [image] is the complete file for this
   lattice and storage type (header, data, trailer), the subject of the format properties. *)
Definition write_lat (image : output -> list Z) (storage : output) : Z * list Z :=
  match storage with NO_OUTPUT => (-1, []) | _ => (0, image storage) end.

Inductive wresult := WUndefined | Wrote (code : Z) (t : target).
(* GLUlib_wrap.c:170-188.  The code of write_lat is dropped; a NULL stream goes to write_lat and fclose. *)
Definition write_configuration (image : output -> list Z) (can_create : bool) (room : nat) (t : target) (storage : output) : wresult :=
  if file_exists t then Wrote (-1) t
  else match fopen_w can_create t with
       | None => WUndefined
       | Some t' => let '(_, bytes) := write_lat image storage in Wrote 0 (put room t' bytes)
       end.

(* ---- have_memory_readers_writers ---- *)
Definition FAST : Z := 0.
Definition SLOW : Z := 2.
(* GLU_memcheck.c:40-55, in bytes (the code multiplies everything by the constant GB) *)
Definition gauge_fields (NC ND V : Z) : Z := 16 * V * (NC * NC * ND) + 4 * V * (2 * ND).
(* GLU_memcheck.c:230-262: what the fast code needs; None for the types with a fixed answer *)
Definition expensive_more (NC ND V : Z) (t : output) : option Z :=
  match t with
  | OUTPUT_SMALL => Some (gauge_fields NC ND V + 8 * (V * (ND * (NC * NC - 1))))
  | OUTPUT_GAUGE => Some (gauge_fields NC ND V + 16 * (V * (ND * NC * (NC - 1))))
  | OUTPUT_MILC | OUTPUT_SCIDAC | OUTPUT_ILDG | OUTPUT_NCxNC => Some (2 * gauge_fields NC ND V)
  | _ => None
  end.
(* GLU_memcheck.c:211-272: answer and new value of the static variable IO.  [mem]: memory of the
   machine in bytes (DANGEROUS is always defined). *)
Definition have_memory_readers_writers (NC ND V mem : Z) (IO : Z) (t : output) : Z * Z :=
  if IO =? -1 then
    match expensive_more NC ND V t with
    | Some e => if e <? mem then (FAST, FAST) else (SLOW, SLOW)
    | None => match t with OUTPUT_HIREP => (FAST, FAST) | _ => (SLOW, FAST) end
    end
  else (IO, IO).
(* the answers to a list of requests, in one program *)
Fixpoint answers (NC ND V mem IO : Z) (l : list output) : list Z :=
  match l with
  | [] => []
  | t :: r => let '(a, IO') := have_memory_readers_writers NC ND V mem IO t in a :: answers NC ND V mem IO' r
  end.

(* ---- the maximum in gftests.c:230-245 and 270-285 ---- *)
(* a thread works through its sites; [Pending] is between the comparison (236, 276) and the store (238, 278) *)
Inductive thread := Idle (l : list R) | Pending (r : R) (l : list R).
(* one step of thread number j on the shared maximum *)
Inductive tstep : R * list thread -> R * list thread -> Prop :=
| t_check_gt : forall m a b r l, (r > m)%R -> tstep (m, a ++ Idle (r :: l) :: b) (m, a ++ Pending r l :: b)
| t_check_le : forall m a b r l, ~ (r > m)%R -> tstep (m, a ++ Idle (r :: l) :: b) (m, a ++ Idle l :: b)
| t_store : forall m a b r l, tstep (m, a ++ Pending r l :: b) (r, a ++ Idle l :: b).
Inductive tsteps : R * list thread -> R * list thread -> Prop :=
| ts_refl : forall s, tsteps s s
| ts_step : forall s s' s'', tstep s s' -> tsteps s' s'' -> tsteps s s''.
Definition finished (t : thread) : Prop := t = Idle [].
(* *max = 0; all threads start; m is the value after the loop *)
Definition theta_max (parts : list (list R)) (m : R) : Prop :=
  exists ts, tsteps (0%R, map Idle parts) (m, ts) /\ Forall finished ts.
(* reduction(+:tr): every thread sums its own sites from 0 in its order, the partial sums are added to
   tr = 0 in the order the threads finish *)
Definition reduction (parts : list (list R)) : R := fold_left (fun s p => (s + fold_left Rplus p 0)%R) parts 0%R.

(* ---- hb_update ---- *)
Section HB.
Variable L : Type.                       (* gauge configurations *)
Variable upd : L -> rng -> L * rng.      (* KPHB.c:102-120 update_lattice on a fixed number of threads *)
Variable reunit : L -> L.                (* latt_reunitU, done by write_lat on the running configuration *)
Variable g : gen.                        (* generator compiled in *)
Variable be : bool.                      (* host byte order *)
Variable Nth : nat.                      (* number of threads *)

(* struct hb_info, GLU_types.h; Nor and beta are inside upd *)
Record hb_info := { therm : Z; iterations : Z; Nmeasure : Z; Nsave : Z; continuation : bool }.

(* a configuration file (sequence number in its header) or a generator state *)
Inductive fcontent := Conf (seqno : Z) (l : L) | Rand (bytes : list Z).
Definition files := list (list Z * fcontent).
Fixpoint lookup (n : list Z) (fs : files) : option fcontent :=
  match fs with [] => None | (m, c) :: r => if eqs m n then Some c else lookup n r end.

(* KPHB.c:131: strtok( name , "." ); None = NULL *)
Fixpoint skip_dots (s : list Z) : list Z := match s with c :: r => if c =? 46 then skip_dots r else s | [] => [] end.
Fixpoint upto_dot (s : list Z) : list Z := match s with c :: r => if c =? 46 then [] else c :: upto_dot r | [] => [] end.
Definition stem (name : list Z) : option (list Z) :=
  match upto_dot (skip_dots name) with [] => None | p => Some p end.
(* KPHB.c:133, 222, 226: names; 132: the buffer holds strlen(pch) + 6 + 8 characters *)
Definition conf_name (pch : list Z) (i : Z) : list Z := pch ++ str "." ++ dec i.
Definition rand_name (pch : list Z) (i : Z) : list Z := pch ++ str "." ++ dec i ++ str ".rand".
Definition fits (pch : list Z) (i : Z) : bool := (List.length (rand_name pch i) + 1 <=? List.length pch + 14)%nat.

(* KPHB.c:219-230: the save.  GLUlib_wrap.c refuses when the file exists; otherwise the running
   configuration is reunitarised.  [seqno] is Latt.flow at the time of the write. *)
Definition save (pch : list Z) (i seqno : Z) (lat : L) (s : rng) (fs : files) : option (L * rng * files) :=
  if negb (fits pch i) then None
  else match lookup (conf_name pch i) fs with
       | Some _ => Some (lat, s, fs)
       | None =>
           let lat' := reunit lat in
           do '(b, s') <- write_par_rng_state g be Nth s;
           Some (lat', s', (rand_name pch i, Rand b) :: (conf_name pch i, Conf seqno lat') :: fs)
       end.

(* KPHB.c:203-238.  [late i]: the thread doing the save of iteration i runs it before the master has
   stored Latt.flow = i at the end of iteration i-1 (no barrier in between unless iteration i measures,
   perform_measurements having a work-shared loop).  The trace lists what enters each update.
   None: division by zero or buffer overrun. *)
Fixpoint hb_loop (n : nat) (late : Z -> bool) (hb : hb_info) (pch : list Z) (start i : Z) (lat : L) (s : rng) (fs : files)
  : option (L * rng * files * list (Z * L * rng)) :=
  match n with
  | O => Some (lat, s, fs, [])
  | S m =>
      if (Nmeasure hb =? 0) || (Nsave hb =? 0) then None else
      do '(lat, s, fs) <-
        (if (i mod Nsave hb =? 0) && negb (i =? start)
         then save pch i (if late i && negb (i mod Nmeasure hb =? 0) then i - 1 else i) lat s fs
         else Some (lat, s, fs));
      let '(lat', s') := upd lat s in
      do '(lat2, s2, fs2, tr) <- hb_loop m late hb pch start (i + 1) lat' s' fs;
      Some (lat2, s2, fs2, (i, lat, s) :: tr)
  end.

(* KPHB.c:190-200: thermalisation *)
Fixpoint thermalise (n : nat) (lat : L) (s : rng) : L * rng :=
  match n with O => (lat, s) | S m => let '(lat', s') := upd lat s in thermalise m lat' s' end.

Inductive hb_result :=
| HUndefined
| HFailed
| HNewSequence                   (* state file missing or of another run: a new random sequence *)
| HRun (lat : L) (s : rng) (fs : files) (trace : list (Z * L * rng)).

(* KPHB.c:123-257.  [s0]: the generator state when it is seeded (continuation GLU_FALSE).
   The allocation and draughtboard failures are not modelled. *)
Definition hb_update (late : Z -> bool) (hb : hb_info) (name : list Z) (flow : Z) (lat : L) (s0 : rng) (fs : files) : hb_result :=
  match stem name with
  | None => HUndefined
  | Some pch =>
      if negb (fits pch flow) then HUndefined else
      let go s :=
        let '(lat1, s1) := thermalise (Z.to_nat (therm hb)) lat s in
        match hb_loop (Z.to_nat (iterations hb - flow)) late hb pch flow flow lat1 s1 fs with
        | None => HUndefined
        | Some (lat2, s2, fs2, tr) => HRun lat2 s2 fs2 tr
        end in
      if continuation hb then
        match lookup (rand_name pch flow) fs with
        | Some (Rand b) =>
            match read_par_rng_state g be Nth b with
            | Restored s => go s
            | NewSequence => HNewSequence
            | Failure => HFailed
            | Undef => HUndefined
            end
        | _ => HNewSequence       (* par_rng.c:230-233 *)
        end
      else go s0
  end.

(* input_reader.c:632-642: continuation and thermalisation follow from the header type *)
Definition poke (new_run : bool) (hb : hb_info) (flow : Z) : hb_info * Z :=
  if new_run then ({| therm := therm hb; iterations := iterations hb; Nmeasure := Nmeasure hb; Nsave := Nsave hb; continuation := false |}, 0)
  else ({| therm := 0; iterations := iterations hb; Nmeasure := Nmeasure hb; Nsave := Nsave hb; continuation := true |}, flow).
End HB.
