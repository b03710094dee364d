(* Model of src/Geometry/geometry.c and src/Geometry/init.c.
   [dims] is Latt.dims[0..ND-1]; ND = length dims.  All arithmetic is done
   in the C types (size_t = 64 bit, int = 32 bit); None = undefined behaviour
   (division by zero, index out of bounds). *)
From Verif Require Import CInt.

(* Latt.Volume, init.c:57-66 (product of all extents, in size_t) *)
Definition lvolume (dims : list Z) : Z := fold_left (fun a d => u64 (a * d)) dims 1.
(* Latt.Lcu, init.c:53-63 (product of all but the last extent) *)
Definition lcu (dims : list Z) : Z := lvolume (removelast dims).

(* geometry.c:27-36 gen_site: res = x[ND-1]; for mu = ND-1..1:
   res = dims[mu-1]*res + x[mu-1], in size_t *)
Fixpoint gen_site (dims x : list Z) : option Z :=
  match dims, x with
  | _ :: nil, x0 :: nil => Some (u64 x0)
  | d :: ds, x0 :: xs =>
      do res <- gen_site ds xs;
      Some (u64 (d * res + x0))
  | _, _ => None
  end.

(* geometry.c:104-120 get_mom_2piBZ, the loop from index mu on with the
   current value of [int subvol] *)
Fixpoint mom_2piBZ_loop (dims : list Z) (mu : nat) (i subvol : Z) (DIMS : nat)
  : option (list Z) :=
  match dims with
  | [] => Some []
  | L :: ds =>
      if Nat.eqb mu DIMS then
        do xs <- mom_2piBZ_loop ds (S mu) i subvol DIMS;
        Some (0 :: xs)
      else
        let sv := u64 subvol in          (* int -> size_t in "i % subvol" *)
        if (sv =? 0) || (L =? 0) then None
        else
          let x := i32 (((i - i mod sv) / sv) mod L) in
          do xs <- mom_2piBZ_loop ds (S mu) i (i32 (u64 (sv * L))) DIMS;
          Some (x :: xs)
  end.

Definition get_mom_2piBZ (dims : list Z) (i : Z) (DIMS : nat) : option (list Z) :=
  mom_2piBZ_loop dims 0 i 1 DIMS.

(* the value returned by get_mom_2piBZ (geometry.c:114,119) *)
Definition coord_sum (x : list Z) : Z := fold_left Z.add x 0.

(* geometry.c:86-101 get_mom_pipi: as above with size_t subvol and a shift.
   (size_t expression - int converted to int; u64 before i32) *)
Fixpoint mom_pipi_loop (dims : list Z) (mu : nat) (i subvol : Z) (DIMS : nat)
  : option (list Z) :=
  match dims with
  | [] => Some []
  | L :: ds =>
      if Nat.eqb mu DIMS then
        do xs <- mom_pipi_loop ds (S mu) i subvol DIMS;
        Some (0 :: xs)
      else
        if (subvol =? 0) || (L =? 0) then None
        else
          let x := i32 (u64 (((i - i mod subvol) / subvol) mod L - i32 (Z.shiftr L 1))) in
          do xs <- mom_pipi_loop ds (S mu) i (u64 (subvol * L)) DIMS;
          Some (x :: xs)
  end.

Definition get_mom_pipi (dims : list Z) (i : Z) (DIMS : nat) : option (list Z) :=
  mom_pipi_loop dims 0 i 1 DIMS.

(* geometry.c:41-62 get_site_2piBZ, the temp[] loop *)
Fixpoint site_2piBZ_temp (dims x : list Z) (mu DIMS : nat) : list Z :=
  match dims, x with
  | L :: ds, x0 :: xs =>
      (if Nat.eqb mu DIMS then 0
       else
         let L2 := i32 (Z.shiftr L 1) in
         let t1 := if x0 >=? L2 then x0 - i32 L else x0 in
         if t1 <? L2 then t1 + L2 else t1)
      :: site_2piBZ_temp ds xs (S mu) DIMS
  | _, _ => []
  end.
Definition get_site_2piBZ (dims x : list Z) (DIMS : nat) : option Z :=
  gen_site dims (site_2piBZ_temp dims x 0 DIMS).

(* geometry.c:66-83 get_site_pipiBZ; temp += dims is computed in size_t and
   converted back to int *)
Fixpoint site_pipiBZ_temp (dims x : list Z) (mu DIMS : nat) : list Z :=
  match dims, x with
  | L :: ds, x0 :: xs =>
      (if Nat.eqb mu DIMS then 0
       else if x0 <? 0 then i32 (u64 (u64 x0 + L)) else x0)
      :: site_pipiBZ_temp ds xs (S mu) DIMS
  | _, _ => []
  end.
Definition get_site_pipiBZ (dims x : list Z) (DIMS : nat) : option Z :=
  gen_site dims (site_pipiBZ_temp dims x 0 DIMS).

(* geometry.c:123-132 TwoPI_mpipi_momconv *)
Definition TwoPI_mpipi_momconv (dims : list Z) (i : Z) (DIR : nat) : option (list Z) :=
  do m <- get_mom_2piBZ dims i DIR;
  do newi <- get_site_2piBZ dims m DIR;
  get_mom_pipi dims newi DIR.

(* geometry.c:135-146 get_mom_2piBZ_hirep2: directions ND-2,...,0 then ND-1.
   [rdims] = dims[ND-2],...,dims[0] (loop order); the list built is in loop order. *)
Fixpoint hirep2_loop (rdims : list Z) (i subvol : Z) : option (list Z * Z) :=
  match rdims with
  | [] => Some ([], subvol)
  | L :: ds =>
      let sv := u64 subvol in
      if (sv =? 0) || (L =? 0) then None
      else
        let x := i32 (((i - i mod sv) / sv) mod L) in
        do ' (xs, s) <- hirep2_loop ds i (i32 (u64 (sv * L)));
        Some (x :: xs, s)
  end.
Definition get_mom_2piBZ_hirep2 (dims : list Z) (i : Z) : option (list Z) :=
  do ' (xs, s) <- hirep2_loop (rev (removelast dims)) i 1;
  let sv := u64 s in
  let Lt := last dims 0 in
  if (sv =? 0) || (Lt =? 0) then None
  else Some (rev xs ++ [i32 (((i - i mod sv) / sv) mod Lt)]).

(* geometry.c:236-250 get_vec_from_origin *)
Fixpoint vec_from_origin_loop (dims n : list Z) (mu DIMS : nat) : list Z :=
  match dims, n with
  | L :: ds, n0 :: ns =>
      (if Nat.ltb mu DIMS then
         if n0 >? i32 (Z.shiftr L 1) then n0 - i32 L else n0
       else n0) :: vec_from_origin_loop ds ns (S mu) DIMS
  | _, _ => []
  end.
Definition get_vec_from_origin (dims : list Z) (i : Z) (DIMS : nat) : option (list Z) :=
  do n <- get_mom_2piBZ dims i DIMS;
  Some (vec_from_origin_loop dims n 0 DIMS).

(* geometry.c:253-265 compute_rsq *)
Definition compute_rsq (dims : list Z) (site : Z) (DIMS : nat) : option Z :=
  do r <- get_vec_from_origin dims site DIMS;
  if forallb (fun c => c * c <? two31) (firstn DIMS r)      (* int overflow is UB *)
  then Some (fold_left (fun s r => u64 (s + r * r)) (firstn DIMS r) 0)
  else None.

(* geometry.c:269-285 compute_spacing *)
Fixpoint spacing_loop (dims n sep : list Z) (mu DIMS : nat) : option (list Z) :=
  match dims, n, sep with
  | L :: ds, n0 :: ns, s0 :: ss =>
      do r <- spacing_loop ds ns ss (S mu) DIMS;
      if Nat.ltb mu DIMS then
        if (L =? 0) || (n0 + s0 <? - two31) || (two31 <=? n0 + s0)  (* int overflow is UB *)
        then None
        else Some (i32 (u64 (u64 (n0 + s0) + L) mod L) :: r)
      else Some (0 :: r)
  | [], _, _ => Some []
  | _, _, _ => None
  end.
Definition compute_spacing (dims sep : list Z) (k : Z) (DIMS : nat) : option Z :=
  do n <- get_mom_2piBZ dims k DIMS;
  do n' <- spacing_loop dims n sep 0 DIMS;
  gen_site dims n'.

(* geometry.c:288-305 gen_shift; dir >= 0 forward, dir < 0 backward in -dir-1 *)
Definition gen_shift (dims : list Z) (i dir : Z) : option Z :=
  do x <- get_mom_2piBZ dims i (length dims);
  if dir >=? 0 then
    let d := Z.to_nat dir in
    do xd <- nth_error x d;
    do L <- nth_error dims d;
    if L =? 0 then None else
    do x' <- set_nth x d (i32 (u64 (xd + 1) mod L));
    gen_site dims x'
  else
    let d := Z.to_nat (- dir - 1) in
    do xd <- nth_error x d;
    do L <- nth_error dims d;
    if xd =? 0 then
      do x' <- set_nth x d (i32 (u64 (xd - 1 + L)));
      gen_site dims x'
    else
      if L =? 0 then None else
      do x' <- set_nth x d (i32 (u64 (xd - 1) mod L));
      gen_site dims x'.

(* init.c:29-42 init_navig *)
Definition neighbor (dims : list Z) (i : Z) (mu : nat) : option Z :=
  gen_shift dims i (Z.of_nat mu).
Definition back (dims : list Z) (i : Z) (mu : nat) : option Z :=
  gen_shift dims i (- Z.of_nat mu - 1).

(* IO/HIREP.c:64-67, 134-136: the site of record i of a HiRep file *)
Definition hirep_site (ds : list Z) (i : Z) : option Z :=
  do x <- get_mom_2piBZ_hirep2 ds i; gen_site ds x.
