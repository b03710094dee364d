(** Sliding-window sweeps: smear4D (Smear/smear.c) and the Wilson-flow steps
    (Smear/wflowfuncs.c).

    A field of links of any type L is a function of the site and the direction.  What is
    computed for one link (staples, projection) is a parameter

      rule : field L -> nat -> nat -> Z -> option (Z * L)

    given the field, the site, the direction and the accumulator stored for this link (the
    matrix Z of the Wilson flow, unit for smear4D); None stands for undefined behaviour.
    Below the rules of stout smearing and of the Wilson flow are instances.

    The work-shared loops run their iterations in an arbitrary order, given as a list; between
    two of them there is a barrier.  (Iterations of one loop write different entries, and read
    nothing another one writes.)  Iterations are not interleaved. *)
From Coq Require Import PeanoNat List Lia.
From Verif Require Import Arr MmulModel ProjModel ExpModel FieldModel.
Import ListNotations.

Definition field (L : Type) := nat -> nat -> L.
Definition putf {L} (f : field L) (i mu : nat) (v : L) : field L :=
  fun j m => if (Nat.eqb j i && Nat.eqb m mu)%bool then v else f j m.
(** a loop over a list of indices whose body may be undefined *)
Fixpoint mfor {A S} (l : list A) (f : A -> S -> option S) (s : S) : option S :=
  match l with
  | [] => Some s
  | k :: l => match f k s with None => None | Some s => mfor l f s end
  end.
(** orders of the iterations of the work-shared loops *)
Record sched := mkSched {
  o_first : list nat;          (* smear.c 263-281 / wflowfuncs.c 204-216 *)
  o_slice : nat -> list nat;   (* 288-303 / 225-233, for each time slice t *)
  o_swap  : nat -> list nat;   (* 310-328 / 240-264 *)
  o_last  : list nat }.        (* 338-354 / 272-288.  smear.c says "omp parallel for" here, inside a
                                  parallel region: every thread executes the loop, writing the same values *)

(** The update of the sites src + i, i in ord, of the field lat into dst[i] and the
    accumulators: smear.c 269-280, 290-302; wflowfuncs.c 209-215, 226-232 *)
Definition compute {L Z} (rule : field L -> nat -> nat -> Z -> option (Z * L)) (ND : nat)
    (lat : field L) (src : nat) (ord : list nat) (dst : field L) (z : field Z) : option (field L * field Z) :=
  mfor ord (fun i s => mfor (seq 0 ND) (fun mu '(dst, z) =>
    match rule lat (src + i) mu (z (src + i) mu) with
    | None => None
    | Some (zv, v) => Some (putf dst i mu v, putf z (src + i) mu zv)
    end) s) (dst, z).

(** One sweep without IMPROVED_SMEARING: smear.c 256-354, wflowfuncs.c 198-289.
    bk j is lat[j].back[ND-1]; T is Latt.dims[ND-1] (not 0). *)
Definition sweep {L Z} (rule : field L -> nat -> nat -> Z -> option (Z * L)) (ND LCU T : nat) (bk : nat -> nat)
    (sc : sched) (lat lat2 lat3 lat4 : field L) (z : field Z) : option (field L * field L * field L * field L * field Z) :=
  let back := bk 0 in
  match compute rule ND lat back (o_first sc) lat4 z with
  | None => None
  | Some (lat4, z) =>
    match mfor (seq 0 (T - 1)) (fun t '((lat, lat2, lat3, z) : field L * field L * field L * field Z) =>
      let slice := LCU * t in
      match compute rule ND lat slice (o_slice sc t) lat2 z with
      | None => None
      | Some (lat2, z) =>
          let bck := bk slice in
          let '(lat, lat3) := fold_left (fun s i => for_ ND (fun mu '((lat, lat3) : field L * field L) =>
             let lat := if Nat.eqb t 0 then lat else putf lat (bck + i) mu (lat3 i mu) in
             (lat, putf lat3 i mu (lat2 i mu))) s) (o_swap sc t) (lat, lat3) in
          Some (lat, lat2, lat3, z)
      end) (lat, lat2, lat3, z) with
    | None => None
    | Some (lat, lat2, lat3, z) =>
      let slice := LCU * (T - 1) in
      let behind := bk slice in
      let lat := fold_left (fun s i => for_ ND (fun mu lat =>
         let lat := putf lat (behind + i) mu (lat3 i mu) in
         putf lat (slice + i) mu (lat4 i mu)) s) (o_last sc) lat in
      Some (lat, lat2, lat3, lat4, z)
    end
  end.
(** With IMPROVED_SMEARING, same lines.  lat3 and lat4 hold two slices.  [off] is the offset in
    lat3 of the slice written to "behind": LCU in wflowfuncs.c 280, 0 in smear.c 346.
    For T < 2 the bound T - 2 of the loop wraps around: None. *)
Definition sweep_improved {L Z} (off : nat) (rule : field L -> nat -> nat -> Z -> option (Z * L)) (ND LCU T : nat)
    (bk : nat -> nat) (sc : sched) (lat lat2 lat3 lat4 : field L) (z : field Z)
    : option (field L * field L * field L * field L * field Z) :=
  if Nat.ltb T 2 then None else
  let back := bk (bk 0) in
  match compute rule ND lat back (o_first sc) lat4 z with
  | None => None
  | Some (lat4, z) =>
    match mfor (seq 0 (T - 2)) (fun t '((lat, lat2, lat3, z) : field L * field L * field L * field Z) =>
      let slice := LCU * t in
      match compute rule ND lat slice (o_slice sc t) lat2 z with
      | None => None
      | Some (lat2, z) =>
          let bck := bk (bk slice) in
          let '(lat, lat3) := fold_left (fun s i => for_ ND (fun mu '((lat, lat3) : field L * field L) =>
             let lat := if Nat.ltb 1 t then putf lat (bck + i) mu (lat3 i mu) else lat in
             let lat3 := putf lat3 i mu (lat3 (i + LCU) mu) in
             (lat, putf lat3 (i + LCU) mu (lat2 i mu))) s) (o_swap sc t) (lat, lat3) in
          Some (lat, lat2, lat3, z)
      end) (lat, lat2, lat3, z) with
    | None => None
    | Some (lat, lat2, lat3, z) =>
      let slice := LCU * (T - 2) in
      let behind := bk slice in
      let behind2 := bk behind in
      let lat := fold_left (fun s i => for_ ND (fun mu lat =>
         let lat := putf lat (behind2 + i) mu (lat3 i mu) in
         let lat := putf lat (behind + i) mu (lat3 (i + off) mu) in
         let lat := putf lat (slice + i) mu (lat4 i mu) in
         putf lat (slice + i + LCU) mu (lat4 (i + LCU) mu)) s) (o_last sc) lat in
      Some (lat, lat2, lat3, lat4, z)
    end
  end.
(** the memory-expensive step RK3step, wflowfuncs.c 130-183 (collapse(2): both loops shared;
    the order of the sites is arbitrary, the directions of a site in order) *)
Definition RK3step_gen {L Z} (rule : field L -> nat -> nat -> Z -> option (Z * L)) (ND : nat)
    (ord ord' : list nat) (lat lat2 : field L) (z : field Z) : option (field L * field L * field Z) :=
  match compute rule ND lat 0 ord lat2 z with
  | None => None
  | Some (lat2, z) =>
      let lat := fold_left (fun s i => for_ ND (fun mu lat => putf lat i mu (lat2 i mu)) s) ord' lat in
      Some (lat, lat2, z)
  end.
(** one sweep of smear3D, smear.c 110-135: slice by slice, without window; D = ND - 1 *)
Definition sweep3D {L Z} (rule : field L -> nat -> nat -> Z -> option (Z * L)) (D LCU T : nat)
    (ords ords' : nat -> list nat) (lat lat2 : field L) (z : field Z) : option (field L * field L * field Z) :=
  mfor (seq 0 T) (fun t '((lat, lat2, z) : field L * field L * field Z) =>
    let slice := LCU * t in
    match compute rule D lat slice (ords t) lat2 z with
    | None => None
    | Some (lat2, z) =>
        let lat := fold_left (fun s i => for_ D (fun mu lat => putf lat (slice + i) mu (lat2 i mu)) s) (ords' t) lat in
        Some (lat, lat2, z)
    end) (lat, lat2, z).

(** ** the rules *)
(** the lattice with the links of F and the navigation tables of geo *)
Definition with_links (geo : lattice) (F : field arr) : lattice := fun i => mkSite (F i) (nbr (geo i)) (bck (geo i)).
(** zero_mat, U_Nops.c 1076-1096 *)
Definition zero_mat (NC : nat) (a : arr) : arr := for_ (NC * NC) (fun i a => upd a i C0) a.
(** smear.c 270-280, 291-302 with the stout projection; junk values: stap and the
    temporaries of all_staples and smeared_link before they are written *)
Definition stout_rule (NC : nat) (alpha1 one_min_a1 : R) (junk junk1 junk2 junk3 : arr) (geo : lattice) (dir : nat)
    (F : field arr) (i mu : nat) (z : unit) : option (unit * arr) :=
  let stap := zero_mat NC junk in
  let stap := all_staples NC junk1 junk2 stap (with_links geo F) i mu dir in
  match project_STOUT NC junk3 stap (F i mu) alpha1 one_min_a1 with
  | None => None
  | Some r => Some (tt, r)
  end.

(** wflowfuncs.c.  set_zmatrix 63-85, acting on the accumulator of one link *)
Definition set_zmatrix (NC : nat) (z short_staple : arr) (multiplier : R) : arr :=
  let m := RtoC multiplier in
  match NC with
  | 3 =>
    let z := upd z 0 (z 0%nat + (m * creal (short_staple 0%nat) + Ci * m * creal (short_staple 3%nat)))%C in
    let z := upd z 1 (z 1%nat + m * short_staple 1%nat)%C in
    let z := upd z 2 (z 2%nat + m * short_staple 2%nat)%C in
    upd z 3 (z 3%nat + m * short_staple 4%nat)%C
  | 2 =>
    let z := upd z 0 (z 0%nat + m * creal (short_staple 0%nat))%C in
    upd z 1 (z 1%nat + m * short_staple 1%nat)%C
  | _ => for_ (NC * (NC + 1) / 2 - 1) (fun k z => upd z k (z k + m * short_staple k)%C) z
  end.
(** projectors.c.  project_STOUT_wflow_short 191-216 *)
Definition project_STOUT_wflow_short (NC : nat) (a b stout staple link : arr) (smear_alpha : R) : option arr :=
  let s := RtoC smear_alpha in
  let a := match NC with
    | 3 =>
      let a := upd a 0 (creal (staple 0%nat) * s)%C in
      let a := upd a 1 (staple 1%nat * s)%C in
      let a := upd a 2 (staple 2%nat * s)%C in
      let a := upd a 3 (cimag (staple 0%nat) * s)%C in
      upd a 4 (staple 3%nat * s)%C
    | 2 =>
      let a := upd a 0 (creal (staple 0%nat) * s)%C in
      upd a 1 (staple 1%nat * s)%C
    | _ => for_ (NC * (NC + 1) / 2 - 1) (fun k a => upd a k (staple k * s)%C) a
    end in
  match exponentiate_short NC b a with None => None | Some b => Some (multab_suNC NC stout b link) end.
(** flow_directions 88-127 and the body of RK3step 164-177, default case (not SM_LOG) *)
Definition flow_rule (NC : nat) (multiplier delta_t : R) (j1 j2 j3 j4 j5 j6 j7 j8 : arr) (geo : lattice) (ND : nat)
    (F : field arr) (it mu : nat) (z : arr) : option (arr * arr) :=
  let staple := zero_mat NC j1 in
  let staple := all_staples NC j2 j3 staple (with_links geo F) it mu ND in
  let temp := multab_dag NC j4 staple (F it mu) in
  let short_staple := Hermitian_proj_short NC j5 temp in
  let z := set_zmatrix NC z short_staple multiplier in
  match project_STOUT_wflow_short NC j6 j7 j8 z (F it mu) delta_t with
  | None => None
  | Some r => Some (z, r)
  end.
(** smear4D, the loop over count, smear.c 247-371 (TOP_VALUE not defined): smiters sweeps; the
    schedule of each is arbitrary *)
Fixpoint sweeps {L Z} (rule : field L -> nat -> nat -> Z -> option (Z * L)) (ND LCU T : nat) (bk : nat -> nat)
    (scs : nat -> sched) (smiters : nat) (st : field L * field L * field L * field L * field Z) :=
  match smiters with
  | 0 => Some st
  | S n => match sweeps rule ND LCU T bk scs n st with
           | None => None
           | Some (lat, lat2, lat3, lat4, z) => sweep rule ND LCU T bk (scs n) lat lat2 lat3 lat4 z
           end
  end.
Definition smear4D_stout (NC : nat) (alpha1 one_min_a1 : R) (j0 j1 j2 j3 : arr) (geo : lattice) (ND LCU T : nat)
    (scs : nat -> sched) (smiters : nat) (lat lat2 lat3 lat4 : field arr) : option (field arr) :=
  match sweeps (stout_rule NC alpha1 one_min_a1 j0 j1 j2 j3 geo ND) ND LCU T (fun j => bck (geo j) (ND - 1)) scs smiters
         (lat, lat2, lat3, lat4, fun _ _ => tt) with
  | None => None
  | Some (lat, _, _, _, _) => Some lat
  end.
