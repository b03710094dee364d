(** Hypercubic smearing (HYP, HEX): HYPSLsmear4D_expensive (Smear/4D_fast.c), HYsmearND
    (Smear/ND_generic_HYP.c), HYPSLsmear3D (Smear/HYP.c).

    The projection is a parameter  project smeared_link staple link smear_alpha al, None for
    undefined behaviour; project_APE and project_STOUT are the instances used (SM_LOG, with
    exact_log_slow, is not modelled).  The macros alpha1 .. one_min_a3 are those of
    GLU_definitions.h 523-528 (CHROMA_APE is not defined).  TOP_VALUE is not defined.  The
    allocations succeed.  Local matrices written before they are read start with arbitrary
    contents, junk k. *)
From Coq Require Import PeanoNat List Reals Lia.
From Verif Require Import Cplx Arr MmulModel MatModel ProjModel ExpModel FieldModel SmearModel.
Import ListNotations.

Definition projection := arr -> arr -> arr -> R -> R -> option arr.

(** The two staples of a link of the field B, in direction mu, with sides of the field A, in
    direction nu.  The same products are written out in 4D_fast.c 56-59 and 65-68, 128-131 and
    140-143, 183-186 and 194-197; HYP.c 63-66 and 73-76, 120-123 and 130-133;
    ND_generic_HYP.c 102-105 and 114-117. *)
Definition upper (NC : nat) (junk : nat -> arr) (geo : lattice) (A B : nat -> arr) (i mu nu : nat) : arr :=
  let temp := nbr (geo i) nu in
  let a := multab_suNC NC (junk 0) (A i) (B temp) in
  let temp := nbr (geo i) mu in
  multab_dag_suNC NC (junk 1) a (A temp).
Definition lower (NC : nat) (junk : nat -> arr) (geo : lattice) (A B : nat -> arr) (i mu nu : nat) : arr :=
  let temp := bck (geo i) nu in
  let a := multabdag_suNC NC (junk 0) (A temp) (B temp) in
  let temp := nbr (geo temp) mu in
  multab_suNC NC (junk 1) a (A temp).
(** the pairs (mu,nu), nu <> mu, in the order of the two nested loops over D directions *)
Definition dirs2 (D : nat) : list (nat * nat) :=
  flat_map (fun mu => map (pair mu) (filter (fun nu => negb (Nat.eqb nu mu)) (seq 0 D))) (seq 0 D).
(** 4D_fast.c 121-125, 176-180; HYP.c 114-118: where the link mu fattened in nu is stored *)
Definition step (D mu nu : nat) : nat :=
  let jj := ((D - 1) * mu + nu)%nat in
  if Nat.ltb mu nu then (jj - 1)%nat else jj.

Section Hyp.
Variable project : projection.
Variable NC : nat.
Variable junk : nat -> arr.
Variable geo : lattice.

(** get_lv1 (4D_fast.c 35-82; D = 4, src = 0, the iterations being the sites of the lattice)
    and get_spatial_lv1 (HYP.c 37-88; D = 3, src = LCU*t, the iterations being the sites of a
    slice).  lev1[i].O[j], link fattened in one other direction; order: the order of the
    iterations of the work-shared loop. *)
Definition get_lv1 (D src : nat) (alpha one_min : R) (order : list nat) (lat lev1 : field arr) : option (field arr) :=
  mfor order (fun i lev1 =>
    match mfor (dirs2 D) (fun '(mu, nu) '((lev1, j) : field arr * nat) =>
      let b := upper NC junk geo (fun s => lat s nu) (fun s => lat s mu) (src + i) mu nu in
      let c := lower NC junk geo (fun s => lat s nu) (fun s => lat s mu) (src + i) mu nu in
      let b := a_plus_b NC b c in
      match project (lev1 i j) b (lat (src + i) mu) alpha one_min with
      | None => None
      | Some r => Some (putf lev1 i j r, S j)
      end) (lev1, 0) with
    | None => None
    | Some (lev1, _) => Some lev1
    end) lev1.

(** 4D_fast.c 115-119; sigma keeps its last value over the iterations, here it starts at 0:
    with four directions there is always one that is different from mu, nu, rho *)
Definition fourth (mu nu rho : nat) : nat :=
  fold_left (fun sigma jj => if (negb (Nat.eqb jj mu) && negb (Nat.eqb jj nu) && negb (Nat.eqb jj rho))%bool then jj else sigma)
    (seq 0 4) 0.
(** get_lv2, 4D_fast.c 85-160 *)
Definition lv2_staples (lev1 : field arr) (i mu nu : nat) : arr :=
  let stap := MatModel.zero_mat NC (junk 2) in
  fold_left (fun stap rho =>
    if (Nat.eqb rho mu || Nat.eqb rho nu)%bool then stap else
    let sigma := fourth mu nu rho in
    let jj := step 4 mu sigma in
    let kk := step 4 rho sigma in
    let stap := a_plus_b NC stap (upper NC junk geo (fun s => lev1 s kk) (fun s => lev1 s jj) i mu rho) in
    a_plus_b NC stap (lower NC junk geo (fun s => lev1 s kk) (fun s => lev1 s jj) i mu rho)) (seq 0 4) stap.
Definition get_lv2 (alpha2 one_min_a2 : R) (order : list nat) (lat lev1 lev2 : field arr) : option (field arr) :=
  mfor order (fun i lev2 =>
    match mfor (dirs2 4) (fun '(mu, nu) '((lev2, ii) : field arr * nat) =>
      match project (lev2 i ii) (lv2_staples lev1 i mu nu) (lat i mu) alpha2 one_min_a2 with
      | None => None
      | Some r => Some (putf lev2 i ii r, S ii)
      end) (lev2, 0) with
    | None => None
    | Some (lev2, _) => Some lev2
    end) lev2.

(** gen_staples_4D, 4D_fast.c 163-206, on stap = 0 *)
Definition gen_staples_4D (lev2 : field arr) (i mu : nat) : arr :=
  let stap := MatModel.zero_mat NC (junk 2) in
  fold_left (fun stap nu =>
    if Nat.eqb mu nu then stap else
    let jj := step 4 mu nu in
    let kk := step 4 nu mu in
    let stap := a_plus_b NC stap (upper NC junk geo (fun s => lev2 s kk) (fun s => lev2 s jj) i mu nu) in
    a_plus_b NC stap (lower NC junk geo (fun s => lev2 s kk) (fun s => lev2 s jj) i mu nu)) (seq 0 4) stap.

(** the links of a site at the last level: 4D_fast.c 299-304, 318-323; HYP.c 217-222.  The
    contents of dst[i].O[mu] before project writes to it: junk 3 *)
Definition last_level (stap : nat -> nat -> arr) (alpha1 one_min_a1 : R) (i it : nat) (lat dst : field arr) (D : nat) : option (field arr) :=
  mfor (seq 0 D) (fun mu dst =>
    match project (junk 3) (stap it mu) (lat it mu) alpha1 one_min_a1 with
    | None => None
    | Some r => Some (putf dst i mu r)
    end) dst.

(** orders of the work-shared loops of one sweep of HYPSLsmear4D_expensive *)
Record hsched := mkH { h_lv1 : list nat; h_lv2 : list nat; h_first : list nat; h_slice : nat -> list nat; h_last : list nat }.
(** one sweep, 4D_fast.c 291-348.  sm: Latt.sm_alpha.  state: lat, lev1, lev2, lat2, lat3, lat4 *)
Definition hyp4D_sweep (sm : nat -> R) (LCU T : nat) (sc : hsched)
    (st : field arr * field arr * field arr * field arr * field arr * field arr) :
    option (field arr * field arr * field arr * field arr * field arr * field arr) :=
  let '(lat, lev1, lev2, lat2, lat3, lat4) := st in
  let bk j := bck (geo j) 3 in
  let alpha1 := (sm 0%nat / 6)%R in let alpha2 := (sm 1%nat / 4)%R in let alpha3 := (sm 2%nat * (1/2))%R in
  let one_min_a1 := (1 - sm 0%nat)%R in let one_min_a2 := (1 - sm 1%nat)%R in let one_min_a3 := (1 - sm 2%nat)%R in
  match get_lv1 4 0 alpha3 one_min_a3 (h_lv1 sc) lat lev1 with None => None | Some lev1 =>
  match get_lv2 alpha2 one_min_a2 (h_lv2 sc) lat lev1 lev2 with None => None | Some lev2 =>
  match mfor (h_first sc) (fun i lat4 => last_level (gen_staples_4D lev2) alpha1 one_min_a1 i (bk 0 + i) lat lat4 4) lat4 with
  | None => None | Some lat4 =>
  match mfor (seq 0 (T - 1)) (fun t '((lat, lat2, lat3) : field arr * field arr * field arr) =>
      let slice := LCU * t in
      let bck := bk slice in
      mfor (h_slice sc t) (fun i '((lat, lat2, lat3) : field arr * field arr * field arr) =>
        match last_level (gen_staples_4D lev2) alpha1 one_min_a1 i (slice + i) lat lat2 4 with
        | None => None
        | Some lat2 =>
            let '(lat, lat3) := for_ 4 (fun mu '((lat, lat3) : field arr * field arr) =>
               let lat := if Nat.eqb t 0 then lat else putf lat (bck + i) mu (lat3 i mu) in
               (lat, putf lat3 i mu (lat2 i mu))) (lat, lat3) in
            Some (lat, lat2, lat3)
        end) (lat, lat2, lat3)) (lat, lat2, lat3) with
  | None => None
  | Some (lat, lat2, lat3) =>
      let slice := LCU * (T - 1) in
      let behind := bk slice in
      let lat := fold_left (fun s i => for_ 4 (fun mu lat =>
         let lat := putf lat (behind + i) mu (lat3 i mu) in
         putf lat (slice + i) mu (lat4 i mu)) s) (h_last sc) lat in
      Some (lat, lev1, lev2, lat2, lat3, lat4)
  end end end end.
(** smiters sweeps, 4D_fast.c 278-375 *)
Fixpoint hyp4D_sweeps (sm : nat -> R) (LCU T : nat) (scs : nat -> hsched) (k : nat)
    (st : field arr * field arr * field arr * field arr * field arr * field arr) :
    option (field arr * field arr * field arr * field arr * field arr * field arr) :=
  match k with
  | 0 => Some st
  | S k => match hyp4D_sweeps sm LCU T scs k st with None => None | Some st => hyp4D_sweep sm LCU T (scs k) st end
  end.
Definition HYPSLsmear4D_expensive (sm : nat -> R) (LCU T : nat) (scs : nat -> hsched) (smiters : nat)
    (lat lev1 lev2 lat2 lat3 lat4 : field arr) : option (field arr) :=
  match hyp4D_sweeps sm LCU T scs smiters (lat, lev1, lev2, lat2, lat3, lat4) with
  | None => None
  | Some (lat, _, _, _, _, _) => Some lat
  end.

(** HYPSLsmear3D, HYP.c 144-266: staples3D 90-141, one sweep 206-230.  lev1 holds one slice: its
    entries are found with the neighbours of the sites of slice 0. *)
Definition third (mu nu : nat) : nat :=
  fold_left (fun rho jj => if (negb (Nat.eqb jj mu) && negb (Nat.eqb jj nu))%bool then jj else rho) (seq 0 3) 0.
Definition staples3D (lev1 : field arr) (i mu : nat) : arr :=
  let stap := MatModel.zero_mat NC (junk 2) in
  fold_left (fun stap nu =>
    if Nat.eqb nu mu then stap else
    let rho := third mu nu in
    let jj := step 3 mu rho in
    let kk := step 3 nu rho in
    let stap := a_plus_b NC stap (upper NC junk geo (fun s => lev1 s kk) (fun s => lev1 s jj) i mu nu) in
    a_plus_b NC stap (lower NC junk geo (fun s => lev1 s kk) (fun s => lev1 s jj) i mu nu)) (seq 0 3) stap.
Definition hyp3D_sweep (sm : nat -> R) (LCU T : nat) (ord1 ord2 : nat -> list nat)
    (st : field arr * field arr * field arr) : option (field arr * field arr * field arr) :=
  mfor (seq 0 T) (fun t '((lat, lev1, lat2) : field arr * field arr * field arr) =>
    let slice := LCU * t in
    match get_lv1 3 slice (sm 1%nat / 4)%R (1 - sm 1%nat)%R (ord1 t) lat lev1 with
    | None => None
    | Some lev1 =>
      match mfor (ord2 t) (fun i '((lat, lat2) : field arr * field arr) =>
          match last_level (fun it mu => staples3D lev1 i mu) (sm 0%nat / 6)%R (1 - sm 0%nat)%R i (slice + i) lat lat2 3 with
          | None => None
          | Some lat2 => Some (for_ 3 (fun mu lat => putf lat (slice + i) mu (lat2 i mu)) lat, lat2)
          end) (lat, lat2) with
      | None => None
      | Some (lat, lat2) => Some (lat, lev1, lat2)
      end
    end) st.
Fixpoint hyp3D_sweeps (sm : nat -> R) (LCU T : nat) (ord1 ord2 : nat -> nat -> list nat) (k : nat)
    (st : field arr * field arr * field arr) : option (field arr * field arr * field arr) :=
  match k with
  | 0 => Some st
  | S k => match hyp3D_sweeps sm LCU T ord1 ord2 k st with None => None | Some st => hyp3D_sweep sm LCU T (ord1 k) (ord2 k) st end
  end.
Definition HYPSLsmear3D (sm : nat -> R) (LCU T : nat) (ord1 ord2 : nat -> nat -> list nat) (smiters : nat)
    (lat lev1 lat2 : field arr) : option (field arr) :=
  match hyp3D_sweeps sm LCU T ord1 ord2 smiters (lat, lev1, lat2) with
  | None => None
  | Some (lat, _, _) => Some lat
  end.

(** ND_generic_HYP.c.  init_smearing_alphas 39-57, ND >= 3, entries 1 .. MAXDIR-1 *)
Definition smear_alphas (ND : nat) (sm : nat -> R) (k : nat) : R :=
  let mu := (k - 1)%nat in (sm mu / INR ((ND - mu - 1) * (ND - 2)))%R.
Definition one_minus_smalpha (sm : nat -> R) (k : nat) : R := (1 - sm (k - 1)%nat)%R.
(** is_orthogonal 60-72 *)
Definition is_orthogonal (jj : nat) (list_dirs : list nat) : bool := negb (existsb (fun d => Nat.eqb d jj) list_dirs).
(** recurse_staples 74-187.  list_dirs has MAXDIR - lev entries.  The link written to is the
    result; its previous contents junk 3 *)
Fixpoint recurse_staples (ND : nat) (sm : nat -> R) (lat : field arr) (lev MAXDIR : nat) (i : nat) (list_dirs : list nat) : option arr :=
  match lev with
  | 0 => None
  | S lev' =>
    let rho := last list_dirs 0 in
    let stap := MatModel.zero_mat NC (junk 2) in
    match
      match lev' with
      | 0 => Some (fold_left (fun stap jj =>
          if is_orthogonal jj list_dirs then
            let stap := a_plus_b NC stap (upper NC junk geo (fun s => lat s jj) (fun s => lat s rho) i rho jj) in
            a_plus_b NC stap (lower NC junk geo (fun s => lat s jj) (fun s => lat s rho) i rho jj)
          else stap) (seq 0 MAXDIR) stap)
      | S _ => mfor (seq 0 MAXDIR) (fun jj stap =>
          if is_orthogonal jj list_dirs then
            let new_list_dirs := list_dirs ++ [jj] in
            let orthogonal_dirs := removelast list_dirs ++ [jj; rho] in
            let dir := nbr (geo i) jj in
            match recurse_staples ND sm lat lev' MAXDIR i new_list_dirs with None => None | Some temp =>
            match recurse_staples ND sm lat lev' MAXDIR dir orthogonal_dirs with None => None | Some temp2 =>
            let a := multab_suNC NC (junk 0) temp temp2 in
            let dir := nbr (geo i) rho in
            match recurse_staples ND sm lat lev' MAXDIR dir new_list_dirs with None => None | Some temp =>
            let b := multab_dag_suNC NC (junk 1) a temp in
            let stap := a_plus_b NC stap b in
            let dir := bck (geo i) jj in
            match recurse_staples ND sm lat lev' MAXDIR dir new_list_dirs with None => None | Some temp =>
            match recurse_staples ND sm lat lev' MAXDIR dir orthogonal_dirs with None => None | Some temp2 =>
            let a := multabdag_suNC NC (junk 0) temp temp2 in
            let dir := nbr (geo dir) rho in
            match recurse_staples ND sm lat lev' MAXDIR dir new_list_dirs with None => None | Some temp =>
            let b := multab_suNC NC (junk 1) a temp in
            Some (a_plus_b NC stap b)
            end end end end end end
          else Some stap) stap
      end with
    | None => None
    | Some stap => project (junk 3) stap (lat i rho) (smear_alphas ND sm (length list_dirs)) (one_minus_smalpha sm (length list_dirs))
    end
  end.
(** HYsmearND 189-345: the window of smear4D (SmearModel.sweep) with this rule.  directions =
    MAXDIR; lev = directions - 1, so that list_dirs has one entry. *)
Definition hynd_rule (ND : nat) (sm : nat -> R) (directions : nat) (lat : field arr) (i mu : nat) (z : unit) : option (unit * arr) :=
  match recurse_staples ND sm lat (directions - 1) directions i [mu] with
  | None => None
  | Some r => Some (tt, r)
  end.
Definition HYsmearND (ND : nat) (sm : nat -> R) (directions LCU T : nat) (scs : nat -> sched) (smiters : nat)
    (lat lat2 lat3 lat4 : field arr) : option (field arr) :=
  match sweeps (hynd_rule ND sm directions) directions LCU T (fun j => bck (geo j) (ND - 1)) scs smiters (lat, lat2, lat3, lat4, fun _ _ => tt) with
  | None => None
  | Some (lat, _, _, _, _) => Some lat
  end.
End Hyp.
