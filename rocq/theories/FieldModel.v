(** The gauge field and the operations on it: gauge transformations
    (/repo/src/Gfix/gtrans.c), plaquettes (/repo/src/Field/plaqs_links.c), Polyakov
    loops (/repo/src/Field/POLY.c), staples (/repo/src/Smear/staples.c) and the
    over-relaxed gauge fixing step (/repo/src/Gfix/Or.c).

    A [site] is struct site of Headers/GLU_types.h: ND links and the neighbour
    tables.  Arithmetic is that of the real numbers.  A local array that the C
    code leaves uninitialised is the argument [tmp].  Iterations of an OpenMP
    loop that only write to their own site are run in an arbitrary [order]. *)
From Coq Require Import PeanoNat Reals List ZArith.
From Verif Require Export Arr MmulModel MatModel Su2Model.
From Verif Require GeomModel.
Import ListNotations.
Local Open Scope C_scope.

Record site := mkSite { O : nat -> arr; nbr : nat -> nat; bck : nat -> nat }.
Definition lattice := nat -> site.
(** write the matrix a to lat[i].O[mu] *)
Definition put (lat : lattice) (i mu : nat) (a : arr) : lattice :=
  fun j => if Nat.eqb j i
           then mkSite (fun m => if Nat.eqb m mu then a else O (lat i) m) (nbr (lat i)) (bck (lat i))
           else lat j.

(** ** gtrans.c.  inline_gtransform_local, portable version, lines 127-141: b = a.b.c^dag *)
Definition gtransform_local (NC : nat) (tmp a b c : arr) : arr :=
  let temp := multab_dag_suNC NC tmp b c in
  multab_suNC NC b a temp.
(** gtransform 168-188, gtransform_th 191-211 *)
Definition gtransform (NC ND : nat) (tmp : arr) (gauge : nat -> arr) (order : list nat) (lat : lattice) : lattice :=
  fold_left (fun lat i => for_ ND (fun mu lat =>
    put lat i mu (gtransform_local NC tmp (gauge i) (O (lat i) mu) (gauge (nbr (lat i) mu)))) lat) order lat.
(** gtransform_slice 214-238, _th 241-265; the neighbour table is that of slice 0 *)
Definition gtransform_slice (NC ND LCU : nat) (tmp : arr) (gauge gauge_up : nat -> arr) (t : nat)
    (order : list nat) (lat : lattice) : lattice :=
  let slice := (LCU * t)%nat in
  fold_left (fun lat i =>
    let j := (slice + i)%nat in
    let lat := for_ (ND - 1) (fun mu lat =>
      put lat j mu (gtransform_local NC tmp (gauge i) (O (lat j) mu) (gauge (nbr (lat i) mu)))) lat in
    put lat j (ND-1) (gtransform_local NC tmp (gauge i) (O (lat j) (ND-1)%nat) (gauge_up i))) order lat.

(** ** plaqs_links.c.  complete_plaquette lines 33-201: NC = 3 portable branch 103-128.
    The portable NC = 2 branch (167-177) returns undeclared variables, so the SSE
    branch 134-163 is transcribed, with SSE2_MUL and SSE2_MUL_CONJ the complex
    products a*b and a*conj(b) (Headers/SSE2_OPS.h). *)
Definition complete_plaquette_3 (a b c d : arr) : R :=
  let tra1 := a 0%nat*b 0%nat+a 1%nat*b 3%nat+a 2%nat*b 6%nat in
  let tra2 := a 0%nat*b 1%nat+a 1%nat*b 4%nat+a 2%nat*b 7%nat in
  let tra3 := a 0%nat*b 2%nat+a 1%nat*b 5%nat+a 2%nat*b 8%nat in
  let tra := re ((tra1 * conj (c 0%nat) + tra2 * conj (c 1%nat) + tra3 * conj (c 2%nat)) * conj (d 0%nat)) in
  let tra := (tra + re ((tra1 * conj (c 3%nat) + tra2 * conj (c 4%nat) + tra3 * conj (c 5%nat)) * conj (d 1%nat)))%R in
  let tra := (tra + re ((tra1 * conj (c 6%nat) + tra2 * conj (c 7%nat) + tra3 * conj (c 8%nat)) * conj (d 2%nat)))%R in
  let tra1 := a 3%nat*b 0%nat+a 4%nat*b 3%nat+a 5%nat*b 6%nat in
  let tra2 := a 3%nat*b 1%nat+a 4%nat*b 4%nat+a 5%nat*b 7%nat in
  let tra3 := a 3%nat*b 2%nat+a 4%nat*b 5%nat+a 5%nat*b 8%nat in
  let trb := re ((tra1 * conj (c 0%nat) + tra2 * conj (c 1%nat) + tra3 * conj (c 2%nat)) * conj (d 3%nat)) in
  let trb := (trb + re ((tra1 * conj (c 3%nat) + tra2 * conj (c 4%nat) + tra3 * conj (c 5%nat)) * conj (d 4%nat)))%R in
  let trb := (trb + re ((tra1 * conj (c 6%nat) + tra2 * conj (c 7%nat) + tra3 * conj (c 8%nat)) * conj (d 5%nat)))%R in
  let tra1 := a 6%nat*b 0%nat+a 7%nat*b 3%nat+a 8%nat*b 6%nat in
  let tra2 := a 6%nat*b 1%nat+a 7%nat*b 4%nat+a 8%nat*b 7%nat in
  let tra3 := a 6%nat*b 2%nat+a 7%nat*b 5%nat+a 8%nat*b 8%nat in
  let trc := re ((tra1 * conj (c 0%nat) + tra2 * conj (c 1%nat) + tra3 * conj (c 2%nat)) * conj (d 6%nat)) in
  let trc := (trc + re ((tra1 * conj (c 3%nat) + tra2 * conj (c 4%nat) + tra3 * conj (c 5%nat)) * conj (d 7%nat)))%R in
  let trc := (trc + re ((tra1 * conj (c 6%nat) + tra2 * conj (c 7%nat) + tra3 * conj (c 8%nat)) * conj (d 8%nat)))%R in
  (tra + trb + trc)%R.
Definition complete_plaquette_2 (a b c d : arr) : R :=
  let tra1 := a 0%nat*b 0%nat+a 1%nat*b 2%nat in
  let tra2 := a 0%nat*b 1%nat+a 1%nat*b 3%nat in
  let tra3 := a 2%nat*b 0%nat+a 3%nat*b 2%nat in
  let tra4 := a 2%nat*b 1%nat+a 3%nat*b 3%nat in
  let tr := (tra1 * conj (c 0%nat) + tra2 * conj (c 1%nat)) * conj (d 0%nat) in
  let tr := tr + (tra1 * conj (c 2%nat) + tra2 * conj (c 3%nat)) * conj (d 1%nat) in
  let tr := tr + (tra3 * conj (c 0%nat) + tra4 * conj (c 1%nat)) * conj (d 2%nat) in
  let tr := tr + (tra3 * conj (c 2%nat) + tra4 * conj (c 3%nat)) * conj (d 3%nat) in
  re tr.
(** lines 196-199 *)
Definition complete_plaquette (NC : nat) (tmp a b c d : arr) : R :=
  match NC with
  | 3 => complete_plaquette_3 a b c d
  | 2 => complete_plaquette_2 a b c d
  | _ => let temp1 := multab_dag NC tmp b c in Re_trace_abc_dag_suNC NC a temp1 d
  end.
Definition face (NC : nat) (tmp : arr) (lat : lattice) (i mu nu : nat) : R :=
  let t := nbr (lat i) mu in
  let s := nbr (lat i) nu in
  complete_plaquette NC tmp (O (lat i) mu) (O (lat t) nu) (O (lat s) mu) (O (lat i) nu).
Local Open Scope R_scope.
(** all_plaquettes 204-239: ( *sp_plaq, *t_plaq, returned value ) *)
Definition all_plaquettes (NC ND LVOLUME : nat) (tmp : arr) (lat : lattice) : R * R * R :=
  let '(spplaq, tplaq) := for_ LVOLUME (fun i '(spplaq, tplaq) =>
    let p := for_ (ND - 1) (fun mu p => for_ mu (fun nu p => p + face NC tmp lat i mu nu) p) 0 in
    let spplaq := spplaq + p in
    let mu := (ND - 1)%nat in
    let p := for_ mu (fun nu p => p + face NC tmp lat i mu nu) 0 in
    let tplaq := tplaq + p in
    (spplaq, tplaq)) (0, 0) in
  let sp := 2 * spplaq / INR ((ND - 1) * (ND - 2) * NC * LVOLUME) in
  let t := 2 * tplaq / INR ((ND - 1) * (ND - 2) * NC * LVOLUME) in
  (sp, t, 1/2 * (sp + t)).
(** av_plaquette 242-264 *)
Definition av_plaquette (NC ND LVOLUME : nat) (tmp : arr) (lat : lattice) : R :=
  let plaq := for_ LVOLUME (fun i plaq =>
    plaq + for_ ND (fun mu p => for_ mu (fun nu p => p + face NC tmp lat i mu nu) p) 0) 0 in
  2 * plaq / INR (NC * ND * (ND - 1) * LVOLUME).
(** s_plaq 298-320, t_plaq 323-343 *)
Definition s_plaq (NC ND LVOLUME : nat) (tmp : arr) (lat : lattice) : R :=
  let plaq := for_ LVOLUME (fun i plaq =>
    plaq + for_ (ND-1) (fun mu p => for_ mu (fun nu p => p + face NC tmp lat i mu nu) p) 0) 0 in
  2 * plaq / INR ((ND - 1) * (ND - 2) * NC * LVOLUME).
Definition t_plaq (NC ND LVOLUME : nat) (tmp : arr) (lat : lattice) : R :=
  let mu := (ND - 1)%nat in
  let plaq := for_ LVOLUME (fun i plaq =>
    plaq + for_ mu (fun nu p => p + face NC tmp lat i mu nu) 0) 0 in
  2 * plaq / INR ((ND - 1) * (ND - 2) * NC * LVOLUME).
Local Open Scope C_scope.

(** ** POLY.c.  small_poly 37-52, state (poly, next) *)
Definition small_poly (NC : nat) (poly : arr) (lat : lattice) (site dir length : nat) : arr :=
  fst (for_ (length - 1) (fun _ '(poly, next) =>
    let next := nbr (lat next) dir in
    (multab_atomic_right NC poly (O (lat next) dir), next)) (equiv NC poly (O (lat site) dir), site)).
(** poly 55-78; dims is Latt.dims.  For dir >= ND the code reads Latt.dims[ND]
    (out of bounds): None *)
Fixpoint subvol (dims : list Z) (i dir : nat) : Z :=
  match dims with
  | [] => 1%Z
  | L :: ds => ((if Nat.eqb i dir then 1 else L) * subvol ds (S i) dir)%Z
  end.
Definition poly_site (dims : list Z) (i dir : nat) : option nat :=
  match GeomModel.get_mom_2piBZ dims (Z.of_nat i) dir with
  | Some x => match GeomModel.gen_site dims x with Some k => Some (Z.to_nat k) | None => None end
  | None => None
  end.
Definition poly (NC : nat) (dims : list Z) (tmp : arr) (lat : lattice) (dir : nat) : option C :=
  match nth_error dims dir with
  | None => None
  | Some L =>
      let subvolume := Z.to_nat (subvol dims 0 dir) in
      match for_ subvolume (fun i s => match s with
        | None => None
        | Some sum => match poly_site dims i dir with
           | None => None
           | Some k => Some (sum + trace NC (small_poly NC tmp lat k dir (Z.to_nat L)))
           end end) (Some C0) with
      | None => None
      | Some sum => Some (Cdiv sum (RtoC (INR subvolume)))
      end
  end.

(** ** staples.c.  all_staples 31-82, the default case (the SM_LOG case takes
    logarithms and is not modelled) *)
Definition all_staples (NC : nat) (tmp1 tmp2 stap : arr) (lat : lattice) (i mu dir : nat) : arr :=
  fst (fst (for_ (dir - 1) (fun j '(stap, a, b) =>
    let nu := if Nat.ltb j mu then j else S j in
    let t1 := nbr (lat i) nu in
    let t2 := nbr (lat i) mu in
    let b1 := bck (lat i) nu in
    let b2 := nbr (lat b1) mu in
    let a := multab_suNC NC a (O (lat i) nu) (O (lat t1) mu) in
    let b := multab_dag_suNC NC b a (O (lat t2) nu) in
    let stap := a_plus_b NC stap b in
    let a := multabdag_suNC NC a (O (lat b1) nu) (O (lat b1) mu) in
    let b := multab_suNC NC b a (O (lat b2) nu) in
    (a_plus_b NC stap b, a, b)) (stap, tmp1, tmp2))).

(** ** Or.c.  OrRotation 37-54.  None when it divides by zero *)
Definition OrRotation (s0 s1 : C) (OrParam : R) : option (C * C) :=
  let asq := (im s0 * im s0 + re s1 * re s1 + im s1 * im s1)%R in
  let a0sq := (re s0 * re s0)%R in
  if Req_EM_T (a0sq + asq) 0 then None else
  let x := ((OrParam * a0sq + asq) / (a0sq + asq))%R in
  let r := sqrt (a0sq + x*x*asq) in
  if Req_EM_T r 0 then None else
  let xdr := (x / r)%R in
  Some ((re s0 / r, im s0 * xdr)%R, s1 * RtoC xdr).
(** OR_single 57-129.  The random number of line 103 is [rng]; the SOR branch
    (line 34 defines SOR) is transcribed.  The entry positions of lines 65-79: *)
Definition or_idx1 (NC idx : nat) : nat := (idx / NC + (idx mod NC) * NC)%nat.
Definition or_idx2 (NC idx : nat) : nat := (idx mod NC + (idx / NC) * NC)%nat.
Definition or_sums (NC su2_index i DIMS : nat) (lat : lattice) : C * C :=
  let '(ia, ib, ic, id) := su2_data NC su2_index in
  for_ DIMS (fun mu '(s0, s1) =>
    let back := bck (lat i) mu in
    (s0 + (conj (O (lat i) mu (or_idx1 NC ia)) + O (lat i) mu (or_idx1 NC id)
         + O (lat back) mu (or_idx2 NC ia) + conj (O (lat back) mu (or_idx2 NC id))),
     s1 + (conj (O (lat i) mu (or_idx1 NC ib)) - O (lat i) mu (or_idx1 NC ic)
         + O (lat back) mu (or_idx2 NC ib) - conj (O (lat back) mu (or_idx2 NC ic))))) (C0, C0).
Definition or_rotation (s0 s1 : C) (rng OrParam : R) : option (C * C) :=
  if Rlt_dec rng OrParam then OrRotation s0 s1 2
  else
    let d := (re s0 * re s0 + im s0 * im s0 + re s1 * re s1 + im s1 * im s1)%R in
    if Req_EM_T d 0 then None else
    let NORM := (1 / sqrt d)%R in
    Some (s0 * RtoC NORM, s1 * RtoC NORM).
Definition OR_single (NC ND : nat) (lat : lattice) (su2_index : nat) (OrParam : R) (i DIMS : nat) (rng : R) : option lattice :=
  let '(s0, s1) := or_sums NC su2_index i DIMS lat in
  match or_rotation s0 s1 rng OrParam with
  | None => None
  | Some (s0, s1) =>
      Some (for_ ND (fun mu lat =>
        let back := bck (lat i) mu in
        let lat := put lat i mu (shortened_su2_multiply NC (O (lat i) mu) s0 s1 su2_index) in
        put lat back mu (shortened_su2_multiply_dag NC (O (lat back) mu) s0 s1 su2_index)) lat)
  end.
(** any sequence of calls: (su2_index, site, random number).  OR_iteration_th 132-150
    visits the sites of one colour after the other. *)
Fixpoint OR_steps (NC ND : nat) (OrParam : R) (DIMS : nat) (steps : list (nat * nat * R)) (lat : lattice) : option lattice :=
  match steps with
  | [] => Some lat
  | (su2_index, i, rng) :: rest =>
      match OR_single NC ND lat su2_index OrParam i DIMS rng with
      | None => None
      | Some lat => OR_steps NC ND OrParam DIMS rest lat
      end
  end.

(** ** init.c lines 29-43, init_navig: the neighbour tables of a field with links [links] *)
Definition init_navig (dims : list Z) (links : nat -> nat -> arr) : lattice := fun i =>
  let tab (o : option Z) := match o with Some z => Z.to_nat z | None => 0%nat end in
  mkSite (links i) (fun mu => tab (GeomModel.neighbor dims (Z.of_nat i) mu)) (fun mu => tab (GeomModel.back dims (Z.of_nat i) mu)).
