(** Axial gauges and the projection to SU(N) by trace maximisation:
    /repo/src/Gfix/MAG.c, /repo/src/Matrix_Ops/givens.c, latt_reunitU of
    /repo/src/Geometry/random_config.c.

    Modelled: gauge_set, MAG_fix, axial_gauge, mag and residual_fix (without
    HERM_PROJ, which nothing defines), givens_reunit with GIVE_PRECOND (which
    givens.c defines) and its portable rotations.  Not modelled: OBC_HACK,
    single precision, and the failure of an allocation.  Malloced memory has
    arbitrary contents [mem]; an uninitialised local array is the argument [tmp].
    The iterations of an OpenMP loop are run one after the other in an arbitrary
    order.  A division by zero is the outcome None. *)
From Coq Require Import PeanoNat Reals List ZArith.
From Verif Require Export Arr MmulModel MatModel Su2Model GramModel FieldModel.
Import ListNotations.
Local Open Scope C_scope.

(** ** random_config.c.  latt_reunitU 42-57 *)
Definition latt_reunitU (NC ND : nat) (order : list nat) (lat : lattice) : lattice :=
  fold_left (fun lat i => for_ ND (fun mu lat => put lat i mu (gram_reunit NC (O (lat i) mu))) lat) order lat.

(** ** MAG.c *)
Definition gset (gauge : nat -> arr) (i : nat) (a : arr) : nat -> arr := fun j => if Nat.eqb j i then a else gauge j.
(** gauge_set 37-56, L is Latt.dims[mu]; state (gauge, left, next) *)
Definition gauge_set (NC L : nat) (lat : lattice) (mu i : nat) (gauge : nat -> arr) : nat -> arr :=
  let left := i in
  let next := nbr (lat i) mu in
  let gauge := gset gauge i (identity NC (gauge i)) in
  fst (fst (for_ (L - 1) (fun _ '(gauge, left, next) =>
    let gauge := gset gauge next (multab_suNC NC (gauge next) (gauge left) (O (lat left) mu)) in
    let left := next in
    let next := nbr (lat left) mu in
    (gauge, left, next)) (gauge, left, next))).
(** lines 73-77, 121-125: every matrix is set to the identity *)
Definition fresh_gauge (NC : nat) (mem : nat -> arr) : nat -> arr := fun i => identity NC (mem i).
(** MAG_fix 59-102: state (lat, gauge, subvol).  [sets mu] and [trans mu] are the
    orders of the loops over the sites *)
Definition MAG_fix (NC : nat) (dims : list nat) (tmp : arr) (mem : nat -> arr) (sets trans : nat -> list nat) (lat : lattice) : lattice :=
  let ND := length dims in
  fst (fst (for_ ND (fun mu '(lat, gauge, subvol) =>
    let gauge := fold_left (fun gauge i => gauge_set NC (nth mu dims 0) lat mu i gauge) (filter (fun i => Nat.ltb i subvol) (sets mu)) gauge in
    let lat := gtransform NC ND tmp gauge (trans mu) lat in
    (lat, gauge, (subvol * nth mu dims 0)%nat)) (lat, fresh_gauge NC mem, 1%nat))).
(** mag 157-165 *)
Definition mag (NC : nat) (dims : list nat) (tmp : arr) (mem : nat -> arr) (o1 o2 : list nat) (sets trans : nat -> list nat) (lat : lattice) : lattice :=
  let ND := length dims in
  let lat := latt_reunitU NC ND o1 lat in
  let lat := MAG_fix NC dims tmp mem sets trans lat in
  latt_reunitU NC ND o2 lat.
(** axial_gauge 105-154.  The starting sites of lines 127-135 are computed as in
    POLY.c: [poly_site] and [subvol].  k is None for a site outside the lattice *)
Definition axial_gauge (NC : nat) (dims : list Z) (tmp : arr) (mem : nat -> arr) (DIR : nat) (o1 o2 sets trans : list nat) (lat : lattice) : option lattice :=
  let ND := length dims in
  let lat := latt_reunitU NC ND o1 lat in
  match fold_left (fun gauge i => match gauge, nth_error dims DIR, poly_site dims i DIR with
      | Some gauge, Some L, Some k => Some (gauge_set NC (Z.to_nat L) lat DIR k gauge)
      | _, _, _ => None
      end) (filter (fun i => Nat.ltb i (Z.to_nat (subvol dims 0 DIR))) sets) (Some (fresh_gauge NC mem)) with
  | None => None
  | Some gauge =>
      let lat := gtransform NC ND tmp gauge trans lat in
      Some (latt_reunitU NC ND o2 lat)
  end.

(** ** givens.c.  The SU(2) element of lines 230-235, 278-283, 327-332, 379-385, 478-483 *)
Definition givens_su2 (s0 s1 : C) : option (C * C) :=
  let d := (re s0 * re s0 + im s0 * im s0 + re s1 * re s1 + im s1 * im s1)%R in
  if Req_EM_T d 0 then None else
  let scale := (1 / sqrt d)%R in
  Some (s0 * RtoC scale, s1 * RtoC scale).
(** rotation1 226-266 *)
Definition rotation1 (U w : arr) : option (arr * arr) :=
  match givens_su2 (U 0%nat + conj (U 4%nat)) (U 1%nat - conj (U 3%nat)) with
  | None => None
  | Some (s0, s1) =>
    let s0_star := conj s0 in
    let s1_star := conj s1 in
    let tmp0 := s0 * w 0%nat + s1 * w 3%nat in
    let tmp1 := s0 * w 1%nat + s1 * w 4%nat in
    let tmp2 := s0 * w 2%nat + s1 * w 5%nat in
    let tmp3 := - s1_star * w 0%nat + s0_star * w 3%nat in
    let tmp4 := - s1_star * w 1%nat + s0_star * w 4%nat in
    let tmp5 := - s1_star * w 2%nat + s0_star * w 5%nat in
    let w := upd w 0 tmp0 in let w := upd w 1 tmp1 in let w := upd w 2 tmp2 in
    let w := upd w 3 tmp3 in let w := upd w 4 tmp4 in let w := upd w 5 tmp5 in
    let tmp0 := U 0%nat * s0_star + U 1%nat * s1_star in
    let tmp1 := - U 0%nat * s1 + U 1%nat * s0 in
    let tmp2 := U 3%nat * s0_star + U 4%nat * s1_star in
    let tmp3 := - U 3%nat * s1 + U 4%nat * s0 in
    let tmp4 := U 6%nat * s0_star + U 7%nat * s1_star in
    let tmp5 := - U 6%nat * s1 + U 7%nat * s0 in
    let U := upd U 0 tmp0 in let U := upd U 1 tmp1 in let U := upd U 3 tmp2 in
    let U := upd U 4 tmp3 in let U := upd U 6 tmp4 in let U := upd U 7 tmp5 in
    Some (U, w)
  end.
(** rotation2 274-315 *)
Definition rotation2 (U w : arr) : option (arr * arr) :=
  match givens_su2 (U 4%nat + conj (U 8%nat)) (U 5%nat - conj (U 7%nat)) with
  | None => None
  | Some (s0, s1) =>
    let s0_star := conj s0 in
    let s1_star := conj s1 in
    let tmp0 := s0 * w 3%nat + s1 * w 6%nat in
    let tmp1 := s0 * w 4%nat + s1 * w 7%nat in
    let tmp2 := s0 * w 5%nat + s1 * w 8%nat in
    let tmp3 := - s1_star * w 3%nat + s0_star * w 6%nat in
    let tmp4 := - s1_star * w 4%nat + s0_star * w 7%nat in
    let tmp5 := - s1_star * w 5%nat + s0_star * w 8%nat in
    let w := upd w 3 tmp0 in let w := upd w 4 tmp1 in let w := upd w 5 tmp2 in
    let w := upd w 6 tmp3 in let w := upd w 7 tmp4 in let w := upd w 8 tmp5 in
    let tmp0 := U 1%nat * s0_star + U 2%nat * s1_star in
    let tmp1 := - U 1%nat * s1 + U 2%nat * s0 in
    let tmp2 := U 4%nat * s0_star + U 5%nat * s1_star in
    let tmp3 := - U 4%nat * s1 + U 5%nat * s0 in
    let tmp4 := U 7%nat * s0_star + U 8%nat * s1_star in
    let tmp5 := - U 7%nat * s1 + U 8%nat * s0 in
    let U := upd U 1 tmp0 in let U := upd U 2 tmp1 in let U := upd U 4 tmp2 in
    let U := upd U 5 tmp3 in let U := upd U 7 tmp4 in let U := upd U 8 tmp5 in
    Some (U, w)
  end.
(** rotation3 323-362 *)
Definition rotation3 (U w : arr) : option (arr * arr) :=
  match givens_su2 (U 8%nat + conj (U 0%nat)) (U 6%nat - conj (U 2%nat)) with
  | None => None
  | Some (s0, s1) =>
    let s0_star := conj s0 in
    let s1_star := conj s1 in
    let tmp0 := s0_star * w 0%nat - s1_star * w 6%nat in
    let tmp1 := s0_star * w 1%nat - s1_star * w 7%nat in
    let tmp2 := s0_star * w 2%nat - s1_star * w 8%nat in
    let tmp3 := s1 * w 0%nat + s0 * w 6%nat in
    let tmp4 := s1 * w 1%nat + s0 * w 7%nat in
    let tmp5 := s1 * w 2%nat + s0 * w 8%nat in
    let w := upd w 0 tmp0 in let w := upd w 1 tmp1 in let w := upd w 2 tmp2 in
    let w := upd w 6 tmp3 in let w := upd w 7 tmp4 in let w := upd w 8 tmp5 in
    let tmp0 := U 0%nat * s0 - U 2%nat * s1 in
    let tmp1 := U 0%nat * s1_star + U 2%nat * s0_star in
    let tmp2 := U 3%nat * s0 - U 5%nat * s1 in
    let tmp3 := U 3%nat * s1_star + U 5%nat * s0_star in
    let tmp4 := U 6%nat * s0 - U 8%nat * s1 in
    let tmp5 := U 6%nat * s1_star + U 8%nat * s0_star in
    let U := upd U 0 tmp0 in let U := upd U 2 tmp1 in let U := upd U 3 tmp2 in
    let U := upd U 5 tmp3 in let U := upd U 6 tmp4 in let U := upd U 8 tmp5 in
    Some (U, w)
  end.
(** rotation, NC > 3, 368-396 *)
Definition rotation_n (NC : nat) (su2_index : nat) (U w : arr) : option (arr * arr) :=
  let '(a, b, c, d) := su2_data NC su2_index in
  match givens_su2 (U a + conj (U d)) (U b - conj (U c)) with
  | None => None
  | Some (s0, s1) =>
      let w := shortened_su2_multiply NC w s0 s1 su2_index in
      let U := shortened_su2_multiply_dag NC U s0 s1 su2_index in
      Some (U, w)
  end.
(** one turn of the loop, lines 465-473 and 497-502 *)
Fixpoint rotations (rs : list (arr -> arr -> option (arr * arr))) (U w : arr) : option (arr * arr) :=
  match rs with
  | [] => Some (U, w)
  | r :: rs => match r U w with Some (U, w) => rotations rs U w | None => None end
  end.
Definition sweep (NC : nat) : list (arr -> arr -> option (arr * arr)) :=
  match NC with
  | 3 => [rotation1; rotation2; rotation3]
  | _ => map (rotation_n NC) (seq 0 (NSU2SUBGROUPS NC))
  end.
(** the loop 463-509: [tol] is PREC_TOL; the quotient by a vanishing trace is
    infinite or NaN, and the comparison false *)
Fixpoint givens_loop (NC : nat) (tol : R) (fuel : nat) (trace_old : R) (U w : arr) : option arr :=
  match fuel with
  | 0 => Some w
  | S fuel =>
      match rotations (sweep NC) U w with
      | None => None
      | Some (U, w) =>
          let trace_new := speed_trace_Re NC U in
          if Req_EM_T trace_new 0 then givens_loop NC tol fuel trace_new U w else
          if Rlt_dec (Rabs (trace_new - trace_old) / trace_new) tol then Some w
          else givens_loop NC tol fuel trace_new U w
      end
  end.
(** givens_reunit 429-513.  For NC = 2 the loop is left in its first turn (lines 475-493) *)
Definition givens_reunit (NC : nat) (tol : R) (tmp U : arr) : option arr :=
  let temp := equiv NC tmp U in
  let w := equiv NC tmp U in
  let w := gram_reunit NC w in
  let U1 := multab_dag NC U temp w in
  match NC with
  | 2 =>
      match givens_su2 (U1 0%nat + conj (U1 3%nat)) (U1 1%nat - conj (U1 2%nat)) with
      | None => None
      | Some (s0, s1) =>
          let rot := upd (upd (upd (upd tmp 0 s0) 3 (conj s0)) 1 s1) 2 (- conj s1) in
          let w := equiv NC w (multab_suNC NC tmp rot w) in
          Some (equiv NC U w)
      end
  | _ =>
      let trace_old := speed_trace_Re NC U1 in
      match givens_loop NC tol 75 trace_old U1 w with
      | None => None
      | Some w => Some (equiv NC U w)
      end
  end.

(** ** residual_fix 168-250 of MAG.c.  T is Latt.dims[ND-1] *)
Definition time_average (NC ND LCU : nat) (tmp : arr) (lat : lattice) (t : nat) : arr :=
  let sum := zero_mat NC tmp in
  let sum := for_ LCU (fun i sum => a_plus_b NC sum (O (lat (i + LCU * t)%nat) (ND - 1)%nat)) sum in
  for_ (NC * NC) (fun i sum => upd sum i (sum i * RtoC (1 / INR LCU))) sum.
(** lines 183-218: the gauge matrices of the time slices *)
Definition residual_gauge (NC ND LCU T : nat) (tol : R) (tmp : arr) (mem : nat -> arr) (lat : lattice) : option (nat -> arr) :=
  for_ (T - 1) (fun t gauge => match gauge with
    | None => None
    | Some gauge =>
        match givens_reunit NC tol tmp (time_average NC ND LCU tmp lat t) with
        | None => None
        | Some sum => Some (gset gauge (t + 1) (multab_suNC NC (gauge (t + 1)%nat) (gauge t) sum))
        end
    end) (Some (gset mem 0 (identity NC (mem 0%nat)))).
(** lines 219-237 *)
Definition residual_fix (NC ND LCU T : nat) (tol : R) (tmp : arr) (mem : nat -> arr) (order : list nat) (lat : lattice) : option lattice :=
  match residual_gauge NC ND LCU T tol tmp mem lat with
  | None => None
  | Some gauge =>
      Some (fold_left (fun lat i =>
        let t := (i / LCU)%nat in
        let tup := if Nat.eqb t (T - 1) then 0%nat else (t + 1)%nat in
        let temp := multab_dag_suNC NC tmp (O (lat i) (ND-1)%nat) (gauge tup) in
        let lat := put lat i (ND-1) (multab_suNC NC (O (lat i) (ND-1)%nat) (gauge t) temp) in
        fst (for_ (ND - 1) (fun mu '(lat, temp) =>
          let temp := multab_dag_suNC NC temp (O (lat i) mu) (gauge t) in
          (put lat i mu (multab_suNC NC (O (lat i) mu) (gauge t) temp), temp)) (lat, temp))) order lat)
  end.
