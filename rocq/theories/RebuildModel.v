(** How one site is laid out in a configuration file and put back together:
    /repo/src/IO/writers.c grab_sitedata and /repo/src/IO/readers.c complete_NCxNC,
    complete_top, exhume_O, rebuild_lat and the copy loop of the readers.  Numbers are
    exact reals here; bytes, precision and checksums are in IOModel.v. *)
From Coq Require Import PeanoNat List Reals.
From Verif Require Import CMat Arr InvModel GramModel ProjModel.
Import ListNotations.
Local Open Scope C_scope.

(** GLU_enum.h 47-52: the layouts the readers know *)
Inductive layout := SMALL | GAUGE | NCxNC.
(** GLU_enum.h 216-218 *)
Definition LOOP_VAR (NC : nat) (l : layout) : nat :=
  match l with SMALL => NC*NC - 1 | GAUGE => 2 * (NC - 1) * NC | NCxNC => 2 * (NC*NC) end.

(** U_Nops.c shorten (693-711) and rebuild (560-608), compiled for NC < 4 only; the
    bodies are in ProjModel.v *)
Definition shorten (NC : nat) (a : nat -> R) (b : arr) : nat -> R :=
  match NC with 3 => shorten_3 a b | 2 => shorten_2 a b | _ => a end.
Definition rebuild (NC : nat) (a : arr) (b : nat -> R) : arr :=
  match NC with 3 => rebuild_3 a b | 2 => rebuild_2 a b | _ => a end.

(** grab_sitedata, writers.c 109-139.  The state is the chunk and the index val;
    tmp is the scratch array (uninitialised, so arbitrary).  None is exit(1). *)
Definition grab_link (NC : nat) (l : layout) (tmp : nat -> R) (O : arr) (s : (nat -> R) * nat) : option ((nat -> R) * nat) :=
  match l with
  | SMALL =>
      if Nat.ltb NC 4 then
        let tmp := shorten NC tmp O in
        Some (for_ (LOOP_VAR NC l) (fun j '(chunk, val) => (rupd chunk val (tmp j), S val)) s)
      else None
  | _ =>
      Some (for_ (LOOP_VAR NC l / 2) (fun j '(chunk, val) =>
        let '(chunk, val) := (rupd chunk val (re (O j)), S val) in
        (rupd chunk val (im (O j)), S val)) s)
  end.
Definition grab_sitedata (ND NC : nat) (l : layout) (tmp : nat -> nat -> R) (O : nat -> arr) (chunk : nat -> R) : option (nat -> R) :=
  match for_ ND (fun mu s => match s with None => None | Some s => grab_link NC l (tmp mu) (O mu) s end) (Some (chunk, 0%nat)) with
  | None => None
  | Some (chunk, _) => Some chunk
  end.

(** memcpy( O , uout , k * sizeof( GLU_complex ) ): a complex number is two reals *)
Definition memcpy_c (k : nat) (O : arr) (uout : nat -> R) : arr :=
  for_ k (fun j O => upd O j (uout (2*j)%nat, uout (2*j+1)%nat)) O.
(** readers.c 32-38 *)
Definition complete_NCxNC (NC : nat) (O : arr) (uout : nat -> R) : arr := memcpy_c (NC*NC) O uout.
(** readers.c 41-77; the packed minor (line 59-67) is the one of gramschmidt.c, pack_bottom *)
Definition complete_top_3 (O : arr) : arr :=
  let O := upd O 6 (conj (O 1%nat * O 5%nat - O 2%nat * O 4%nat)) in
  let O := upd O 7 (conj (O 2%nat * O 3%nat - O 0%nat * O 5%nat)) in
  upd O 8 (conj (O 0%nat * O 4%nat - O 1%nat * O 3%nat)).
Definition complete_top_2 (O : arr) : arr :=
  let O := upd O 2 (- conj (O 1%nat)) in
  upd O 3 (conj (O 0%nat)).
Definition complete_top_n (NC : nat) (O : arr) : arr :=
  for_ NC (fun h O =>
    let i := (NC*NC - NC + h)%nat in
    let mulfact := if Nat.eqb (NC mod 2) 0
      then (if Nat.eqb (i mod 2) 0 then -1 else 1)%R
      else (if Nat.eqb (i mod 2) 0 then 1 else -1)%R in
    upd O i (conj (RtoC mulfact * LU_det (NC-1) (pack_bottom NC O i)))) O.
Definition complete_top (NC : nat) (O : arr) (uout : nat -> R) : arr :=
  let O := memcpy_c (NC*NC - NC) O uout in
  match NC with 3 => complete_top_3 O | 2 => complete_top_2 O | _ => complete_top_n NC O end.
(** readers.c 122-131 *)
Definition exhume_O (NC : nat) (S : arr) (uout : nat -> R) : arr := gram_reunit NC (rebuild NC S uout).
(** readers.c 134-158 *)
Definition rebuild_lat (NC : nat) (link : arr) (utemp : nat -> R) (l : layout) : option arr :=
  match l with
  | SMALL => if Nat.ltb NC 4 then Some (exhume_O NC link utemp) else None
  | GAUGE => Some (complete_top NC link utemp)
  | NCxNC => Some (complete_NCxNC NC link utemp)
  end.
(** readers.c 277-318, the copy of one site out of the buffer p, exact arithmetic:
    t starts at ND * LOOP_VAR * i and is not reset between directions *)
Definition read_dir (NC : nat) (l : layout) (p : nat -> R) (utemp : nat -> R) (t : nat) : (nat -> R) * nat :=
  for_ (LOOP_VAR NC l) (fun j '(u, t) => (rupd u j (p t), S t)) (utemp, t).
Definition read_site (ND NC : nat) (l : layout) (p : nat -> R) (i : nat) (utemp : nat -> R) (Os : nat -> arr) : option (nat -> arr) :=
  match for_ ND (fun mu s => match s with
      | None => None
      | Some (Os, utemp, t) =>
          let '(utemp, t) := read_dir NC l p utemp t in
          match rebuild_lat NC (Os mu) utemp l with
          | None => None
          | Some v => Some ((fun nu => if Nat.eqb nu mu then v else Os nu), utemp, t)
          end
      end) (Some (Os, utemp, (ND * LOOP_VAR NC l * i)%nat)) with
  | None => None
  | Some (Os, _, _) => Some Os
  end.
