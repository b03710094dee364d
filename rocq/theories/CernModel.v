(* Model of /repo/src/IO/CERN.c (openQCD configurations) and /repo/src/IO/HIREP.c, and of their headers
   (read_headers.c 29-136).
   The gauge field is a list of links, link mu of site i at position ND * i + mu.  A link is an element of
   an arbitrary type (CERN: the NCNC complex doubles are copied as one block). *)
From Verif Require Import CInt GeomModel.

Section Store.
Context {A : Type}.
(* element by element assignment; None = outside the array *)
Fixpoint store_all (js : list nat) (vs : list A) (m : list A) : option (list A) :=
  match js, vs with
  | j :: js', v :: vs' => do m' <- set_nth m j v; store_all js' vs' m'
  | [], [] => Some m
  | _, _ => None
  end.
Fixpoint load_all (js : list nat) (m : list A) : option (list A) :=
  match js with
  | [] => Some []
  | j :: js' => do v <- nth_error m j; do vs <- load_all js' m; Some (v :: vs)
  end.
End Store.

Section CERN.
Context {A : Type}.
(* Latt.dims, ND = 4 (CERN.c 45, 135) *)
Variables (X Y Z0 T : nat).
Definition cdims : list Z := [Z.of_nat X; Z.of_nat Y; Z.of_nat Z0; Z.of_nat T].
Definition cLCU : nat := X * Y * Z0.

(* CERN.c 62-65, 173-177: the odd sites of time slice t in the order of the three loops *)
Definition cls_sites (t : nat) : list (nat * nat * nat) :=
  filter (fun s => let '(x, y, z) := s in Nat.odd (x + y + z + t))
    (flat_map (fun x => flat_map (fun y => map (fun z => (x, y, z)) (seq 0 Z0)) (seq 0 Y)) (seq 0 X)).
(* CERN.c 66-84, 188-202: the eight links of an odd site, in file order *)
Definition cls_links (t : nat) (s : nat * nat * nat) : option (list nat) :=
  let '(x, y, z) := s in
  do idx <- gen_site cdims [Z.of_nat x; Z.of_nat y; Z.of_nat z; Z.of_nat t];
  do b3 <- back cdims idx 3; do b0 <- back cdims idx 0; do b1 <- back cdims idx 1; do b2 <- back cdims idx 2;
  let l i mu := (4 * Z.to_nat i + mu)%nat in
  Some [l idx 3; l b3 3; l idx 0; l b0 0; l idx 1; l b1 1; l idx 2; l b2 2]%nat.

(* CERN.c 172-229: one time slice; off is uoutd - uout in units of links *)
Fixpoint cls_write_sites (lat : list A) (t : nat) (sites : list (nat * nat * nat)) (off : nat) (uout : list A) : option (list A) :=
  match sites with
  | [] => Some uout
  | s :: r => do ls <- cls_links t s; do vs <- load_all ls lat; do u <- store_all (seq off 8) vs uout;
              cls_write_sites lat t r (off + 8) u
  end.
(* CERN.c 170-231; order: the order in which the time slices are executed; mem: the malloc'ed block *)
Fixpoint cls_write (lat : list A) (order : list nat) (uout : list A) : option (list A) :=
  match order with
  | [] => Some uout
  | t :: r => do u <- cls_write_sites lat t (cls_sites t) (4 * cLCU * t) uout; cls_write lat r u
  end.
(* CERN.c 57-113: uin is the part of the file of slice t *)
Fixpoint cls_read_sites (uin : list A) (t : nat) (sites : list (nat * nat * nat)) (off : nat) (lat : list A) : option (list A) :=
  match sites with
  | [] => Some lat
  | s :: r => do ls <- cls_links t s; do vs <- load_all (seq off 8) uin; do lat' <- store_all ls vs lat;
              cls_read_sites uin t r (off + 8) lat'
  end.
(* CERN.c 47-115; None also stands for exit(1) on a short file (l.57-60) *)
Fixpoint cls_read (file : list A) (order : list nat) (lat : list A) : option (list A) :=
  match order with
  | [] => Some lat
  | t :: r =>
      let uin := firstn (4 * cLCU) (skipn (4 * cLCU * t) file) in
      if (length uin <? 4 * cLCU)%nat then None else
      do lat' <- cls_read_sites uin t (cls_sites t) 0 lat; cls_read file r lat'
  end.
End CERN.

(* CERN.c 142: NAV as uint32_t; read_headers.c 44-60: NAV as int, converted to size_t *)
Definition cern_nav (dims : list Z) : list Z :=
  match dims with [d0; d1; d2; d3] => map u32 [d3; d0; d1; d2] | _ => [] end.
Definition cern_dims (nav : list Z) : list Z :=
  match map (fun n => u64 (i32 n)) nav with n0 :: r => r ++ [n0] | [] => [] end.
