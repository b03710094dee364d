(* Model of /repo/src/IO/HIREP.c and of the HiRep header reader (read_headers.c 80-136).
   A link is the list of its 2*NC*NC doubles, real and imaginary parts in turn, each double given by its 64
   bit pattern; (GLU_real) conversions are the identity (GLU_real = double).  The file is the list of the
   words fwrite'n, as the host sees them; [big] is WORDS_BIGENDIAN and [out_big] whether OUT_BIG is defined. *)
From Verif Require Import CInt GeomModel ByteModel CernModel.

Section Hirep.
Variables (NC : nat) (big out_big : bool) (dims : list Z).
Definition hND : nat := length dims.
(* HIREP.c 52-57, 121-125 *)
Definition mat_stride : nat := if (NC =? 2)%nat then NC else NC * NC.
Definition hstride : nat := 2 * mat_stride * hND.
(* HIREP.c 76,82 and 160,167: the time direction first *)
Definition hirep_dirs : list nat := (hND - 1)%nat :: seq 0 (hND - 1).
Definition hirep_links (i : Z) : option (list nat) :=
  do idx <- hirep_site dims i; Some (map (fun mu => (hND * Z.to_nat idx + mu)%nat) hirep_dirs).

(* HIREP.c 161-164: the first mat_stride entries of a link; None = outside O[mu] *)
Definition first_entries (l : list Z) : option (list Z) :=
  if (length l <? 2 * mat_stride)%nat then None else Some (firstn (2 * mat_stride) l).
Fixpoint enc_links (ls : list (list Z)) : option (list Z) :=
  match ls with
  | [] => Some []
  | l :: r => do a <- first_entries l; do b <- enc_links r; Some (a ++ b)
  end.
(* HIREP.c 155-190 *)
Definition swap_on (c : bool) (n : nat) (u : list Z) : option (list Z) :=
  if c then bswap_64 (seq 0 n) u else Some u.
Definition hirep_write_site (lat : list (list Z)) (i : Z) : option (list Z) :=
  do js <- hirep_links i; do ls <- load_all js lat; do u <- enc_links ls;
  swap_on (if out_big then negb big else big) hstride u.
Fixpoint hirep_write (lat : list (list Z)) (sites : list Z) : option (list Z) :=
  match sites with
  | [] => Some []
  | i :: r => do u <- hirep_write_site lat i; do f <- hirep_write lat r; Some (u ++ f)
  end.
Definition vol_range : list Z := map Z.of_nat (seq 0 (Z.to_nat (lvolume dims))).

(* sign change of a double *)
Definition dneg (w : Z) : Z := Z.lxor w (2 ^ 63).
(* HIREP.c 77-81 and 84-87: quaternion layout, NC = 2.
   O[0] = u0 + i u3, O[1] = -u2 + i u1, O[2] = -conj(O[1]), O[3] = conj(O[0]) *)
Definition dec_su2 (u : list Z) : option (list Z) :=
  match u with
  | u0 :: u1 :: u2 :: u3 :: _ => Some [u0; u3; dneg u2; u1; dneg (dneg u2); u1; u0; dneg u3]
  | _ => None
  end.
(* HIREP.c 91-104 *)
Definition dec_gen (u : list Z) : option (list Z) :=
  if (length u <? 2 * (NC * NC))%nat then None else Some (firstn (2 * (NC * NC)) u).
Definition dec_link (u : list Z) : option (list Z) := if (NC =? 2)%nat then dec_su2 u else dec_gen u.
Fixpoint dec_links (n : nat) (u : list Z) : option (list (list Z)) :=
  match n with
  | O => Some []
  | S k => do l <- dec_link u; do r <- dec_links k (skipn (2 * mat_stride) u); Some (l :: r)
  end.
(* HIREP.c 62-106; None: short file (GLU_FAILURE) or undefined *)
Fixpoint hirep_read_sites (sites : list Z) (file : list Z) (lat : list (list Z)) : option (list (list Z)) :=
  match sites with
  | [] => Some lat
  | i :: r =>
      do js <- hirep_links i;
      let u := firstn hstride file in
      if (length u <? hstride)%nat then None else
      do u' <- swap_on (negb big) hstride u; do ls <- dec_links hND u'; do lat' <- store_all js ls lat;
      hirep_read_sites r (skipn hstride file) lat'
  end.
(* the whole reader; reunit is the effect of gram_reunit on a link (l.107) *)
Definition hirep_read (reunit : list Z -> list Z) (file : list Z) (lat : list (list Z)) : option (list (list Z)) :=
  do l <- hirep_read_sites vol_range file lat; Some (map reunit l).

(* HIREP.c 128-153: NAV, as the uint32 words written *)
Definition hirep_nav : option (list Z) :=
  let nav := map u32 (Z.of_nat NC :: last dims 0 :: removelast dims) in
  if (if out_big then negb big else big) then bswap_32 (seq 0 (hND + 1)) nav else Some nav.
(* read_headers.c 91-117: the dimensions, or None for GLU_FAILURE *)
Definition hirep_read_nav (file : list Z) : option (list Z) :=
  let nav := firstn (hND + 1) file in
  if (length nav <? hND + 1)%nat then None else
  do nav <- (if negb big then bswap_32 (seq 0 (hND + 1)) nav else Some nav);
  match map i32 nav with
  | n :: t :: r => if n =? Z.of_nat NC then Some (map u64 (r ++ [t])) else None
  | _ => None
  end.
End Hirep.
