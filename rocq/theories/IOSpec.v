(* What the binary data of a configuration file and its checksums should be. *)
From Verif Require Import CInt ByteSpec CrcSpec IOModel.

(* rotate a 32 bit word left by r *)
Definition rotl (x r : Z) : Z := (x * 2 ^ r) mod two32 + x / 2 ^ (32 - r).
(* sum of the two halves of a 64 bit word *)
Definition halves (w : Z) : Z := (w mod two32 + w / two32) mod two32.

(* NERSC: sum of all 32 bit words *)
Definition nersc_sum (ws : list Z) : Z := fold_right Z.add 0 (map (fun w => w mod two32 + w / two32) ws) mod two32.
(* MILC: exclusive or of the words, word number g rotated by g mod m *)
Fixpoint milc_sum (m g : Z) (ws : list Z) : Z :=
  match ws with [] => 0 | w :: r => Z.lxor (rotl (halves w) (g mod m)) (milc_sum m (g + 1) r) end.
(* SciDAC: exclusive or of the CRCs of the sites, site number i rotated by i mod m *)
Fixpoint scidac_sum (m i : Z) (sites : list (list Z)) : Z :=
  match sites with [] => 0 | s :: r => Z.lxor (rotl (crc32_spec 0 s) (i mod m)) (scidac_sum m (i + 1) r) end.

(* bytes of a double in the file *)
Definition file_bytes (big : bool) (w : Z) : list Z :=
  if big then rev (le_bytes 8 w) else le_bytes 8 w.

(* a field of [vol] sites with nd links of 2*nc*nc doubles each *)
Definition is_link (nc : nat) (u : list Z) : Prop :=
  length u = (2 * (nc * nc))%nat /\ Forall (fun w => 0 <= w < two64) u.
Definition is_field (nd nc vol : nat) (lat : list (list (list Z))) : Prop :=
  length lat = vol /\ Forall (fun s => length s = nd /\ Forall (is_link nc) s) lat.

(* x >> 32 gives x (shift count taken modulo 32) or 0 on the machine *)
Definition sane_shift (c : cfg) : Prop :=
  exists f, sh32 c = Some f /\ forall x, is_word32 x -> f x = x \/ f x = 0.

Definition is_word64 (w : Z) : Prop := 0 <= w < two64.


(* the doubles a link occupies in the file *)
Definition link_words (c : cfg) (l : layout) (u : list Z) : list Z :=
  match l with
  | SMALL => shorten c u
  | GAUGE => firstn (2 * (NC c - 1) * NC c) u
  | NCxNC => u
  end.
Definition site_words (c : cfg) (l : layout) (s : list (list Z)) : list Z := flat_map (link_words c l) s.
Definition field_words (c : cfg) (l : layout) (lat : list (list (list Z))) : list Z := flat_map (site_words c l) lat.

(* the short representation of a link has NC*NC-1 doubles *)
Definition shorten_ok (c : cfg) (l : layout) : Prop :=
  l = SMALL -> forall u, is_link (NC c) u -> length (shorten c u) = (NC c * NC c - 1)%nat /\ Forall is_word64 (shorten c u).

(* the specification of the whole field *)
Definition field_sums (c : cfg) (l : layout) (lat : list (list (list Z))) : sums :=
  let ws := field_words c l lat in
  let sb := map (fun s => flat_map (file_bytes (out_big c)) (site_words c l s)) lat in
  {| s_k := nersc_sum ws ; s_29 := milc_sum 29 0 ws ; s_31 := milc_sum 31 0 ws ;
     s_c29 := scidac_sum 29 0 sb ; s_c31 := scidac_sum 31 0 sb |}.

(* what reading back a link should give: the link, with the omitted rows recomputed *)
Definition restored (c : cfg) (l : layout) (u : list Z) : list Z :=
  match l with
  | SMALL => exhume c (shorten c u)
  | GAUGE => firstn (2 * (NC c - 1) * NC c) u ++ last_row c (firstn (2 * (NC c - 1) * NC c) u)
  | NCxNC => u
  end.
(* the checksum that belongs to a header type; [s] as in field_sums *)
Definition header_checksum (t : head) (s : sums) : Z :=
  match t with
  | NERSC => s_k s
  | MILC => s_29 s
  | SCIDAC | ILDG_SCIDAC => s_c29 s
  | LIME | JLQCD | ILDG_BQCD => 0
  | OTHER => two32 - 1
  end.
