(* Model of the parallel random number generators: /repo/src/Utils/par_rng.c, par_KISS.c, par_MWC_1038.c,
   par_MWC_4096.c, par_WELL_512.c, par_XOR_1024.c (FULL_DOUBLE not defined).
   [tab], [idx] and [car] are the global arrays table[][], mcwc_i / well_i / xor_i[] and carry[];
   every element is an unsigned number.  None: access outside an array. *)
From Verif Require Import CInt ByteModel ByteSpec TextModel HdrModel.
From Coq Require Import String QArith.
Open Scope Z_scope.

Inductive gen := KISS | MWC_1038 | MWC_4096 | WELL_512 | XOR_1024.
(* GLU_definitions.h 692-704 *)
Definition RNG_TABLE (g : gen) : Z :=
  match g with KISS => 5 | MWC_1038 => 1038 | MWC_4096 => 4096 | WELL_512 => 16 | XOR_1024 => 16 end.

Record rng := Rng { tab : list (list Z) ; idx : list Z ; car : list Z }.

Definition zn (l : list Z) (k : Z) : option Z := if k <? 0 then None else nth_error l (Z.to_nat k).
Definition zset (l : list Z) (k v : Z) : option (list Z) := if k <? 0 then None else set_nth l (Z.to_nat k) v.

Definition getT (s : rng) (th : nat) (k : Z) : option Z := do t <- nth_error (tab s) th; zn t k.
Definition setT (s : rng) (th : nat) (k v : Z) : option rng :=
  do t <- nth_error (tab s) th; do t' <- zset t k v; do T <- set_nth (tab s) th t'; Some (Rng T (idx s) (car s)).
Definition getI (s : rng) (th : nat) : option Z := nth_error (idx s) th.
Definition setI (s : rng) (th : nat) (v : Z) : option rng := do I <- set_nth (idx s) th v; Some (Rng (tab s) I (car s)).
Definition getC (s : rng) (th : nat) : option Z := nth_error (car s) th.
Definition setC (s : rng) (th : nat) (v : Z) : option rng := do C <- set_nth (car s) th v; Some (Rng (tab s) (idx s) C).

(* par_KISS.c 31-44 *)
Definition JKISS32 (th : nat) (s : rng) : option (Z * rng) :=
  do v <- getT s th 1; do s <- setT s th 1 (Z.lxor v (u32 (Z.shiftl v 5)));
  do v <- getT s th 1; do s <- setT s th 1 (Z.lxor v (Z.shiftr v 7));
  do v <- getT s th 1; do s <- setT s th 1 (Z.lxor v (u32 (Z.shiftl v 22)));
  do a <- getT s th 2; do b <- getT s th 3; do c <- getT s th 4;
  let t := i32 (u32 (a + b + c)) in
  do v <- getT s th 3; do s <- setT s th 2 v;
  do s <- setT s th 4 (if t <? 0 then 1 else 0);
  do s <- setT s th 3 (Z.land t 2147483647);
  do v <- getT s th 0; do s <- setT s th 0 (u32 (v + 1411392427));
  do a <- getT s th 0; do b <- getT s th 1; do c <- getT s th 3;
  Some (u32 (a + b + c), s).

(* par_MWC_1038.c 33-43 *)
Definition draw_MWC_1038 (th : nat) (s : rng) : option (Z * rng) :=
  do i <- getI s th; do q <- getT s th i; do c <- getC s th;
  let t := u64 (611373678 * q + c) in
  do s <- setC s th (u32 (Z.shiftr t 32));
  do i <- getI s th; do s <- setI s th (u32 (i - 1));
  do i <- getI s th;
  if negb (i =? 0) then do i <- getI s th; do s <- setT s th i (u32 t); Some (u32 t, s)
  else do s <- setI s th (RNG_TABLE MWC_1038 - 1); do s <- setT s th 0 (u32 t); Some (u32 t, s).

(* par_MWC_4096.c 32-46 *)
Definition draw_MWC_4096 (th : nat) (s : rng) : option (Z * rng) :=
  do s <- setI s th 4095;
  do i <- getI s th; do s <- setI s th (Z.land (u32 (i + 1)) 4095);
  do i <- getI s th; do q <- getT s th i; do c <- getC s th;
  let t := u64 (18782 * q + c) in
  do s <- setC s th (u32 (Z.shiftr t 32));
  do c <- getC s th;
  let x := u32 (t + c) in
  do c <- getC s th;
  do '(x, s) <- (if x <? c then do s <- setC s th (u32 (c + 1)); Some (u32 (x + 1), s) else Some (x, s));
  do i <- getI s th;
  let v := u32 (0xfffffffe - x) in
  do s <- setT s th i v; Some (v, s).

(* par_WELL_512.c 31-48 *)
Definition draw_WELL_512 (th : nat) (s : rng) : option (Z * rng) :=
  do i <- getI s th; do a <- getT s th i;
  do c <- getT s th (Z.land (u32 (i + 13)) 15);
  let b := Z.lxor (Z.lxor (Z.lxor a c) (u32 (Z.shiftl a 16))) (u32 (Z.shiftl c 15)) in
  do c <- getT s th (Z.land (u32 (i + 9)) 15);
  let c := Z.lxor c (Z.shiftr c 11) in
  let a := Z.lxor b c in
  do s <- setT s th i a;
  let d := Z.lxor a (Z.land (u32 (Z.shiftl a 5)) 0xDA442D24) in
  do s <- setI s th (Z.land (u32 (i + 15)) 15);
  do i <- getI s th; do a <- getT s th i;
  let v := Z.lxor (Z.lxor (Z.lxor (Z.lxor (Z.lxor a b) d) (u32 (Z.shiftl a 2))) (u32 (Z.shiftl b 18))) (u32 (Z.shiftl c 28)) in
  do s <- setT s th i v; Some (v, s).

(* par_XOR_1024.c 34-44 *)
Definition draw_XOR_1024 (th : nat) (s : rng) : option (Z * rng) :=
  do i <- getI s th; do s0 <- getT s th i;
  do s <- setI s th (Z.land (u32 (i + 1)) 15);
  do i <- getI s th; do s1 <- getT s th i;
  let s1 := Z.lxor s1 (u64 (Z.shiftl s1 31)) in
  let s1 := Z.lxor s1 (Z.shiftr s1 11) in
  let s0 := Z.lxor s0 (Z.shiftr s0 30) in
  let v := Z.lxor s0 s1 in
  do s <- setT s th i v; Some (u64 (v * 1181783497276652981), s).

(* the word behind one par_rng_dbl *)
Definition draw (g : gen) : nat -> rng -> option (Z * rng) :=
  match g with
  | KISS => JKISS32 | MWC_1038 => draw_MWC_1038 | MWC_4096 => draw_MWC_4096
  | WELL_512 => draw_WELL_512 | XOR_1024 => draw_XOR_1024
  end.

(* draws in the order in which the threads happen to run *)
Fixpoint draws (g : gen) (order : list nat) (s : rng) : option (list Z * rng) :=
  match order with
  | [] => Some ([], s)
  | th :: r => do '(w, s) <- draw g th s; do '(ws, s) <- draws g r s; Some (w :: ws, s)
  end.

(* conversion of an unsigned integer to double: nearest 53 bit number, ties to even *)
Definition rnd53 (z : Z) : Z :=
  if z <? 2 ^ 53 then z else
  let e := Z.log2 z - 52 in
  let q := z / 2 ^ e in let r := z mod 2 ^ e in let h := 2 ^ (e - 1) in
  if (r <? h) || ((r =? h) && Z.even q) then q * 2 ^ e else (q + 1) * 2 ^ e.
(* par_KISS.c 91, par_MWC_1038.c 103, par_MWC_4096.c 110, par_WELL_512.c 100: the decimal constant
   2.3283064365386963e-10 is the double 2^-32; par_XOR_1024.c 92: 5.421010862427522e-20 is the double
   2^-64.  Multiplication by a power of two is exact.  The double is dbl_num / 2^bits. *)
Definition bits (g : gen) : Z := match g with XOR_1024 => 64 | _ => 32 end.
Definition dbl_num (g : gen) (w : Z) : Z := rnd53 w.
(* par_rng.c 208-212: (uint32_t)( UINT32_MAX * x ); None: the value does not fit *)
Definition par_rng_int (g : gen) (w : Z) : option Z :=
  let v := rnd53 (4294967295 * dbl_num g w) / 2 ^ bits g in
  if v <? two32 then Some v else None.

(* seeding: l.61-66 of par_KISS.c and the same loop in the other files; LCONG of par_XOR_1024.c 31 *)
Definition LCONG (a i : Z) : Z := u32 (1812433253 * (Z.lxor a (Z.shiftr a 30)) + i).
Fixpoint lcg_fill (n : nat) (prev j : Z) : list Z :=
  match n with O => [] | S n' => let v := LCONG prev j in v :: lcg_fill n' v (j + 1) end.
Definition lcg_table (g : gen) (seed : Z) : list Z := seed :: lcg_fill (Z.to_nat (RNG_TABLE g - 1)) seed 1.
(* par_XOR_1024.c 47-76: union of two uint32_t and a uint64_t *)
Definition pun (be : bool) (i0 i1 : Z) : Z := if be then i0 * two32 + i1 else i1 * two32 + i0.
Fixpoint xor_fill (be : bool) (n : nat) (i1 j : Z) : list Z :=
  match n with
  | O => []
  | S n' => let a := LCONG i1 (2 * j) in let b := LCONG a (2 * j + 1) in pun be a b :: xor_fill be n' b (j + 1)
  end.
Definition xor_table (be : bool) (seed : Z) : list Z :=
  let b := LCONG seed 1 in pun be seed b :: xor_fill be (Z.to_nat (RNG_TABLE XOR_1024 - 1)) b 1.
(* GLU_set_par_*_table *)
Definition set_table (g : gen) (be : bool) (seeds : list Z) : option rng :=
  let T := map (match g with XOR_1024 => xor_table be | _ => lcg_table g end) seeds in
  let top := repeat (RNG_TABLE g - 1) (List.length seeds) in
  match g with
  | KISS => Some (Rng T [] [])
  | MWC_1038 => let C := map (fun t => last t 0 mod 61137367) T in Some (Rng T top C)
  | MWC_4096 => let C := map (fun t => last t 0 mod 809430660) T in Some (Rng T top C)
  | WELL_512 => Some (Rng T (repeat 0 (List.length seeds)) [])
  | XOR_1024 => Some (Rng T top [])
  end.
(* par_rng.c 80-94: the seeds of the threads *)
Definition seeds_of (seed : Z) (N : nat) : list Z := map (fun i => u32 (seed + Z.of_nat i)) (seq 0 N).

(* --- saved states --- *)
(* bytes of words as they lie in memory, and back *)
Definition mem_bytes (be : bool) (nb : nat) (w : Z) : list Z := if be then rev (le_bytes nb w) else le_bytes nb w.
Definition mem_word (be : bool) (bs : list Z) : Z := if be then le_val (rev bs) else le_val bs.
(* fwrite of the first n words of an array *)
Definition fwrite (be : bool) (nb n : nat) (a : list Z) : option (list Z) :=
  if (List.length a <? n)%nat then None else Some (List.concat (map (mem_bytes be nb) (firstn n a))).
(* fread of n words: None = fewer than n words left in the file *)
Fixpoint fread (be : bool) (nb n : nat) (f : list Z) : option (list Z * list Z) :=
  match n with
  | O => Some ([], f)
  | S n' => if (List.length f <? nb)%nat then None else
            do '(ws, r) <- fread be nb n' (skipn nb f); Some (mem_word be (firstn nb f) :: ws, r)
  end.
Definition word_bytes (g : gen) : nat := match g with XOR_1024 => 8 | _ => 4 end.
Definition word_swap (g : gen) : Z -> Z := match g with XOR_1024 => SwapByteOrder_64 | _ => SwapByteOrder_32 end.
Definition tbl (g : gen) : nat := Z.to_nat (RNG_TABLE g).
(* if( !WORDS_BIGENDIAN ) { bswap( n , a ) ; } *)
Definition to_be (be : bool) (swap : Z -> Z) (n : nat) (a : list Z) : option (list Z) :=
  if be then Some a else bswap_seq swap n a.

(* the loop over threads writing table[i]; l.116-129 of par_KISS.c and the same loop in the other files *)
Fixpoint write_tables (g : gen) (be : bool) (N : nat) (T : list (list Z)) : option (list Z * list (list Z)) :=
  match N, T with
  | O, _ => Some ([], T)
  | S _, [] => None
  | S N', t :: r =>
      do t1 <- to_be be (word_swap g) (tbl g) t;
      do b <- fwrite be (word_bytes g) (tbl g) t1;
      do t2 <- to_be be (word_swap g) (tbl g) t1;
      do '(bs, r') <- write_tables g be N' r; Some (b ++ bs, t2 :: r')
  end.
(* swap, write and swap back an array with one word per thread *)
Definition write_array (be : bool) (N : nat) (a : list Z) : option (list Z * list Z) :=
  do a1 <- to_be be SwapByteOrder_32 N a; do b <- fwrite be 4 N a1; do a2 <- to_be be SwapByteOrder_32 N a1; Some (b, a2).
Definition has_idx (g : gen) : bool := match g with KISS => false | _ => true end.
Definition has_car (g : gen) : bool := match g with MWC_1038 | MWC_4096 => true | _ => false end.
(* write_par_*_table: the bytes written and the state afterwards *)
Definition write_table (g : gen) (be : bool) (N : nat) (s : rng) : option (list Z * rng) :=
  do '(b, T) <- write_tables g be N (tab s);
  do '(bi, J) <- (if has_idx g then write_array be N (idx s) else Some ([], idx s));
  do '(bc, C) <- (if has_car g then write_array be N (car s) else Some ([], car s));
  Some (b ++ bi ++ bc, Rng T J C).

Definition rng_name (g : gen) : list Z :=
  str (match g with KISS => "PAR_KISS" | MWC_1038 => "PAR_MWC_1038" | MWC_4096 => "PAR_MWC_4096"
                  | WELL_512 => "PAR_WELL_512" | XOR_1024 => "PAR_XOR_1024" end).
(* par_rng.c 314-354: the file and the state afterwards.  A build with WELL_512_RNG does not link
   (par_rng.c 201 calls par_Well_512_dbl, which does not exist); here it has no outcome. *)
Definition write_par_rng_state (g : gen) (be : bool) (N : nat) (s : rng) : option (list Z * rng) :=
  match g with
  | WELL_512 => None
  | _ =>
      do '(b, s') <- write_table g be N s;
      Some (str "BEGIN_HEADER" ++ nl ++ str "NTHREADS = " ++ dec (Z.of_nat N) ++ nl ++ str "RNG = " ++ rng_name g ++ nl ++
            str "RNG_TABLE = " ++ dec (RNG_TABLE g) ++ nl ++ str "END_HEADER" ++ nl ++ b, s')
  end.

Fixpoint read_tables (g : gen) (be : bool) (N : nat) (f : list Z) : option (list (list Z) * list Z) :=
  match N with
  | O => Some ([], f)
  | S N' => do '(t, r) <- fread be (word_bytes g) (tbl g) f; do '(T, r) <- read_tables g be N' r; Some (t :: T, r)
  end.
(* read_par_*_table; None = GLU_FAILURE.  KISS does not swap (par_KISS.c 95-108). *)
Definition read_table (g : gen) (be : bool) (N : nat) (f : list Z) : option rng :=
  do '(T, f) <- read_tables g be N f;
  do '(J, f) <- (if has_idx g then fread be 4 N f else Some ([], f));
  do '(C, f) <- (if has_car g then fread be 4 N f else Some ([], f));
  match g with
  | KISS => Some (Rng T J C)
  | _ => Some (Rng (if be then T else map (map (word_swap g)) T)
                   (if be then J else map SwapByteOrder_32 J) (if be then C else map SwapByteOrder_32 C))
  end.

Inductive rres :=
| Restored (s : rng)
| NewSequence           (* init_new_rng_sequence: a fresh sequence is started *)
| Failure               (* GLU_FAILURE *)
| Undef.
(* par_rng.c 223-311, the file could be opened *)
Definition read_par_rng_state (g : gen) (be : bool) (N : nat) (f : list Z) : rres :=
  match get_header f with
  | HNull => NewSequence
  | HUndef => Undef
  | Hdr hdr r =>
      match get_size_t (str "NTHREADS") hdr with
      | HFail => NewSequence
      | HKeep | HBad => Undef              (* Nthreads is not initialised (l.241) *)
      | HNum n =>
          if negb (n =? Z.of_nat N) then NewSequence
          else match get_string (str "RNG") hdr with
               | None => NewSequence
               | Some v => if streq (str " " ++ rng_name g) v
                           then match read_table g be N r with Some s => Restored s | None => Failure end
                           else NewSequence
               end
      end
  end.
