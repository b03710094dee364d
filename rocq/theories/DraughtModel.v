(* Model of src/Geometry/draughtboard.c (init_cb) and of the parallel loops
   that use it (Update/relax.c OR_lattice, Update/hb.c hb_lattice,
   Gfix/Or.c OR_iteration_th).  None = undefined behaviour. *)
From Verif Require Import CInt GeomModel.

Definition zseq (n : Z) : list Z := map Z.of_nat (seq 0 (Z.to_nat n)).

(* draughtboard.c:57-64: even_sum and odd_sum accumulated in size_t over mu < DIR *)
Fixpoint parity_sums (dims n : list Z) (DIR : nat) (even_sum odd_sum : Z) : option (Z * Z) :=
  match DIR with
  | O => Some (even_sum, odd_sum)
  | S DIR' =>
      match dims, n with
      | L :: ds, x :: xs =>
          if L mod 2 =? 0                                   (* dims[mu]&1 == 0 *)
          then parity_sums ds xs DIR' (u64 (even_sum + u64 x)) odd_sum
          else parity_sums ds xs DIR' even_sum (u64 (odd_sum + u64 x))
      | _, _ => None
      end
  end.

(* draughtboard.c:50-70 get_midx *)
Definition get_midx (dims : list Z) (i : Z) (DIR : nat) (Ncolors : Z) : option Z :=
  do n <- get_mom_2piBZ dims i DIR;
  do ' (e, o) <- parity_sums dims n DIR 0 0;
  if Ncolors =? 0 then None else Some (u64 (e mod 2 + o) mod Ncolors).

(* draughtboard.c:93-95 counting loop over a list of sites *)
Fixpoint count_loop (midx : Z -> option Z) (sites : list Z) (Nsquare : list Z) : option (list Z) :=
  match sites with
  | [] => Some Nsquare
  | i :: rest =>
      do c <- midx i;
      do v <- nth_error Nsquare (Z.to_nat c);
      do ns <- set_nth Nsquare (Z.to_nat c) (u64 (v + 1));
      count_loop midx rest ns
  end.

(* draughtboard.c:117-121 filling loop; square[c] is represented by the part
   already written (so Nsquare[c] is its length) and caps[c] is the number of
   elements malloc'ed: writing beyond it is undefined *)
Fixpoint fill_loop (midx : Z -> option Z) (sites : list Z) (caps : list Z) (square : list (list Z))
  : option (list (list Z)) :=
  match sites with
  | [] => Some square
  | i :: rest =>
      do c <- midx i;
      do cap <- nth_error caps (Z.to_nat c);
      do s <- nth_error square (Z.to_nat c);
      if Z.of_nat (length s) <? cap then
        do sq <- set_nth square (Z.to_nat c) (s ++ [i]);
        fill_loop midx rest caps sq
      else None
  end.

Inductive cb_result :=
| CbFailure                                   (* returns GLU_FAILURE *)
| CbOk (Ncolors : nat) (square : list (list Z)).

(* draughtboard.c:75-126 init_cb (allocation assumed to succeed) *)
Definition init_cb (dims : list Z) (LENGTH : Z) (DIR : nat) : option cb_result :=
  do ns <- count_loop (fun i => get_midx dims i DIR 3) (zseq LENGTH) [0;0;0];
  do n2 <- nth_error ns 2%nat;
  let nc := if n2 =? 0 then 2%nat else 3%nat in
  if existsb (fun v => v =? 0) (firstn nc ns) then Some CbFailure
  else
    do sq <- fill_loop (fun i => get_midx dims i DIR (Z.of_nat nc)) (zseq LENGTH)
                       (firstn nc ns) (repeat [] nc);
    Some (CbOk nc sq).

(* Smear/staples.c:60-78: the links (site, direction) read by all_staples at
   (i,mu), in reading order, for direction nu *)
Definition staple_reads_nu (dims : list Z) (i : Z) (mu nu : nat) : option (list (Z * nat)) :=
  do t1 <- neighbor dims i nu;
  do t2 <- neighbor dims i mu;
  do b1 <- back dims i nu;
  do b2 <- neighbor dims b1 mu;
  Some [(i, nu); (t1, mu); (t2, nu); (b1, nu); (b1, mu); (b2, nu)].

(* nu = j < mu ? j : j + 1 for j = 0 .. dir-2 *)
Fixpoint staple_reads_loop (dims : list Z) (i : Z) (mu : nat) (js : list nat) : option (list (Z * nat)) :=
  match js with
  | [] => Some []
  | j :: js' =>
      let nu := if Nat.ltb j mu then j else S j in
      do r <- staple_reads_nu dims i mu nu;
      do rs <- staple_reads_loop dims i mu js';
      Some (r ++ rs)
  end.
Definition staple_reads (dims : list Z) (i : Z) (mu : nat) (dir : nat) : option (list (Z * nat)) :=
  staple_reads_loop dims i mu (seq 0 (dir - 1)).

Section Fields.
Context {A : Type}.
(* a gauge field: lat[site].O[mu] *)
Definition field := Z -> nat -> A.
Definition upd (f : field) (i : Z) (mu : nat) (v : A) : field :=
  fun j nu => if (Z.eqb j i && Nat.eqb nu mu)%bool then v else f j nu.

(* one iteration of the loop body relax.c:102-107 (hb.c:182-188 without the
   random numbers): the new link is some function F of the values read by the
   staple and of the old link *)
Definition link_update (dims : list Z) (F : list A -> A -> A) (mu : nat) (i : Z) (f : field) : option field :=
  do rs <- staple_reads dims i mu (length dims);
  Some (upd f i mu (F (map (fun p => f (fst p) (snd p)) rs) (f i mu))).

(* the loop over one colour, executed in the order [sites] *)
Fixpoint run_color (dims : list Z) (F : list A -> A -> A) (mu : nat) (sites : list Z) (f : field) : option field :=
  match sites with
  | [] => Some f
  | i :: rest => do f' <- link_update dims F mu i f; run_color dims F mu rest f'
  end.

(* Or.c:57-129 OR_single at site i: the two SU(2) numbers are a function G of
   the 2*DIMS links read (lines 86-99); every link (i,mu) is replaced by
   ML g (link) and every link (back,mu) by MR g (link), one direction after
   the other (lines 121-126) *)
Context {S : Type}.
Fixpoint or_rotate (dims : list Z) (ML MR : S -> A -> A) (g : S) (i : Z) (mus : list nat) (f : field) : option field :=
  match mus with
  | [] => Some f
  | mu :: rest =>
      do b <- back dims i mu;
      let f1 := upd f i mu (ML g (f i mu)) in
      let f2 := upd f1 b mu (MR g (f1 b mu)) in
      or_rotate dims ML MR g i rest f2
  end.
Fixpoint or_reads (dims : list Z) (i : Z) (mus : list nat) (f : field) : option (list A) :=
  match mus with
  | [] => Some []
  | mu :: rest =>
      do b <- back dims i mu;
      do r <- or_reads dims i rest f;
      Some (f i mu :: f b mu :: r)
  end.
Definition OR_single (dims : list Z) (G : list A -> S) (ML MR : S -> A -> A) (DIMS : nat) (i : Z) (f : field)
  : option field :=
  do rs <- or_reads dims i (seq 0 DIMS) f;
  or_rotate dims ML MR (G rs) i (seq 0 (length dims)) f.

(* Or.c:140-147 one colour of OR_iteration_th on slice t, sites in the given order *)
Fixpoint or_color (dims : list Z) (G : list A -> S) (ML MR : S -> A -> A) (DIMS : nat) (t : Z)
                  (sites : list Z) (f : field) : option field :=
  match sites with
  | [] => Some f
  | i :: rest =>
      do f' <- OR_single dims G ML MR DIMS (i + lcu dims * t) f;
      or_color dims G ML MR DIMS t rest f'
  end.
End Fields.
