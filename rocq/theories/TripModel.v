(* Model of src/Cuts/triplet_gen.c (the enumeration of momentum triplets; the projector and the cache
   files are not modelled).  Integers are unbounded here: the int products overflow only for
   n > 2^29.  The anisotropies rats[mu] = dims[mu]/small are exact. *)
From Verif Require Import CInt.

(* triplet_gen.c:31-54 get_posit; GLU_FAILURE = -1 when the momentum is not in the list *)
Fixpoint get_posit (p : list Z) (momentum : list (list Z)) (check : Z) : Z :=
  match momentum with
  | [] => -1
  | m :: r => if list_eq_dec Z.eq_dec m p then check else get_posit p r (check + 1)
  end.

(* sums of squares, triplet_gen.c:98-101, 106-108, 176-178 *)
Definition sq (p : list Z) : Z := fold_left (fun s c => s + c * c) p 0.
Definition vadd (p q : list Z) : list Z := map (fun x => fst x + snd x) (combine p q).
Definition vscale (rat p : list Z) : list Z := map (fun x => fst x * snd x) (combine rat p).

(* triplet_gen.c:148-158 and 191-200: the odometer, last direction first; None: all directions were
   at r and have been set back to -r *)
Fixpoint bump (r : Z) (p : list Z) : option (list Z) :=
  match p with
  | [] => None
  | a :: q =>
      match bump r q with
      | Some q' => Some (a :: q')
      | None => if a <? r then Some (a + 1 :: map (fun _ => - r) q) else None
      end
  end.

(* triplet_gen.c:120-141: the three entries stored for (p1,p2); rat = (int)rats *)
Definition entry (rat : list Z) (momentum : list (list Z)) (p1 p2 : list Z) : list Z :=
  [get_posit (vscale rat p1) momentum 0;
   get_posit (vscale rat p2) momentum 0;
   get_posit (map Z.opp (vscale rat (vadd p1 p2))) momentum 0].

(* triplet_gen.c:85-161 recurse_p2.  The tail recursion carries fuel; None: store outside the array
   (or fuel used up, which the proofs exclude).  Returns the array and check. *)
Fixpoint recurse_p2 (fuel : nat) (rat : list Z) (momentum : list (list Z)) (nn r : Z) (first : bool)
  (triplet : list (option (list Z))) (p1 p2 : list Z) (count check : Z) : option (list (option (list Z)) * Z) :=
  match fuel with
  | O => None
  | S f =>
      do ' (t, c) <-
        (if (sq p2 =? nn) && (sq (vadd p1 p2) =? nn) then
           if first then Some (triplet, check + 1)
           else do t <- set_nth triplet (Z.to_nat (count + check)) (Some (entry rat momentum p1 p2));
                Some (t, check + 1)
         else Some (triplet, check));
      match bump r p2 with
      | Some p2' => recurse_p2 f rat momentum nn r first t p1 p2' count c
      | None => Some (t, c)
      end
  end.

(* number of odometer states *)
Definition states (r : Z) (nd : nat) : nat := Z.to_nat ((2 * r + 1) ^ Z.of_nat nd).

(* triplet_gen.c:164-203 recurse_p *)
Fixpoint recurse_p (fuel : nat) (rat : list Z) (momentum : list (list Z)) (nn r : Z) (first : bool)
  (triplet : list (option (list Z))) (p1 : list Z) (count : Z) : option (list (option (list Z)) * Z) :=
  match fuel with
  | O => None
  | S f =>
      do ' (t, c) <-
        (if sq p1 =? nn then
           do ' (t, check) <- recurse_p2 (states r (length p1)) rat momentum nn r first triplet p1
                                (map (fun _ => - r) p1) count 0;
           Some (t, count + check)
         else Some (triplet, count));
      match bump r p1 with
      | Some p1' => recurse_p f rat momentum nn r first t p1' c
      | None => Some (t, c)
      end
  end.

(* simorb_ratios( ND ) and the inversion (222-223, 259-260): rats = dims/small *)
Definition smallest (dims : list Z) : Z :=
  match dims with [] => 1 | d :: r => fold_left (fun s d => if d <? s then d else s) r d end.
Definition int_rats (dims : list Z) : list Z := map (fun L => L / smallest dims) dims.
(* triplet_gen.c:229-232, 267-269: start of p1; directions whose ratio is no integer start at 0 *)
Definition start (dims : list Z) (r : Z) : list Z :=
  map (fun L => if L mod smallest dims =? 0 then - r else 0) dims.

(* triplet_gen.c:214-243 get_triplet, loop over nn from [nn] on; [steps] iterations are left *)
Fixpoint triplet_loop (steps : nat) (dims : list Z) (momentum : list (list Z)) (nn : Z)
  (triplet : list (option (list Z))) (count : Z) : option (list (option (list Z))) :=
  match steps with
  | O => Some triplet
  | S s =>
      let r := Z.sqrt nn in
      do ' (t, c) <- recurse_p (states r (length dims)) (int_rats dims) momentum nn r false triplet (start dims r) count;
      triplet_loop s dims momentum (nn + 2) t c
  end.
(* nn = 0, 2, ... < nnmax *)
Definition nsteps (nnmax : Z) : nat := Z.to_nat ((nnmax + 1) / 2).
Definition get_triplet (dims : list Z) (momentum : list (list Z)) (nnmax : Z) (triplet : list (option (list Z)))
  : option (list (option (list Z))) :=
  triplet_loop (nsteps nnmax) dims momentum 0 triplet 0.

(* triplet_gen.c:253-286 get_trip: trip[nn/2] = number of new triplets *)
Fixpoint trip_loop (steps : nat) (dims : list Z) (nn : Z) (trip : list Z) (count : Z) : option (list Z) :=
  match steps with
  | O => Some trip
  | S s =>
      let r := Z.sqrt nn in
      do ' (_, c) <- recurse_p (states r (length dims)) (int_rats dims) [] nn r true [] (start dims r) count;
      do trip' <- set_nth trip (Z.to_nat (nn / 2)) (c - count);
      trip_loop s dims (nn + 2) trip' c
  end.
Definition get_trip (dims : list Z) (nnmax : Z) (trip : list Z) : option (list Z) :=
  trip_loop (nsteps nnmax) dims 0 trip 0.

(* MOMggg.c:84, 97-103, 112-129: the counting pass into an array of nnmax/2 integers, then the
   filling pass into an array of counter[0] triplets.  The counter starts at 1 (line 100), not 0.
   A cell None is memory from malloc that was never written.  The cache files of both passes are not
   modelled. *)
Definition generate (dims : list Z) (momentum : list (list Z)) (nnmax : Z) : option (list Z * list (option (list Z))) :=
  do trip <- get_trip dims nnmax (repeat 0 (Z.to_nat (nnmax / 2)));
  let count := fold_left Z.add trip 1 in
  do t <- get_triplet dims momentum nnmax (repeat None (Z.to_nat count));
  Some (trip, t).

(* cut_output.c:496-504 (and triplet_gen.c:427-443 alike): the first momentum of all [count] triplets
   is looked up; None: the index was never written or lies outside the list *)
Definition first_momentum (momentum : list (list Z)) (c : option (list Z)) : option (list Z) :=
  match c with
  | Some (i :: _) => if i <? 0 then None else nth_error momentum (Z.to_nat i)
  | _ => None
  end.
Fixpoint kall (momentum : list (list Z)) (cells : list (option (list Z))) : option (list (list Z)) :=
  match cells with
  | [] => Some []
  | c :: r => do p <- first_momentum momentum c; do ps <- kall momentum r; Some (p :: ps)
  end.
