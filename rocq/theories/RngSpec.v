(* What the properties of the random number generators talk about. *)
From Verif Require Import CInt RngModel.

(* what thread th got out of an interleaved sequence of draws *)
Definition outs (th : nat) (order : list nat) (ws : list Z) : list Z :=
  map snd (filter (fun p => Nat.eqb (fst p) th) (combine order ws)).

(* states of a run with N threads: seeded with 32 bit seeds, then any sequence of draws of any threads
   (initialise_par_rng draws 10000 times per thread, par_rng.c 112-120) *)
Definition reach (g : gen) (be : bool) (N : nat) (s : rng) : Prop :=
  exists seeds s0 order ws, length seeds = N /\ Forall (fun x => 0 <= x < 2 ^ 32) seeds /\
    set_table g be seeds = Some s0 /\ Forall (fun th => (th < N)%nat) order /\ draws g order s0 = Some (ws, s).

(* the words drawn in a given order, None if an access goes outside an array *)
Definition words (g : gen) (order : list nat) (s : rng) : option (list Z) := option_map fst (draws g order s).
