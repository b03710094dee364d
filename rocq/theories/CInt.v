(* C integer conversions used by the models.
   GLU uses size_t (64 bit), int / uint32_t (32 bit). *)
From Coq Require Export ZArith List Bool Lia.
Export ListNotations.
Open Scope Z_scope.

Definition two64 : Z := 18446744073709551616.
Definition two63 : Z := 9223372036854775808.
Definition two32 : Z := 4294967296.
Definition two31 : Z := 2147483648.

(* conversion to / arithmetic in size_t (uint64_t): reduction modulo 2^64 *)
Definition u64 (z : Z) : Z := z mod two64.
(* conversion to / arithmetic in uint32_t *)
Definition u32 (z : Z) : Z := z mod two32.
(* conversion of an integer to int (two's complement, implementation defined in C) *)
Definition i32 (z : Z) : Z := (z + two31) mod two32 - two31.

(* array update: x[k] = v, None when k is out of bounds (undefined behaviour) *)
Fixpoint set_nth {A} (l : list A) (k : nat) (v : A) : option (list A) :=
  match l, k with
  | [], _ => None
  | _ :: t, O => Some (v :: t)
  | h :: t, S k' => match set_nth t k' v with
                    | Some t' => Some (h :: t')
                    | None => None
                    end
  end.

Definition bindo {A B} (o : option A) (f : A -> option B) : option B :=
  match o with Some a => f a | None => None end.
Notation "'do' x <- o ; k" := (bindo o (fun x => k))
  (at level 200, x name, o at level 100, k at level 200, right associativity).
Notation "'do' ' p <- o ; k" := (bindo o (fun x => let p := x in k))
  (at level 200, p pattern, o at level 100, k at level 200, right associativity).
