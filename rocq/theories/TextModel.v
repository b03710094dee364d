(* C text functions used by the header code: printf of unsigned numbers, fgets, index, strcmp, sscanf.
   Text is a list of character codes (0..255).  A C string ends at the first code 0. *)
From Coq Require Import Ascii String.
From Verif Require Import CInt.

Definition str (s : string) : list Z := map (fun c => Z.of_N (N_of_ascii c)) (list_ascii_of_string s).
Definition nl : list Z := [10].

(* one digit, lower case *)
Definition dig (d : Z) : Z := if d <? 10 then 48 + d else 87 + d.
Fixpoint digits (b : Z) (fuel : nat) (n : Z) : list Z :=
  match fuel with
  | O => []
  | S f => if n <? b then [dig n] else digits b f (n / b) ++ [dig (n mod b)]
  end.
(* printf "%u", "%zu" of n >= 0 *)
Definition dec (n : Z) : list Z := digits 10 (S (Z.to_nat (Z.log2 n))) n.
(* printf "%x" *)
Definition hex (n : Z) : list Z := digits 16 (S (Z.to_nat (Z.log2 n))) n.

Fixpoint eqs (a b : list Z) : bool :=
  match a, b with
  | [], [] => true
  | x :: r, y :: s => (x =? y) && eqs r s
  | _, _ => false
  end.
(* the C string stored at the start of a buffer *)
Fixpoint cstr (l : list Z) : list Z :=
  match l with [] => [] | c :: r => if c =? 0 then [] else c :: cstr r end.
(* strcmp( a , b ) == 0 *)
Definition streq (a b : list Z) : bool := eqs (cstr a) (cstr b).

(* fgets with a buffer of n+1 characters: the characters stored and the rest of the stream.
   fgets returns NULL when no character could be read. *)
Fixpoint fgets (n : nat) (f : list Z) : list Z * list Z :=
  match n, f with
  | O, _ => ([], f)
  | _, [] => ([], [])
  | S n', c :: r => if c =? 10 then ([c], r) else let '(l, r') := fgets n' r in (c :: l, r')
  end.

(* index( s , c ): the text before and after the first c, None = NULL *)
Fixpoint split_at (c : Z) (s : list Z) : option (list Z * list Z) :=
  match s with
  | [] => None
  | x :: r => if x =? c then Some ([], r) else match split_at c r with Some (a, b) => Some (x :: a, b) | None => None end
  end.

(* isspace *)
Definition space (c : Z) : bool := (c =? 32) || ((9 <=? c) && (c <=? 13)).
Fixpoint skip_ws (s : list Z) : list Z :=
  match s with c :: r => if space c then skip_ws r else s | [] => [] end.
Definition digit_val (c : Z) : option Z :=
  if (48 <=? c) && (c <=? 57) then Some (c - 48)
  else if (97 <=? c) && (c <=? 102) then Some (c - 87)
  else if (65 <=? c) && (c <=? 70) then Some (c - 55) else None.
(* the longest prefix of digits of base b: number of digits, value, rest *)
Fixpoint get_digits (b : Z) (s : list Z) (k : nat) (acc : Z) : nat * Z * list Z :=
  match s with
  | c :: r => match digit_val c with
              | Some d => if d <? b then get_digits b r (S k) (acc * b + d) else (k, acc, s)
              | None => (k, acc, s)
              end
  | [] => (k, acc, s)
  end.
Definition take_sign (s : list Z) : bool * list Z :=
  match s with
  | c :: r => if c =? 45 then (true, r) else if c =? 43 then (false, r) else (false, s)
  | [] => (false, [])
  end.
(* optional 0x of a hexadecimal number: only taken when a digit follows *)
Definition skip_0x (s : list Z) : list Z :=
  match s with
  | z :: x :: d :: r => if (z =? 48) && ((x =? 120) || (x =? 88)) && (match digit_val d with Some _ => true | None => false end)
                        then d :: r else s
  | _ => s
  end.
(* sscanf with one unsigned conversion ("%zu": base 10, 64 bits; "%x": base 16, 32 bits).
   None: the number does not fit (undefined); Some None: matching failure, nothing is stored. *)
Definition scan_u (b M : Z) (s : list Z) : option (option Z) :=
  let '(neg, r) := take_sign (skip_ws (cstr s)) in
  let '(k, v, _) := get_digits b (if b =? 16 then skip_0x r else r) 0 0 in
  match k with
  | O => Some None
  | _ => if v <? M then Some (Some (if neg : bool then (- v) mod M else v)) else None
  end.
Definition scan_zu := scan_u 10 two64.
Definition scan_x := scan_u 16 two32.
