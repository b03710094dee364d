(* Model of /repo/src/IO/chklat_stuff.c: reading "BEGIN_HEADER ... END_HEADER" text.
   Used for NERSC configurations and for the saved state of the random number generator. *)
From Verif Require Import CInt TextModel.
From Coq Require Import String.

(* GLU_definitions.h 273, 280 *)
Definition MAX_LINE_LENGTH : nat := 128.
Definition MAX_TOKENS : nat := 48.

Inductive hres :=
| Hdr (tokens : list (list Z * list Z)) (rest : list Z)   (* token[i], value[i]; rest of the stream *)
| HNull                                                   (* returned NULL *)
| HUndef.                                                 (* NULL dereference or access outside an array *)

(* chklat_stuff.c 135-155: token and value of one line *)
Definition parse_line (line : list Z) : option (list Z * list Z) :=
  match split_at 32 (cstr line) with
  | None => None                            (* 136-139: q is NULL *)
  | Some (tok, r) =>
      match split_at 61 r with
      | None => None                        (* 147-148: q is NULL *)
      | Some (_, []) => None                (* 150-154: strcpy into malloc( 0 ) *)
      | Some (_, v) => Some (tok, removelast v)
      end
  end.

(* chklat_stuff.c 123-157; n tokens so far, kept in reverse order; fuel: every fgets takes a character *)
Fixpoint header_loop (fuel : nat) (f : list Z) (n : nat) (toks : list (list Z * list Z)) : hres :=
  match fuel with
  | O => HNull
  | S fuel' =>
      let '(line, r) := fgets (MAX_LINE_LENGTH - 1) f in
      match line with
      | [] => HNull
      | _ => if streq line (str "END_HEADER" ++ nl) then Hdr (rev toks) r
             else match parse_line line with
                  | None => HUndef
                  | Some tv => if (n <? MAX_TOKENS)%nat then header_loop fuel' r (S n) (tv :: toks) else HUndef
                  end
      end
  end.

(* chklat_stuff.c 96-160 *)
Definition get_header (f : list Z) : hres :=
  let '(line, r) := fgets (MAX_LINE_LENGTH - 1) f in
  match line with
  | [] => HNull
  | _ => if streq line (str "BEGIN_HEADER" ++ nl) then header_loop (S (List.length r)) r 0 [] else HNull
  end.

(* chklat_stuff.c 33-47 *)
Fixpoint get_string (s : list Z) (hdr : list (list Z * list Z)) : option (list Z) :=
  match hdr with
  | [] => None
  | (t, v) :: r => if streq s t then Some v else get_string s r
  end.

(* a number found in the header: HFail = GLU_FAILURE; otherwise GLU_SUCCESS with the number stored,
   or nothing stored, or undefined behaviour of sscanf *)
Inductive hnum := HFail | HNum (z : Z) | HKeep | HBad.
Definition hnum_of (o : option (option Z)) : hnum :=
  match o with None => HBad | Some None => HKeep | Some (Some z) => HNum z end.
(* chklat_stuff.c 80-92 *)
Definition get_size_t (s : list Z) (hdr : list (list Z * list Z)) : hnum :=
  match get_string s hdr with None => HFail | Some p => hnum_of (scan_zu p) end.
(* chklat_stuff.c 163-180 *)
Definition get_uint32_t (s : list Z) (hdr : list (list Z * list Z)) : hnum :=
  match get_string s hdr with None => HFail | Some p => hnum_of (scan_x p) end.

(* chklat_stuff.c 184-198; None = GLU_FAILURE *)
Fixpoint skip_loop (fuel : nat) (f : list Z) : option (list Z) :=
  match fuel with
  | O => None
  | S fuel' =>
      let '(line, r) := fgets (MAX_LINE_LENGTH - 1) f in
      match line with
      | [] => None
      | _ => if streq line (str "END_HEADER" ++ nl) then Some r else skip_loop fuel' r
      end
  end.
Definition skip_hdr (f : list Z) : option (list Z) := skip_loop (S (List.length f)) f.
