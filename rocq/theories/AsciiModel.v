(* Hexadecimal text, lib/str/ascii.c.  Characters are codes (signed char). *)
From Verif Require Import Base.

(* silofs_nibble_to_ascii, lib/str/ascii.c:21-62 *)
Definition nibble_to_ascii (n : Z) : Z :=
  let a := Z.land n 15 in if a <? 10 then 48 + a else 97 + (a - 10).

(* tolower in the C locale, used by silofs_ascii_to_nibble *)
Definition tolower (c : Z) : Z := if (65 <=? c) && (c <=? 90) then c + 32 else c.

(* silofs_ascii_to_nibble, lib/str/ascii.c:64-105; -1 on a non-hex character *)
Definition ascii_to_nibble (a : Z) : Z :=
  let c := tolower a in
  if (48 <=? c) && (c <=? 57) then c - 48
  else if (97 <=? c) && (c <=? 102) then c - 97 + 10
  else -1.

(* silofs_byte_to_ascii, lib/str/ascii.c:109-113 *)
Definition byte_to_ascii (b : Z) : list Z :=
  [nibble_to_ascii (Z.shiftr b 4); nibble_to_ascii b].

(* silofs_ascii_to_byte, lib/str/ascii.c:115-134; None is the -1 return *)
Definition ascii_to_byte (a0 a1 : Z) : option Z :=
  let n0 := ascii_to_nibble a0 in
  if n0 =? -1 then None
  else let n1 := ascii_to_nibble a1 in
       if n1 =? -1 then None else Some (u8 (Z.lor (Z.shiftl n0 4) n1)).

(* silofs_uint64_to_ascii, lib/str/ascii.c:136-148: shift runs 56,48,..,0.
   u64_asc k emits the k low bytes, most significant first. *)
Fixpoint u64_asc (k : nat) (u : Z) : list Z :=
  match k with
  | O => []
  | S k' => byte_to_ascii (Z.land (Z.shiftr u (8 * Z.of_nat k')) 255) ++ u64_asc k' u
  end.
Definition uint64_to_ascii (u : Z) : list Z := u64_asc 8 u.

(* silofs_ascii_to_uint64, lib/str/ascii.c:150-166 *)
Fixpoint asc_u64 (k : nat) (a : list Z) (u : Z) : option Z :=
  match k with
  | O => Some u
  | S k' => match a with
            | a0 :: a1 :: r =>
              match ascii_to_byte a0 a1 with
              | None => None
              | Some b => asc_u64 k' r (u64 (Z.lor (Z.shiftl u 8) b))
              end
            | _ => None (* reads past a short text: callers pass 16 characters *)
            end
  end.
Definition ascii_to_uint64 (a : list Z) : option Z := asc_u64 8 a 0.

(* silofs_mem_to_ascii, lib/str/ascii.c:168-182: text written, stops when the next
   pair does not fit in asz *)
Fixpoint mem_to_ascii (mem : bytes) (cnt asz : Z) : list Z :=
  match mem with
  | [] => []
  | b :: r => if asz <? cnt + 2 then [] else byte_to_ascii b ++ mem_to_ascii r (cnt + 2) asz
  end.

(* silofs_ascii_to_mem, lib/str/ascii.c:184-203: bytes written and whether a
   conversion error stopped the loop *)
Fixpoint ascii_to_mem (asb : list Z) (cnt msz : Z) : bytes * bool :=
  match asb with
  | a0 :: a1 :: r =>
    if msz <=? cnt then ([], true)
    else match ascii_to_byte a0 a1 with
         | None => ([], false)
         | Some b => let '(m, ok) := ascii_to_mem r (cnt + 1) msz in (b :: m, ok)
         end
  | _ => ([], true)
  end.
