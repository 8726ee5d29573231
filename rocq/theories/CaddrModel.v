(* Content addresses as text: lib/addr/caddr.c:61-189, lib/addr/meta.c:364-392, and the parts of
   lib/str/ascii.c and lib/str/strview.c they use.  Such a text is the name of an object in the
   repository, of a boot record, and the contents of a boot-ref file.

   Simplifications:
   - a C string is the list of its bytes without the final NUL; error codes are not told apart:
     None;
   - snprintf and sscanf are those of C17 in the C locale with the choices of glibc where C17
     leaves one: numbers out of range (C17 7.21.6.2 makes these undefined) are cut at the range
     of long and then to 32 bits, and 0x without digits is 0. *)
From Verif Require Import Base AddrModel MntModel WalkModel RulesModel.

(* ---- hexadecimal ---- *)
(* silofs_nibble_to_ascii: lib/str/ascii.c:21-62 *)
Definition nibble_to_ascii (n : Z) : Z :=
  let a := Z.land n 15 in if a <? 10 then 48 + a else 87 + a.
(* silofs_ascii_to_nibble: ascii.c:64-105 *)
Definition ascii_to_nibble (a : Z) : option Z :=
  let c := if (65 <=? a) && (a <=? 90) then a + 32 else a in
  if (48 <=? c) && (c <=? 57) then Some (c - 48)
  else if (97 <=? c) && (c <=? 102) then Some (c - 87)
  else None.
(* silofs_byte_to_ascii: ascii.c:109-113 *)
Definition byte_to_ascii (b : Z) : bytes := [nibble_to_ascii (Z.shiftr b 4); nibble_to_ascii b].
(* silofs_ascii_to_byte: ascii.c:115-134 *)
Definition ascii_to_byte (a0 a1 : Z) : option Z :=
  match ascii_to_nibble a0, ascii_to_nibble a1 with
  | Some n0, Some n1 => Some (u8 (Z.lor (Z.shiftl n0 4) n1))
  | _, _ => None
  end.
(* silofs_mem_to_ascii: ascii.c:168-182; room is asz - cnt *)
Fixpoint mem_to_ascii (m : bytes) (room : Z) : bytes :=
  match m with
  | b :: r => if 2 >? room then [] else byte_to_ascii b ++ mem_to_ascii r (room - 2)
  | [] => []
  end.
(* silofs_ascii_to_mem: ascii.c:184-203; msz is what is left of the memory.  The bytes read,
   None where one is no digit *)
Fixpoint ascii_to_mem (msz : nat) (a : bytes) : option bytes :=
  match a with
  | a0 :: a1 :: r =>
    match msz with
    | O => Some []
    | S k => match ascii_to_byte a0 a1 with
             | None => None
             | Some b => match ascii_to_mem k r with Some l => Some (b :: l) | None => None end
             end
    end
  | _ => Some []
  end.
(* silofs_hash256_to_name, .._by_name: lib/addr/meta.c:364-392 *)
Definition HASH_LEN : nat := 32.
Definition hash_to_name (h : bytes) : bytes := mem_to_ascii h 511.
Definition hash_by_name (t : bytes) : option bytes :=
  match ascii_to_mem HASH_LEN t with
  | Some l => if zlen l =? Z.of_nat HASH_LEN then Some l else None
  | None => None
  end.

(* ---- snprintf: %d and %x, C17 7.21.6.1 ---- *)
Fixpoint print_digits (fuel : nat) (base v : Z) (acc : bytes) : bytes :=
  match fuel with
  | O => acc
  | S k => let acc' := nibble_to_ascii (v mod base) :: acc in
           if v / base =? 0 then acc' else print_digits k base (v / base) acc'
  end.
Definition print_d (z : Z) : bytes :=
  if z <? 0 then 45 :: print_digits 64 10 (- z) [] else print_digits 64 10 z [].
Definition print_x (z : Z) : bytes := print_digits 64 16 z [].

(* "silofs.v" and the format version: caddr.c:72, include/silofs/defs.h:24 *)
Definition s_silofs_v : bytes := [115; 105; 108; 111; 102; 115; 46; 118].
Definition FMT_VERSION := 1.
(* caddr_to_str: caddr.c:61-80 *)
Definition caddr_to_str (c : caddr) (n : Z) : bytes :=
  let hname := hash_to_name (ca_hash c) in
  let p := s_silofs_v ++ print_d FMT_VERSION ++ [46] ++ print_d (ca_type c) ++ [46] ++
           print_x (ca_size c) ++ [58] in
  if zlen p + zlen hname <? n then p ++ hname else firstn (Z.to_nat (n - 1)) p.
(* silofs_caddr_to_name: caddr.c:155-162, include/silofs/str/strbuf.h:25-27 *)
Definition STRBUF_SIZE := 512.
Definition caddr_to_name (c : caddr) : bytes := caddr_to_str c STRBUF_SIZE.

(* ---- sscanf with "silofs.v%d.%d.%x:%64s": C17 7.21.6.2 ---- *)
(* characters of the format that stand for themselves *)
Fixpoint scan_lit (p s : bytes) : option bytes :=
  match p with
  | [] => Some s
  | a :: p' => match s with c :: r => if a =? c then scan_lit p' r else None | [] => None end
  end.
(* the sign of a number *)
Definition scan_sign (s : bytes) : bool * bytes :=
  match s with
  | c :: r => if c =? 45 then (true, r) else if c =? 43 then (false, r) else (false, s)
  | [] => (false, s)
  end.
(* (int)x, two's complement *)
Definition s32 (x : Z) : Z := let y := x mod 2 ^ 32 in if y <? 2 ^ 31 then y else y - 2 ^ 32.
(* %d *)
Definition scan_d (s : bytes) : option (Z * bytes) :=
  let '(neg, s1) := scan_sign (skip_space s) in
  if has_digit 10 s1 then
    let '(v, r) := take_digits 10 0 s1 in
    let w := if neg : bool then - v else v in
    Some (s32 (Z.max (- 2 ^ 63) (Z.min (2 ^ 63 - 1) w)), r)
  else None.
(* %x: 0x may come first *)
Definition scan_x (s : bytes) : option (Z * bytes) :=
  let '(neg, s1) := scan_sign (skip_space s) in
  let s2 := match s1 with
            | z :: x :: r => if (z =? 48) && ((x =? 120) || (x =? 88)) then Some r else None
            | _ => None
            end in
  match s2 with
  | Some r0 => let '(v, r) := take_digits 16 0 r0 in
               Some (if v >? 2 ^ 64 - 1 then 2 ^ 32 - 1 else u32 (if neg : bool then - v else v), r)
  | None => if has_digit 16 s1 then
              let '(v, r) := take_digits 16 0 s1 in
              Some (if v >? 2 ^ 64 - 1 then 2 ^ 32 - 1 else u32 (if neg : bool then - v else v), r)
            else None
  end.
(* %64s: at most n characters up to the next space, at least one *)
Fixpoint take_word (n : nat) (s : bytes) : bytes :=
  match n with
  | O => []
  | S k => match s with c :: r => if one_of SPACES c then [] else c :: take_word k r | [] => [] end
  end.
Definition scan_s (n : nat) (s : bytes) : option bytes :=
  match take_word n (skip_space s) with [] => None | w => Some w end.
Definition scan_caddr (s : bytes) : option (Z * Z * Z * bytes) :=
  match scan_lit s_silofs_v s with
  | None => None
  | Some s1 =>
  match scan_d s1 with
  | None => None
  | Some (vers, s2) =>
  match scan_lit [46] s2 with
  | None => None
  | Some s3 =>
  match scan_d s3 with
  | None => None
  | Some (ctyp, s4) =>
  match scan_lit [46] s4 with
  | None => None
  | Some s5 =>
  match scan_x s5 with
  | None => None
  | Some (size, s6) =>
  match scan_lit [58] s6 with
  | None => None
  | Some s7 =>
  match scan_s 64 s7 with
  | None => None
  | Some w => Some (vers, ctyp, size, w)
  end end end end end end end end.

(* check_ctype_size: caddr.c:82-100 *)
Definition BOOTREC_SIZE := 1024.
Definition KB_SIZE := 1024.
Definition check_ctype_size (ctype size : Z) : bool :=
  if ctype =? CT_BOOTREC then size =? BOOTREC_SIZE
  else if (ctype =? CT_ENCSEG) || (ctype =? CT_PACKIDX) then size mod KB_SIZE =? 0
  else false.

(* caddr_from_str: caddr.c:102-140 *)
Definition caddr_from_str (s : bytes) : option caddr :=
  if zlen s >=? STRBUF_SIZE then None else
  match scan_caddr s with
  | None => None
  | Some (vers, ctyp, size, hname) =>
    if negb (vers =? FMT_VERSION) then None else
    if negb (check_ctype_size ctyp size) then None else
    match hash_by_name hname with
    | None => None
    | Some h => Some (mkCaddr h size ctyp)
    end
  end.
(* silofs_strview_isascii: lib/str/strview.c:1029-1032, lib/str/strchr.c:482-485 *)
Definition chr_isascii (c : Z) : bool := (0 <=? c) && (c <? 128).
(* caddr_from_strview, silofs_caddr_by_name2: caddr.c:142-153, 185-189 *)
Definition caddr_by_name (t : bytes) : option caddr :=
  let t2 := sv_strip_ws t in
  if forallb chr_isascii t2 then caddr_from_str t2 else None.
