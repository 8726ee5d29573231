(* The text form of logical addresses, as silofs-view prints it: lib/addr/laddr.c:429-588.
   Texts are lists of character codes without the terminating zero. *)
From Verif Require Import Base AddrModel AsciiModel.

(* conversion to int32_t *)
Definition s32 (x : Z) : Z := let u := u32 x in if u <? 2147483648 then u else u - 4294967296.

(* struct silofs_laddr_repr, lib/addr/laddr.c:430-440 *)
Record lrepr := mkRepr { r_lvid : bytes; r_lsize : Z; r_pos : Z; r_len : Z; r_vindex : Z;
                         r_vspace : Z; r_height : Z; r_ltype : Z; r_version : Z }.

(* laddr_to_repr, lib/addr/laddr.c:442-455 *)
Definition laddr_to_repr (a : laddr) : lrepr :=
  let l := la_lsid a in
  mkRepr (ls_lvid l) (u32 (ls_lsize l)) (s32 (la_pos a)) (u32 (la_len a)) (ls_vindex l)
         (u8 (ls_vspace l)) (u8 (ls_height l)) (u8 (ls_ltype l)) 1.

(* laddr_from_repr, lib/addr/laddr.c:457-476; None is -SILOFS_EINVAL *)
Definition laddr_from_repr (r : lrepr) : option laddr :=
  if negb (r_version r =? 1) then None
  else
    let a := mkLaddr (mkLsid (r_lvid r) (r_lsize r) (r_vindex r) (r_vspace r) (r_height r) (r_ltype r))
                     (r_pos r) (r_len r) in
    if negb (laddr_isvalid a) then None else Some a.

(* silofs_uuid_unparse, lib/addr/meta.c:121-126: uuid_unparse_lower of libuuid prints the 16
   bytes in lower-case hexadecimal with dashes after the bytes 4, 6, 8 and 10 *)
Definition hexs (b : bytes) : list Z := flat_map byte_to_ascii b.
Definition uuid_unparse (u : bytes) : list Z :=
  hexs (sub 0 4 u) ++ [45] ++ hexs (sub 4 2 u) ++ [45] ++ hexs (sub 6 2 u) ++ [45] ++
  hexs (sub 8 2 u) ++ [45] ++ hexs (sub 10 6 u).

(* silofs_uuid_parse, lib/addr/meta.c:128-139: uuid_parse_range of libuuid wants 36 characters,
   dashes at 8, 13, 18 and 23 and hexadecimal digits else.  Blanks around the text are stripped
   first; the text is from %36s and has none. *)
Fixpoint read_hexs (t : list Z) : option bytes :=
  match t with
  | [] => Some []
  | c :: d :: t' =>
    match ascii_to_byte c d, read_hexs t' with
    | Some b, Some r => Some (b :: r)
    | _, _ => None
    end
  | _ => None
  end.
Definition uuid_parse (t : list Z) : option bytes :=
  if Nat.eqb (length t) 36 && forallb (fun i => nth i t 0 =? 45) [8; 13; 18; 23]%nat
  then read_hexs (sub 0 8 t ++ sub 9 4 t ++ sub 14 4 t ++ sub 19 4 t ++ sub 24 12 t)
  else None.

(* laddr_repr_meta_to_str, lib/addr/laddr.c:493-501 *)
Definition meta_to_str (r : lrepr) : list Z :=
  [nibble_to_ascii (r_version r); nibble_to_ascii (r_height r)] ++
  byte_to_ascii (r_vspace r) ++ byte_to_ascii (r_ltype r).

(* laddr_repr_meta_from_str, lib/addr/laddr.c:503-510: what silofs_ascii_to_byte returns is not
   looked at, a byte that it cannot read stays what it was: 0, as the structure of
   silofs_laddr_from_ascii (576) is made with zeros.  Of the nibbles -1 becomes 255. *)
Definition meta_height (m : list Z) : Z := u8 (ascii_to_nibble (nth 1 m 0)).
Definition meta_version (m : list Z) : Z := u8 (ascii_to_nibble (nth 0 m 0)).
Definition meta_byte (i : nat) (m : list Z) : Z :=
  match ascii_to_byte (nth i m 0) (nth (S i) m 0) with Some b => b | None => 0 end.

(* %08x *)
Definition hex8 (v : Z) : list Z := map (fun k => nibble_to_ascii (Z.shiftr v k)) [28; 24; 20; 16; 12; 8; 4; 0].

(* laddr_repr_to_str, lib/addr/laddr.c:512-532: the buffer has 512 bytes (strbuf.h:25-27),
   snprintf is given 511 and writes at most 510 and a zero *)
Definition repr_to_str (r : lrepr) : list Z :=
  firstn 510 (uuid_unparse (r_lvid r) ++ [58] ++ meta_to_str r ++ [45] ++ hex8 (u32 (r_lsize r)) ++ [45] ++
              hex8 (u32 (r_vindex r)) ++ [45] ++ hex8 (u32 (r_pos r)) ++ [45] ++ hex8 (u32 (r_len r))).

(* conversions of sscanf: isspace and isxdigit of the C locale *)
Definition isspace (c : Z) : bool := (c =? 32) || ((9 <=? c) && (c <=? 13)).
Definition isxdigit (c : Z) : bool := negb (ascii_to_nibble c =? -1).
Fixpoint skip_ws (s : list Z) : list Z :=
  match s with c :: r => if isspace c then skip_ws r else s | [] => [] end.
(* the longest begin of at most w characters for which p holds, and the rest *)
Fixpoint run (p : Z -> bool) (w : nat) (s : list Z) : list Z * list Z :=
  match w, s with
  | S w', c :: r => if p c then let '(t, q) := run p w' r in (c :: t, q) else ([], s)
  | _, _ => ([], s)
  end.
(* %<w>s *)
Definition scan_s (w : nat) (s : list Z) : option (list Z * list Z) :=
  let '(t, r) := run (fun c => negb (isspace c)) w (skip_ws s) in
  match t with [] => None | _ => Some (t, r) end.
(* a character that must be there *)
Definition scan_c (c : Z) (s : list Z) : option (list Z) :=
  match s with d :: r => if d =? c then Some r else None | [] => None end.
(* %<w>x: a sign and 0x may come first and count for the width *)
Definition scan_x (w : nat) (s : list Z) : option (Z * list Z) :=
  let s1 := skip_ws s in
  let neg := nth 0 s1 0 =? 45 in
  let sgn := neg || (nth 0 s1 0 =? 43) in
  let '(s2, w2) := if sgn then (tl s1, pred w) else (s1, w) in
  let '(s3, w3) := if (nth 0 s2 0 =? 48) && (tolower (nth 1 s2 0) =? 120) && Nat.leb 2 w2
                   then (48 :: tl (tl s2), pred w2) else (s2, w2) in
  let '(t, r) := run isxdigit w3 s3 in
  match t with
  | [] => None
  | _ => let v := fold_left (fun a c => 16 * a + ascii_to_nibble c) t 0 in
         Some (u32 (if neg then - v else v), r)
  end.

Definition bind {A B : Type} (o : option A) (f : A -> option B) : option B :=
  match o with Some x => f x | None => None end.

(* laddr_repr_from_str, lib/addr/laddr.c:534-562: all six or -SILOFS_EINVAL *)
Definition repr_from_str (s : list Z) : option lrepr :=
  bind (scan_s 36 s) (fun '(lvid, s) =>
  bind (scan_c 58 s) (fun s =>
  bind (scan_s 6 s) (fun '(meta, s) =>
  bind (scan_c 45 s) (fun s =>
  bind (scan_x 8 s) (fun '(lsize, s) =>
  bind (scan_c 45 s) (fun s =>
  bind (scan_x 8 s) (fun '(vindex, s) =>
  bind (scan_c 45 s) (fun s =>
  bind (scan_x 8 s) (fun '(pos, s) =>
  bind (scan_c 45 s) (fun s =>
  bind (scan_x 8 s) (fun '(len, _) =>
  bind (uuid_parse lvid) (fun uu =>
  Some (mkRepr uu lsize (s32 pos) len vindex (meta_byte 2 meta) (meta_height meta)
               (meta_byte 4 meta) (meta_version meta)))))))))))))).

(* silofs_laddr_to_ascii, lib/addr/laddr.c:564-571 *)
Definition laddr_to_ascii (a : laddr) : list Z := repr_to_str (laddr_to_repr a).

(* silofs_laddr_from_ascii, lib/addr/laddr.c:573-588 *)
Definition laddr_from_ascii (s : list Z) : option laddr := bind (repr_from_str s) laddr_from_repr.
