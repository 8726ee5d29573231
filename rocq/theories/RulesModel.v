(* The rules of the mount daemon: mntd/mntconf.c, from the text of the file to the rules, and
   the parts of lib/str/strview.c and lib/str/strchr.c it uses.

   Simplifications:
   - a view (pointer and length) is the list of its bytes; splitting a view into the pair that
     holds it (mntconf.c:205, 255) reads the view before it is written, so this is the same;
   - silofs_die ends the daemon: None.  Memory does not run out;
   - strtol is that of C17 in the C locale (long has 64 bits), without 0b of C23;
   - line numbers (for messages only) are left out. *)
From Verif Require Import Base AddrModel MntModel.

(* ---- lib/str: a pointer into the view, or NULL, is an offset or None ---- *)
Definition zlen (l : bytes) : Z := Z.of_nat (length l).
(* silofs_strview_npos: lib/str/strview.c:41-49 *)
Definition NPOS := 2 ^ 62 - 1.

(* the loops of silofs_str_find_first_of, .._not_of and memchr: lib/str/strchr.c:80-83, 126-150 *)
Fixpoint find_first (p : Z -> bool) (l : bytes) : option Z :=
  match l with
  | [] => None
  | c :: r => if p c then Some 0 else match find_first p r with Some k => Some (k + 1) | None => None end
  end.
(* silofs_str_find_last_not_of: strchr.c:177-188 *)
Fixpoint find_last (p : Z -> bool) (l : bytes) : option Z :=
  match l with
  | [] => None
  | c :: r => match find_last p r with Some k => Some (k + 1) | None => if p c then Some 0 else None end
  end.
Definition one_of (set : bytes) (c : Z) : bool := existsb (Z.eqb c) set.
Definition none_of (set : bytes) (c : Z) : bool := negb (one_of set c).

(* silofs_strview_offset: strview.c:115-131 *)
Definition sv_offset (l : bytes) (p : option Z) : Z :=
  match p with None => NPOS | Some k => if k >=? zlen l then NPOS else k end.
(* silofs_strview_find_chr and .._nfind_first_of, .._nfind_first_not_of from pos:
   strview.c:260-271, 320-337, 377-398 *)
Definition sv_find_from (p : Z -> bool) (l : bytes) (pos : Z) : Z :=
  if pos <? zlen l
  then sv_offset l (match find_first p (skipn (Z.to_nat pos) l) with Some k => Some (pos + k) | None => None end)
  else sv_offset l None.
(* silofs_strview_nfind_last_not_of at the end of the view: strview.c:421-441 *)
Definition sv_find_last (p : Z -> bool) (l : bytes) : Z := sv_offset l (find_last p l).
(* silofs_strview_sub: strview.c:457-466 *)
Definition sv_sub (l : bytes) (i n : Z) : bytes :=
  let j := Z.min i (zlen l) in
  let k := Z.min n (zlen l - j) in
  firstn (Z.to_nat k) (skipn (Z.to_nat j) l).

(* silofs_strview_nsplit: strview.c:530-542 *)
Definition sv_split (seps l : bytes) : bytes * bytes :=
  let sz := zlen l in
  let i := sv_find_from (one_of seps) l 0 in
  let j := if i <? sz then sv_find_from (none_of seps) l i else sz in
  (sv_sub l 0 i, sv_sub l j sz).
(* silofs_strview_split_chr: strview.c:544-552 *)
Definition sv_split_chr (sep : Z) (l : bytes) : bytes * bytes :=
  let sz := zlen l in
  let i := sv_find_from (Z.eqb sep) l 0 in
  let j := if i <? sz then i + 1 else sz in
  (sv_sub l 0 i, sv_sub l j sz).
(* silofs_strview_ntrim_any_of, .._nchop_any_of, .._strip_ws: strview.c:617-625, 654-662, 682-707 *)
Definition SPACES : bytes := [32; 10; 9; 13; 11; 12].
Definition sv_trim (set l : bytes) : bytes := sv_sub l (sv_find_from (none_of set) l 0) (zlen l).
Definition sv_chop (set l : bytes) : bytes :=
  let sz := zlen l in
  let j := sv_find_last (none_of set) l in
  sv_sub l 0 (if j <? sz then j + 1 else 0).
Definition sv_strip_ws (l : bytes) : bytes := sv_chop SPACES (sv_trim SPACES l).
Definition sv_isempty (l : bytes) : bool := zlen l =? 0.
(* silofs_strview_nisequal: strview.c:183-193 *)
Definition sv_isequal (l s : bytes) : bool := (zlen l =? zlen s) && same_bytes l s.

(* ---- strtol(str, &endptr, 0): C17 7.22.1.4 ---- *)
(* the value, whether it was out of range, and what is left (endptr);
   None: no number, endptr == str *)
Definition digit_of (c : Z) : option Z :=
  if (48 <=? c) && (c <=? 57) then Some (c - 48)
  else if (97 <=? c) && (c <=? 122) then Some (c - 87)
  else if (65 <=? c) && (c <=? 90) then Some (c - 55)
  else None.
Definition is_digit (base c : Z) : bool :=
  match digit_of c with Some d => d <? base | None => false end.
Fixpoint take_digits (base acc : Z) (s : bytes) : Z * bytes :=
  match s with
  | c :: r => match digit_of c with
              | Some d => if d <? base then take_digits base (acc * base + d) r else (acc, s)
              | None => (acc, s)
              end
  | [] => (acc, [])
  end.
Fixpoint skip_space (s : bytes) : bytes :=
  match s with c :: r => if one_of SPACES c then skip_space r else s | [] => [] end.
Definition has_digit (base : Z) (s : bytes) : bool :=
  match s with c :: _ => is_digit base c | [] => false end.
(* after sign and blanks: base 16 with 0x, else 8 with 0, else 10 *)
Definition strtol_digits (s : bytes) : option (Z * bytes) :=
  match s with
  | c :: r =>
    if c =? 48 then
      match r with
      | x :: r' => if ((x =? 120) || (x =? 88)) && has_digit 16 r' then Some (take_digits 16 0 r')
                   else Some (take_digits 8 0 s)
      | [] => Some (take_digits 8 0 s)
      end
    else if has_digit 10 s then Some (take_digits 10 0 s) else None
  | [] => None
  end.
Definition strtol (s : bytes) : option (Z * bool * bytes) :=
  let s1 := skip_space s in
  let '(neg, s2) := match s1 with
                    | c :: r => if c =? 45 then (true, r) else if c =? 43 then (false, r) else (false, s1)
                    | [] => (false, s1)
                    end in
  match strtol_digits s2 with
  | None => None
  | Some (v, e) =>
    let w := if neg : bool then - v else v in
    let over := (w <? - 2 ^ 63) || (w >? 2 ^ 63 - 1) in
    Some (Z.max (- 2 ^ 63) (Z.min (2 ^ 63 - 1) w), over, e)
  end.

(* ---- values ---- *)
Definition s_1 : bytes := [49].
Definition s_0 : bytes := [48].
Definition s_true : bytes := [116; 114; 117; 101].
Definition s_false : bytes := [102; 97; 108; 115; 101].
Definition s_uid : bytes := [117; 105; 100].
Definition s_recursive : bytes := [114; 101; 99; 117; 114; 115; 105; 118; 101].
Definition SEPS : bytes := [32; 9].
Definition INT_MAX := 2 ^ 31 - 1.

(* mntc_parse_bool: mntd/mntconf.c:110-123 *)
Definition parse_bool (sv : bytes) : option bool :=
  if sv_isequal sv s_1 || sv_isequal sv s_true then Some true
  else if sv_isequal sv s_0 || sv_isequal sv s_false then Some false
  else None.
(* mntc_parse_long: mntconf.c:125-146 *)
Definition parse_long (sv : bytes) : option Z :=
  if zlen sv >=? 80 then None
  else match strtol sv with
       | None => None
       | Some (v, range, e) => if range then None else if zlen e >? 1 then None else Some v
       end.
(* mntc_parse_int: mntconf.c:148-159 *)
Definition parse_int (sv : bytes) : option Z :=
  match parse_long sv with
  | None => None
  | Some num => if (num >? INT_MAX) || (num <? - 2 ^ 31) then None else Some num
  end.
(* mntc_parse_uid: mntconf.c:161-171 *)
Definition parse_uid (sv : bytes) : option Z :=
  match parse_int sv with
  | None => None
  | Some v => if (v <? 0) || (v >? INT_MAX / 2) then None else Some v
  end.

(* ---- a line ---- *)
(* mntc_parse_rule_args: mntconf.c:175-207.  fuel: one for every argument *)
Fixpoint parse_args (fuel : nat) (ss : bytes * bytes) (ru : rule) : option rule :=
  let '(carg, tail) := ss in
  if sv_isempty carg && sv_isempty tail then Some ru
  else match fuel with
  | O => None
  | S k =>
    let '(key, val) := sv_split_chr 61 carg in
    if sv_isempty key || sv_isempty val then None
    else if sv_isequal key s_recursive then
      match parse_bool val with
      | None => None
      | Some b => parse_args k (sv_split SEPS tail) (mkRule (ru_path ru) (ru_uid ru) b)
      end
    else if sv_isequal key s_uid then
      match parse_uid val with
      | None => None
      | Some u => parse_args k (sv_split SEPS tail) (mkRule (ru_path ru) u (ru_rec ru))
      end
    else None
  end.
Definition parse_rule_args (args : bytes) (path : bytes) : option rule :=
  parse_args (S (length args)) (sv_split SEPS args) (mkRule path UID_NONE false).

Section Load.
(* realpath as the rules are loaded; None: it failed *)
Variable realpath : bytes -> option bytes.

(* realpath_of: mntconf.c:40-52 *)
Definition realpath_of (p : bytes) : bytes :=
  match realpath p with None => p | Some r => r end.

(* SILOFS_MNTRULE_MAX: include/silofs/defs.h:467 *)
Definition MNTRULE_MAX := 1024.
(* mntc_parse_rule: mntconf.c:209-224 *)
Definition parse_rule (path args : bytes) (rs : list rule) : option (list rule) :=
  if Z.of_nat (length rs) <? MNTRULE_MAX then
    match parse_rule_args args (realpath_of path) with
    | None => None
    | Some ru => Some (rs ++ [ru])
    end
  else None.
(* mntc_parse_line: mntconf.c:226-239 *)
Definition parse_line (line : bytes) (rs : list rule) : option (list rule) :=
  let sline := sv_strip_ws (fst (sv_split_chr 35 line)) in
  if sv_isempty sline then Some rs
  else let '(path, args) := sv_split SEPS sline in parse_rule path args rs.
(* mntc_parse_rules: mntconf.c:241-257.  fuel: one for every line *)
Fixpoint parse_lines (fuel : nat) (svp : bytes * bytes) (rs : list rule) : option (list rule) :=
  let '(line, tail) := svp in
  if sv_isempty line && sv_isempty tail then Some rs
  else match fuel with
  | O => None
  | S k => match parse_line line rs with
           | None => None
           | Some rs' => parse_lines k (sv_split_chr 10 tail) rs'
           end
  end.
(* parse_mntrules: mntconf.c:259-266; a C string *)
Definition parse_rules (text : bytes) : option (list rule) :=
  parse_lines (S (length text)) (sv_split_chr 10 text) [].

(* the file: its mode and size, and the bytes read from it (as many as its size said), if no
   call failed: read_mntconf_file, mntconf.c:270-301; mountd_parse_mntrules, 323-333 *)
Record cfile := mkCfile { c_mode : Z; c_size : Z; c_read : option bytes }.
Definition is_reg (mode : Z) : bool := Z.land mode 61440 =? 32768.
Definition load_rules (f : option cfile) : option (list rule) :=
  match f with
  | None => None
  | Some f =>
    if negb (is_reg (c_mode f)) then None
    else if c_size f >? 2 ^ 20 then None
    else match c_read f with
         | None => None
         | Some b => if zlen b =? c_size f then parse_rules (cstr b) else None
         end
  end.
End Load.
