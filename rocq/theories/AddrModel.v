(* Object types, virtual offsets, logical addresses and their on-disk forms.
   Models lib/addr/{ltype,offlba,vaddr,laddr,uaddr,paddr}.c.  Hosts are taken to
   be little-endian (voff_ltype_to_cpu in lib/addr/vaddr.c:80-94 does not swap). *)
From Verif Require Import Base.

(* enum silofs_ltype, include/silofs/defs.h:372-387 *)
Definition LT_NONE := 0.
Definition LT_BOOTREC := 1.
Definition LT_SUPER := 2.
Definition LT_SPNODE := 3.
Definition LT_SPLEAF := 4.
Definition LT_INODE := 5.
Definition LT_XANODE := 6.
Definition LT_SYMVAL := 7.
Definition LT_DTNODE := 8.
Definition LT_FTNODE := 9.
Definition LT_DATA1K := 10.
Definition LT_DATA4K := 11.
Definition LT_DATABK := 12.

(* enum silofs_height, include/silofs/defs.h:390-401 *)
Definition H_VDATA := 1.
Definition H_SPLEAF := 2.
Definition H_SPNODE1 := 3.
Definition H_SPNODE2 := 4.
Definition H_SPNODE3 := 5.
Definition H_SPNODE4 := 6.
Definition H_SUPER := 7.
Definition H_BOOT := 8.

(* include/silofs/defs.h:102,153,174,183 and the LBK/KB sizes *)
Definition KB_SIZE := 1024.
Definition LBK_SIZE := 65536.
Definition NCHILDS := 256.
Definition SPMAP_SIZE := 32768.
Definition SB_SIZE := 8192.
Definition BOOTREC_SIZE := 1024.
Definition LSEG_SIZE_MAX := 16777216.
Definition OFF_NULL := -1.

(* silofs_ltype_isvnode, lib/addr/ltype.c:121-147 *)
Definition ltype_isvnode (t : Z) : bool := (LT_INODE <=? t) && (t <=? LT_DATABK).

(* silofs_ltype_isdata, lib/addr/ltype.c:149-175 *)
Definition ltype_isdata (t : Z) : bool := (LT_DATA1K <=? t) && (t <=? LT_DATABK).

(* silofs_ltype_size, lib/addr/ltype.c:177-210, sizes from lib/require.c:115-121,171 *)
Definition ltype_size (t : Z) : Z :=
  if t =? LT_BOOTREC then 1024
  else if t =? LT_SUPER then 8192
  else if t =? LT_SPNODE then 32768
  else if t =? LT_SPLEAF then 32768
  else if t =? LT_INODE then 1024
  else if t =? LT_XANODE then 4096
  else if t =? LT_SYMVAL then 4096
  else if t =? LT_DTNODE then 8192
  else if t =? LT_FTNODE then 8192
  else if t =? LT_DATA1K then 1024
  else if t =? LT_DATA4K then 4096
  else if t =? LT_DATABK then 65536
  else 0.

(* silofs_ltype_nkbs, lib/addr/ltype.c:217-222 *)
Definition ltype_nkbs (t : Z) : Z := (ltype_size t + KB_SIZE - 1) / KB_SIZE.

(* silofs_off_isnull, silofs_off_align, silofs_off_next, silofs_off_remainder,
   silofs_off_to_lba, silofs_lba_to_off: lib/addr/offlba.c:24-118.  C division
   truncates toward zero; all uses are on non-negative offsets, where it agrees
   with Z.quot. *)
Definition off_isnull (off : Z) : bool := off <? 0.
Definition off_align (off a : Z) : Z := Z.quot off a * a.
Definition off_next (off len : Z) : Z := off_align (off + len) len.
Definition off_rem (off len : Z) : Z := Z.rem off len.
Definition off_to_lba (off : Z) : Z := if off_isnull off then -1 else Z.quot off LBK_SIZE.
Definition lba_to_off (lba : Z) : Z := if lba =? -1 then OFF_NULL else lba * LBK_SIZE.

(* silofs_height_to_space_span, lib/addr/vaddr.c:23-58 *)
Definition space_span (h : Z) : Z :=
  let k := if h =? H_SPLEAF then 1
           else if h =? H_SPNODE1 then 2
           else if h =? H_SPNODE2 then 3
           else if h =? H_SPNODE3 then 4
           else if (H_SPNODE4 <=? h) && (h <=? H_BOOT + 1) then 5
           else 0 in
  2 ^ (8 * k) * LBK_SIZE.

(* struct silofs_vaddr: include/silofs/addr/vaddr.h *)
Record vaddr := mkVaddr { va_off : Z; va_ltype : Z; va_len : Z }.

(* silofs_vaddr_none / silofs_vaddr_reset, lib/addr/vaddr.c:123-132,182-187 *)
Definition vaddr_none : vaddr := mkVaddr OFF_NULL LT_NONE 0.

(* silofs_vaddr_setup, lib/addr/vaddr.c:160-166 *)
Definition vaddr_setup (t off : Z) : vaddr := mkVaddr off t (ltype_size t).

(* silofs_vaddr_isnull, lib/addr/vaddr.c:189-193 *)
Definition vaddr_isnull (v : vaddr) : bool :=
  (va_len v =? 0) || off_isnull (va_off v) || (va_ltype v =? LT_NONE).

(* silofs_vaddr_compare, lib/addr/vaddr.c:134-152; an enumeration without negative values is an
   unsigned int, so the difference of two types is taken modulo 2^32 and then widened *)
Definition vaddr_compare (v1 v2 : vaddr) : Z :=
  let c := u32 (va_ltype v1 - va_ltype v2) in
  if negb (c =? 0) then c
  else let c := va_off v1 - va_off v2 in
       if negb (c =? 0) then c else va_len v1 - va_len v2.

(* cpu_to_voff_ltype, lib/addr/vaddr.c:62-78: the u64 stored on disk *)
Definition voff_ltype_enc (off t : Z) : Z :=
  if t =? LT_NONE then 0
  else Z.lor (Z.ldiff (u64 off) 255) (Z.land (u64 t) 255).

(* voff_ltype_to_cpu, lib/addr/vaddr.c:80-94 *)
Definition voff_ltype_dec (x : Z) : Z * Z :=
  if 0 <? x then (s64 (Z.ldiff x 255), Z.land x 255) else (OFF_NULL, LT_NONE).

(* silofs_vaddr64_htox / _xtoh, lib/addr/vaddr.c:276-290; 8 little-endian bytes *)
Definition vaddr64_htox (v : vaddr) : bytes :=
  le_enc 8 (voff_ltype_enc (va_off v) (va_ltype v)).
Definition vaddr64_xtoh (b : bytes) : vaddr :=
  let '(off, t) := voff_ltype_dec (le_dec b) in vaddr_setup t off.

(* cpu_to_len_height / len_height_to_cpu, lib/addr/vaddr.c:96-119 *)
Definition len_height_enc (len h : Z) : Z := Z.lor (u64 (Z.shiftl len 4)) (Z.land h 15).
Definition len_height_dec (x : Z) : Z * Z := (Z.shiftr x 4, Z.land x 15).

(* silofs_vaddr56_htox, lib/addr/vaddr.c:237-254 *)
Definition vaddr56_null : bytes := [255; 255; 255; 255; 255; 255; 255].
Definition vaddr56_htox (off : Z) : bytes :=
  if off_isnull off then vaddr56_null
  else let u := u64 off in
       [ Z.land (Z.shiftr u 8) 255; Z.land (Z.shiftr u 16) 255;
         Z.land (Z.shiftr u 24) 255; Z.land (Z.shiftr u 32) 255;
         Z.land (Z.shiftr u 40) 255; Z.land (Z.shiftr u 48) 255;
         Z.land (Z.shiftr u 56) 255 ].

(* silofs_vaddr56_xtoh, lib/addr/vaddr.c:256-274 *)
Definition vaddr56_xtoh (b : bytes) : Z :=
  if list_eq_dec Z.eq_dec b vaddr56_null then OFF_NULL
  else
    let f i s := Z.shiftl (nth i b 0) s in
    s64 (Z.lor (Z.lor (Z.lor (Z.lor (Z.lor (Z.lor (Z.lor 0 (f 0%nat 8)) (f 1%nat 16))
        (f 2%nat 24)) (f 3%nat 32)) (f 4%nat 40)) (f 5%nat 48)) (f 6%nat 56)).

(* struct silofs_lsid: include/silofs/addr/laddr.h; lvid is the 16-byte uuid *)
Record lsid := mkLsid { ls_lvid : bytes; ls_lsize : Z; ls_vindex : Z;
                        ls_vspace : Z; ls_height : Z; ls_ltype : Z }.

(* height_to_lseg_size, lib/addr/laddr.c:69-100 *)
Definition lseg_size (h : Z) : Z :=
  Z.min
    (if h =? H_VDATA then LBK_SIZE * NCHILDS
     else if (H_SPLEAF <=? h) && (h <=? H_SPNODE4) then SPMAP_SIZE * NCHILDS
     else if h =? H_SUPER then SB_SIZE
     else if h =? H_BOOT then BOOTREC_SIZE
     else 0)
    LSEG_SIZE_MAX.

(* lseg_vindex_of, lib/addr/laddr.c:102-112 *)
Definition lseg_vindex (voff size : Z) : Z :=
  if 0 <? size then u32 (Z.quot (off_align voff size) size) else 0.

(* silofs_lsid_setup, lib/addr/laddr.c:222-235 *)
Definition lsid_setup (lvid : bytes) (voff vspace h t : Z) : lsid :=
  mkLsid lvid (lseg_size h) (lseg_vindex voff (lseg_size h)) vspace h t.

(* silofs_lsid_isnull, lib/addr/laddr.c:134-138 *)
Definition lsid_isnull (l : lsid) : bool :=
  (ls_ltype l =? LT_NONE) || (ls_lsize l =? 0) || (ls_vindex l =? 4294967295).

(* silofs_lsid_pos, lib/addr/laddr.c:146-151 *)
Definition lsid_pos (l : lsid) (off : Z) : Z :=
  if ls_lsize l =? 0 then 0 else off_rem off (ls_lsize l).

(* struct silofs_laddr *)
Record laddr := mkLaddr { la_lsid : lsid; la_pos : Z; la_len : Z }.

(* silofs_laddr_setup, lib/addr/laddr.c:281-292 *)
Definition laddr_setup (l : lsid) (off len : Z) : laddr :=
  if negb (ls_lsize l =? 0) && negb (off_isnull off)
  then mkLaddr l (lsid_pos l off) len
  else mkLaddr l OFF_NULL 0.

(* silofs_laddr_setup_lbk, lib/addr/laddr.c:294-300 *)
Definition laddr_setup_lbk (l : lsid) (off : Z) : laddr :=
  laddr_setup l (if off_isnull off then off else off_align off LBK_SIZE) LBK_SIZE.

(* silofs_laddr_isnull, silofs_laddr_isvalid: lib/addr/laddr.c:342-354 *)
Definition laddr_isnull (a : laddr) : bool := off_isnull (la_pos a) || lsid_isnull (la_lsid a).
Definition laddr_isvalid (a : laddr) : bool :=
  negb (laddr_isnull a) && (la_pos a + la_len a <=? ls_lsize (la_lsid a)).

(* silofs_lsid32b_htox, lib/addr/laddr.c:247-257; struct at defs.h:555-563.
   Fields in memory order: lvid[16] lsize vindex vspace height ltype pad[5] *)
Definition lsid32b_htox (l : lsid) : bytes :=
  ls_lvid l ++ le_enc 4 (u32 (ls_lsize l)) ++ le_enc 4 (u32 (ls_vindex l)) ++
  [u8 (ls_vspace l); u8 (ls_height l); u8 (ls_ltype l)] ++ repeat 0 5.

(* a field of a packed structure: n bytes at offset i *)
Definition sub (i n : nat) (b : bytes) : bytes := firstn n (skipn i b).

(* silofs_lsid32b_xtoh, lib/addr/laddr.c:259-268 *)
Definition lsid32b_xtoh (b : bytes) : lsid :=
  mkLsid (sub 0 16 b) (le_dec (sub 16 4 b)) (le_dec (sub 20 4 b))
         (le_dec (sub 24 1 b)) (le_dec (sub 25 1 b)) (le_dec (sub 26 1 b)).

(* silofs_laddr48b_htox, lib/addr/laddr.c:411-418; struct at defs.h:566-571 *)
Definition laddr48b_htox (a : laddr) : bytes :=
  lsid32b_htox (la_lsid a) ++ le_enc 4 (u32 (la_pos a)) ++ le_enc 4 (u32 (la_len a)) ++
  repeat 0 8.

(* silofs_laddr48b_xtoh, lib/addr/laddr.c:420-426 *)
Definition laddr48b_xtoh (b : bytes) : laddr :=
  mkLaddr (lsid32b_xtoh (sub 0 32 b)) (le_dec (sub 32 4 b)) (le_dec (sub 36 4 b)).

(* struct silofs_uaddr; silofs_uaddr64b_htox/_xtoh, lib/addr/uaddr.c:110-122;
   struct at defs.h:583-587.  The 8 trailing pad bytes are not written by the
   encoder; they are modelled as the argument pad and ignored by the decoder. *)
Record uaddr := mkUaddr { ua_laddr : laddr; ua_voff : Z }.
Definition uaddr64b_htox (pad : bytes) (u : uaddr) : bytes :=
  laddr48b_htox (ua_laddr u) ++ le_enc 8 (u64 (ua_voff u)) ++ pad.
Definition uaddr64b_xtoh (b : bytes) : uaddr :=
  mkUaddr (laddr48b_xtoh (sub 0 48 b)) (s64 (le_dec (sub 48 8 b))).

(* struct silofs_paddr (psid = pvid, index); silofs_psid32b_htox/_xtoh,
   lib/addr/paddr.c:204-217, silofs_paddr48b_htox/_xtoh, lib/addr/paddr.c:305-322;
   structs at defs.h:530-534,546-552 *)
Record paddr := mkPaddr { pa_pvid : bytes; pa_index : Z; pa_off : Z; pa_len : Z; pa_ptype : Z }.
Definition paddr48b_htox (p : paddr) : bytes :=
  pa_pvid p ++ le_enc 4 (u32 (pa_index p)) ++ repeat 0 12 ++
  le_enc 8 (u64 (pa_off p)) ++ le_enc 4 (u32 (pa_len p)) ++ [u8 (pa_ptype p)] ++ repeat 0 3.
Definition paddr48b_xtoh (b : bytes) : paddr :=
  mkPaddr (sub 0 16 b) (le_dec (sub 16 4 b)) (s64 (le_dec (sub 32 8 b)))
          (le_dec (sub 40 4 b)) (le_dec (sub 44 1 b)).

(* byte-wise xor of two buffers: silofs_iv_xor_with1, lib/crypt/ivkey.c:101-106 *)
Fixpoint xor_bytes (a b : bytes) : bytes :=
  match a, b with
  | x :: r, y :: s => Z.lxor x y :: xor_bytes r s
  | _, _ => []
  end.

(* silofs_laddr_as_iv, lib/addr/laddr.c:384-401 *)
Definition laddr_as_iv (a : laddr) : bytes :=
  let d := laddr48b_htox a in
  xor_bytes (xor_bytes (sub 0 16 d) (sub 16 16 d)) (sub 32 16 d).

(* resolve_ivkey_of, lib/encdec.c:21-32 with silofs_iv_xor_with2,
   lib/crypt/ivkey.c:108-114: the cipher IV of an object *)
Definition cipher_iv (main_iv : bytes) (a : laddr) (seed_iv : bytes) : bytes :=
  xor_bytes main_iv (xor_bytes (laddr_as_iv a) seed_iv).
