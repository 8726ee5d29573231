(* The header of every metadata object: set up, sealed before writing, verified after reading.
   A view is the object's bytes.  The checksum function (XXH32 of the xxhash library, keyed by the
   magic number) is a parameter: the results hold for every function from bytes to numbers. *)
From Verif Require Import Base AddrModel.

Definition META_MAGIC := 1869375859. (* 0x6F6C6973, include/silofs/defs.h:48 *)
Definition HDRF_CSUM := 1. Definition HDRF_PTYPE := 2. Definition HDRF_LTYPE := 4. (* defs.h:334-338 *)
Definition HDR_SIZE := 16.

(* struct silofs_header, include/silofs/defs.h:624-631: magic 4, type 1, reserved 1, flags 2, size 4, csum 4;
   the accessors hdr_magic, hdr_size, hdr_type, hdr_flags, hdr_csum, lib/addr/meta.c:157-226 *)
Definition h_magic (v : bytes) : Z := le_dec (zsub 0 4 v).
Definition h_type (v : bytes) : Z := le_dec (zsub 4 1 v).
Definition h_flags (v : bytes) : Z := le_dec (zsub 6 2 v).
Definition h_size (v : bytes) : Z := le_dec (zsub 8 4 v).
Definition h_csum (v : bytes) : Z := le_dec (zsub 12 4 v).

(* silofs_hdr_setup, lib/addr/meta.c:244-254: the flags are set and then cleared again *)
Definition hdr_setup (v : bytes) (type size : Z) : bytes :=
  zput v 0 (le_enc 4 META_MAGIC ++ le_enc 1 type ++ [0] ++ le_enc 2 0 ++ le_enc 4 size ++ le_enc 4 0).
(* hdr_has_flags, lib/addr/meta.c:217-221 *)
Definition hdr_has_flags (v : bytes) (fl : Z) : bool := 0 <? Z.land (h_flags v) fl.
(* hdr_payload_size, lib/addr/meta.c:176-184: an assertion on the size field *)
Definition size_sane (v : bytes) : bool := (HDR_SIZE <? h_size v) && (h_size v <=? LBK_SIZE).

Inductive vres := VOk | VCorrupted | VBadCrc | VAbort.

Section Csum.
Variable hash : bytes -> Z.

(* hdr_calc_chekcsum, lib/addr/meta.c:274-280 *)
Definition calc_csum (v : bytes) : Z := u32 (hash (zsub HDR_SIZE (h_size v - HDR_SIZE) v)).
(* silofs_hdr_seal, lib/addr/meta.c:282-287, with hdr_set_csum 228-232 and hdr_add_flags 212-215;
   None: the assertion fails *)
Definition hdr_seal (v : bytes) : option bytes :=
  if size_sane v
  then Some (let v1 := zput v 12 (le_enc 4 (calc_csum v)) in zput v1 6 (le_enc 2 (u16 (Z.lor HDRF_CSUM (h_flags v1)))))
  else None.
(* silofs_hdr_verify, lib/addr/meta.c:303-317, with hdr_verify_base 256-272 and hdr_verify_checksum 289-301 *)
Definition hdr_verify (v : bytes) (type size fl : Z) : vres :=
  if negb (h_magic v =? META_MAGIC) then VCorrupted
  else if negb (h_type v =? type) then VCorrupted
  else if negb (h_size v =? size) then VCorrupted
  else if negb (hdr_has_flags v fl) then VCorrupted
  else if negb (hdr_has_flags v HDRF_CSUM) then VOk
  else if negb (size_sane v) then VAbort
  else if calc_csum v =? h_csum v then VOk else VBadCrc.

(* view_init_by, lib/lnodes.c:38-48, of a metadata type *)
Definition view_init (t : Z) : bytes := hdr_setup (zrepeat 0 (ltype_size t)) t (ltype_size t).
(* the users of the object write its payload, never its header *)
Definition set_payload (v p : bytes) : bytes := zput v HDR_SIZE p.
Definition payload (v : bytes) : bytes := zdrop HDR_SIZE v.

(* silofs_lni_verify_view, lib/lnodes.c:144-148: verify_view_by 1326-1343, view_verify_by_hdr 1282-1289;
   sub_ok: the verdict of the type's own verifier (view_verify_sub, 1291-1324) *)
Definition verify_view (t : Z) (v : bytes) (sub_ok : bool) : vres :=
  if ltype_isdata t then VOk
  else match hdr_verify v t (ltype_size t) (Z.lor HDRF_CSUM HDRF_LTYPE) with
       | VOk => if sub_ok then VOk else VCorrupted
       | r => r
       end.
End Csum.
