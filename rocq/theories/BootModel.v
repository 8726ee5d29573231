(* Boot records: lib/boot.c, with the key derived from a password: lib/crypt/cipher.c,
   lib/fsenv.c.

   Simplifications:
   - SHA-256, SHA3-256 and the two key derivations are parameters; so is the key stream
     of AES-256 in Galois counter mode, which encrypts by xor (the boot cipher is opened
     in this mode, lib/crypt/cipher.c:59-77, and never in another: lib/fsenv.c:228-234);
     calls of the library do not fail;
   - enum silofs_bootf has no negative member, and is an unsigned int. *)
From Verif Require Import Base AddrModel WalkModel PackModel.

Record crypto := mkCrypto {
  c_sha256 : bytes -> bytes;
  c_sha3 : bytes -> bytes;
  c_kdf_key : bytes -> bytes;              (* password: derive_key, lib/crypt/cipher.c:221-237 *)
  c_kdf_iv : bytes -> bytes;               (* derive_iv, lib/crypt/cipher.c:203-219 *)
  c_stream : bytes -> bytes -> nat -> bytes (* key, IV, length *) }.

(* silofs_encrypt_buf, silofs_decrypt_buf: lib/crypt/cipher.c:167-199 *)
Definition crypt (C : crypto) (key iv b : bytes) : bytes := xor_bytes b (c_stream C key iv (length b)).

(* silofs_fsenv_setup, fsenv_init_boot: lib/fsenv.c:361-373, 228-234;
   silofs_derive_ivkey: lib/crypt/cipher.c:239-260.  No password: both are zeros. *)
Definition boot_ivkey (C : crypto) (pw : bytes) : bytes * bytes :=
  match pw with
  | [] => (repeat 0 32, repeat 0 16)
  | _ => (c_kdf_key C pw, c_kdf_iv C pw)
  end.

(* struct silofs_prange; silofs_prange64b_htox/_xtoh: lib/bstore.c:146-164; defs.h:537-543 *)
Record prange := mkPrange { pr_pvid : bytes; pr_base : Z; pr_curr : Z; pr_pos : Z }.
Definition prange64b_htox (p : prange) : bytes :=
  pr_pvid p ++ le_enc 4 (u32 (pr_base p)) ++ le_enc 4 (u32 (pr_curr p)) ++
  le_enc 8 (u64 (pr_pos p)) ++ repeat 0 32.
Definition prange64b_xtoh (b : bytes) : prange :=
  mkPrange (sub 0 16 b) (le_dec (sub 16 4 b)) (le_dec (sub 20 4 b)) (s64 (le_dec (sub 24 8 b))).

(* struct silofs_bootrec: include/silofs/boot.h *)
Record brec := mkBrec {
  br_uaddr : uaddr; br_riv : bytes; br_flags : Z; br_uuid : bytes;
  br_key : bytes; br_iv : bytes; br_prange : prange; br_algo : Z; br_mode : Z }.

Definition BOOT_MAGIC := 4635125747890606912.   (* 0x4053464F4C495340: defs.h:36 *)
Definition FMT_VERSION := 1.                     (* defs.h:24 *)
Definition CIPHER_AES256 := 9.                   (* defs.h:439 *)

(* the conversion of a 32-bit word to int *)
Definition s32 (x : Z) : Z := let y := x mod 2 ^ 32 in if y <? 2 ^ 31 then y else y - 2 ^ 32.

(* silofs_bootrec1k_htox: lib/boot.c:402-413, 186-194; struct silofs_bootrec1k: defs.h:604-620; all
   but the last field, the digest *)
Definition boot_body (r : brec) : bytes :=
  le_enc 8 BOOT_MAGIC ++ le_enc 8 FMT_VERSION ++ br_uuid r ++ le_enc 8 (u64 (br_flags r)) ++
  le_enc 4 (u32 (br_algo r)) ++ le_enc 4 (u32 (br_mode r)) ++ repeat 0 16 ++
  br_key r ++ br_iv r ++ br_riv r ++ uaddr64b_htox (repeat 0 8) (br_uaddr r) ++ repeat 0 64 ++
  prange64b_htox (br_prange r) ++ repeat 0 672.

(* silofs_bootrec1k_stamp: lib/boot.c:347-354 *)
Definition boot_plain (C : crypto) (r : brec) : bytes := boot_body r ++ c_sha3 C (boot_body r).

(* bootrec_encode, silofs_encode_bootrec: lib/boot.c:546-557, 610-619 *)
Definition boot_seal (C : crypto) (pw x : bytes) : bytes :=
  crypt C (fst (boot_ivkey C pw)) (snd (boot_ivkey C pw)) x.
Definition boot_enc (C : crypto) (pw : bytes) (r : brec) : bytes := boot_seal C pw (boot_plain C r).

(* silofs_check_cipher_args: lib/crypt/cipher.c:23-35 *)
Definition cipher_ok (algo mode : Z) : bool :=
  (algo =? CIPHER_AES256) && ((mode =? 9) || (mode =? 3) || (mode =? 13)).

(* silofs_bootrec1k_xtoh: lib/boot.c:389-400 *)
Definition boot_xtoh (b : bytes) : brec :=
  mkBrec (uaddr64b_xtoh (sub 128 64 b)) (sub 112 16 b) (u32 (le_dec (sub 32 8 b))) (sub 16 16 b)
    (sub 64 32 b) (sub 96 16 b) (prange64b_xtoh (sub 256 64 b))
    (s32 (le_dec (sub 40 4 b))) (s32 (le_dec (sub 44 4 b))).

(* bootrec1k_check_base, bootrec1k_check_uaddr_sb, bootrec1k_check, bootrec1k_check_hash,
   bootrec1k_verify: lib/boot.c:251-289, 303-324, 356-381 *)
Definition boot_verify (C : crypto) (b : bytes) : option perr :=
  let magic := le_dec (sub 0 8 b) in
  let version := le_dec (sub 8 8 b) in
  let r := boot_xtoh b in
  let l := la_lsid (ua_laddr (br_uaddr r)) in
  if negb (magic =? BOOT_MAGIC) && negb (version =? FMT_VERSION) then Some EKeyexp
  else if negb (magic =? BOOT_MAGIC) then Some EBadboot
  else if negb (version =? FMT_VERSION) then Some EBadboot
  else if negb (ls_ltype l =? LT_SUPER) || negb (ls_height l =? H_SUPER) ||
          negb (ua_voff (br_uaddr r) =? 0) then Some EBadboot
  else if negb (cipher_ok (br_algo r) (br_mode r)) then Some ENosupp
  else if bytes_eqb (sub 992 32 b) (c_sha3 C (sub 0 992 b)) then None
  else Some ECsum.

(* bootrec_decode, silofs_decode_bootrec: lib/boot.c:559-577, 621-630 *)
Definition boot_dec (C : crypto) (pw e : bytes) : res brec :=
  let b := boot_seal C pw e in
  match boot_verify C b with
  | Some er => Err er
  | None => Ok (boot_xtoh b)
  end.

(* ---- in the repository ---- *)
(* the environment of PackModel with these boot records; a decoded record is kept as the
   bytes that encode it *)
Definition boot_env (C : crypto) (pw : bytes) (E : env) : env :=
  mkEnv (c_sha256 C) (e_xxh E) (e_node E) (e_leaf E)
    (fun e => match boot_dec C pw e with Ok r => Some (boot_plain C r) | _ => None end)
    (boot_seal C pw).

(* calc_bootrec1k_caddr: lib/boot.c:632-643 *)
Definition boot_caddr_of (C : crypto) (b : bytes) : caddr :=
  mkCaddr (c_sha256 C b) (u32 (Z.of_nat (length b))) CT_BOOTREC.

(* silofs_save_bootrec: lib/boot.c:673-705 *)
Definition boot_save (C : crypto) (pw : bytes) (r : brec) : M caddr :=
  let b := boot_enc C pw r in
  let c := boot_caddr_of C b in
  save_blob (ca_hash c) b ;;; create_ref c ;;; ret c.

(* silofs_load_bootrec: lib/boot.c:707-739 *)
Definition boot_load (C : crypto) (pw : bytes) (c : caddr) : M brec :=
  may_fail EIo ;;;
  r <- get_repo ;;
  if negb (r_refs r c) then fail ENoref
  else may_fail EIo ;;;
  match r_blobs r (ca_hash c) with
  | None => fail EBadboot
  | Some e =>
    if Z.of_nat (length e) <? BOOTREC_SIZE then fail EIo
    else let b := firstn (Z.to_nat BOOTREC_SIZE) e in
         if negb (caddr_eqb c (boot_caddr_of C b)) then fail EBadboot
         else match boot_dec C pw b with Ok br => ret br | Err er => fail er | Abort => abort end
  end.
