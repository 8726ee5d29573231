(* What a boot record holds, and where its parts lie in the 1024 bytes before encryption. *)
From Verif Require Import Base AddrModel WalkModel BootModel.

(* the bytes from i up to i + n; the little-endian number in them *)
Definition part (b : bytes) (i n : nat) : bytes := firstn n (skipn i b).
Definition word (b : bytes) (i n : nat) : Z := le_dec (part b i n).

(* a signed number and its two's complement in w bits *)
Definition signed (w x y : Z) : Prop := - 2 ^ (w - 1) <= y < 2 ^ (w - 1) /\ (x - y) mod 2 ^ w = 0.

(* the functions of the crypto library: only sizes are assumed *)
Definition sized (C : crypto) : Prop :=
  (forall x, length (c_sha256 C x) = 32%nat) /\ (forall x, length (c_sha3 C x) = 32%nat) /\
  (forall k i n, length (c_stream C k i n) = n).

(* a record of a file-system: fields of their stored width, the address of a super-block,
   a cipher that is supported *)
Record brec_wf (r : brec) : Prop := {
  bw_lvid : length (ls_lvid (la_lsid (ua_laddr (br_uaddr r)))) = 16%nat;
  bw_lsize : 0 <= ls_lsize (la_lsid (ua_laddr (br_uaddr r))) < 2 ^ 32;
  bw_vindex : 0 <= ls_vindex (la_lsid (ua_laddr (br_uaddr r))) < 2 ^ 32;
  bw_vspace : 0 <= ls_vspace (la_lsid (ua_laddr (br_uaddr r))) < 256;
  bw_height : ls_height (la_lsid (ua_laddr (br_uaddr r))) = 7;
  bw_ltype : ls_ltype (la_lsid (ua_laddr (br_uaddr r))) = 2;
  bw_pos : 0 <= la_pos (ua_laddr (br_uaddr r)) < 2 ^ 32;
  bw_len : 0 <= la_len (ua_laddr (br_uaddr r)) < 2 ^ 32;
  bw_voff : ua_voff (br_uaddr r) = 0;
  bw_riv : length (br_riv r) = 16%nat;
  bw_flags : 0 <= br_flags r < 2 ^ 32;
  bw_uuid : length (br_uuid r) = 16%nat;
  bw_key : length (br_key r) = 32%nat;
  bw_iv : length (br_iv r) = 16%nat;
  bw_pvid : length (pr_pvid (br_prange r)) = 16%nat;
  bw_base : 0 <= pr_base (br_prange r) < 2 ^ 32;
  bw_curr : 0 <= pr_curr (br_prange r) < 2 ^ 32;
  bw_ppos : - 2 ^ 63 <= pr_pos (br_prange r) < 2 ^ 63;
  bw_algo : br_algo r = 9;
  bw_mode : br_mode r = 3 \/ br_mode r = 9 \/ br_mode r = 13 }.

(* the 1024 bytes p say r *)
Record says (C : crypto) (p : bytes) (r : brec) : Prop := {
  sa_magic : word p 0 8 = 0x4053464F4C495340;
  sa_version : word p 8 8 = 1;
  sa_uuid : br_uuid r = part p 16 16;
  sa_flags : br_flags r = word p 32 8 mod 2 ^ 32;
  sa_algo : signed 32 (word p 40 4) (br_algo r);
  sa_mode : signed 32 (word p 44 4) (br_mode r);
  sa_key : br_key r = part p 64 32;
  sa_iv : br_iv r = part p 96 16;
  sa_riv : br_riv r = part p 112 16;
  sa_lvid : ls_lvid (la_lsid (ua_laddr (br_uaddr r))) = part p 128 16;
  sa_lsize : ls_lsize (la_lsid (ua_laddr (br_uaddr r))) = word p 144 4;
  sa_vindex : ls_vindex (la_lsid (ua_laddr (br_uaddr r))) = word p 148 4;
  sa_vspace : ls_vspace (la_lsid (ua_laddr (br_uaddr r))) = word p 152 1;
  sa_height : ls_height (la_lsid (ua_laddr (br_uaddr r))) = word p 153 1;
  sa_ltype : ls_ltype (la_lsid (ua_laddr (br_uaddr r))) = word p 154 1;
  sa_pos : la_pos (ua_laddr (br_uaddr r)) = word p 160 4;
  sa_len : la_len (ua_laddr (br_uaddr r)) = word p 164 4;
  sa_voff : signed 64 (word p 176 8) (ua_voff (br_uaddr r));
  sa_pvid : pr_pvid (br_prange r) = part p 256 16;
  sa_base : pr_base (br_prange r) = word p 272 4;
  sa_curr : pr_curr (br_prange r) = word p 276 4;
  sa_ppos : signed 64 (word p 280 8) (pr_pos (br_prange r));
  sa_hash : part p 992 32 = c_sha3 C (part p 0 992) }.

(* what the encryption adds to each byte under a password; key and IV are zeros without one *)
Definition pad_of (C : crypto) (pw : bytes) : bytes :=
  if (length pw =? 0)%nat then c_stream C (repeat 0 32) (repeat 0 16) 1024
  else c_stream C (c_kdf_key C pw) (c_kdf_iv C pw) 1024.

(* the repository holds the record r under the name c *)
Definition held (C : crypto) (pw : bytes) (R : repo) (c : caddr) (r : brec) : Prop :=
  r_refs R c = true /\ ca_size c = 1024 /\ ca_type c = 1 /\
  exists e p, r_blobs R (ca_hash c) = Some e /\ ca_hash c = c_sha256 C (firstn 1024 e) /\
    length p = 1024%nat /\ firstn 1024 e = xor_bytes p (pad_of C pw) /\ says C p r.

(* what is stored under the name c has not the digest of the bytes b unless it is b *)
Definition no_clash (C : crypto) (R : repo) (b : bytes) : Prop :=
  forall e, r_blobs R (c_sha256 C b) = Some e ->
    c_sha256 C (firstn 1024 e) = c_sha256 C b -> firstn 1024 e = b.
