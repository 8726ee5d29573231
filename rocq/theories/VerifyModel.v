(* Directory and attribute nodes as they come from storage: load-time verification and the
   accesses of lookup and listing, over the raw bytes of a node.  Every access is checked:
   None means the code reads outside the node (undefined in C).  memcmp is taken to stop at the
   first difference.  Assertions are compiled out in release builds and not modelled. *)
From Verif Require Import Base.

Definition chk (A : Type) := option A.
Definition bnd {A B} (m : chk A) (f : A -> chk B) : chk B := match m with Some a => f a | None => None end.
Notation "x <- m ; f" := (bnd m (fun x => f)) (at level 61, m at next level, right associativity).

(* n bytes at position a of the node *)
Definition rd (b : bytes) (a n : Z) : chk bytes := if (0 <=? a) && (a + n <=? zlen b) then Some (zsub a n b) else None.
Definition rdz (b : bytes) (a n : Z) : chk Z := x <- rd b a n; Some (le_dec x).
(* memcmp(b + a, s, strlen) == 0 *)
Fixpoint rcmp (b : bytes) (a : Z) (s : bytes) : chk bool :=
  match s with
  | [] => Some true
  | c :: r => x <- rd b a 1; if bytes_eqb x [c] then rcmp b (a + 1) r else Some false
  end.

(* ---- directory nodes: struct silofs_dtree_node, include/silofs/defs.h:870-881 ---- *)
Definition DTN_SIZE := 8192.
Definition DTN_DATA := 512.   (* offset of dn_data *)
Definition DTN_NB := 7680.    (* SILOFS_DIR_NODE_NBUF_SIZE *)
Definition DTN_NAME_MAX := 511. (* SILOFS_NAME_MAX *)
Definition DTN_INDEX_MAX := 16777216. (* SILOFS_DIR_TREE_INDEX_MAX *)

Record dent_raw := mkDr { d_ino : Z; d_hdt : Z; d_len : Z; d_pos : Z }.
Definition dtn_entry (b : bytes) (s : nat) : chk dent_raw :=
  let a := DTN_DATA + 16 * Z.of_nat s in
  i <- rdz b a 8; h <- rdz b (a + 8) 4; l <- rdz b (a + 12) 2; p <- rdz b (a + 14) 2; Some (mkDr i h l p).
Definition dtn_nde (b : bytes) : chk Z := rdz b 36 2.
Definition dtn_nnb (b : bytes) : chk Z := rdz b 38 2.
(* de_isactive, lib/dir.c:350-353 *)
Definition de_act (e : dent_raw) : bool := (0 <? d_ino e) && (0 <? d_len e).
(* dttoif, lib/dir.c:67-88: non-zero for the eight file types *)
Definition dt_known (dt : Z) : bool := existsb (Z.eqb dt) [1; 2; 4; 6; 8; 10; 12; 14].
(* de_isvalid, lib/dir.c:363-387 *)
Definition de_valid (e : dent_raw) : bool :=
  (0 <? d_ino e) && dt_known (Z.shiftr (d_hdt e) 24) && (0 <? d_len e) && (d_len e <=? DTN_NAME_MAX) &&
  (0 <? d_pos e) && (d_pos e <? DTN_NB).

(* dtn_verify_des, lib/dir.c:876-888 *)
Fixpoint verify_des (b : bytes) (s k : nat) : chk bool :=
  match k with
  | O => Some true
  | S k' => e <- dtn_entry b s; if de_act e && negb (de_valid e) then Some false else verify_des b (S s) k'
  end.
(* dtn_verify_names, lib/dir.c:890-902 *)
Fixpoint verify_chars (b : bytes) (a : Z) (k : nat) : chk bool :=
  match k with
  | O => Some true
  | S k' => c <- rdz b a 1; if (c =? 0) || (c =? 47) then Some false else verify_chars b (a + 1) k'
  end.
(* silofs_verify_dtree_node, lib/dir.c:2857-2882.  silofs_verify_off (lib/addr/offlba.c:97-100) accepts
   every offset, and dtn_child makes every child of the right type, so that dtn_verify_childs
   (2816-2835) and the parent test accept anything. *)
Definition verify_dtree_node (b : bytes) : chk bool :=
  ino <- rdz b 16 8;
  if ino =? 0 then Some false else
  idx <- rdz b 32 4;
  if negb ((1 <=? idx) && (idx <=? DTN_INDEX_MAX)) then Some false else
  nde <- dtn_nde b;
  ok <- verify_des b 0 (Z.to_nat nde);
  if negb ok then Some false else
  nnb <- dtn_nnb b;
  verify_chars b (DTN_DATA + DTN_NB - nnb) (Z.to_nat nnb).

(* dtn_search, lib/dir.c:629-643, with dtn_de_has_name 613-627 *)
Fixpoint search_des (b : bytes) (s k : nat) (name : bytes) (hash : Z) : chk (option nat) :=
  match k with
  | O => Some None
  | S k' =>
    e <- dtn_entry b s;
    if de_act e && (Z.land (d_hdt e) 16777215 =? Z.land hash 16777215) && (d_len e =? zlen name)
    then eq <- rcmp b (DTN_DATA + d_pos e) name; if eq then Some (Some s) else search_des b (S s) k' name hash
    else search_des b (S s) k' name hash
  end.
Definition search_dtree_node (b : bytes) (name : bytes) (hash : Z) : chk (option nat) :=
  nde <- dtn_nde b; search_des b 0 (Z.to_nat nde) name hash.
(* listing: dirc_iterate_node, lib/dir.c:2162-2190, from the first entry on; each name is copied out
   (dirc_emit_dirent 2116-2135) *)
Fixpoint list_des (b : bytes) (s k : nat) : chk (list bytes) :=
  match k with
  | O => Some []
  | S k' =>
    e <- dtn_entry b s;
    if de_act e then nm <- rd b (DTN_DATA + d_pos e) (d_len e); r <- list_des b (S s) k'; Some (nm :: r)
    else list_des b (S s) k'
  end.
Definition list_dtree_node (b : bytes) : chk (list bytes) := nde <- dtn_nde b; list_des b 0 (Z.to_nat nde).
(* the child that a lookup goes down to: dtn_child_off, lib/dir.c:496-503, ord below 64 *)
Definition child_dtree_node (b : bytes) (ord : Z) : chk bytes := rd b (64 + 7 * (ord mod 64)) 7.

(* ---- attribute nodes: struct silofs_xattr_node, include/silofs/defs.h:850-856 ---- *)
Definition XAN_SIZE := 4096.
Definition XAN_DATA := 64.
Definition XAN_VALUE_MAX := 2048. (* SILOFS_XATTR_VALUE_MAX *)
(* xe_aligned_size, lib/xattr.c:87-92; xe_calc_nents 102-105 *)
Definition xal (n : Z) : Z := 8 * ((n + 7) / 8).
Definition xunits (nl vs : Z) : Z := 1 + (xal nl + xal vs) / 8.
Record xent_raw := mkXr { x_nl : Z; x_vs : Z }.
Definition xan_entry (b : bytes) (i : Z) : chk xent_raw :=
  l <- rdz b (XAN_DATA + 8 * i) 2; v <- rdz b (XAN_DATA + 8 * i + 4) 4; Some (mkXr l v).
Definition xsize (x : xent_raw) : Z := xunits (x_nl x) (x_vs x).
(* xan_nents, lib/xattr.c:315-318 *)
Definition xan_nents (b : bytes) : chk Z := rdz b 24 2.
(* xe_verify, lib/xattr.c:266-280 *)
Definition xe_ok (x : xent_raw) : bool := (0 <? x_nl x) && (x_nl x <=? DTN_NAME_MAX) && (x_vs x <=? XAN_VALUE_MAX).
(* xe_verify_range, lib/xattr.c:282-301: the room of an entry is measured from the start of the
   node, not from the entry; an entry has at least one unit, so fin rounds suffice *)
Fixpoint verify_range (fuel : nat) (b : bytes) (i fin : Z) : chk bool :=
  match fuel with
  | O => Some true
  | S k => if i <? fin
           then x <- xan_entry b i;
                if negb (xe_ok x) then Some false
                else if (xsize x =? 0) || (fin <? 0 + xsize x) then Some false
                else verify_range k b (i + xsize x) fin
           else Some true
  end.
(* silofs_verify_xattr_node, lib/xattr.c:1322-1335, with xan_verify 395-398 *)
Definition verify_xattr_node (b : bytes) : chk bool :=
  ino <- rdz b 16 8;
  if ino =? 0 then Some false else n <- xan_nents b; verify_range (Z.to_nat n) b 0 n.

(* xe_search, lib/xattr.c:226-238, with xe_has_name 168-173; xan_search 358-369 *)
Fixpoint search_range (fuel : nat) (b : bytes) (i fin : Z) (name : bytes) : chk (option (Z * xent_raw)) :=
  match fuel with
  | O => Some None
  | S k => if i <? fin
           then x <- xan_entry b i;
                eq <- (if zlen name =? x_nl x then rcmp b (XAN_DATA + 8 * (i + 1)) name else Some false);
                if eq then Some (Some (i, x)) else search_range k b (i + xsize x) fin name
           else Some None
  end.
Definition search_xattr_node (b name : bytes) : chk (option (Z * xent_raw)) :=
  n <- xan_nents b;
  if xunits (zlen name) 0 <=? n then search_range (Z.to_nat n) b 0 n name else Some None.
(* xac_do_getxattr, lib/xattr.c:753-776: the value of the entry found in the node *)
Definition get_xattr_node (b name : bytes) : chk (option bytes) :=
  r <- search_xattr_node b name;
  match r with
  | None => Some None
  | Some (i, x) => v <- rd b (XAN_DATA + 8 * (i + 1) + xal (x_nl x)) (x_vs x); Some (Some v)
  end.
(* xac_emit_range, lib/xattr.c:1143-1154 *)
Fixpoint list_range (fuel : nat) (b : bytes) (i fin : Z) : chk (list bytes) :=
  match fuel with
  | O => Some []
  | S k => if i <? fin
           then x <- xan_entry b i; nm <- rd b (XAN_DATA + 8 * (i + 1)) (x_nl x);
                r <- list_range k b (i + xsize x) fin; Some (nm :: r)
           else Some []
  end.
Definition list_xattr_node (b : bytes) : chk (list bytes) := n <- xan_nents b; list_range (Z.to_nat n) b 0 n.
