(* The in-memory cache of free address ranges, lib/spxmap.c: a short stack of single units in
   front of an ordered index of ranges.

   The index (an AVL tree keyed by offset) is the list of its entries in key order: lower bound,
   predecessor, first, last, insertion and removal of the tree are those of the list, which is
   what AvlProps.v proves of the tree.  Changing the offset of the first entry in place
   (spe_chop_head) changes the head of the list.  The outcome of a memory allocation is an
   argument.  Offsets and lengths are unbounded.  SUb: memory that was freed is still linked in
   the tree. *)
From Verif Require Import Base AddrModel.

(* struct silofs_spa_entry, lib/spxmap.c:22-26 *)
Record spe := mkSpe { spe_voff : Z; spe_len : Z }.
(* spe_end, lib/spxmap.c:112-115 *)
Definition spe_end (e : spe) : Z := spe_voff e + spe_len e.

(* struct silofs_spamap, include/silofs/spxmap.h:30-37.  sal_lifo as a list, last pushed
   first; sal_size is its length. *)
Record spamap := mkSpa { sp_lifo : list Z; sp_ulen : Z; sp_ents : list spe; sp_cap : Z; sp_hint : Z }.
Definition with_lifo (m : spamap) (l : list Z) := mkSpa l (sp_ulen m) (sp_ents m) (sp_cap m) (sp_hint m).
Definition with_ents (m : spamap) (l : list spe) := mkSpa (sp_lifo m) (sp_ulen m) l (sp_cap m) (sp_hint m).

Definition LIFO_MAX := 63.
(* sizeof(struct silofs_spa_entry): the tree node is aligned to 32 bytes *)
Definition SPE_SIZE := 64.
(* spamap_capacity, lib/spxmap.c:152-158 *)
Definition spamap_capacity (t : Z) : Z := (if ltype_isdata t then 16 else 4) * 1048576.
(* spamap_init, lib/spxmap.c:449-458 *)
Definition spamap_init (t : Z) : spamap := mkSpa [] (ltype_size t) [] (spamap_capacity t) 0.

(* spalifo_pop_vspace, lib/spxmap.c:47-56 *)
Definition spalifo_pop (m : spamap) (len : Z) : option (spamap * Z) :=
  match sp_lifo m with
  | [] => None
  | o :: r => if sp_ulen m =? len then Some (with_lifo m r, o) else None
  end.
(* spalifo_add_vspace, lib/spxmap.c:58-69 *)
Definition spalifo_add (m : spamap) (off len : Z) : option spamap :=
  if (zlen (sp_lifo m) <? LIFO_MAX) && (sp_ulen m =? len) then Some (with_lifo m (off :: sp_lifo m)) else None.

(* spamap_pop_vspace, lib/spxmap.c:277-303; None: -ENOSPC *)
Definition spamap_pop (m : spamap) (len : Z) : option (spamap * Z) :=
  match spalifo_pop m len with
  | Some r => Some r
  | None =>
    match sp_ents m with
    | [] => None
    | e :: r =>
      if spe_len e <? len then None
      else if len <? spe_len e
           then Some (with_ents m (mkSpe (spe_voff e + len) (spe_len e - len) :: r), spe_voff e)
           else Some (with_ents m r, spe_voff e)
    end
  end.

(* spmap_find_next_prev, lib/spxmap.c:226-241: the entries before off, last first, and those
   from off on *)
Fixpoint split_at (acc l : list spe) (off : Z) : list spe * list spe :=
  match l with
  | [] => (acc, [])
  | e :: r => if spe_voff e <? off then split_at (e :: acc) r off else (acc, l)
  end.

(* spamap_insert_spe, lib/spxmap.c:243-250: after the entries of equal offset *)
Fixpoint insert_spe (l : list spe) (x : spe) : list spe :=
  match l with
  | [] => [x]
  | e :: r => if spe_voff x <? spe_voff e then x :: l else e :: insert_spe r x
  end.

Inductive sres := SOk (m : spamap) | SErr (m : spamap) | SUb.

(* spamap_merge_vspace, lib/spxmap.c:305-348; None: -ENOENT (nothing to merge with); a: the
   outcome of the allocation *)
Definition spamap_merge (m : spamap) (off len : Z) (a : bool) : option sres :=
  let '(before, after) := split_at [] (sp_ents m) off in
  let build b c := with_ents m (rev b ++ c) in
  match before with
  | p :: b =>
    if spe_end p =? off then
      let p' := mkSpe (spe_voff p) (spe_len p + len) in
      match after with
      | n :: c => if spe_end p' =? spe_voff n
                  then Some (SOk (build (mkSpe (spe_voff p') (spe_len p' + spe_len n) :: b) c))
                  else Some (SOk (build (p' :: b) after))
      | [] => Some (SOk (build (p' :: b) after))
      end
    else
      match after with
      | n :: c => if off + len =? spe_voff n
                  then if a then Some (SOk (with_ents m (insert_spe (rev before ++ c) (mkSpe off (spe_end n - off)))))
                       else Some (SErr (build before c))
                  else None
      | [] => None
      end
  | [] =>
    match after with
    | n :: c => if off + len =? spe_voff n
                then if a then Some (SOk (with_ents m (insert_spe c (mkSpe off (spe_end n - off)))))
                     else Some (SErr (build [] c))
                else None
    | [] => None
    end
  end.

(* spamap_maximal_spe, lib/spxmap.c:188-199 *)
Definition maximal_spe (l : list spe) : option spe := match rev l with [] => None | e :: _ => Some e end.

(* spamap_insert_vspace, lib/spxmap.c:350-375.  When the allocation fails and the last entry is
   at or after off, that entry is freed (spamap_delete_spe) while still linked in the tree. *)
Definition spamap_insert (m : spamap) (off len : Z) (a : bool) : sres :=
  if a then SOk (with_ents m (insert_spe (sp_ents m) (mkSpe off len)))
  else match maximal_spe (sp_ents m) with
       | None => SErr m
       | Some e => if spe_voff e <? off then SErr m else SUb
       end.

(* spamap_add_vspace, lib/spxmap.c:377-398 with spamap_check_cap_add 268-275 *)
Definition spamap_add (m : spamap) (off len : Z) (a : bool) : sres :=
  match spalifo_add m off len with
  | Some m' => SOk m'
  | None =>
    match spamap_merge m off len a with
    | Some r => r
    | None => if zlen (sp_ents m) * SPE_SIZE <? sp_cap m then spamap_insert m off len a else SErr m
    end
  end.

(* spamap_clear, lib/spxmap.c:428-437 *)
Definition spamap_clear (m : spamap) : spamap := mkSpa [] (sp_ulen m) [] (sp_cap m) (sp_hint m).

(* spamap_find_baseof, lib/spxmap.c:400-418: only entries followed by another one are found *)
Definition spe_is_within (e : spe) (off : Z) : bool := (spe_voff e <=? off) && (off <? spe_end e).
Definition spamap_baseof (m : spamap) (off : Z) : option Z :=
  match split_at [] (sp_ents m) off with
  | (p :: _, _ :: _) => if spe_is_within p off then Some (spe_voff p) else None
  | _ => None
  end.
