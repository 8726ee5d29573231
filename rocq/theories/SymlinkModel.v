(* Symbolic links: lib/symlink.c and the symlink part of lib/namei.c.
   The world holds the symlink inodes (by inode number) and the separately allocated
   value nodes (by address).  Which address the space allocator returns, and whether it
   fails, is part of each operation (an oracle); directories are reduced to the outcome
   of adding the name. *)
From Verif Require Import Base.

Definition HEAD_MAX := 480.    (* SILOFS_SYMLNK_HEAD_MAX, include/silofs/defs.h:284 *)
Definition PART_MAX := 4032.   (* SILOFS_SYMLNK_PART_MAX, include/silofs/defs.h:287 *)
Definition NPARTS : nat := 2.  (* SILOFS_SYMLNK_NPARTS, include/silofs/defs.h:290 *)
Definition SYMLNK_MAX := 4096. (* SILOFS_SYMLNK_MAX, include/silofs/defs.h:281 *)

(* struct silofs_inode_lnk (defs.h:802-806) and the inode's size *)
Record lnk := mkLnk { l_head : bytes; l_tail : list (option Z); l_size : Z }.

(* silofs_setup_symlnk / inln_setup, lib/symlink.c:150-156, 556-559; a new inode has size 0 *)
Definition lnk_setup : lnk := mkLnk (zrepeat 0 HEAD_MAX) (repeat None NPARTS) 0.

(* value nodes: sy_value arrays by address *)
Definition store := Z -> option bytes.

(* the loop of symval_desc_setup, lib/symlink.c:52-77: lengths of the tail parts;
   None is -ENAMETOOLONG *)
Fixpoint part_lens (n : nat) (rem : Z) : option (list Z) :=
  if rem <=? 0 then Some []
  else match n with
       | O => None
       | S n' => let p := Z.min rem PART_MAX in option_map (cons p) (part_lens n' (rem - p))
       end.

(* symval_desc_setup, lib/symlink.c:52-77: head length and part lengths *)
Definition desc_setup (len : Z) : option (Z * list Z) :=
  let h := Z.min len HEAD_MAX in
  option_map (fun ps => (h, ps)) (part_lens NPARTS (len - h)).

(* silofs_bytebuf_append, lib/infra/bytebuf.c:82-90 *)
Definition buf_append (cap : Z) (buf d : bytes) : bytes := buf ++ ztake (Z.min (zlen d) (cap - zlen buf)) d.

Inductive rl_res := RlOk (b : bytes) | RlErr.

(* sylc_extern_symval_parts, lib/symlink.c:277-300 *)
Fixpoint extern_parts (st : store) (tail : list (option Z)) (lens : list Z) (cap : Z) (buf : bytes)
  {struct lens} : rl_res :=
  match lens with
  | [] => RlOk buf
  | n :: lens' =>
    match tail with
    | Some a :: tail' =>
      match st a with
      | Some v => extern_parts st tail' lens' cap (buf_append cap buf (ztake n v))
      | None => RlErr
      end
    | _ => RlErr  (* lnk_get_value_part: -ENOENT *)
    end
  end.

(* silofs_do_readlink, lib/symlink.c:342-362, via sylc_extern_symval 302-324 *)
Definition readlink (st : store) (l : lnk) (lim : Z) : rl_res :=
  match desc_setup (l_size l) with
  | None => RlErr
  | Some (h, ps) => extern_parts st (l_tail l) ps lim (buf_append lim [] (ztake h (l_head l)))
  end.

(* sylc_assign_symval_parts, lib/symlink.c:435-449, with sylc_create_symval 390-405 and
   sylc_bind_symval_part 424-433.  One oracle entry per spawn: Some address or failure.
   The node is spawned zeroed and the part is copied into it. *)
Fixpoint assign_parts (st : store) (l : lnk) (slot : nat) (val : bytes) (lens : list Z)
    (orc : list (option Z)) {struct lens} : store * lnk * bool :=
  match lens with
  | [] => (st, l, true)
  | n :: lens' =>
    match orc with
    | Some a :: orc' =>
      let st' := fset st a (Some (zput (zrepeat 0 PART_MAX) 0 (ztake n val))) in
      let l' := mkLnk (l_head l) (upd (l_tail l) slot (Some a)) (l_size l) in
      assign_parts st' l' (S slot) (zdrop n val) lens' orc'
    | _ => (st, l, false)
    end
  end.

(* sylc_do_symlink, lib/symlink.c:489-503, with sylc_assign_symval 451-470 and
   sylc_update_post_symlink 477-487.  Every error is turned into success (return 0),
   skipping the update of the size. *)
Definition bind_symval (st : store) (l : lnk) (val : bytes) (orc : list (option Z)) : store * lnk :=
  match desc_setup (zlen val) with
  | None => (st, l)
  | Some (h, ps) =>
    let l1 := mkLnk (zput (l_head l) 0 (ztake h val)) (l_tail l) (l_size l) in
    let '(st', l', ok) := assign_parts st l1 0 (zdrop h val) ps orc in
    if ok then (st', mkLnk (l_head l') (l_tail l') (zlen val)) else (st', l')
  end.

Record world := mkW { w_store : store; w_links : Z -> option lnk }.
Definition world0 : world := mkW (fun _ => None) (fun _ => None).

Inductive op :=
| Symlink (ino : Z) (target : bytes) (orc : list (option Z)) (add_ok : bool)
| Unlink (ino : Z).

(* sylc_drop_symval, lib/symlink.c:528-544: stop at the first null part *)
Fixpoint drop_parts (st : store) (tail : list (option Z)) : store :=
  match tail with
  | Some a :: r => drop_parts (fset st a None) r
  | _ => st
  end.

(* do_symlink, lib/namei.c:1394-1419 (check_symval 1365-1374, create_lnk_inode 1346-1363):
   returns whether the caller sees success.  When adding the name fails the inode is
   removed (do_add_dentry with del_upon_failure), its value nodes are not.  Unlink is the
   final drop of the inode (drop_unlinked, namei.c:910-927). *)
Definition step (w : world) (o : op) : world * bool :=
  match o with
  | Symlink ino target orc add_ok =>
    if (zlen target =? 0) || (SYMLNK_MAX <? zlen target) then (w, false)
    else match w_links w ino with
      | Some _ => (w, false)  (* not reachable: inode numbers are fresh *)
      | None =>
        let '(st, l) := bind_symval (w_store w) lnk_setup target orc in
        if add_ok then (mkW st (fset (w_links w) ino (Some l)), true)
        else (mkW st (w_links w), false)
      end
  | Unlink ino =>
    match w_links w ino with
    | None => (w, false)
    | Some l => (mkW (drop_parts (w_store w) (l_tail l)) (fset (w_links w) ino None), true)
    end
  end.

(* the readlink system call on a live symlink inode *)
Definition do_readlink (w : world) (ino lim : Z) : rl_res :=
  match w_links w ino with None => RlErr | Some l => readlink (w_store w) l lim end.

(* value nodes that are allocated *)
Definition allocated (w : world) (a : Z) : bool := match w_store w a with Some _ => true | None => false end.
