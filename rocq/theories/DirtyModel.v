(* Dirty queues: which cached objects wait to be written, how much they weigh, and
   when that weight makes the file system flush.
   Code: lib/hmdq/dirtyq.c, lib/lnodes.c (set-queue, dirtify, undirtify),
   lib/inode.c (inode level), lib/lcache.c (global queues, forget, evict),
   lib/flush.c:926-1012 (thresholds).

   Simplifications.  An object is named by a number instead of its memory address;
   a name may be reused after the object was destroyed, as memory is.  The list links
   of a queue are a list of names.  Only the fields which these functions read or write
   are kept.  Reference counts enter as a boolean "somebody holds a reference".
   The result None stands for a failed silofs_assert. *)
From Verif Require Import Base.

(* silofs_dirtyqs (include/silofs/lcache.h: dq_unis, dq_iis, dq_vnis) and the queue
   i_dq_vnis inside each inode_info *)
Inductive qid := QUnis | QIis | QVnis | QOf (ii : Z).

Definition qid_eqb (a b : qid) : bool :=
  match a, b with
  | QUnis, QUnis => true
  | QIis, QIis => true
  | QVnis, QVnis => true
  | QOf i, QOf j => i =? j
  | _, _ => false
  end.

(* what flush and the queues distinguish about an ltype: ltype_isdata, ltype_isinode,
   ltype_isvnode, ltype_isunode, ltype_issuper (lib/addr/ltype.c) *)
Inductive kind := KData | KMeta | KInode | KUnode | KSuper.

Definition is_vnode (k : kind) : bool :=
  match k with KData | KMeta | KInode => true | KUnode | KSuper => false end.
Definition is_inode (k : kind) : bool := match k with KInode => true | _ => false end.

(* struct silofs_dq_elem (lh, dq, sz, inq) with the object around it *)
Record elem := mkE {
  e_live : bool;
  e_kind : kind;
  e_sz : Z;
  e_dq : option qid;
  e_inq : bool;
  e_loose : bool
}.

(* struct silofs_dirtyq *)
Record dq := mkQ { q_l : list Z; q_accum : Z }.

Record dst := mkD { d_el : Z -> elem; d_q : qid -> dq }.

Definition qset (f : qid -> dq) (k : qid) (v : dq) : qid -> dq :=
  fun j => if qid_eqb j k then v else f j.

Definition dead : elem := mkE false KData 0 None false false.

(* dirtyqs_init, silofs_dirtyq_init: lib/lcache.c:42-47, lib/hmdq/dirtyq.c:20-24 *)
Definition d_init : dst := mkD (fun _ => dead) (fun _ => mkQ [] 0).

Definition set_el (s : dst) (i : Z) (e : elem) : dst := mkD (fset (d_el s) i e) (d_q s).

Definition with_inq (e : elem) (b : bool) : elem :=
  mkE (e_live e) (e_kind e) (e_sz e) (e_dq e) b (e_loose e).
Definition with_dq (e : elem) (q : qid) : elem :=
  mkE (e_live e) (e_kind e) (e_sz e) (Some q) (e_inq e) (e_loose e).
Definition with_loose (e : elem) : elem :=
  mkE (e_live e) (e_kind e) (e_sz e) (e_dq e) (e_inq e) true.

(* silofs_dirtyq_append, lib/hmdq/dirtyq.c:33-39 (size_t arithmetic) *)
Definition dirtyq_append (s : dst) (q : qid) (i : Z) : dst :=
  let d := d_q s q in
  mkD (fset (d_el s) i (with_inq (d_el s i) true))
      (qset (d_q s) q (mkQ (q_l d ++ [i]) (u64 (q_accum d + e_sz (d_el s i))))).

Definition lremove (i : Z) (l : list Z) : list Z := filter (fun j => negb (j =? i)) l.

(* silofs_dirtyq_remove, lib/hmdq/dirtyq.c:41-50 *)
Definition dirtyq_remove (s : dst) (q : qid) (i : Z) : option dst :=
  let d := d_q s q in
  if negb (e_inq (d_el s i)) then None
  else if q_accum d <? e_sz (d_el s i) then None
  else Some (mkD (fset (d_el s) i (with_inq (d_el s i) false))
                 (qset (d_q s) q (mkQ (lremove i (q_l d)) (u64 (q_accum d - e_sz (d_el s i)))))).

(* silofs_dqe_setq, lib/hmdq/dirtyq.c:103-107 *)
Definition dqe_setq (s : dst) (i : Z) (q : qid) : option dst :=
  if e_inq (d_el s i) then None else Some (set_el s i (with_dq (d_el s i) q)).

(* silofs_dqe_enqueue, lib/hmdq/dirtyq.c:109-117 *)
Definition dqe_enqueue (s : dst) (i : Z) : option dst :=
  if e_inq (d_el s i) then Some s
  else match e_dq (d_el s i) with
       | None => None
       | Some q => Some (dirtyq_append s q i)
       end.

(* silofs_dqe_dequeue, lib/hmdq/dirtyq.c:119-127 *)
Definition dqe_dequeue (s : dst) (i : Z) : option dst :=
  if e_inq (d_el s i) then
    match e_dq (d_el s i) with
    | None => None
    | Some q => dirtyq_remove s q i
    end
  else Some s.

(* silofs_lni_isdirty, silofs_dqe_is_dirty: lib/lnodes.c:249-252, lib/hmdq/dirtyq.c:129-132 *)
Definition isdirty (s : dst) (i : Z) : bool := e_inq (d_el s i).

(* silofs_lni_dirtify, lib/lnodes.c:254-259; silofs_uni_dirtify, lib/lnodes.c:362-367 *)
Definition lni_dirtify (s : dst) (i : Z) : option dst :=
  if negb (isdirty s i) then dqe_enqueue s i else Some s.

(* silofs_lni_undirtify, lib/lnodes.c:261-266; silofs_uni_undirtify, lib/lnodes.c:369-374;
   silofs_vni_undirtify, lib/lnodes.c:486-493; silofs_ii_undirtify, lib/inode.c:572-577 *)
Definition lni_undirtify (s : dst) (i : Z) : option dst :=
  if isdirty s i then dqe_dequeue s i else Some s.

(* silofs_vni_dirtify with vni_update_dq_by, lib/lnodes.c:467-484 *)
Definition vni_dirtify (s : dst) (i : Z) (oii : option Z) : option dst :=
  if negb (isdirty s i) then
    match (match oii with Some ii => dqe_setq s i (QOf ii) | None => Some s end) with
    | None => None
    | Some s1 => lni_dirtify s1 i
    end
  else Some s.

(* silofs_ii_dirtify, lib/inode.c:563-570 *)
Definition ii_dirtify (s : dst) (i : Z) : option dst :=
  if negb (e_loose (d_el s i)) then vni_dirtify s i None else Some s.

(* dirtyqs_get, lib/lcache.c:56-70 *)
Definition dirtyqs_get (k : kind) : qid :=
  match k with
  | KInode => QIis
  | KData | KMeta => QVnis
  | KUnode | KSuper => QUnis
  end.

(* silofs_lcache_reditify_vni, lib/lcache.c:696-702 *)
Definition reditify (s : dst) (i : Z) : option dst :=
  match lni_undirtify s i with
  | None => None
  | Some s1 =>
      match dqe_setq s1 i (dirtyqs_get (e_kind (d_el s1 i))) with
      | None => None
      | Some s2 => vni_dirtify s2 i None
      end
  end.

(* silofs_ii_undirtify_vnis, lib/inode.c:1383-1396: take the front until there is none *)
Fixpoint undirtify_vnis (fuel : nat) (s : dst) (ii : Z) {struct fuel} : option dst :=
  match q_l (d_q s (QOf ii)) with
  | [] => Some s
  | i :: _ =>
      match fuel with
      | O => None
      | S f => match lni_undirtify s i with
               | None => None
               | Some s1 => undirtify_vnis f s1 ii
               end
      end
  end.

(* ii_undirtify_all, lib/namei.c:885-889 *)
Definition ii_undirtify_all (s : dst) (ii : Z) : option dst :=
  match undirtify_vnis (length (q_l (d_q s (QOf ii)))) s ii with
  | None => None
  | Some s1 => lni_undirtify s1 ii
  end.

(* a new object: silofs_dqe_init (lib/hmdq/dirtyq.c:83-91) and the choice of the queue,
   lcache_create_vni and lcache_set_dq_of_vni (lib/lcache.c:664-683) and their unode
   counterparts; ii_init gives an inode an empty queue of its own (lib/lnodes.c:798-812) *)
Definition create (s : dst) (i : Z) (k : kind) (sz : Z) : option dst :=
  if e_live (d_el s i) then Some s
  else if sz <=? 0 then None
  else Some (mkD (fset (d_el s) i (mkE true k (u32 sz) (Some (dirtyqs_get k)) false false))
                 (if is_inode k then qset (d_q s) (QOf i) (mkQ [] 0) else d_q s)).

(* end of an object: silofs_dqe_fini (lib/hmdq/dirtyq.c:93-101) and, for an inode,
   ii_fini (lib/lnodes.c:813-825) *)
Definition destroy (s : dst) (i : Z) : option dst :=
  if (e_sz (d_el s i) <=? 0) || e_inq (d_el s i) then None
  else if is_inode (e_kind (d_el s i))
          && (negb (match q_l (d_q s (QOf i)) with [] => true | _ => false end)
              || negb (q_accum (d_q s (QOf i)) =? 0)) then None
  else Some (set_el s i dead).

(* evictable objects: silofs_ii_isevictable (lib/inode.c:552-561), silofs_lni_isevictable
   (lib/lnodes.c) on top of hmqe: not referenced and not dirty *)
Definition evictable (s : dst) (i : Z) (held : bool) : bool :=
  negb held && negb (isdirty s i)
  && (if is_inode (e_kind (d_el s i))
      then match q_l (d_q s (QOf i)) with [] => true | _ => false end else true).

(* lcache_evict_or_relru_vni, lib/lcache.c:549-562, and the unode counterpart *)
Definition evict (s : dst) (i : Z) (held : bool) : option dst :=
  if e_live (d_el s i) && evictable s i held then destroy s i else Some s.

(* lcache_forget_vni, lib/lcache.c:646-656; lcache_evict_uni, lib/lcache.c:185-192 *)
Definition forget (s : dst) (i : Z) (held : bool) : option dst :=
  match lni_undirtify s i with
  | None => None
  | Some s1 => if held then Some s1 else destroy s1 i
  end.

(* The operations a file system performs on the queues.  Operations on objects that do
   not exist, and ones the callers never issue (an inode queued under another inode,
   forgetting an inode without first cleaning its queue), are left out by doing nothing. *)
Inductive dop :=
| Create (i : Z) (k : kind) (sz : Z)
| DirtyV (i : Z) (ii : Z)          (* vni_dirtify(vni, ii): data, dir nodes, xattr nodes.. *)
| DirtyU (i : Z)                   (* silofs_uni_dirtify: space maps and super block *)
| DirtyI (i : Z)                   (* ii_dirtify *)
| Clean (i : Z)                    (* undirtify: by a flush or before removal *)
| Redirty (i : Z)                  (* silofs_lcache_reditify_vni, by copy-on-write *)
| CleanAll (ii : Z)                (* ii_undirtify_all *)
| Loose (ii : Z)                   (* silofs_ii_set_loose *)
| Evict (i : Z) (held : bool)
| Forget (i : Z) (held : bool).    (* for an inode: after ii_undirtify_all, as drop_unlinked *)

Definition dstep (s : dst) (o : dop) : option dst :=
  match o with
  | Create i k sz => create s i k sz
  | DirtyV i ii =>
      if e_live (d_el s i) && is_vnode (e_kind (d_el s i)) && negb (is_inode (e_kind (d_el s i)))
         && e_live (d_el s ii) && is_inode (e_kind (d_el s ii))
      then vni_dirtify s i (Some ii) else Some s
  | DirtyU i =>
      if e_live (d_el s i) && negb (is_vnode (e_kind (d_el s i))) then lni_dirtify s i else Some s
  | DirtyI i =>
      if e_live (d_el s i) && is_inode (e_kind (d_el s i)) then ii_dirtify s i else Some s
  | Clean i => lni_undirtify s i
  | Redirty i =>
      if e_live (d_el s i) && is_vnode (e_kind (d_el s i)) then reditify s i else Some s
  | CleanAll ii =>
      if e_live (d_el s ii) && is_inode (e_kind (d_el s ii)) then ii_undirtify_all s ii else Some s
  | Loose ii =>
      if e_live (d_el s ii) && is_inode (e_kind (d_el s ii))
      then Some (set_el s ii (with_loose (d_el s ii))) else Some s
  | Evict i held => evict s i held
  | Forget i held =>
      if e_live (d_el s i) then
        if is_inode (e_kind (d_el s i)) then
          match ii_undirtify_all s i with
          | None => None
          | Some s1 => forget s1 i held
          end
        else forget s i held
      else Some s
  end.

Fixpoint drun (s : dst) (l : list dop) {struct l} : option dst :=
  match l with
  | [] => Some s
  | o :: r => match dstep s o with None => None | Some s1 => drun s1 r end
  end.

(* Flags: include/silofs/types.h:47-55 *)
Definition F_NOW := 1.
Definition F_FSYNC := 2.
Definition F_RELEASE := 4.
Definition F_OPSTART := 32.
Definition F_INTERN := 64.
Definition F_IDLE := 128.
Definition LSEG_MAX := 16 * 1024 * 1024.

Definition hasf (flags f : Z) : bool := negb (Z.land flags f =? 0).

(* flush_threshold_of, lib/flush.c:926-942 *)
Definition flush_threshold (flags : Z) : Z :=
  if hasf flags (Z.lor F_NOW (Z.lor F_IDLE F_FSYNC)) then 0
  else if hasf flags F_RELEASE then LSEG_MAX / 2
  else if hasf flags F_INTERN then LSEG_MAX
  else if hasf flags F_OPSTART then 2 * LSEG_MAX
  else 4 * LSEG_MAX.

(* need_flush_now, lib/flush.c:944-956; lowmem: alst.nbytes_use > alst.nbytes_max / 2 *)
Definition need_flush_now (flags : Z) (lowmem : bool) : bool := hasf flags F_NOW || lowmem.

(* need_flush_by_ii, lib/flush.c:958-966 *)
Definition ndirty_ii (s : dst) (ii : Z) : Z := q_accum (d_q s (QOf ii)).
Definition need_flush_by_ii (s : dst) (ii flags : Z) : bool :=
  flush_threshold flags <? ndirty_ii s ii.

(* need_flush_by_fsenv, lib/flush.c:968-979 *)
Definition ndirty_fs (s : dst) : Z :=
  u64 (u64 (q_accum (d_q s QUnis) + q_accum (d_q s QIis)) + q_accum (d_q s QVnis)).
Definition need_flush_by_fsenv (s : dst) (flags : Z) : bool :=
  flush_threshold flags <? ndirty_fs s.

(* need_flush_by, lib/flush.c:981-994 *)
Definition need_flush (s : dst) (oii : option Z) (flags : Z) (lowmem : bool) : bool :=
  if need_flush_now flags lowmem then true
  else match oii with
       | Some ii => need_flush_by_ii s ii flags
       | None => need_flush_by_fsenv s flags
       end.

(* flush_dirty_of, lib/namei.c:1523-1532: what fsync, flush and release of one file ask *)
Definition flush_dirty_of_asks (s : dst) (ii : Z) (flags : Z) (lowmem : bool) : bool :=
  (isdirty s ii || negb (q_accum (d_q s (QOf ii)) =? 0)) && need_flush s (Some ii) flags lowmem.
