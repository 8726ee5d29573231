(* Writing dirty objects: grouping them into vectored writes (lib/task.c), collecting them
   from the dirty queues and queueing their writes (lib/flush.c), executing the queue
   (lib/task.c), and the requests that ask for it (lib/namei.c, lib/fuseq.c).

   Simplifications.  The dirty queues are those of DirtyModel.  An object's stored form is
   its encrypted view; sealing (header checksum) and encryption are parameters (v_seal,
   v_enc).  The index of one flush (an AVL tree) is replaced by a parameter v_walk giving
   the order in which it is walked; C30 (AvlProps) proves that the walk visits exactly the
   inserted nodes.  Re-resolving the storage address of an object whose address is not
   writable any more is a parameter (v_refresh); it is assumed not to mark further objects
   dirty.  Storage is a map from segment and offset to bytes.  Memory allocation, staging
   of a segment file and each write may fail as told by lists of outcomes; a failed write
   may leave any prefix of its bytes.  Evicting clean objects between retries has no effect
   on dirty objects.  Reference counting is the boolean s_held. *)
From Verif Require Import Base AddrModel DirtyModel.

Definition COMMIT_LEN_MAX := 1024 * 1024.  (* SILOFS_COMMIT_LEN_MAX, lib/task.c:20 *)
Definition NREFS_MAX := 32.                (* SILOFS_SQENT_NREFS_MAX, include/silofs/task.h:24 *)
Definition CID_ALL := 2 ^ 64 - 1.          (* SILOFS_CID_ALL, lib/task.c:21 *)

(* ------------------------------------------------------------------ *)
(* Vectored writes, lib/task.c *)

(* lsid_compare = 0, lib/addr/laddr.c:174-204 *)
Definition lsid_eqb (a b : lsid) : bool :=
  bytes_eqb (ls_lvid a) (ls_lvid b) && (ls_height a =? ls_height b)
  && (ls_vindex a =? ls_vindex b) && (ls_vspace a =? ls_vspace b)
  && (ls_ltype a =? ls_ltype b) && (ls_lsize a =? ls_lsize b).

(* silofs_laddr_isnext, lib/addr/laddr.c:363-382 *)
Definition laddr_isnext (a other : laddr) : bool :=
  let fin := la_pos a + la_len a in
  (ls_ltype (la_lsid a) =? ls_ltype (la_lsid other))
  && (la_pos other =? fin)
  && negb (ls_lsize (la_lsid other) <? fin)
  && lsid_eqb (la_lsid a) (la_lsid other).

(* struct silofs_submitq_ent, include/silofs/task.h:57-71; cnt is the length of s_lni *)
Record sqe := mkSqe {
  s_id : Z;
  s_laddr : laddr;
  s_inode : bool;           (* ltype_isinode(sqe->ltype) *)
  s_lni : list Z;
  s_iov : list bytes;
  s_held : bool
}.

Definition laddr_reset : laddr := mkLaddr (mkLsid (zrepeat 0 16) 0 0 0 0 0) OFF_NULL 0.

(* sqe_init, lib/task.c:185-197 *)
Definition sqe_init (id : Z) : sqe := mkSqe id laddr_reset false [] [] false.

(* sqe_isappendable, lib/task.c:50-83 *)
Definition sqe_isappendable (q : sqe) (a : laddr) : bool :=
  if zlen (s_lni q) =? 0 then true
  else if zlen (s_lni q) =? NREFS_MAX then false
  else if negb (laddr_isnext (s_laddr q) a) then false
  else
    let len := la_len (s_laddr q) + la_len a in
    if COMMIT_LEN_MAX <? len then false
    else if s_inode q then
      negb (off_next (la_pos (s_laddr q)) COMMIT_LEN_MAX <? la_pos (s_laddr q) + len)
    else true.

(* silofs_sqe_append_ref, lib/task.c:85-100 *)
Definition sqe_append_ref (q : sqe) (a : laddr) (i : Z) (isino : bool) : option sqe :=
  if negb (sqe_isappendable q a) then None
  else if zlen (s_lni q) =? 0
       then Some (mkSqe (s_id q) a isino (s_lni q ++ [i]) (s_iov q) (s_held q))
       else Some (mkSqe (s_id q)
                    (mkLaddr (la_lsid (s_laddr q)) (la_pos (s_laddr q)) (la_len (s_laddr q) + la_len a))
                    (s_inode q) (s_lni q ++ [i]) (s_iov q) (s_held q)).

(* ------------------------------------------------------------------ *)
(* Objects and storage *)

(* what a flush reads of an lnode_info: its llink (laddr, riv), its view, vn_asyncwr *)
Record cont := mkC { c_laddr : laddr; c_riv : bytes; c_view : bytes; c_async : bool }.

Definition with_llink (c : cont) (l : laddr * bytes) : cont :=
  mkC (fst l) (snd l) (c_view c) (c_async c).
Definition with_view (c : cont) (v : bytes) : cont := mkC (c_laddr c) (c_riv c) v (c_async c).

Notation disk := (lsid -> Z -> Z).

(* pwritev at an offset: the buffers one after the other *)
Definition disk_put (d : disk) (l : lsid) (pos : Z) (b : bytes) : disk :=
  fun l' p => if lsid_eqb l' l && (pos <=? p) && (p <? pos + zlen b)
              then znth b (p - pos) 0 else d l' p.

Record env := mkEnv {
  v_walk : list Z -> list Z;
  v_enc : laddr -> bytes -> bytes -> option bytes;   (* silofs_encrypt_view(laddr, riv, view) *)
  v_seal : bytes -> bytes;                           (* silofs_uni_seal_view, silofs_vni_seal_view *)
  v_mut : laddr -> bool;                             (* silofs_sbi_ismutable_laddr *)
  v_refresh : Z -> option (laddr * bytes)            (* silofs_resolve_llink_of(STG_CUR) *)
}.

(* outcomes still to come: allocations, staging of segment files (true: works), writes
   (None: works; Some k: fails after k bytes).  An exhausted list means: works. *)
Record orc := mkOrc { a_al : list bool; a_st : list bool; a_wr : list (option Z) }.

Definition pop {A} (d : A) (l : list A) : A * list A :=
  match l with [] => (d, []) | x :: r => (x, r) end.

(* error numbers of include/silofs/errors.h as far as told apart *)
(* EFUEL marks an exhausted recursion bound; it never occurs (FlushProofs.no_efuel). *)
Inductive err := ENOMEM | EROFS | EREFRESH | EENC | ESTAGE | EIO | EFUEL.

Record fst_ := mkF {
  f_d : dst;                 (* dirty queues *)
  f_c : Z -> cont;           (* objects *)
  f_q : list sqe;            (* submitq: smq_listq *)
  f_apex : Z;                (* smq_apex_id *)
  f_disk : disk
}.

(* ------------------------------------------------------------------ *)
(* One vectored write from the front of a dset *)

(* the type of an object never changes *)
Definition kind_of (d : dst) (i : Z) : kind := e_kind (d_el d i).

Notation ref := (laddr * bytes * bytes)%type.  (* silofs_submit_ref: llink and view *)

(* flusher_pre_resolve_llink_of with silofs_refresh_llink, lib/flush.c:510-521,
   lib/vstage.c:2949-2968; vni_has_mutable_laddr *)
Definition pre_resolve (e : env) (k : kind) (c : Z -> cont) (i : Z) : option (Z -> cont) :=
  if is_vnode k then
    if v_mut e (c_laddr (c i)) then Some c
    else match v_refresh e i with
         | None => None
         | Some l => Some (fset c i (with_llink (c i) l))
         end
  else Some c.

(* flusher_resolve_llink_of, _of_uni, _of_vni, flusher_require_mutable_llink,
   lib/flush.c:476-508,523-541: may the object be written at its address? *)
Definition may_write (e : env) (k : kind) (a : laddr) : bool :=
  match k with KSuper => true | _ => v_mut e a end.

(* flusher_append_next_ref, lib/flush.c:591-608 *)
Definition append_next_ref (q : sqe) (a : laddr) (i : Z) (isino : bool) : option sqe :=
  if NREFS_MAX <=? zlen (s_lni q) then None else sqe_append_ref q a i isino.

(* flusher_populate_sqe_refs, lib/flush.c:610-635: objects move from preq to postq.
   Result: error or success, objects, sqe, refs, preq, postq *)
Fixpoint populate (e : env) (kd : Z -> kind) (c : Z -> cont) (q : sqe) (refs : list ref)
         (preq postq : list Z) {struct preq}
  : option err * (Z -> cont) * sqe * list ref * list Z * list Z :=
  match preq with
  | [] => (None, c, q, refs, [], postq)
  | i :: r =>
      let k := kd i in
      match pre_resolve e k c i with
      | None => (Some EREFRESH, c, q, refs, preq, postq)
      | Some c1 =>
          let x := c1 i in
          if negb (may_write e k (c_laddr x)) then (Some EROFS, c1, q, refs, preq, postq)
          else match append_next_ref q (c_laddr x) i (is_inode k) with
               | None => (None, c1, q, refs, preq, postq)
               | Some q1 => populate e kd c1 q1 (refs ++ [(c_laddr x, c_riv x, c_view x)]) r (i :: postq)
               end
      end
  end.

(* sqe_setup_iovs, lib/task.c:102-118: one allocation per ref; stops at the first failure *)
Fixpoint setup_iovs (n : nat) (al : list bool) {struct n} : bool * list bool :=
  match n with
  | O => (true, al)
  | S m => let (ok, al1) := pop true al in if ok then setup_iovs m al1 else (false, al1)
  end.

(* sqe_encrypted_iovs, lib/task.c:120-138 *)
Fixpoint encrypt_iovs (e : env) (refs : list ref) {struct refs} : option (list bytes) :=
  match refs with
  | [] => Some []
  | (a, riv, v) :: r =>
      match v_enc e a riv v with
      | None => None
      | Some b => match encrypt_iovs e r with None => None | Some l => Some (b :: l) end
      end
  end.

(* silofs_sqe_assign_iovs, lib/task.c:140-157 *)
Definition assign_iovs (e : env) (refs : list ref) (al : list bool)
  : (option err * list bytes) * list bool :=
  let (ok, al1) := setup_iovs (length refs) al in
  if negb ok then ((Some ENOMEM, []), al1)
  else match encrypt_iovs e refs with
       | None => ((Some EENC, []), al1)
       | Some l => ((None, l), al1)
       end.

(* flusher_setup_sqe_by_refs, lib/flush.c:643-655: up to 4 retries when out of memory *)
Fixpoint setup_by_refs (retry : nat) (e : env) (refs : list ref) (al : list bool) {struct retry}
  : (option err * list bytes) * list bool :=
  let r := assign_iovs e refs al in
  match retry, fst (fst r) with
  | S n, Some ENOMEM => setup_by_refs n e refs (snd r)
  | _, _ => r
  end.

(* flusher_do_make_sqe with silofs_submitq_new_sqe, lib/flush.c:551-564, lib/task.c:339-344:
   each attempt takes an id *)
Fixpoint make_sqe (retry : nat) (apex : Z) (al : list bool) {struct retry}
  : option sqe * Z * list bool :=
  let (ok, al1) := pop true al in
  if ok then (Some (sqe_init apex), apex + 1, al1)
  else match retry with
       | S n => make_sqe n (apex + 1) al1
       | O => (None, apex + 1, al1)
       end.

(* state of one flush: silofs_flusher with the outcomes still to come *)
Record fl := mkFl { l_c : Z -> cont; l_txq : list sqe; l_apex : Z; l_o : orc }.

(* flusher_enqueue_dset_into and flusher_enqueue_dset, lib/flush.c:743-781, with
   flusher_populate_sqe_by (657-669) and flusher_prep_sqe (703-709).  A failing sqe is
   deleted.  Result: error, flush state, postq. *)
Fixpoint enqueue_dset (fuel : nat) (e : env) (kd : Z -> kind) (l : fl) (preq postq : list Z) {struct fuel}
  : option err * fl * list Z :=
  match preq with
  | [] => (None, l, postq)
  | _ =>
      match fuel with
      | O => (Some EFUEL, l, postq)
      | S f =>
          match make_sqe 4 (l_apex l) (a_al (l_o l)) with
          | (None, ap, al) =>
              (Some ENOMEM, mkFl (l_c l) (l_txq l) ap (mkOrc al (a_st (l_o l)) (a_wr (l_o l))), postq)
          | (Some q, ap, al) =>
              match populate e kd (l_c l) q [] preq postq with
              | (Some x, c1, _, _, _, postq1) =>
                  (Some x, mkFl c1 (l_txq l) ap (mkOrc al (a_st (l_o l)) (a_wr (l_o l))), postq1)
              | (None, c1, q1, refs, preq1, postq1) =>
                  match setup_by_refs 4 e refs al with
                  | ((Some x, _), al1) =>
                      (Some x, mkFl c1 (l_txq l) ap (mkOrc al1 (a_st (l_o l)) (a_wr (l_o l))), postq1)
                  | ((None, bufs), al1) =>
                      let (ok, st1) := pop true (a_st (l_o l)) in
                      let o1 := mkOrc al1 st1 (a_wr (l_o l)) in
                      if negb ok then (Some ESTAGE, mkFl c1 (l_txq l) ap o1, postq1)
                      else
                        let q2 := mkSqe (s_id q1) (s_laddr q1) (s_inode q1) (s_lni q1) bufs true in
                        enqueue_dset f e kd (mkFl c1 (l_txq l ++ [q2]) ap o1) preq1 postq1
                  end
              end
          end
      end
  end.

(* lni_seal_meta, lib/flush.c:98-105: data blocks carry no header *)
Definition seal_meta (e : env) (kd : Z -> kind) (c : Z -> cont) (i : Z) : Z -> cont :=
  match kd i with
  | KData => c
  | _ => fset c i (with_view (c i) (v_seal e (c_view (c i))))
  end.

(* dset_seal_all, lib/flush.c:201-209 *)
Definition seal_all (e : env) (kd : Z -> kind) (c : Z -> cont) (l : list Z) : Z -> cont :=
  fold_left (seal_meta e kd) l c.

(* dset_undirtify_all, lib/flush.c:229-237 *)
Fixpoint undirtify_list (d : dst) (l : list Z) {struct l} : option dst :=
  match l with
  | [] => Some d
  | i :: r => match lni_undirtify d i with None => None | Some d1 => undirtify_list d1 r end
  end.

(* flusher_dset_slot_of, lib/flush.c:263-278 *)
Definition slot_of (k : kind) : Z :=
  match k with KData => 0 | KMeta | KInode => 1 | KUnode | KSuper => 2 end.

(* vni_may_flush, lib/flush.c:57-62 *)
Definition may_flush (c : Z -> cont) (i : Z) : bool := negb (c_async (c i)).

(* flusher_add_dirty_vnis_of, flusher_add_dirty_ii, _iis_of, _unis_of, _alt_of, _any_of
   and flusher_fill_dsets: lib/flush.c:356-418,800-810.  What is put into the dsets. *)
Definition vnis_of (d : dst) (c : Z -> cont) (q : qid) : list Z :=
  filter (may_flush c) (q_l (d_q d q)).
Definition add_ii (d : dst) (c : Z -> cont) (ii : Z) : list Z := vnis_of d c (QOf ii) ++ [ii].
Definition fill_dsets (d : dst) (c : Z -> cont) (oii : option Z) (flags : Z) : list Z :=
  match (if hasf flags F_NOW then None else oii) with
  | None => flat_map (add_ii d c) (q_l (d_q d QIis))
  | Some ii => add_ii d c ii
  end ++ vnis_of d c QVnis ++ q_l (d_q d QUnis).

Definition in_slot (kd : Z -> kind) (slot : Z) (l : list Z) : list Z :=
  filter (fun i => slot_of (kd i) =? slot) l.

(* flusher_process_dset_at, lib/flush.c:783-798 (dset_mkfifo pushes to the front:
   lib/flush.c:211-227).  None: failed assertion *)
Definition process_dset (e : env) (kd : Z -> kind) (d : dst) (l : fl) (members : list Z)
  : option (option err * dst * fl) :=
  match members with
  | [] => Some (None, d, l)
  | _ =>
      let preq := rev (v_walk e members) in
      let l1 := mkFl (seal_all e kd (l_c l) preq) (l_txq l) (l_apex l) (l_o l) in
      match enqueue_dset (length preq) e kd l1 preq [] with
      | (Some x, l2, _) => Some (Some x, d, l2)
      | (None, l2, postq) =>
          match undirtify_list d postq with
          | None => None
          | Some d1 => Some (None, d1, l2)
          end
      end
  end.

(* flusher_process_dsets, lib/flush.c:812-823; the slots were filled before (all) *)
Fixpoint process_dsets (slots : list Z) (e : env) (kd : Z -> kind) (d : dst) (l : fl) (all : list Z) {struct slots}
  : option (option err * dst * fl) :=
  match slots with
  | [] => Some (None, d, l)
  | t :: r =>
      match process_dset e kd d l (in_slot kd t all) with
      | None => None
      | Some (Some x, d1, l1) => Some (Some x, d1, l1)
      | Some (None, d1, l1) => process_dsets r e kd d1 l1 all
      end
  end.

(* silofs_task: t_apex_id *)
(* flusher_collect_flush_dirty with flusher_submit_txq / flusher_discard_txq,
   lib/flush.c:711-741,825-837, silofs_task_update_by, lib/task.c:402-408 *)
Definition collect_flush (e : env) (f : fst_) (o : orc) (tapex : Z) (oii : option Z) (flags : Z)
  : option (option err * fst_ * orc * Z) :=
  match process_dsets [0; 1; 2] e (kind_of (f_d f)) (f_d f) (mkFl (f_c f) [] (f_apex f) o)
          (fill_dsets (f_d f) (f_c f) oii flags) with
  | None => None
  | Some (Some x, d, l) =>
      Some (Some x, mkF d (l_c l) (f_q f) (l_apex l) (f_disk f), l_o l, tapex)
  | Some (None, d, l) =>
      Some (None, mkF d (l_c l) (f_q f ++ l_txq l) (l_apex l) (f_disk f), l_o l,
            fold_left Z.max (map s_id (l_txq l)) tapex)
  end.

(* ------------------------------------------------------------------ *)
(* Executing the queue *)

Definition write_sqe (d : disk) (q : sqe) (w : option Z) : option err * disk :=
  let b := concat (s_iov q) in
  match w with
  | None => (None, disk_put d (la_lsid (s_laddr q)) (la_pos (s_laddr q)) b)
  | Some k => (Some EIO, disk_put d (la_lsid (s_laddr q)) (la_pos (s_laddr q)) (ztake k b))
  end.

(* submitq_apply with submitq_apply_one, lib/task.c:306-337: the entry is unlinked, written,
   deleted; the first failure ends the loop *)
Fixpoint submitq_apply (id : Z) (q : list sqe) (d : disk) (wr : list (option Z)) {struct q}
  : option err * list sqe * disk * list (option Z) :=
  match q with
  | [] => (None, [], d, wr)
  | x :: r =>
      if id <? s_id x then (None, q, d, wr)
      else
        let (w, wr1) := pop None wr in
        match write_sqe d x w with
        | (Some er, d1) => (Some er, r, d1, wr1)
        | (None, d1) => submitq_apply id r d1 wr1
        end
  end.

(* task_apply and silofs_task_submit, lib/task.c:410-420,572-579 (no loose inodes) *)
Definition task_submit (all : bool) (tapex : Z) (f : fst_) (o : orc) : option err * fst_ * orc :=
  if all || negb (tapex =? 0) then
    match submitq_apply (if all then CID_ALL else tapex) (f_q f) (f_disk f) (a_wr o) with
    | (r, q, d, wr) => (r, mkF (f_d f) (f_c f) q (f_apex f) d, mkOrc (a_al o) (a_st o) wr)
    end
  else (None, f, o).

(* silofs_flush_dirty with flusher_do_flush_dirty and flusher_complete_commits,
   lib/flush.c:845-880,996-1012; lowmem as in need_flush_now *)
Definition flush_dirty (e : env) (f : fst_) (o : orc) (tapex : Z) (oii : option Z) (flags : Z)
           (lowmem : bool) : option (option err * fst_ * orc * Z) :=
  if negb (need_flush (f_d f) oii flags lowmem) then Some (None, f, o, tapex)
  else match collect_flush e f o tapex oii flags with
       | None => None
       | Some (Some x, f1, o1, t1) => Some (Some x, f1, o1, t1)
       | Some (None, f1, o1, t1) =>
           if hasf flags F_NOW then
             match task_submit true t1 f1 o1 with
             | (r, f2, o2) => Some (r, f2, o2, t1)
             end
           else Some (None, f1, o1, t1)
       end.

(* flush_dirty_of, lib/namei.c:1523-1532 *)
Definition flush_dirty_of (e : env) (f : fst_) (o : orc) (tapex ii flags : Z) (lowmem : bool)
  : option (option err * fst_ * orc * Z) :=
  if isdirty (f_d f) ii || negb (q_accum (d_q (f_d f) (QOf ii)) =? 0)
  then flush_dirty e f o tapex (Some ii) flags lowmem
  else Some (None, f, o, tapex).

(* A request as the user sees it.  fqd_do_exec_request, lib/fuseq.c:3426-3439, calls the
   operation, which sends the reply (do_fsync, lib/fuseq.c:2143-2153; do_syncfs,
   lib/fuseq.c:2409-2416), and then submits the queued writes of the task (task_submit).
   Result: the status replied, the state when the reply is sent, the state at the end,
   and the status of the final submit, which nobody receives. *)
Definition finish_request (r : option (option err * fst_ * orc * Z))
  : option (option err * fst_ * fst_ * option err) :=
  match r with
  | None => None
  | Some (reply, f1, o1, t1) =>
      match task_submit false t1 f1 o1 with
      | (r2, f2, _) => Some (reply, f1, f2, r2)
      end
  end.

(* silofs_do_fsync, lib/namei.c:1701-1712, of an open file; also fsyncdir, 1660-1672 *)
Definition fsync_request (e : env) (f : fst_) (o : orc) (ii : Z) (lowmem : bool) :=
  finish_request (flush_dirty_of e f o 0 ii F_FSYNC lowmem).

(* silofs_do_syncfs, flush_and_sync: lib/namei.c:2339-2352,2543-2557; the backing files are
   then synchronised by the host (not modelled, assumed to work) *)
Definition syncfs_request (e : env) (f : fst_) (o : orc) (lowmem : bool) :=
  finish_request (flush_dirty e f o 0 None F_NOW lowmem).
