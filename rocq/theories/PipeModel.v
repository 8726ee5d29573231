(* Reads and writes through a pipe: lib/infra/pipe.c, and its use in lib/fuseq.c (replies to
   reads: 1259-1370; writes: 2548-2756; requests: 3456-3782; sizes: 4434-4470, 4590-4690).

   Simplifications:
   - the pipe of the host is the bytes in it; how a call on the host ends is an outcome: an
     error, with the bytes it lost, or the count of bytes it moved, which may be short as
     splice(2) and vmsplice(2) allow.  A reply that FUSE refuses is lost (fuse_dev_splice_write);
   - FUSE hands over a request whole, or not at all; 16 bytes are written to a pipe whole, or
     not at all;
   - lengths are those of lists; the fields len, opcode and size of a request are given as
     functions of its bytes;
   - memory is the bytes at offsets of files; by address is file 0;
   - no EINTR. *)
From Verif Require Import Base AddrModel.

(* ---- sizes ---- *)
(* roundup_pow_of_two: pipe.c:37-40 *)
Definition pow2_up (n : Z) : Z := 2 ^ (Z.log2 (n - 1) + 1).
(* calc_pipe_size_of: pipe.c:56-91; lim: /proc/sys/fs/pipe-max-size, if it can be read *)
Definition pipe_max (page : Z) (lim : option Z) : Z :=
  match lim with
  | Some l => Z.min (2 ^ 21) (pow2_up l)
  | None => 16 * page
  end.
Definition pipe_min (page : Z) (lim : option Z) : Z :=
  match lim with
  | Some _ => Z.min (2 * page) (pipe_max page lim)
  | None => 2 * page
  end.
Definition pipe_size_of (page : Z) (lim : option Z) (want : Z) : Z :=
  if pipe_max page lim <=? want then pipe_max page lim
  else if want <=? pipe_min page lim then pipe_min page lim else pow2_up want.
(* pipe_try_grow: pipe.c:178-196; the host grants the size *)
Definition pipe_grow (page : Z) (lim : option Z) (size want : Z) : option Z :=
  if (want <? page) || (1024 * page <? want) then None
  else if size <? pipe_size_of page lim want then Some (pipe_size_of page lim want) else Some size.
(* silofs_piper_try_grow: pipe.c:497-505 *)
Definition piper_grow (page : Z) (lim : option Z) (size want : Z) : option Z :=
  if want =? size then Some size else pipe_grow page lim size want.
(* fuseq_bufsize_max: fuseq.c:4590-4600; sizeof(struct silofs_fuseq_inb) *)
Definition BUFSIZE_MAX : Z := 2 ^ 21.
Definition IO_MAX : Z := 2 ^ 21 - 65536.       (* SILOFS_IO_SIZE_MAX: defs.h:311 *)
(* fuseq_resolve_bufsize: fuseq.c:4602-4632; FUSE_MIN_READ_BUFFER is 8192 *)
Definition resolve_bufsize (page : Z) (splice : bool) (lim : option Z) : option Z :=
  let may := if splice then pipe_size_of page lim BUFSIZE_MAX else BUFSIZE_MAX in
  let bs := Z.min may BUFSIZE_MAX / page * page in
  if (bs <? 8192) || (BUFSIZE_MAX <? bs) then None else Some bs.
(* fuseq_calc_max_write: fuseq.c:4639-4663 *)
Definition calc_max_write (page bs : Z) : option Z :=
  if bs <? 40 + 40 + page then None
  else let mw := (bs - 40 - 40) / page * page in
       if mw <? Z.max (2 * page) 8192 then None else Some mw.
(* filc_check_file_io: file.c:1316-1319 *)
Definition io_len_ok (len : Z) : bool := len <=? IO_MAX.

(* ---- the pipe ---- *)
(* k_q: the bytes in the pipe *)
Record pipe := mkPipe { k_size : nat; k_pend : nat; k_q : bytes }.
Inductive outcome := OErr (lost : nat) | ODone (n : nat).
Definition pipe_avail (p : pipe) : nat := (k_size p - k_pend p)%nat.
Definition is_open (p : pipe) : bool := Nat.ltb 0 (k_size p).

(* silofs_pipe_splice_from_fd: pipe.c:220-251, from FUSE with the request msg waiting *)
Definition splice_from_fd (p : pipe) (msg : bytes) (len : nat) (o : outcome) : option pipe :=
  if negb (is_open p) then None else
  match o with
  | OErr _ => None
  | ODone _ => if Nat.leb (length msg) (Nat.min (pipe_avail p) len)
               then Some (mkPipe (k_size p) (k_pend p + length msg) (k_q p ++ msg)) else None
  end.
(* silofs_pipe_splice_to_fd: pipe.c:278-316: the bytes that reach the file *)
Definition splice_to_fd (p : pipe) (len : nat) (o : outcome) : pipe * option bytes :=
  if negb (is_open p) then (p, None) else
  match o with
  | OErr k => (mkPipe (k_size p) (k_pend p) (skipn k (k_q p)), None)
  | ODone n =>
    let m := Nat.min n (Nat.min (Nat.min (k_pend p) len) (length (k_q p))) in
    (mkPipe (k_size p) (k_pend p - m) (skipn m (k_q p)), Some (firstn m (k_q p)))
  end.
(* silofs_pipe_vmsplice_to_iov: pipe.c:318-350, for one buffer of len bytes *)
Definition vmsplice_to (p : pipe) (len : nat) (o : outcome) : pipe * option bytes :=
  if negb (is_open p) then (p, None) else
  match o with
  | OErr k => (mkPipe (k_size p) (k_pend p) (skipn k (k_q p)), None)
  | ODone n =>
    let want := if Nat.ltb 0 (k_pend p) then len else 0%nat in
    let m := Nat.min n (Nat.min want (length (k_q p))) in
    if Nat.eqb m want && Nat.leb m (k_pend p)
    then (mkPipe (k_size p) (k_pend p - m) (skipn m (k_q p)), Some (firstn m (k_q p)))
    else (mkPipe (k_size p) (k_pend p) (skipn m (k_q p)), None)
  end.
(* iov_count_ceil: pipe.c:100-114 *)
Fixpoint count_ceil (iov : list bytes) (len max : nat) : list bytes :=
  match iov with
  | [] => []
  | b :: r => if Nat.leb max len then [] else b :: count_ceil r (len + length b) max
  end.
(* silofs_pipe_vmsplice_from_iov: pipe.c:253-276 *)
Definition vmsplice_from (p : pipe) (iov : list bytes) (o : outcome) : option pipe :=
  if negb (is_open p) then None else
  match o with
  | OErr _ => None
  | ODone n =>
    let b := firstn n (concat (count_ceil iov 0 (pipe_avail p))) in
    Some (mkPipe (k_size p) (k_pend p + length b) (k_q p ++ b))
  end.
(* silofs_pipe_copy_to_buf: pipe.c:352-371 *)
Definition copy_to_buf (p : pipe) (len : nat) (o : outcome) : pipe * option bytes :=
  if negb (is_open p) then (p, None) else
  let cnt := Nat.min (k_pend p) len in
  match o with
  | OErr k => (mkPipe (k_size p) (k_pend p) (skipn k (k_q p)), None)
  | ODone _ =>
    if Nat.leb cnt (length (k_q p))
    then (mkPipe (k_size p) (k_pend p - cnt) (skipn cnt (k_q p)), Some (firstn cnt (k_q p)))
    else (mkPipe (k_size p) (k_pend p) [], None)
  end.
(* silofs_pipe_append_from_buf: pipe.c:373-393 *)
Definition append_buf (p : pipe) (b : bytes) (o : outcome) : option pipe :=
  if negb (is_open p) then None else
  match o with
  | OErr _ => None
  | ODone _ => let c := firstn (k_size p) b in Some (mkPipe (k_size p) (k_pend p + length c) (k_q p ++ c))
  end.
(* silofs_pipe_flush_to_fd: pipe.c:395-402; silofs_pipe_dispose: 404-408 *)
Definition flush_pipe (p : pipe) (o : outcome) : pipe * option bytes :=
  if Nat.ltb 0 (k_pend p) then splice_to_fd p (k_pend p) o else (p, Some []).

(* ---- a request comes in ---- *)
(* fqd_check_inhdr: fuseq.c:3480-3507 *)
Section Recv.
Variables (hlen : bytes -> nat) (large : bytes -> bool) (buffsize : nat).
Definition check_inhdr (inb : bytes) (nrd : nat) (full : bool) : bool :=
  negb (Nat.ltb nrd 40) && negb (Nat.ltb buffsize (hlen inb)) && negb (full && negb (Nat.eqb (hlen inb) nrd)).
(* fqd_copy_pipe_in: fuseq.c:3641-3675; the buffer is 80 bytes of header, then data *)
Definition copy_in (p : pipe) (o1 o2 : outcome) : pipe * option bytes :=
  match copy_to_buf p (Nat.min 80 (k_pend p)) o1 with
  | (p1, None) => (p1, None)
  | (p1, Some b1) =>
    let rem := if Nat.leb (length b1) (hlen b1) then (hlen b1 - length b1)%nat else k_size p in
    if negb (check_inhdr b1 (length b1) (Nat.eqb rem 0)) then (p1, None)
    else if Nat.eqb rem 0 || large b1 then (p1, Some b1)
    else match copy_to_buf p1 rem o2 with
         | (p2, None) => (p2, None)
         | (p2, Some b2) => if check_inhdr b1 (length b1 + length b2) true then (p2, Some (b1 ++ b2)) else (p2, None)
         end
  end.
(* fqd_prep_request: fuseq.c:3762-3766; fqd_check_pipe_pre: 3509-3526; fqd_recv_splice_in:
   3627-3632; fqd_recv_request: 3768-3782 *)
Definition recv_request (p : pipe) (msg : bytes) (o0 o1 o2 o3 : outcome) : pipe * option bytes :=
  match flush_pipe p o0 with
  | (p0, None) => (p0, None)
  | (p0, Some _) =>
    if Nat.ltb buffsize (k_size p0) || negb (Nat.eqb (k_pend p0) 0) then (p0, None)
    else match splice_from_fd p0 msg buffsize o1 with
         | None => (p0, None)
         | Some p1 => copy_in p1 o2 o3
         end
  end.
End Recv.

(* ---- a write ---- *)
(* struct silofs_iovec; v_base is not 0 for buffers in memory *)
Record iov := mkIov { v_fd : Z; v_off : Z; v_base : Z; v_len : nat }.
Definition memory := Z -> Z -> Z.
Definition put (m : memory) (d o : Z) (b : bytes) : memory :=
  fun d' o' => if (d' =? d) && (o <=? o') && (o' <? o + Z.of_nat (length b)) then nth (Z.to_nat (o' - o)) b 0 else m d' o'.
(* fqd_extract_data_from_pipe: fuseq.c:2556-2591 *)
Definition extract (p : pipe) (m : memory) (v : iov) (o : outcome) : pipe * option memory :=
  if 0 <? v_fd v then
    match splice_to_fd p (v_len v) o with
    | (p', Some b) => (p', Some (put m (v_fd v) (v_off v) b))
    | (p', None) => (p', None)
    end
  else if negb (v_base v =? 0) then
    match vmsplice_to p (v_len v) o with
    | (p', Some b) => (p', Some (put m 0 (v_base v) b))
    | (p', None) => (p', None)
    end
  else (p, None).
(* fq_wri_check: fuseq.c:2593-2614; cnt: entries so far, at most 50 *)
Definition wri_check (cnt nwr max : nat) (v : iov) : bool :=
  Nat.ltb cnt 50 && negb (v_off v <? 0) && negb ((v_fd v <? 0) && (v_base v =? 0)) && Nat.leb (nwr + v_len v) max.
(* fq_wri_actor: fuseq.c:2616-2636, for one entry after the other: what is acknowledged *)
Fixpoint write_sync (p : pipe) (m : memory) (cnt nwr max : nat) (vs : list iov) (os : list outcome) : pipe * option (memory * nat) :=
  match vs with
  | [] => (p, Some (m, nwr))
  | v :: r =>
    match os with
    | [] => (p, None)
    | o :: os' =>
      if negb (wri_check cnt nwr max v) then (p, None) else
      match extract p m v o with
      | (p', None) => (p', None)
      | (p', Some m') => write_sync p' m' (S cnt) (nwr + v_len v) max r os'
      end
    end
  end.
(* iovec_isfdseq: fuseq.c:1265-1275 *)
Definition isfdseq (a b : iov) : bool :=
  (0 <? v_fd a) && (0 <? v_fd b) && (v_fd a =? v_fd b) && (v_off a + Z.of_nat (v_len a) =? v_off b).
Definition grow_len (a b : iov) : iov := mkIov (v_fd a) (v_off a) (v_base a) (v_len a + v_len b).
(* fq_wri_copy_iov: fuseq.c:2652-2680: entries that follow each other in a file are one *)
Fixpoint merge_from (a : iov) (vs : list iov) : list iov :=
  match vs with
  | [] => [a]
  | v :: r => if isfdseq a v then merge_from (grow_len a v) r else a :: merge_from v r
  end.
Definition merge (vs : list iov) : list iov := match vs with [] => [] | v :: r => merge_from v r end.
Fixpoint copy_iov (p : pipe) (m : memory) (nwr : nat) (vs : list iov) (os : list outcome) : pipe * option (memory * nat) :=
  match vs with
  | [] => (p, Some (m, nwr))
  | v :: r =>
    match os with
    | [] => (p, None)
    | o :: os' =>
      match extract p m v o with
      | (p', None) => (p', None)
      | (p', Some m') => copy_iov p' m' (nwr + v_len v) r os'
      end
    end
  end.
(* fq_wri_async_actor: fuseq.c:2638-2650, then do_write_iter: 2732-2759 *)
Fixpoint async_check (cnt max : nat) (vs : list iov) : bool :=
  match vs with [] => true | v :: r => wri_check cnt 0 max v && async_check (S cnt) max r end.
Definition write_async (p : pipe) (m : memory) (max : nat) (vs : list iov) (os : list outcome) : pipe * option (memory * nat) :=
  if async_check 0 max vs then copy_iov p m 0 (merge vs) os else (p, None).

(* ---- a reply to a read ---- *)
(* fqd_append_data_to_pipe: fuseq.c:1294-1319: 48 entries at a time *)
Fixpoint chunks (fuel : nat) (vs : list bytes) : list (list bytes) :=
  match fuel, vs with
  | _, [] => []
  | O, _ => []
  | S f, _ => firstn 48 vs :: chunks f (skipn 48 vs)
  end.
Fixpoint append_chunks (p : pipe) (cs : list (list bytes)) (os : list outcome) : option pipe :=
  match cs with
  | [] => Some p
  | c :: r => match os with
              | [] => None
              | o :: os' => match vmsplice_from p c o with None => None | Some p' => append_chunks p' r os' end
              end
  end.
(* fq_rdi_reply_read_iov: fuseq.c:1337-1364: the bytes that FUSE is given *)
Definition reply_read (p : pipe) (hdr : bytes) (vs : list bytes) (oh : outcome) (os : list outcome) (ofl : outcome) : option bytes :=
  match append_buf p hdr oh with
  | None => None
  | Some p1 => match append_chunks p1 (chunks (length vs) vs) os with
               | None => None
               | Some p2 => snd (flush_pipe p2 ofl)
               end
  end.

(* ---- Linux: a pipe has a number of slots; a page of a buffer takes one of them ---- *)
(* the lengths of the parts of a buffer at an address, page by page *)
Fixpoint parts (fuel : nat) (page off len : Z) : list Z :=
  match fuel with
  | O => []
  | S f => if len <=? 0 then [] else let n := Z.min len (page - off) in n :: parts f page 0 (len - n)
  end.
Definition all_parts (page : Z) (vs : list (Z * Z)) : list Z :=
  flat_map (fun v => parts (Z.to_nat (snd v / page + 2)) page (fst v mod page) (snd v)) vs.
(* vmsplice takes what the free slots hold *)
Definition linux_takes (page : Z) (free : nat) (vs : list (Z * Z)) : Z := fold_right Z.add 0 (firstn free (all_parts page vs)).
