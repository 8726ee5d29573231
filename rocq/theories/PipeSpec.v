(* Pipes: where the data of a write belong, and which calls there are. *)
From Verif Require Import Base AddrModel PipeModel.

Definition same_mem (a b : memory) : Prop := forall d o, a d o = b d o.
(* byte k of b is at offset o + k of file d *)
Definition store (m : memory) (d o : Z) (b : bytes) : memory :=
  fun d' o' => if (d' =? d) && (o <=? o') && (o' <? o + Z.of_nat (length b)) then nth (Z.to_nat (o' - o)) b 0 else m d' o'.
(* the data, entry by entry: the next v_len bytes belong to the file or address of the entry *)
Fixpoint placed (m : memory) (vs : list iov) (data : bytes) : memory :=
  match vs with
  | [] => m
  | v :: r => placed (store m (if 0 <? v_fd v then v_fd v else 0) (if 0 <? v_fd v then v_off v else v_base v) (firstn (v_len v) data))
                     r (skipn (v_len v) data)
  end.
Fixpoint total (vs : list iov) : nat := match vs with [] => 0%nat | v :: r => (v_len v + total r)%nat end.
(* no call moves fewer bytes than it was asked for *)
Definition no_short (n : nat) (os : list outcome) : Prop :=
  Forall (fun o => match o with ODone k => (n <= k)%nat | OErr _ => True end) os.

(* any call on a pipe *)
Inductive call :=
| CFrom (msg : bytes) (len : nat) (o : outcome) | CTo (len : nat) (o : outcome) | CVto (len : nat) (o : outcome)
| CVfrom (vs : list bytes) (o : outcome) | CCopy (len : nat) (o : outcome) | CAppend (b : bytes) (o : outcome) | CFlush (o : outcome).
Definition kept (p : pipe) (r : option pipe) : pipe := match r with Some p' => p' | None => p end.
Definition called (p : pipe) (c : call) : pipe :=
  match c with
  | CFrom msg len o => kept p (splice_from_fd p msg len o)
  | CTo len o => fst (splice_to_fd p len o)
  | CVto len o => fst (vmsplice_to p len o)
  | CVfrom vs o => kept p (vmsplice_from p vs o)
  | CCopy len o => fst (copy_to_buf p len o)
  | CAppend b o => kept p (append_buf p b o)
  | CFlush o => fst (flush_pipe p o)
  end.
Definition new_pipe (size : nat) : pipe := mkPipe size 0 [].
