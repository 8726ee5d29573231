(* Requests: who may use a file system, as whom, and what is answered. *)
From Verif Require Import Base IdsmapModel OperModel.

Definition from_kernel (q : req) : Prop := q_kwrite q = true \/ (q_pid q = 0 /\ q_uid q = 0 /\ q_gid q = 0).
Definition may_use (e : env) (q : req) : Prop :=
  e_online e = false \/ from_kernel q \/ q_uid q = e_owner e \/ (e_admin e = true /\ q_uid q = 0) \/ e_other e = true.
(* the user and group of the file system that a request works as *)
Definition works_as (e : env) (q : req) (c : Z * Z) : Prop :=
  ((e_online e = false \/ from_kernel q) /\ c = (q_uid q, q_gid q)) \/
  (e_online e = true /\ ~ from_kernel q /\ map_uidgid (e_ids e) (q_uid q) (q_gid q) = Some c).
Definition is_call (ev : event) : Prop := match ev with ECall _ _ _ _ _ => True | _ => False end.
(* the lock is taken before calls, given back after them, and never taken twice; held: now *)
Fixpoint lock_ok (held : bool) (l : list event) : bool :=
  match l with
  | [] => negb held
  | ELock :: r => negb held && lock_ok true r
  | EUnlock :: r => held && lock_ok false r
  | ECall _ _ _ _ _ :: r => held && lock_ok true r
  end.
(* the error of the first call that failed, but for looking an inode up in the cache *)
Fixpoint first_err (l : list event) : Z :=
  match l with
  | [] => 0
  | ECall _ SCache _ _ _ :: r => first_err r
  | ECall _ _ _ _ err :: r => if err =? 0 then first_err r else err
  | _ :: r => first_err r
  end.
(* requests that set the times of access and modification; chmod and chown are given them too but
   set the time of change only (inode.c:794, 885) *)
Definition with_times (o : op) : bool := match o with Utimens => true | _ => false end.
