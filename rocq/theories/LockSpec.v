(* Lock files: what it is to hold the lock of a file system.  From the model only the records of
   commands and of the repository are taken. *)
From Verif Require Import Base AddrModel MntModel RulesModel LockModel.

(* ".name.lock" *)
Definition lock_file (n : bytes) : bytes := 46 :: n ++ [46; 108; 111; 99; 107].
Definition locked (w : world) (n : bytes) : Prop := w_dir w (lock_file n) <> None.
(* the name whose lock a command takes *)
Definition takes (p : proc) (n : bytes) : Prop :=
  n = (match p_cmd p with Restore => p_ar p | _ => p_name p end).
(* from the rename to the removal of the lock file *)
Inductive inside : pc -> Prop :=
| in_mark : inside PMark | in_work : inside PWork
| in_rel1 : inside PRel1 | in_rel2 : inside PRel2 | in_rel3 : inside PRel3.
Definition holds (w : world) (i : nat) (n : bytes) : Prop :=
  exists p, w_procs w i = Some p /\ takes p n /\ inside (p_pc p).
Definition at_pc (w : world) (i : nat) (c : pc) : Prop := exists p, w_procs w i = Some p /\ p_pc p = c.

(* a world in which commands are about to start; names of file systems have 127 bytes at most *)
Definition short (n : bytes) : Prop := (length n <= 127)%nat.
Definition starting (w : world) : Prop :=
  forall i p, w_procs w i = Some p -> p_pc p = PCheck /\ p_has p = false /\ short (p_name p) /\ short (p_ar p).
Definition no_restore (w : world) : Prop := forall i p, w_procs w i = Some p -> p_cmd p <> Restore.

(* ---- runs ---- *)
Fixpoint always (P : world -> label -> Prop) (w : world) (ls : list label) : Prop :=
  match ls with [] => True | l :: r => P w l /\ always P (step1 w l) r end.
(* no exit signal between the removal of the lock file and has_lockfile = false *)
Definition calm (w : world) (l : label) : Prop :=
  l_ev l = ETerm -> ~ at_pc w (l_who l) PRel4.
(* no command is ended, and no call of a release fails, while it has the lock; but its work may
   fail, or be ended by a signal that calls exit *)
Definition tidy (w : world) (l : label) : Prop :=
  calm w l /\
  forall p, w_procs w (l_who l) = Some p -> inside (p_pc p) ->
    l_ev l = EOk \/ p_pc p = PWork /\ l_ev l <> EKill.
