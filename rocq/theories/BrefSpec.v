(* Boot-ref files: what a directory holds, apart from the commands that write it. *)
From Verif Require Import Base WalkModel CaddrSpec BrefModel.

(* names of file systems, snapshots and archives *)
Definition name_char (c : Z) : Prop :=
  97 <= c <= 122 \/ 65 <= c <= 90 \/ 48 <= c <= 57 \/ c = 95 \/ c = 45 \/ c = 43 \/ c = 46.
Definition legal_name (s : bytes) : Prop :=
  (1 <= length s <= 127)%nat /\ Forall name_char s /\ hd 0 s <> 46.

Definition contents (d : hdir) (n : bytes) : option bytes :=
  match d n with Some f => Some (f_data f) | None => None end.
Definition owner_reads (mode : Z) : Prop := Z.testbit mode 8 = true.
(* the file n says c: the name of c and a newline, for its owner to read *)
Definition says (d : hdir) (n : bytes) (c : caddr) : Prop :=
  exists mode t, d n = Some (mkHfile mode (t ++ [10])) /\ owner_reads mode /\ name_of c t.
(* the same files but for those two names *)
Definition same_but (n m : bytes) (d d' : hdir) : Prop := forall x, x <> n -> x <> m -> d' x = d x.

(* power is lost: whatever was not forced to the disk may have gotten there in part.  None of
   the files written since d0 was: each is as it was then, or as it is now with its data cut *)
Definition power_loss (d0 d1 d : hdir) : Prop :=
  forall n, d n = d0 n \/
    match d1 n with
    | None => d n = None
    | Some f => exists k, d n = Some (mkHfile (f_mode f) (firstn k (f_data f)))
    end.
