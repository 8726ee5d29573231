(* What the namespace promises, in terms of names and inodes only. *)
From Verif Require Import Base NameModel.

(* entries of one directory that lead to k *)
Definition cnt (k : Z) (l : list (name * Z)) : Z := zlen (filter (fun p => snd p =? k) l).
(* names that lead to k, over all directories *)
Definition names (s : ns) (k : Z) : Z := zsum (map (fun p => cnt k (i_ents (snd p))) s).
Definition isdir (s : ns) (k : Z) : bool := match get s k with Some i => i_dir i | None => false end.
(* entries of a directory that lead to directories *)
Definition subdirs (s : ns) (l : list (name * Z)) : Z := zlen (filter (fun p => isdir s (snd p)) l).

(* C14: the link count of a file is the number of its names; that of a directory is one for its
   name (the root, which has none, counts one all the same), one for itself, one for each child
   directory *)
Definition links_exact (s : ns) : Prop := forall k i, get s k = Some i ->
  i_nlink i = if i_dir i
              then (if k =? INO_ROOT then 1 else names s k) + 1 + subdirs s (i_ents i)
              else names s k.

(* what a name leads to *)
Definition entry (s : ns) (d : Z) (n : name) : option Z :=
  match get s d with Some di => ent_of (i_ents di) n | None => None end.
(* a walk from x down *)
Inductive under (s : ns) (x : Z) : Z -> Prop :=
| under_self : under s x x
| under_ent : forall d n k, under s x d -> entry s d n = Some k -> under s x k.
(* a walk from the root *)
Definition reach (s : ns) : Z -> Prop := under s INO_ROOT.
