(* What snapshots and copy-on-write should mean, without maps, volumes or caches:
   every file system is a table of objects; a snapshot is a copy of the table. *)
From Verif Require Import Base AddrModel CowModel.
Open Scope Z_scope.

(* What is known of an object: not there; nothing; its bytes. *)
Inductive cell := Free | Any | Val (d : bytes).

(* [f_own]: written or created since the last snapshot.  [f_err]: a change has
   failed half-way since the last time everything was written out. *)
Record fs := mkFs { f_cell : vad -> cell; f_own : vad -> bool; f_err : bool }.

Definition put {A} (g : vad -> A) (v : vad) (x : A) : vad -> A := fun w => if vad_eqb w v then x else g w.
Definition put_fs (a : fs) (v : vad) (c : cell) (o : bool) : fs :=
  mkFs (put (f_cell a) v c) (put (f_own a) v o) (f_err a).
Definition fail (a : fs) : fs := mkFs (f_cell a) (f_own a) true.
Definition copy (a : fs) : fs := mkFs (f_cell a) (fun _ => false) false.

(* The one case in which a change in place may lose what it does not change: a
   64K data block not written since the last snapshot. *)
Definition lossy (a : fs) (v : vad) : bool := isdatabk v && negb (f_own a v).
Definition spoil (c : cell) : cell := match c with Val _ => Any | _ => c end.
Definition spoil_fs (a : fs) (v : vad) : fs := put_fs a v (spoil (f_cell a v)) (f_own a v).

(* The file system after an operation, given its outcome. *)
Definition next (a : fs) (o : op) (r : res answer) : fs :=
  match o, r with
  | Write _ v f, Ok _ => put_fs a v (match f_cell a v with
                                     | Val d => if lossy a v then Any else Val (f d)
                                     | c => c
                                     end) true
  | Over _ v d, Ok _ => put_fs a v (Val d) true
  | Remove v, Ok _ => put_fs a v Free false
  | (Write _ v _ | Over _ v _ | Remove v), _ => fail (if lossy a v then spoil_fs a v else a)
  | Claim v, Ok _ => put_fs a v Any false
  | Spawn v d, Ok _ => put_fs a v (Val d) true
  | Spawn v _, _ => fail (match f_cell a v with Free => put_fs a v Any (f_own a v) | _ => a end)
  | Fork, Ok _ => copy a
  | Remount, Ok _ => mkFs (f_cell a) (f_own a) false
  | _, _ => a
  end.

(* No call of this operation failed below. *)
Definition calm (f : list bool) : Prop := forallb negb f = true.

(* An object of the same block is allocated, but nothing is known of its contents:
   the block cannot be copied if it was never written. *)
Definition blocked (a : fs) (v : vad) : Prop :=
  exists w, fst w = fst v /\ snd w / 65536 = snd v / 65536 /\ f_cell a w = Any.

(* Which outcomes an operation may have. *)
Definition allowed (a : fs) (o : op) (f : list bool) (r : res answer) : Prop :=
  match r with
  | Ok x => match o with
            | Read v => exists d, x = ABytes d /\ (f_cell a v = Any \/ f_cell a v = Val d)
            | Write _ v _ | Over _ v _ => x = ANone /\ f_cell a v <> Free
            | Claim v | Spawn v _ => x = ANone /\ (forall d, f_cell a v <> Val d)
            | Fork => exists b, x = ASnap b
            | _ => x = ANone
            end
  | Er => match o with
          | Read v => calm f -> forall d, f_cell a v <> Val d
          | Write _ v _ | Over _ v _ | Remove v => calm f -> ~ blocked a v -> f_cell a v = Free
          | Claim v => calm f -> f_cell a v <> Free
          | Spawn v _ => calm f -> ~ blocked a v -> f_cell a v <> Free
          | FlushV _ | Fork | Remount => calm f -> f_err a = true
          | FlushU _ | FlushSb => ~ calm f
          | EvictV _ | EvictU _ | DropLru => False
          end
  | Bad => f_err a = true /\ match o with FlushV _ | Fork | Remount => True | _ => False end
  end.

(* Several file systems: an operation changes only the one it runs in; a snapshot
   adds one. *)
Fixpoint setnth {A} (l : list A) (j : nat) (x : A) : list A :=
  match l, j with
  | [], _ => []
  | _ :: r, O => x :: r
  | y :: r, S j => y :: setnth r j x
  end.
Definition next_all (as_ : list fs) (j : nat) (o : op) (r : res answer) : list fs :=
  match nth_error as_ j with
  | None => as_
  | Some a =>
    setnth as_ j (next a o r) ++
    match o, r with Fork, Ok _ => [copy a] | _, _ => [] end
  end.

(* Objects an operation may be asked about. *)
Definition good_vad (v : vad) : Prop :=
  ltype_isvnode (fst v) = true /\ 0 < snd v < 2 ^ 56 /\ snd v mod ltype_size (fst v) = 0.
Definition good_op (o : op) : Prop :=
  match o with
  | Read v | Write _ v _ | Over _ v _ | Claim v | Spawn v _ | Remove v => good_vad v
  | _ => True
  end.

Definition fs_new : fs := mkFs (fun _ => Free) (fun _ => false) false.

(* A history: who, what, which calls fail, what came of it. *)
Definition event := (nat * op * list bool * res answer)%type.
Inductive runs : sys -> list event -> sys -> Prop :=
| runs_nil : forall y, runs y [] y
| runs_cons : forall y j o f r y1 tr y2,
    good_op o -> sys_step y j o f [] = Some (r, y1) -> runs y1 tr y2 -> runs y ((j, o, f, r) :: tr) y2.

Fixpoint after (as_ : list fs) (tr : list event) : list fs :=
  match tr with
  | [] => as_
  | (j, o, _, r) :: tr => after (next_all as_ j o r) tr
  end.
