(* The mount daemon: what it may do for whom.  Only the types of MntModel are used here. *)
From Verif Require Import Base MntModel.

(* ---- the request as the bytes say it ---- *)
(* a message cut short reads as if followed by zeros *)
Definition at_ (b : bytes) (i : nat) : Z := nth i b 0.
Fixpoint num (n : nat) (b : bytes) (i : nat) : Z :=
  match n with O => 0 | S k => at_ b i + 256 * num k b (S i) end.

Record wellformed (F : conf) (b : bytes) : Prop := mkWellformed {
  wf_long : (56 <= length b)%nat;
  wf_magic : num 4 b 0 = 1869375859;
  wf_major : num 2 b 4 = cf_major F;
  wf_minor : num 2 b 6 <= cf_minor F }.

Record says_path (b : bytes) (path : bytes) : Prop := mkSaysPath {
  sp_some : path <> [];
  sp_fits : (length path < 1920)%nat;
  sp_text : forall i, (i < length path)%nat -> at_ b (128 + i) = at_ path i /\ at_ path i <> 0;
  sp_end : at_ b (128 + length path) = 0 }.

(* a request to mount at path with these flags and options (the descriptor apart) *)
Record asks_mount (F : conf) (b : bytes) (path : bytes) (flags : Z) (o : mopts) (check : bool) : Prop := mkAsksMount {
  am_wf : wellformed F b;
  am_cmd : num 4 b 8 = 2;
  am_path : says_path b path;
  am_flags : num 8 b 16 = flags;
  am_uid : num 4 b 24 = o_uid o;
  am_gid : num 4 b 28 = o_gid o;
  am_mode : num 4 b 32 = o_mode o;
  am_maxread : num 4 b 36 = o_maxread o;
  am_other : o_other o = true <-> 0 < at_ b 40;
  am_check : check = true <-> 0 < at_ b 41 }.

Record asks_umount (F : conf) (b : bytes) (path : bytes) (flags : Z) : Prop := mkAsksUmount {
  au_wf : wellformed F b;
  au_cmd : num 4 b 8 = 3;
  au_path : says_path b path;
  au_flags : num 8 b 16 = flags }.

(* ---- when things were seen ---- *)
(* the system said so at some call in this stretch of time *)
Definition saw (W : nat -> world) (a b : nat) (P : world -> Prop) : Prop :=
  exists t, (a <= t < b)%nat /\ P (W t).

(* names, kinds and owners do not change during the request *)
Definition steady (W : nat -> world) (w : world) : Prop :=
  forall t, w_stat (W t) = w_stat w /\ w_statfs (W t) = w_statfs w /\ w_canon (W t) = w_canon w.

(* ---- what a mount needs ---- *)
Definition directory (st : stat) : Prop := (t_mode st / 4096) mod 16 = 4.
(* this path names that file *)
Definition names (w : world) (p : bytes) (st : stat) : Prop :=
  exists s1, w_stat w p = inr s1 /\ t_ino s1 = t_ino st /\ t_dev s1 = t_dev st /\ t_mode s1 = t_mode st.
(* XFS, ext, ZFS, btrfs, Ceph, CIFS, F2FS, NFS, NTFS *)
Definition backing : list Z :=
  [1481003842; 61267; 801189825; 2435016766; 12805120; 4283649346; 4076150800; 26985; 1397118030].
(* read-only, nosuid, nodev, noexec, lazytime *)
Definition mount_flags (flags : Z) : Prop :=
  forall i, 0 <= i -> Z.testbit flags i = true -> In i [0; 1; 2; 3; 25].
Definition for_user (ru : rule) (c : cred) : Prop := ru_uid ru = 4294967295 \/ ru_uid ru = cr_uid c.

Definition own_dir (c : cred) (path : bytes) (w : world) : Prop :=
  exists st, w_stat w path = inr st /\ directory st /\ t_uid st = cr_uid c /\ t_ino st <> 1 /\ t_nlink st <= 2.
Definition backed (path : bytes) (w : world) : Prop := exists ty, w_statfs w path = inr ty /\ In ty backing.

Record fair_opts (F : conf) (c : cred) (flags : Z) (o : mopts) : Prop := mkFairOpts {
  fo_flags : mount_flags flags;
  fo_uid : o_uid o = cr_uid c;
  fo_gid : o_gid o = cr_gid c;
  fo_maxread : 2 * cf_page F <= o_maxread o <= 512 * cf_page F;
  fo_owner : exists i, 6 <= i <= 8 /\ Z.testbit (o_mode o) i = true;
  fo_kind : Z.testbit (o_mode o) 14 = true }.

(* the first rule for the directory is for the user (or for all) *)
Definition ruled (F : conf) (c : cred) (path : bytes) (w : world) : Prop :=
  exists rs l ru r st, cf_rules F = Some rs /\ rs = l ++ ru :: r /\ w_stat w path = inr st /\
    names w (ru_path ru) st /\ (forall x, In x l -> ~ names w (ru_path x) st) /\ for_user ru c.

Record may_mount (w : world) (F : conf) (c : cred) (path : bytes) (flags : Z) (o : mopts) : Prop := mkMayMount {
  mm_opts : fair_opts F c flags o;
  mm_canon : w_canon w path = inr path;
  mm_dir : own_dir c path w;
  mm_fs : backed path w;
  mm_rule : ruled F c path w }.

(* the same when the system may change: each thing was so at one time or another *)
Record checked_mount (W : nat -> world) (a b : nat) (F : conf) (c : cred) (path : bytes) (flags : Z) (o : mopts) : Prop :=
  mkCheckedMount {
  cm_opts : fair_opts F c flags o;
  cm_canon : saw W a b (fun w => w_canon w path = inr path);
  cm_dir : saw W a b (own_dir c path);
  cm_fs : saw W a b (backed path);
  cm_rule : exists rs l ru r st, cf_rules F = Some rs /\ rs = l ++ ru :: r /\
    saw W a b (fun w => w_stat w path = inr st) /\ saw W a b (fun w => names w (ru_path ru) st) /\
    (forall x, In x l -> saw W a b (fun w => ~ names w (ru_path x) st)) /\ for_user ru c }.

(* ---- what an unmount needs ---- *)
(* the same text but for slashes in front, and not only slashes *)
Definition same_text (p q : bytes) : Prop :=
  exists x i j, p = repeat 47 i ++ x /\ q = repeat 47 j ++ x /\ x <> [] /\ hd 0 x <> 47.
(* no rules at all, or the first rule with this text is for the user (or for all) *)
Definition text_ruled (F : conf) (c : cred) (path : bytes) : Prop :=
  cf_rules F = None \/ cf_rules F = Some [] \/
  exists rs l ru r, cf_rules F = Some rs /\ rs = l ++ ru :: r /\ same_text (ru_path ru) path /\
    (forall x, In x l -> ~ same_text (ru_path x) path) /\ for_user ru c.
(* a directory with the inode of the root of a silofs, or one that root may not look at *)
Definition live_root (path : bytes) (w : world) : Prop :=
  w_stat w path = inl 13 \/ exists st, w_stat w path = inr st /\ directory st /\ t_ino st = 1.
(* a mount whose file system is gone *)
Definition dead_root (path : bytes) (w : world) : Prop := w_stat w path = inl 107.
Definition forced (flags : Z) : Prop := flags = 1 \/ flags = 3.

(* the user may unmount: a rule for the very directory names them (or all), and so
   does every rule for it *)
Definition may_umount (w : world) (F : conf) (c : cred) (path : bytes) : Prop :=
  exists rs q, cf_rules F = Some rs /\ w_canon w path = inr q /\
    (exists ru, In ru rs /\ ru_path ru = q) /\
    (forall ru, In ru rs -> ru_path ru = q -> for_user ru c).

(* ---- descriptors ---- *)
Definition opened (tr : list event) (fd : Z) : Prop := In (EvOpen fd) tr.
Definition closed (tr : list event) (fd : Z) : Prop := In (EvClose fd) tr.
Definition acts (tr : list event) : list event :=
  filter (fun e => match e with EvMount _ _ _ _ _ | EvUmount _ _ _ _ => true | _ => false end) tr.
Definition replies (tr : list event) : list event :=
  filter (fun e => match e with EvReply _ _ _ _ => true | _ => false end) tr.

(* error numbers are positive and small, a new descriptor is none of the standard ones *)
Definition real_errors (W : nat -> world) : Prop := forall t,
  (forall p e, w_stat (W t) p = inl e -> 0 < e < 4096) /\ (forall p e, w_statfs (W t) p = inl e -> 0 < e < 4096) /\
  (forall p e, w_canon (W t) p = inl e -> 0 < e < 4096) /\ (forall e, w_open (W t) = inl e -> 0 < e < 4096) /\
  (forall fd, w_open (W t) = inr fd -> 0 < fd) /\ 0 <= w_mount (W t) < 4096 /\ 0 <= w_umount (W t) < 4096.

(* what arrives is bytes *)
Definition input_bytes (i : input) : Prop := match i with inl _ => True | inr (b, _) => all_bytes b end.
