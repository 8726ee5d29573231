# Formal model of silofs in Rocq (Coq 8.16.1)

The subject is the C source tree in `/repo` (silofs: a copy-on-write FUSE file
system).  The tree is read as text; it is never built, run or changed.  This
document says what is modelled, how each property of `properties.jsonl` is
proved, and what is trusted.  `MANIFEST.json` gives, per property, the theorems
and what was found; `seeded/LOG.jsonl` lists the wrong programs the theorems
were tried on.

How to read that log: `first_failure` is where the build of a wrong program
stopped.  `theorems_failed` is all that was not accepted from there on, in that
file and in those that need it.  It is an upper bound: a theorem can be in it
because a lemma or a script before it broke, and still be true of the wrong
program.  Whether a claim is really violated was looked at by hand, and not for
every line; where only a script had broken and this was noticed, a theorem was
added and the line says so (`theorems_tightened`, `note`).

## 1. Layout

* `rocq/theories/XxxModel.v` - executable Gallina definitions only.  Every
  definition carries a comment with the file and lines it models and every
  simplification made; the head of the file says which code it is about.
* `rocq/theories/XxxSpec.v` or the head of `XxxProps.v` - the small specification
  a reader of the English property can understand without the model.
* `rocq/theories/XxxProofs.v` and other files - lemmas and invariants.
* `rocq/theories/XxxProps.v` - the theorems listed in `MANIFEST.json`, each with
  a non-vacuity `Example` and `Print Assumptions`.
* `tools/manifest.py` makes `MANIFEST.json` from `tools/claims.txt`;
  `tools/mutate.py` applies a list of edits to a scratch copy, rebuilds it and logs
  which theorems fail; `tools/cite.py` compares line citations with `/repo`.

Conventions: offsets, lengths and counters are unbounded `Z` unless the property
is about overflow; bytes are `Z`; C arrays are lists or functions of the index;
error returns are values of an inductive type; undefined behaviour, abort and a
failed assertion are a distinct outcome, which theorems exclude or exhibit; loops
without a bound in C use fuel whose exhaustion is that outcome.  Whatever the
code cannot decide itself (outcome of an allocation or of I/O, the address the
allocator gives, old content of claimed space) comes from an oracle over which
theorems quantify.

A theorem named `..._refuted` proves that a stated claim is false of the model,
by a reachable witness; a theorem named `..._partial` proves a claim under a
condition named in its comment and its manifest note.  A property with a refuted
part has status `partial`.

## 2. Per property

| id | model | proof |
|----|-------|-------|
| C01 | AddrModel: byte-level vaddr56, vaddr64, laddr48b, uaddr, paddr | round trip and injectivity; base-256 digits.  Null position refuted |
| C02 | MapModel: leaf tables from virtual address to segment and position | invariant over histories of spawn, clone, rebind; disjointness arithmetic |
| C03 | Base64Model: encoder and decoder loops, table index checked | induction on groups of three bytes; negative index refuted |
| C04 | AsciiModel: hex loops | induction; odd length refuted |
| C05 | IdsmapModel: the two tables as lists | list lemmas; aliasing with host ids refuted |
| C06 | SymlinkModel: head and parts with an allocation oracle | reassembly; swallowed error refuted |
| C07, C08 | XattrModel: unit array nodes, eight slots, dirty flags, disk image | refinement to a map over histories; replace across nodes refuted |
| C09, C11-C13, C37, C38 | DirModel: hash tree of nodes with an arbitrary hash; readdir with its reply buffer | invariant "an entry lives on the path of its hash"; refinement to a name map; depth 4 findings |
| C10 | DirNodeModel: entries up, names down in one buffer | abstraction to a slot table; insert, punch, fixup, trim refine it |
| C14, C15, C41, C45 | NameModel: inodes, entries, link and open counts, every operation with failure points | counting invariants over histories; half-way renames refuted |
| C16, C36, C46-C48 | AttrModel: access rule, sticky rule, attribute changes, setattr | equivalence with declarative rules; findings by witness |
| C17, C18, C20, C22, part of C19 | SpaceModel: 64-bit masks, shared counters, claim, share, release, leaf creation, statistics | invariant over histories: masks are the disjoint union of owned objects; counters are sums |
| C19, C24-C28, C43 | FileModel: leaves in inode and tree, read, write, truncate, fallocate, seek, copy | refinement to a byte map per file (FileCalls, FileHist); copies under guards (CopyHist) |
| C21 | SpaModel: stack and ordered ranges | multiset invariant over histories; use after free refuted |
| C23 | CowModel: instances over one repository, map tree, clones, bindings, re-homing, flush, remount, fork | simulation by one table of objects per instance (CowSys), success of calls when nothing fails (CowAlive) |
| C29 | QallocModel: page runs with boundary links, slabs | partition invariant over histories of malloc, free, writes |
| C30 | AvlModel: zipper | BST and balance invariants, fixup loops |
| C31 | CacheModel: hash chains, LRU, dirty queues, forget, relax, drop | invariant over histories for every hash function |
| C32 | DirtyModel: queues and weights | sum invariant |
| C33, C34, C42 | FlushModel: sets, grouping, submit queue, failures | concatenation lemmas; exact storage after a flush; lost data refuted |
| C35 | HdrModel: seal, verify; arbitrary checksum | round trip, detection; flag confusion refuted |
| C39 | SpmapModel: five levels of ranges | div/mod arithmetic, induction on height |
| C40 | VerifyModel: raw bytes with checked reads | bounds; missing checks refuted |
| C49-C51 | WalkModel, PackModel: walk over the map tree, archive objects, index bytes, boot record by name, restore; every step may fail | Hoare rules over a monad with failures; an invariant "every live address passed has a descriptor and an object"; index bytes round trip; toy file system as witness (PackToy) |
| C52 | DelfsModel over WalkModel: walk that removes, boot record unlink; every step may fail | frame kept by every run (Hoare rules, DelfsProofs); map nodes by path, "segments gone so far, none still needed" by induction over the walk; toy base and clone as witness (DelfsToy) |
| C53 | BootModel: fields of the 1024 bytes, digest, key from a password, checks on load, save and load in the repository of WalkModel; every step may fail | layout given apart by absolute offsets (BootSpec); round trip field by field; a save as a prefix written under a digest; xor algebra for the key stream |
| C54, C55 | MntModel: one request of the mount daemon, from bytes and descriptors to the reply; the system may answer anew at every call; a failing close ends the daemon | request read by offsets, conditions "seen at some call" (MntSpec); shapes of all runs (MntProofs); races, cut messages, leaks and missing rule checks refuted with a toy system |
| C56 | RulesModel: the file of mount rules from its bytes to the rules, views as lists of bytes, strtol with base 0 | grammar of lines, words, settings and numbers (RulesSpec); the parser accepts exactly its texts (RulesProofs); composed with C54; odd numbers, #, NUL |
| C57 | CaddrModel: digits, printf and sscanf of the name of a content address, checks of type and size | grammar of names and of what the reader takes (CaddrSpec); reader equals grammar, one text per address (CaddrProofs); trailing text, large numbers, odd sizes |
| C58 | BrefModel: boot-ref files in a directory of files with modes, every call may fail or be the last; names of file systems; the steps of a snapshot | a Hoare logic with an invariant for every end (BrefProofs); old or new at all times; stale temporary file, failed snapshot, loss of power |
| C59 | IdconfModel: the text of fsids.conf, read and written, over any databases of users and groups; what init puts there and mkfs asks of it | equivalence with a grammar of lines (IdconfSpec); induction over lines and entries; composed with C05; swapped ids, large numbers, aliases, misspelt headers |
| C60 | LockModel: any number of commands that take and release lock files of names in one repository, one call a step, with failing calls, kills and signals | invariant over all interleavings: holders are unique and their lock files are there (LockSpec, LockProofs); restore, kills, signals and shared temporary names refuted by runs |
| C61 | PipeModel: the pipe between FUSE and the file system as its bytes and its own count, every call with an outcome; requests, writes (both ways), replies to reads; sizes | invariant: the count is never below the bytes (PipeProofs); writes against `placed`, the data put entry by entry (PipeSpec); short counts, lost replies, slots and sizes refuted by runs |
| C62 | OperModel: every request as its list of calls (leave, ids, staging, flush, the work, attributes) with any outcome, between lock and unlock; FUSE requests as lists of these; errors as numbers | the log of calls of every run against leave and ids said apart from the code (OperSpec), by induction on the steps (OperProofs); errors after the fact, half-done setattr, dropped times, mistaken owners and root without a pid refuted |
| C63 | PassModel: descriptors as what can still be read, every call with an outcome; parsing byte by byte | parsing against `says`, the text with blanks around the password (PassSpec); what is got against the text taken from the input; short reads from pipes, files as standard input of mkfs, and rests of long lines refuted |
| C64 | LtextModel: printing and scanning character by character, with sscanf as a function on lists of characters | round trip and injectivity over all addresses in range (`fits`, LtextSpec); damaged heights that are taken refuted |
| C44 | AddrModel: IV of a block from its address | injectivity of the IV of a block |

## 3. Trusted base

* The Coq 8.16.1 kernel (`coqc`, `coqchk`).
* That the Gallina definitions describe the cited C code: this is by reading; there
  is no extraction and no C semantics.  The points at which a definition departs
  from the C text are in its comment.
* The compiler, the kernel, FUSE and the host file system below the repository are
  not modelled.  External functions are parameters or oracles: checksum, name
  hash, cipher, random numbers, clock, outcome of memory and disk operations.
* Nothing is assumed about concurrency except that an operation runs alone: the
  code holds the file-system lock from `op_start` to `op_finish` (lib/opers.c).
  Models of lower layers (Qalloc, Cache) take calls as atomic.

### Which code is modelled

| model | code | left out or simplified |
|-------|------|------------------------|
| Addr | lib/addr/{ltype,offlba,vaddr,laddr,uaddr,paddr}.c | little-endian host only |
| Ascii | lib/str/ascii.c | - |
| Base64 | lib/infra/base64.c | - |
| Idsmap | lib/idsmap.c | memory exhaustion while loading |
| Symlink | lib/symlink.c, symlink part of lib/namei.c | directories reduced to the outcome of adding the name |
| Xattr | lib/xattr.c | permission checks (C16) |
| DirNode | lib/dir.c, one tree node | assertions compiled out in release builds |
| Dir | lib/dir.c; readdir consumer of lib/fuseq.c | I/O errors while reading a node; UTF-8 check; times and size |
| Name | lib/namei.c; link accounting of lib/dir.c, lib/inode.c, lib/lnodes.c | names as a list per directory; permission checks are failure points; requests the kernel never sends excluded by guards (`legal`, `mild`) |
| Attr | lib/namei.c, lib/inode.c, attribute side of lib/file.c, setattr of lib/fuseq.c | - |
| Space | lib/spmaps.c (block references), lib/claim.c, on-demand parts of lib/vstage.c, lib/stats.c | one address space per kind; counters unbounded |
| Spa | lib/spxmap.c | tree as ordered list (justified by C30) |
| Spmap | lib/spmaps.c, lib/super.c, lib/addr/vaddr.c (ranges and slots) | child reference leads to the child itself |
| Map | leaf part of lib/spmaps.c, use in lib/vstage.c | references kept decoded (C01) |
| Cow | lib/vstage.c, lib/ustage.c, lib/lcache.c (nodes by address), lib/spmaps.c (clone, bind, resolve), lib/super.c, lib/fsenv.c (fork), clone of lib/namei.c, lib/claim.c, guard of lib/flush.c | encryption is a tag; volume ids never repeat; bits per object; statistics, shared counts |
| File | lib/file.c | no O_SYNC, no snapshots (only the answer "immutable"), plain buffers, failures other than ENOENT below, histories end at a failed truncation to zero |
| Qalloc | lib/infra/qalloc.c | creation of memory files, fini, resolve; punch-hole succeeds |
| Avl | lib/infra/avl.c | a wrong single back pointer is not expressible |
| Cache | lib/hmdq/hmapq.c, lib/hmdq/dirtyq.c, lib/lcache.c, parts of lib/lnodes.c, lib/inode.c | object identity is a fresh number; no counter overflow |
| Dirty | lib/hmdq/dirtyq.c, lib/lnodes.c, lib/inode.c, lib/lcache.c, thresholds of lib/flush.c | - |
| Flush | lib/flush.c, lib/task.c, requests of lib/namei.c and lib/fuseq.c | walk order, sealing, encryption, refresh are parameters |
| Hdr | lib/addr/meta.c and the load path of lib/lnodes.c | checksum is a parameter |
| Walk | lib/walk.c; staging of map nodes in lib/ustage.c; segment files of lib/repo.c | open handles; file names are the ids; what decryption, verification and decoding make of node bytes is a parameter; stale pointers left by passed nodes |
| Pack | lib/pack.c, lib/inspect.c; objects, boot records and references of lib/repo.c, lib/boot.c; silofs_*_resolve_lmap of lib/spmaps.c, lib/super.c | digest and checksum are parameters; a boot record is what a decoder parameter makes of 1024 bytes; archive objects are named by type, size and digest |
| Delfs | lib/delfs.c; silofs_unref_fs of lib/execlib.c; silofs_stat_bootrec, silofs_unlink_bootrec of lib/boot.c | the super-block's roots and its mark as a base of snapshots are given with the volume; completeness is for the placement of map nodes in segments the program uses (parted) |
| Boot | encode, decode, verify, save and load of lib/boot.c; silofs_prange64b_* of lib/bstore.c; silofs_check_cipher_args, silofs_derive_ivkey of lib/crypt/cipher.c; silofs_fsenv_setup | digests, key derivation and key stream are parameters of which only sizes are assumed; the library does not fail |
| Mnt | lib/mntsvc.c but for setting up the server and the connections; equal_mntpath with silofs_strview_trim_chr; silofs_cmsg_unpack_fd of lib/infra/socket.c | a connection is the bytes and descriptors that arrive; no EINTR; mount options as a record; rules as parsed (Rules); the client up to its message |
| Rules | mntd/mntconf.c; of lib/str/strview.c and strchr.c what it uses (split, split_chr, strip_ws, sub, isequal) | a view is the list of its bytes; strtol as in C17; silofs_die is the end; realpath is given |
| Caddr | lib/addr/caddr.c (names, by-name); hash to and from names in lib/addr/meta.c; lib/str/ascii.c hex functions | snprintf and sscanf as in the C library, for the formats in use; texts up to 2^60 bytes in the theorems |
| Bref | cmd/bootref.c; silofs_make_fsnamestr and its checks in lib/boot.c; order of steps of cmd/snap.c | the repository directory is a map from names to files of one owner; system calls by events; the file system is the address of the record it is at |
| Idconf | cmd/idsconf.c; numbers in cmd/cmdutils.c:482-540; use by cmd/init.c and cmd/mkfs.c | the file is the bytes read; the databases are functions, with the size of each entry; getpwnam_r failing is the same as an unknown name |
| Lock | cmd/locks.c:22-191 and its use in cmd/mkfs.c, restore.c, mount.c, archive.c, fsck.c, rmfs.c, view.c; exit in cmd/signals.c:49-56 | the work under the lock is one step; boot-refs are not removed (rmfs); lock files are regular files; a signal during atexit ends the command; OFD locks of the repository and snapshots, which take no lock file, are not in it |
| Pipe | lib/infra/pipe.c:37-408, 497-505; in lib/fuseq.c: replies to reads 1259-1370, writes 2548-2756, requests 3456-3782, sizes 4434-4470, 4590-4690; size check in file.c:1316-1319 | outcomes of host calls are parameters; FUSE hands over a request whole; the header of a reply is written whole; no EINTR; slots of Linux pipes are a function of the addresses (one per page) |
| Oper | lib/opers.c (all but symval_to_str, op_probe_duration, silofs_fs_rdwr_post and the actor of readdirplus 741-766); in lib/fuseq.c: sanitize_err and headers 654-678, masks and do_setattr 1866-1875, 1909-1944, ioctls 2793-3023, command table 3124-3173, checks 3225-3346, fqd_exec_request 3441-3457, op_setattr 5013-5060, operation table 5300-5459 | staging, flushing and silofs_do_* are a parameter that may do anything to the state, fail and leave an inode in the loose-queue; op_count, op_time and the rwlock of fuseq are left out; a batch of forgets is one forget; checks of the arguments before a request gets to opers.c are left out |
| Pass | cmd/getpass.c:36-258 (all but prompts and the wiping of memory); lib/crypt/passwd.c:25-37 | to die is None; character classes of the C and UTF-8 locales; a regular file gives all that is asked for, a terminal at most a line, other descriptors what the outcome of the call says; no signals |
| Ltext | lib/addr/laddr.c:429-588; lib/addr/meta.c:121-139 | snprintf, sscanf (`%36s`, `%6s`, `%08x` with sign and 0x) and libuuid after their manuals; texts have no zero in them |
| Verify | load-time verifiers of directory and attribute nodes | - |

Not modelled: the command-line programs (cmd/, but for boot-ref files, lock files, fsids.conf and passwords), the start
(mntd/mountd.c), the FUSE transport apart from the functions named above
(rest of lib/fuseq.c), the bindings of the cryptographic library (rest of lib/crypt/),
the parts of lib/repo.c not named above,
the physical-store layer that is not in use yet (lib/bstore.c, lib/pnodes.c,
lib/pcache.c), logging, time and string utilities.

## 4. Assumptions reported by Coq

`Print Assumptions` answers "Closed under the global context" for every theorem
listed in `MANIFEST.json`; the files themselves print it after each theorem.  No
axiom, section-less variable or hypothesis is declared anywhere.

`coqchk` on the whole library also lists axioms of the standard library which are
in its loaded context because `Coq.ssr.ssrunder` is (through `Lia`/`ZArith`
tactic support); no theorem here depends on them:

* `Coq.ssr.ssrunder.Under_rel.Under_rel`
* `Coq.ssr.ssrunder.Under_rel.Under_rel_from_rel`
* `Coq.ssr.ssrunder.Under_rel.Under_relE`
* `Coq.ssr.ssrunder.Under_rel.Over_rel`
* `Coq.ssr.ssrunder.Under_rel.over_rel`
* `Coq.ssr.ssrunder.Under_rel.over_rel_done`
* `Coq.ssr.ssrunder.Under_rel.under_rel_done`
