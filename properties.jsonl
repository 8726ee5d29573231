{"id": "C01", "title": "Stored object references survive encode/decode", "statement": "A reference to any file-system object (its type and offset inside the virtual space) that is written in its compact on-disk form and later read back identifies exactly the same object; two different references never have the same on-disk form, and the 'no object' reference is never confused with a real one.", "quantifier": "every legal object type and offset, for every on-disk reference format (56-bit, 64-bit virtual addresses and physical-segment addresses)", "why_tests_cant": "the offset space has 2^48+ values and byte-packing mistakes show only for particular high bits", "anchors": ["lib/addr/vaddr.c: silofs_vaddr56_htox, silofs_vaddr56_xtoh, silofs_vaddr64_htox, silofs_vaddr64_xtoh", "lib/addr/laddr.c: silofs_laddr48b_htox, silofs_laddr48b_xtoh"]}
{"id": "C02", "title": "Distinct live objects never share storage bytes", "statement": "Two distinct allocated objects of one kind (inodes, directory nodes, data blocks, ...) with non-overlapping virtual ranges are stored in non-overlapping byte ranges of the repository's segment files, and each range lies wholly inside its segment.", "quantifier": "every pair of virtual addresses, every leaf mapping", "why_tests_cant": "overlap appears only for particular address pairs at block/leaf boundaries; the pair space is quadratic in 2^48", "anchors": ["lib/spmaps.c: silofs_sni_resolve_main, silofs_sli_resolve_child, spleaf_child_of, spleaf_main_uref_at", "lib/addr/vaddr.c", "lib/addr/laddr.c: silofs_laddr_isnext"]}
{"id": "C03", "title": "Binary-to-text encoding is lossless and safe", "statement": "Decoding the base64 text of any byte string gives back exactly that byte string and consumes the whole text; the encoder's text contains only alphabet characters and has the advertised length; the decoder, given arbitrary text, either rejects it or stays within both buffers and within its lookup table.", "quantifier": "every byte string and every (possibly hostile) input text", "why_tests_cant": "inputs are unbounded and the failure modes (tail padding, non-ASCII characters) are rare corner cases", "anchors": ["lib/infra/base64.c: silofs_base64_encode, silofs_base64_decode"]}
{"id": "C04", "title": "Hex text of identifiers is lossless", "statement": "Converting any byte string to hexadecimal text and back returns the same bytes; text containing a non-hex character is rejected rather than silently converted.", "quantifier": "every byte string, every text", "why_tests_cant": "unbounded input length; all 256 byte values in all positions", "anchors": ["lib/str/ascii.c: silofs_byte_to_ascii, silofs_ascii_to_byte, silofs_mem_to_ascii, silofs_ascii_to_mem"]}
{"id": "C05", "title": "User/group identities map one-to-one between host and file system", "statement": "With a one-to-one identity table, mapping a host user (or group) into the file system and back returns the same user; an unmapped user is refused unless host ids are allowed; two different host users are never presented to the file system as one user.", "quantifier": "every identity table and every pair of ids", "why_tests_cant": "tables and 32-bit id pairs cannot be enumerated; aliasing needs a particular coincidence of ids", "anchors": ["lib/idsmap.c: silofs_idsmap_map_uidgid, silofs_idsmap_rmap_uidgid, silofs_idsmap_populate_uids"]}
{"id": "C06", "title": "readlink returns the symlink target", "statement": "After symlink(target) succeeds, readlink returns exactly the target (cut to the caller's buffer); if the target could not be stored, symlink reports an error.", "quantifier": "every target of 1..4096 bytes, every buffer size, every outcome of the underlying space allocation", "why_tests_cant": "targets span a head and separately allocated parts; failure injection at each allocation is needed", "anchors": ["lib/symlink.c: silofs_bind_symval, silofs_do_readlink, sylc_do_symlink", "lib/namei.c: silofs_do_symlink"]}
{"id": "C07", "title": "Extended attributes behave as a name-to-value map", "statement": "After any sequence of setxattr (create, replace or either) and removexattr calls, getxattr returns the value of the last successful set of that exact name, or 'no data' if it was removed or never set; listxattr returns every present name exactly once; operations on one name never disturb another; create-only and replace-only flags are honoured.", "quantifier": "every finite history of xattr operations, all names and values up to the size limits, all node fill levels", "why_tests_cant": "entries are packed, compacted and spread over up to eight nodes; interactions depend on the whole history", "anchors": ["lib/xattr.c: silofs_do_setxattr, silofs_do_getxattr, silofs_do_removexattr, silofs_do_listxattr"]}
{"id": "C08", "title": "A replaced extended attribute stays replaced after the cache is dropped", "statement": "Once setxattr has replaced a value and the file system has been flushed, dropping all clean cached nodes and reading again returns the new value and lists the name once.", "quantifier": "every xattr history followed by flush and cache eviction", "why_tests_cant": "needs an eviction between a particular two-node replace and the read; tests keep nodes cached", "anchors": ["lib/xattr.c: xac_setxattr_replace, xai_dirtify", "lib/lcache.c: lcache_evict_vni"]}
{"id": "C09", "title": "A directory behaves as a map from names to inodes", "statement": "After any sequence of successful entry additions and removals in a directory, looking up a name finds the inode most recently added under exactly that name, and finds nothing if it was removed or never added; adding or removing one name never affects another; every addition that succeeded is findable even when names collide in hash.", "quantifier": "every history of additions and removals, every name set, every hash function/seed, tree depths up to the maximum", "why_tests_cant": "the hash tree only grows deep with many thousands of names and collisions; the history space is unbounded", "anchors": ["lib/dir.c: silofs_lookup_dentry, silofs_add_dentry, silofs_remove_dentry, dirc_add_to_tree, dirc_do_erase_dentry"]}
{"id": "C10", "title": "Packed directory names are never corrupted", "statement": "Inside one directory node, inserting or removing an entry leaves every other entry's name, inode number and type byte-for-byte intact, an insertion that reports room never overruns the name area, and removed space becomes usable again.", "quantifier": "every sequence of inserts/removes on a node, all name lengths 1..255", "why_tests_cant": "the two-ended packing and compaction has history-dependent layouts", "anchors": ["lib/dir.c: dtn_insert, dtn_remove, dtn_may_insert, dtn_search"]}
{"id": "C11", "title": "readdir lists every entry exactly once", "statement": "Reading a directory from the start to end-of-stream with no concurrent change returns '.', '..', and every entry exactly once, regardless of how the listing is split over calls.", "quantifier": "every directory content, every split of the listing in calls (buffer sizes)", "why_tests_cant": "requires deep hash trees and all resume positions", "anchors": ["lib/dir.c: silofs_do_readdir, dirc_iterate, dirc_stage_node_by_index, dirc_next_node"]}
{"id": "C12", "title": "readdir is stable under concurrent changes", "statement": "An entry that stays in the directory during the whole listing is reported exactly once, whatever other names are added or removed between the listing's calls.", "quantifier": "every interleaving of additions/removals with the listing calls", "why_tests_cant": "interleavings and resume offsets are unbounded", "anchors": ["lib/dir.c: dirc_emit, make_doffset, doff_to_dtn_index, dtn_resolve_insert_de, dtn_trim_nonactive_des"]}
{"id": "C13", "title": "Entry counts are exact and only empty directories can be removed", "statement": "A directory's recorded entry count always equals the number of entries that can be looked up, so rmdir succeeds only on a directory in which no name can be found and always gets past the emptiness check on such a directory; the directory reverts to its pristine form when it becomes empty.", "quantifier": "every history of additions and removals", "why_tests_cant": "count drift appears only over long histories", "anchors": ["lib/dir.c: silofs_dir_isempty, dirc_do_erase_dentry, dirc_erase_empty_tree, dir_inc_ndents, dir_dec_ndents", "lib/namei.c: check_rmdir_child"]}
{"id": "C14", "title": "Link counts equal the number of names", "statement": "After any sequence of successful create, mkdir, symlink, link, unlink, rmdir and rename operations, each non-directory's link count equals the number of names that refer to it, and each directory's link count equals one for its own name, one for itself and one per child directory.", "quantifier": "every finite history of namespace operations over any number of inodes", "why_tests_cant": "counts drift only over particular histories (hard links plus rename replacing/exchanging)", "anchors": ["lib/namei.c: do_rename_move, do_rename_replace, do_rename_exchange, silofs_do_link, silofs_do_unlink", "lib/dir.c: silofs_add_dentry, silofs_remove_dentry", "lib/dir.c: dirc_update_nlink, i_nlink_new"]}
{"id": "C15", "title": "rename never loses a file", "statement": "Whatever its outcome, rename leaves every file that was reachable before still reachable, except the target it explicitly replaced; on success the new name refers to the old file; on failure both names are as before; renaming a name onto another name of the same file (or itself) leaves the file reachable.", "quantifier": "every namespace state, every pair of names/directories/flags, every outcome of the internal space allocation", "why_tests_cant": "needs failure at each internal step and coincidences such as hard links of the same inode", "anchors": ["lib/namei.c: silofs_do_rename, rename_specific, rename_move, rename_replace, rename_exchange, rename_unlink"]}
{"id": "C16", "title": "Permission checks follow owner/group/other rules", "statement": "access and open succeed exactly when the class of the caller (owner, else group, else other) holds all requested permission bits, with the superuser allowed read/write always and execute when some execute bit is set.", "quantifier": "every mode, owner, group, caller and requested mask", "why_tests_cant": "the full product of modes, ids and masks is too large to enumerate and rule precedence bugs hide in overlaps", "anchors": ["lib/namei.c: do_access, silofs_do_access, silofs_do_open"]}
{"id": "C17", "title": "The space allocator never hands out space that is in use", "statement": "Any sequence of object creations, extra references and removals returns, at every creation, a range disjoint from every object still alive, of the right size and alignment and inside the volume.", "quantifier": "every history of claim, share and release operations, all object kinds", "why_tests_cant": "double allocation depends on the whole history and on bitmap/refcount interplay", "anchors": ["lib/claim.c: silofs_claim_vspace, silofs_reclaim_vspace, silofs_addref_vspace", "lib/spmaps.c: bkr_find_free, bkr_set_allocated, silofs_sli_mark_allocated_space, silofs_sli_unref_allocated_space"]}
{"id": "C18", "title": "A shared data block is released only by its last owner", "statement": "A data block referenced by several owners stays allocated, with its content protected from reuse, until each owner has released it; then, and only then, it becomes available again.", "quantifier": "every history of share/release on any set of blocks", "why_tests_cant": "the reference counts interact with the bitmaps over unbounded histories", "anchors": ["lib/spmaps.c: silofs_sli_reref_allocated_space, silofs_sli_unref_allocated_space, silofs_sli_is_last_allocated", "lib/claim.c: silofs_addref_vspace"]}
{"id": "C19", "title": "Freshly allocated file space never exposes old content", "statement": "Space newly given to a file reads as zeros until it is written, even if it previously belonged to another, deleted file.", "quantifier": "every history of allocation, writing, release and re-allocation", "why_tests_cant": "depends on recycling a block with old content through a particular path", "anchors": ["lib/spmaps.c: silofs_sli_mark_allocated_space, silofs_sli_clear_unwritten_at", "lib/file.c: filc_stage_fileaf_by, filc_update_pre_write_leaf_by, filc_copy_leaf_by, filc_unshare_leaf_by"]}
{"id": "C20", "title": "Used-space counters are exact", "statement": "At all times each space map's used-byte counter equals the number of bytes of the blocks marked in use in it, and releasing everything brings it to zero.", "quantifier": "every history of claim/share/release", "why_tests_cant": "drift is invisible until long histories", "anchors": ["lib/spmaps.c: silofs_sli_update_nused, spleaf_ref_allocated_at, spleaf_unref_allocated_at, spleaf_sum_nbytes_used"]}
{"id": "C21", "title": "The free-range cache never invents or duplicates space", "statement": "Ranges taken from the free-space cache are always sub-ranges of ranges previously given to it, no byte is handed out twice without having been given back, and nothing is handed out beyond what was given, whatever merging and trimming happened in between.", "quantifier": "every history of add/pop operations with any sizes", "why_tests_cant": "merging adjacent ranges depends on the full content", "anchors": ["lib/spxmap.c: spamap_add_vspace, spamap_pop_vspace, spamap_merge_vspace, spalifo_add_vspace, spalifo_pop_vspace"]}
{"id": "C22", "title": "Volume statistics agree with the live objects", "statement": "The object counter of each kind equals the number of live objects of that kind after any history; reported free space never exceeds capacity; block counters return to their earlier value when everything allocated since is released.", "quantifier": "every history of claims and releases", "why_tests_cant": "counter leaks require histories; the underflow needs a nearly full volume", "anchors": ["lib/stats.c: silofs_sti_update_objs, silofs_sti_fill_statvfs, silofs_sti_mayalloc_*", "lib/claim.c: reclaim path"]}
{"id": "C23", "title": "Snapshots are isolated", "statement": "After a snapshot (clone) is taken, no write, truncation, creation or deletion in the live file system changes any byte reachable through the snapshot, and vice versa for a branch later mounted from it; objects not modified since the snapshot read the same in both.", "quantifier": "every history before and after any number of snapshots", "why_tests_cant": "isolation must hold for all objects and all later histories", "anchors": ["lib/super.c: silofs_sbi_ismutable_laddr, silofs_sbi_clone_from", "lib/vstage.c: vstgc_clone_spleaf, vstgc_do_clone_spnode1, vstgc_clone_rebind_lbk, vstgc_clone_lbk_of"]}
{"id": "C24", "title": "File reads return the last written bytes", "statement": "After any sequence of write, truncate, fallocate (reserve, punch, zero) on a file, reading any range returns, for each byte, the last value written there and not since truncated, punched or zeroed, and zero where nothing was written; reads stop at the file size.", "quantifier": "every history of operations at any offsets up to the 64P limit", "why_tests_cant": "files are sparse multi-level trees; offset and history space is astronomically large", "anchors": ["lib/file.c: filc_read_iter, filc_write_iter, filc_truncate, filc_fallocate, filc_discard_data"]}
{"id": "C25", "title": "File offsets map to a unique place", "statement": "Every byte offset of a file below the maximum size belongs to exactly one leaf (1K head, 4K head or 64K tree leaf) and position in it, and two different offsets never share a place; walking the tree from the root by slot reaches that leaf within the height bound.", "quantifier": "every offset 0..2^56-ish and every tree height", "why_tests_cant": "slot arithmetic must be right for all offsets and levels", "anchors": ["lib/file.c: off_to_head1_slot, off_to_head2_slot, off_to_tree_height, ftn_slot_by_file_pos, ftn_span, flref_setup"]}
{"id": "C26", "title": "Truncation discards and zero-extends", "statement": "After truncate to a smaller size and back to a larger one, the bytes in between read as zeros, whatever they held before; bytes below the smaller size are unchanged.", "quantifier": "every content, every pair of sizes", "why_tests_cant": "partial-leaf zeroing at arbitrary offsets across leaf kinds", "anchors": ["lib/file.c: filc_truncate, filc_discard_partial_by, filc_zero_data_leaf_range"]}
{"id": "C27", "title": "copy_file_range copies like read-then-write", "statement": "copy_file_range makes the destination range equal to the source bytes present at the time of the call, changes nothing else in the destination, never changes the source, and later writes to either file are not visible in the other.", "quantifier": "every pair of files, ranges, sharing states and subsequent histories", "why_tests_cant": "block sharing and unsharing depends on alignment, prior sharing and unwritten state", "anchors": ["lib/file.c: filc_copy_range, filc_copy_leaf_by, filc_unshare_leaf_by, filc_share_leaf"]}
{"id": "C28", "title": "SEEK_DATA/SEEK_HOLE are truthful", "statement": "lseek(SEEK_DATA) never skips over a written byte and lands on allocated data; lseek(SEEK_HOLE) returns an offset that is a hole or end of file.", "quantifier": "every sparse layout and offset", "why_tests_cant": "layouts are unbounded trees", "anchors": ["lib/file.c: filc_lseek_data, filc_lseek_hole"]}
{"id": "C29", "title": "The memory pool never overlaps live allocations", "statement": "Any two allocations that are live at the same time occupy disjoint bytes inside the pool; freeing returns the bytes for re-use and the free list always describes exactly the unallocated pages.", "quantifier": "every history of malloc/free with any sizes", "why_tests_cant": "coalescing and slab recycling depend on the entire history", "anchors": ["lib/infra/qalloc.c: silofs_qalloc_malloc, silofs_qalloc_free, qpool_do_alloc_npgs, qpool_do_free_npgs, slab_alloc, slab_free_and_update"]}
{"id": "C30", "title": "The ordered index returns exactly what was inserted", "statement": "After any sequence of insertions, removals and replacements, a search in the balanced tree finds a key iff it was inserted and not removed since, iteration is in sorted order without duplicates, and the depth stays logarithmic in the number of keys.", "quantifier": "every history and key set", "why_tests_cant": "rebalancing has many cases reachable only by particular histories", "anchors": ["lib/infra/avl.c: silofs_avl_insert, silofs_avl_remove, silofs_avl_find, avl_insert_fixup, avl_delete_fixup"]}
{"id": "C31", "title": "The object cache never loses or duplicates an object", "statement": "At most one cached copy of any object exists; a lookup returns the copy stored for exactly that address; only copies that are clean and unreferenced are dropped to make room.", "quantifier": "every history of create, lookup, dirty, evict, forget", "why_tests_cant": "eviction choice and hash collisions depend on history", "anchors": ["lib/hmdq/hmapq.c: silofs_hmapq_store, silofs_hmapq_lookup, silofs_hmapq_promote", "lib/lcache.c: lcache_evict_or_relru_vni, lcache_forget_vni"]}
{"id": "C32", "title": "Dirty accounting is exact", "statement": "The amount of dirty data reported for an inode or for the file system, which decides when to flush, always equals the total size of the objects currently marked dirty, however often each was marked or cleaned.", "quantifier": "every history of mark/clean", "why_tests_cant": "double marking/cleaning sequences", "anchors": ["lib/hmdq/dirtyq.c: silofs_dqe_enqueue, silofs_dqe_dequeue, silofs_dirtyq_append, silofs_dirtyq_remove"]}
{"id": "C33", "title": "A successful sync writes every dirty object", "statement": "When fsync/syncfs reports success, each object that was dirty when it started has been written, with its current content, at its own address, exactly once, data before the metadata that references it and metadata before the space maps; nothing else is overwritten.", "quantifier": "every set of dirty objects and every grouping into vectored writes", "why_tests_cant": "batching boundaries and orders depend on address sets", "anchors": ["lib/flush.c: flusher_collect_flush_dirty, flusher_enqueue_dset, flusher_populate_sqe_refs", "lib/task.c: sqe_isappendable, silofs_sqe_append_ref, submitq_apply"]}
{"id": "C34", "title": "A failed sync keeps changes pending", "statement": "If flushing fails (out of memory, read-only target, write error), every object not safely written remains marked dirty, so that a later successful sync writes it.", "quantifier": "every failure point in a flush", "why_tests_cant": "needs a failure at each internal step", "anchors": ["lib/flush.c: flusher_process_dset_at, flusher_process_dsets, flusher_discard_txq", "lib/task.c: submitq_apply"]}
{"id": "C35", "title": "Damaged metadata is detected on load", "statement": "A metadata object that was sealed and stored verifies when read back; if its stored bytes differ so that the checksum differs, or it is of another type or size than expected, loading reports corruption instead of using it.", "quantifier": "every object content and every corruption of the stored bytes", "why_tests_cant": "corruption patterns are unbounded", "anchors": ["lib/addr/meta.c: silofs_hdr_seal, silofs_hdr_verify", "lib/lnodes.c: silofs_lni_verify_view, view_verify_by_hdr"]}
{"id": "C36", "title": "Inode attributes change only as permitted", "statement": "chmod is allowed only to the owner or superuser; chown only to the superuser, or to the owner changing the group to their own or keeping it; a write or ownership change by an unprivileged user clears set-user-id; no attribute other than those requested (and change time) is altered.", "quantifier": "every inode state, caller and request", "why_tests_cant": "the rule table spans all ids, modes and flag combinations", "anchors": ["lib/inode.c: silofs_do_chmod, silofs_do_chown, silofs_do_utimens, silofs_ii_update_iattrs, kill_suid_sgid"]}
{"id": "C37", "title": "Directory positions identify entries uniquely", "statement": "The stream position reported for a directory entry is different for different entries of the same directory, fits the range user space accepts, and resuming from it continues at the right node and slot.", "quantifier": "every node index and slot", "why_tests_cant": "2^24 nodes times 480 slots", "anchors": ["lib/dir.c: make_doffset, doff_to_dtn_index, doff_to_slot"]}
{"id": "C38", "title": "Directory tree positions are consistent", "statement": "Every node of a directory's hash tree has a unique index; its parent, child order and depth computed from the index agree with the way it was reached, so a stored node can always be found again from its index alone.", "quantifier": "all node indices up to the limit", "why_tests_cant": "2^24 indices, four levels", "anchors": ["lib/dir.c: dtn_index_to_parent, dtn_index_to_child_ord, child_dtn_index_of, dtn_index_depth"]}
{"id": "C39", "title": "Space maps find the right place for every address", "statement": "For every virtual offset the chain of space maps from the super block down covers it at each level, slots of sibling maps do not overlap, and the leaf reached is the unique one covering the offset.", "quantifier": "every offset in a 64T volume, every height", "why_tests_cant": "the slot/base arithmetic must hold for all 2^46 offsets", "anchors": ["lib/spmaps.c: spnode_slot_of, spleaf_slot_of, sni_base_voff_of_child"]}
{"id": "C40", "title": "Directory and attribute nodes read from disk are bounds-safe", "statement": "A directory or xattr node that passes load-time verification never causes later lookups to read outside the node.", "quantifier": "every byte content of a node", "why_tests_cant": "adversarial content space is unbounded", "anchors": ["lib/dir.c: silofs_verify_dtree_node, dtn_verify_des", "lib/xattr.c: silofs_verify_xattr_node, xe_verify_range"]}
{"id": "C41", "title": "Deleted-but-open files survive until last close", "statement": "A file whose last name is removed while it is open stays fully usable, and its storage is released exactly once, after the last open handle and kernel reference are gone.", "quantifier": "every interleaving of open, unlink, release and forget", "why_tests_cant": "interleavings unbounded", "anchors": ["lib/namei.c: silofs_do_unlink, silofs_do_release, silofs_do_forget, silofs_forget_loose_ii, try_prune_inode"]}
{"id": "C42", "title": "Writes are coalesced only when contiguous", "statement": "Merging several object writes into one vectored write never moves bytes: the merged write covers exactly the concatenation of its members' ranges in order, within one segment and within the size and count limits.", "quantifier": "every sequence of addresses", "why_tests_cant": "boundary conditions over all address sequences", "anchors": ["lib/task.c: sqe_isappendable, silofs_sqe_append_ref", "lib/addr/laddr.c: silofs_laddr_isnext"]}
{"id": "C43", "title": "Hole reporting and block counts match the allocation", "statement": "The number of 512-byte blocks reported for a file equals the space of the leaves (and index nodes) actually held by it after any history.", "quantifier": "every history of file operations", "why_tests_cant": "drift over histories", "anchors": ["lib/file.c: filc_update_iblocks, filc_claim_data_space, filc_del_data_space, filc_spawn_finode", "lib/inode.c: silofs_ii_update_iblocks"]}
{"id": "C44", "title": "Two objects are never encrypted with the same initialization vector", "statement": "Two different objects of one volume that are encrypted under the same per-block random seed never use the same initialization vector; for one object, a different seed gives a different vector.", "quantifier": "every pair of distinct object addresses in a volume, every seed", "why_tests_cant": "requires comparing all pairs of 2^64 addresses", "anchors": ["lib/addr/laddr.c: silofs_laddr_as_iv", "lib/encdec.c: resolve_ivkey_of", "lib/crypt/ivkey.c: silofs_iv_xor_with2"]}
{"id": "C45", "title": "No operation leaves an inode that its own loader rejects for its link count", "statement": "The verifier that runs when an inode is read back from disk rejects link counts above 32767. No sequence of namespace operations brings an inode's link count above that limit, so no file or directory becomes unreadable by being linked, filled or moved into.", "quantifier": "every finite history of namespace operations, for every inode", "why_tests_cant": "needs tens of thousands of entries and the one operation order that skips the check", "anchors": ["lib/namei.c: check_nomlink, check_link, do_mkdir, do_rename_move, check_rename_exchange", "lib/inode.c: verify_inode_head"]}
{"id": "C46", "title": "A name in a directory is added or removed only by those who may change the directory", "statement": "unlink, rmdir and rename succeed only for a caller holding write and search permission on every directory whose entries change; in a sticky directory only the owner of the entry, the owner of the directory or the superuser may remove or replace an entry; a caller who has these rights is not refused.", "quantifier": "every mode, owner, group and caller, for every pair of directories and entries", "why_tests_cant": "the rule involves up to four inodes and two sets of credentials; a check applied to the wrong one of them is right on almost every tested combination", "anchors": ["lib/namei.c: check_dir_waccess, check_sticky, check_prepare_unlink, check_prepare_rmdir, check_rename"]}
{"id": "C47", "title": "A setattr request does all it was asked for or nothing", "statement": "A setattr request that succeeds has set every attribute it named to the value asked for (mode, owner, group, size, times) and no other but the change time; a request that fails has changed nothing.", "quantifier": "every combination of attributes in one request, every caller and prior state", "why_tests_cant": "requests with several attributes at once are rare from the shell, and each single-attribute request behaves well", "anchors": ["lib/fuseq.c: op_setattr, do_setattr, utimens_of", "lib/inode.c: do_chmod, do_chown, do_utimens", "lib/file.c: filc_truncate"]}
{"id": "C48", "title": "A new file belongs to its creator and starts with the attributes asked for", "statement": "A newly created inode has the caller's user id, the caller's group id (or, inside a set-group-id directory, that directory's group), exactly the requested permission bits less the umask, the requested type, all times equal to now, and a new directory inherits set-group-id.", "quantifier": "every caller, umask, mode and parent", "why_tests_cant": "tests run as one user with one umask", "anchors": ["lib/inode.c: silofs_ii_setup_by, inode_setup_common", "lib/dir.c: silofs_setup_dir", "lib/namei.c: spawn_dir_inode, spawn_reg_inode"]}
{"id": "C49", "title": "An archive restored is the file system that was archived", "statement": "When archiving a complete file system reports success, restoring from the archive it left (into any repository that was given those archive objects) reproduces every byte of every live address, the same boot record and the same set of live addresses; archiving changes nothing but the archive store; archiving and restoring fail only if some step below fails or the index would be too large; an archive run, failed or not, leaves an intact store intact.", "quantifier": "every file system, every prior content of the archive store and of the target repository, every choice of failing I/O, memory and lookup steps in both runs", "why_tests_cant": "a test archives a few small trees into an empty store; an interrupted run, an object left from before, a hole in the maps or one missing segment needs quantification over states and failures", "anchors": ["lib/pack.c: silofs_fs_pack, silofs_fs_unpack, pac_send_pack, pindex_encode, pindex_decode", "lib/inspect.c: silofs_walk_inspect_fs", "lib/walk.c: silofs_walk_space_tree", "lib/spmaps.c: silofs_sli_resolve_lmap"]}
{"id": "C50", "title": "A damaged archive is found out before anything is written", "statement": "A restore whose index object does not have the digest and size in its name fails and writes nothing; a block whose object does not match its digest is reported; no index makes the restore read out of bounds.", "quantifier": "every content of the archive store, every index name, every choice of failing steps", "why_tests_cant": "the space of damaged or crafted archives is unbounded, and a missing check is not seen with intact ones", "anchors": ["lib/pack.c: pindex_decode, piview_decode_hdr, pac_import_pindex, pac_import_segdata, pac_recv_pack"]}
{"id": "C51", "title": "A restore leaves the rest of the repository alone", "statement": "Whatever the index says and whatever fails, a restore changes no archive object, no byte of a segment which no address of the index covers, and no boot record but one stored under its own digest; a file system whose segments the index does not name keeps every byte.", "quantifier": "every repository, every index, every choice of failing steps", "why_tests_cant": "tests restore into an empty repository without failures", "anchors": ["lib/pack.c: pac_import_fs, pac_save_seg, pac_import_bootrec", "lib/repo.c: silofs_repo_require_laddr, silofs_repo_writev_at"]}
{"id": "C52", "title": "Removing a file system takes all of it and nothing else", "statement": "Removing a file system which reports success has removed every segment of its volume that it names (super-block, map nodes of every height, data blocks) and its boot record; whatever fails on the way, no segment of another volume loses a byte, so every other file system (its base, or another clone of the same base) stays what it was; and the base of a snapshot is refused without a write.", "quantifier": "every repository, every shape of the map tree with the placement of nodes the program uses, every choice of failing steps", "why_tests_cant": "tests remove small file systems without failures, and do not look at what other file systems share with them", "anchors": ["lib/delfs.c: silofs_walk_unref_fs, delfc_try_remove_lseg_of", "lib/execlib.c: silofs_unref_fs, check_superblock", "lib/walk.c: silofs_walk_space_tree", "lib/boot.c: silofs_unlink_bootrec"]}
{"id": "C53", "title": "A boot record reads back as it was saved, and nothing else passes for it", "statement": "A boot record that was saved loads under its name and password as exactly the same record (super-block address, main key and IV, UUID, cipher, object range); on any later state of the repository, however damaged and whatever fails, a load of that name gives this record or an error; what loads names a super-block and a supported cipher and agrees with both of its digests; a save that breaks off at any point damages no record already there; a wrong password is reported as such; and records of file systems under one password keep their main keys apart.", "quantifier": "every record, password, repository and choice of failing steps; every digest and key stream of the right size", "why_tests_cant": "tests store and load a few records without damage, and never compare two stored records", "anchors": ["lib/boot.c: silofs_save_bootrec, silofs_load_bootrec, bootrec_encode, bootrec_decode, bootrec1k_verify", "lib/crypt/cipher.c: silofs_derive_boot_ivkey, silofs_encrypt_buf, silofs_check_cipher_args", "lib/fsenv.c: silofs_fsenv_setup"]}
{"id": "C54", "title": "The mount daemon mounts only what its rules let the asking user mount", "statement": "Whatever bytes and descriptors a peer sends to the mount daemon, it mounts only what the message asks for, at most once, with the user and group of the peer, no flags but the five supported ones, a read size within bounds, and only on a directory that belongs to the peer, is named canonically, is no mount already, lies on one of the known file systems, and whose first rule is for the peer or for all; the peer gets the descriptor just when the mount was made; what the rules allow is mounted; what a client sends is what is carried out, or nothing; no descriptor is left open and no peer can stop the daemon.", "quantifier": "every byte string and set of descriptors, every peer, every set of rules, every answer of the system at every call, also when it changes between the calls", "why_tests_cant": "a test runs requests of the program's own client with permission to mount; crafted messages, cut-off messages and changes between the checks and the mount are not tried, and the space of messages is unbounded", "anchors": ["lib/mntsvc.c: mntmsg_check, do_recvmsg, mntmsg_recv2, mntsvc_check_mount, mntsvc_check_mount_mntrule, check_mount_path, check_mntpoint, do_mount_fuse_fs, mntsvc_serve_request, close_fd", "lib/infra/socket.c: silofs_cmsg_unpack_fd", "mntd/mountd.conf.in"]}
{"id": "C55", "title": "The mount daemon unmounts only what the asking user may unmount", "statement": "Whatever a peer sends, the mount daemon unmounts only what the message asks for, with no flags but force and detach, only the root of a mounted file system, and only if the rule for that very directory is for the peer or for all; what the rules allow is unmounted, and the peer is told how it ended.", "quantifier": "every byte string, every peer, every set of rules, every answer of the system at every call", "why_tests_cant": "the tests unmount only their own live mounts; whether another user can do so depends on rules, links and the state of the mount in all combinations", "anchors": ["lib/mntsvc.c: mntsvc_check_umount, check_umount_path, mntsvc_check_umount_mntrule, equal_mntpath, mntsvc_exec_umount", "lib/str/strview.c: silofs_strview_trim_chr", "mntd/mountd.conf.in"]}
{"id": "C56", "title": "The rules of the mount daemon are those its file says", "statement": "The daemon starts with exactly the rules of its file: each line with words before its comment gives one rule, in order; 'path' is a rule for all users and 'path uid=UID' one for the user with that decimal number only; a file that does not have this form is refused. So a directory is mounted on only if a line of the file allows it for the asking user.", "quantifier": "every file contents up to 1 MiB, every answer of realpath, every request and answer of the system", "why_tests_cant": "the tests use one line with one path; what a line with other spacing, comments, numbers, keys or characters is taken for can only be sampled", "anchors": ["mntd/mntconf.c: mountd_parse_mntrules, mntc_parse_rules, mntc_parse_line, mntc_parse_rule_args, mntc_parse_long, mntc_parse_uid", "lib/str/strview.c: silofs_strview_split, silofs_strview_split_chr, silofs_strview_strip_ws", "mntd/mountd.conf.in"]}
{"id": "C57", "title": "A content address and its name stand for each other", "statement": "The name of a content address (boot record, archive index, object) determines it: two addresses never have the same name, the name a program prints - as an argument, in a boot-ref file with its newline - reads back as the same address whatever white space is around it, and a text that is not the name of an address is refused.", "quantifier": "every digest, size and type; every byte string as text", "why_tests_cant": "the unit tests read back a few printed names; 2^256 digests and texts of any form cannot be enumerated, and a clash or a wrongly accepted text leads a command to another record", "anchors": ["lib/addr/caddr.c: silofs_caddr_to_name, silofs_caddr_by_name, caddr_to_str, caddr_from_str", "lib/addr/meta.c: silofs_hash256_to_name, silofs_hash256_by_name", "lib/str/ascii.c: silofs_mem_to_ascii, silofs_ascii_to_mem"]}
{"id": "C58", "title": "A name in the repository leads to a saved record, at every moment", "statement": "Saving a boot-ref replaces it as a whole: a save that succeeds leaves a file that loads as the saved address; one that fails or is killed at any point leaves the old address or the new one, also for a load meanwhile; it can be repeated; no other file system, snapshot or archive name is touched, and only safe names are accepted. A snapshot gives its name to the snapshot before that of the file system moves on, and the name of the file system leads to the record it is at.", "quantifier": "every name, address and directory; every call failing or the process killed at every point; a load at any two moments of a save", "why_tests_cant": "the tests run the commands to their end on a healthy disk; no test kills them between two system calls or fails one of them", "anchors": ["cmd/bootref.c: cmd_load_bref_file, cmd_save_bref_file, cmd_bootref_load, cmd_bootref_save, cmd_bootref_resave", "lib/boot.c: silofs_make_fsnamestr, check_ascii_fs_name", "cmd/snap.c: cmd_execute_snap, cmd_snap_save_bref, cmd_snap_fs_online"]}
{"id": "C59", "title": "fsids.conf gives every user their own id, as it says", "statement": "Commands take the users and groups from fsids.conf exactly as it says: each 'name = id' line of a section is one entry, in order, comments and space aside, and any other text is refused. The file that init wrote can be read by every later command and maps each of its users and groups to their own id. Saving a map and loading it gives the same map. The file means the same for users and for groups, and two users of the host are never given one id of the file system.", "quantifier": "every text of the file, every database of users and groups, every user init is run for, every map that is saved", "why_tests_cant": "the tests use the file that init writes for the one user who runs them, where host and file system ids are equal", "anchors": ["cmd/idsconf.c: fs_ids_parse, cmd_parse_user_conf, cmd_parse_group_conf, fs_ids_unparse, cmd_fs_ids_load, cmd_fs_ids_save, cmd_sysconf", "cmd/cmdutils.c: cmd_parse_str_as_uid", "cmd/init.c: cmd_init_setup_fs_ids"]}
{"id": "C60", "title": "Lock files keep commands on one file system apart", "statement": "While a command works on a file system no other command does: at most one has its lock. A command that ends gives the lock back, also after an error or a signal, and never that of another one. A command is refused only while another one has the lock. Mkfs and restore never replace a file system that exists. The lock file names the process that has the lock.", "quantifier": "any number of commands at once in one repository, every interleaving of their calls, every call failing, kills and signals at every point", "why_tests_cant": "the tests run one command after the other; what matters is every order in which the calls of several commands can mix, and the points at which one can be ended", "anchors": ["cmd/locks.c: cmd_lock_fs, cmd_unlock_fs, cmd_lockfile_wait_noent, cmd_lockfile_mktemp, cmd_lockfile_mklock, cmd_lockfile_unlinkall", "cmd/restore.c: cmd_restore_acquire_lockfile, cmd_restore_release_lockfile", "cmd/mkfs.c: cmd_mkfs_prepare, cmd_mkfs_acquire_lockfile", "cmd/signals.c: sigaction_term_handler"]}
{"id": "C61", "title": "Large reads and writes go through the pipe unchanged", "statement": "Large reads and writes go through a pipe of the kernel unchanged. A write that is acknowledged has put the data of its request, all of it and in order, where the file system said. A reply to a read that the kernel takes holds exactly the data. No byte of a request or reply gets into another one, also after errors. After a request failed the next ones are served. Reads and writes of every size that was agreed on are answered.", "quantifier": "every history of calls on the pipe with every outcome (errors, lost bytes, short counts), every request, every list of buffers, every pipe limit of the host", "why_tests_cant": "what the kernel moves per call depends on load, on the host's limits and on interrupted callers; tests see full counts and no errors on one host", "anchors": ["lib/infra/pipe.c: calc_pipe_size_of, silofs_pipe_splice_to_fd, silofs_pipe_vmsplice_to_iov, silofs_pipe_vmsplice_from_iov, silofs_pipe_copy_to_buf, silofs_pipe_dispose", "lib/fuseq.c: fqd_recv_request, fqd_copy_pipe_in, fq_wri_actor, fq_wri_copy_iov, fq_rdi_reply_read_iov, fuseq_resolve_bufsize, fuseq_calc_max_write"]}
{"id": "C62", "title": "Who is served by a mounted file system, as whom, and what an answer means", "statement": "Without allow-other nobody but the owner, the kernel and, with allow-admin, root gets at a mounted file system: any other request changes nothing and tells nothing. Each request works as the file-system user and group that the map gives for its caller, and owners in answers are users of the host. Whatever happens in a request, the lock of the file system is held during its work and given back. A request that is answered with an error changed nothing, and one answered with success did all that it was asked for. Every error answered is one that the host knows. Before the connection is set up no request is served.", "quantifier": "every request of every caller, every map of ids, every mount mode, every behaviour and every failure of the functions below", "why_tests_cant": "tests run as one user in one namespace with no failures below; leave, ids and lock have to hold on each of the ways out of each request, most of which need a failure at a certain point", "anchors": ["lib/opers.c: op_authorize, op_map_creds, op_rmap_stat, op_start, op_finish, op_unlooseq, silofs_fs_unlink, silofs_fs_chown, silofs_fs_maintain, silofs_remap_status_code", "lib/fuseq.c: fqd_check_opcode, fqd_check_perm, fqd_exec_request, op_setattr, exec_op, sanitize_err"]}
{"id": "C63", "title": "The password a command works with is the one it was given", "statement": "A command works with exactly the password that its user gave it, without the blanks around it, however it is given: typed, in a file, through a pipe or as an option. A text that is no password, or only a part of one, is never worked with. A password asked for twice is taken only if both are the same. A terminal echoes afterwards as it did before, and nothing of the password stays behind in it.", "quantifier": "every text, every kind of input, every outcome of every call", "why_tests_cant": "tests give passwords as options; how much one read of a pipe gives depends on timing, and the space of texts is not bounded", "anchors": ["cmd/getpass.c: parse_dup_password, check_password_char, read_password_buf_from_fd, read_password_from_file, read_password_from_tty, getpass_from, do_getpass", "cmd/mkfs.c: cmd_mkfs_getpass", "lib/crypt/passwd.c: silofs_password_setup"]}
{"id": "C64", "title": "The address that silofs-view prints names the object", "statement": "The line that silofs-view prints for an object is the text of its address: objects with different addresses have different lines, and the text of a valid address is read back as exactly this address. Text that is not that of an address is refused.", "quantifier": "every address, every text, whatever follows it on the line", "why_tests_cant": "no test prints addresses or reads them back; fields of 32 bits and sixteen free bytes cannot be enumerated, nor can damaged texts", "anchors": ["lib/addr/laddr.c: silofs_laddr_to_ascii, silofs_laddr_from_ascii, laddr_to_repr, laddr_from_repr, laddr_repr_to_str, laddr_repr_from_str, laddr_repr_meta_to_str, laddr_repr_meta_from_str", "lib/addr/meta.c: silofs_uuid_unparse, silofs_uuid_parse", "cmd/view.c: cmd_view_show_laddr"]}
