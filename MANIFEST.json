{
 "claims": [
  {
   "property": "C01",
   "status": "partial",
   "theorems": [
    "C01_vaddr56",
    "C01_vaddr64",
    "C01_laddr48b",
    "C01_laddr48b_null",
    "C01_uaddr64b",
    "C01_paddr48b",
    "C01_len_height",
    "C01_laddr48b_null_pos_refuted"
   ],
   "note": "round trips proved for every legal reference; a reference with a real segment id and null position is not preserved (finding)"
  },
  {
   "property": "C02",
   "status": "proved",
   "theorems": [
    "C02_disjoint_storage",
    "C02_resolves"
   ],
   "note": "over all histories of spawn/clone/rebind"
  },
  {
   "property": "C03",
   "status": "partial",
   "theorems": [
    "C03_roundtrip",
    "C03_injective",
    "C03_hostile_ascii",
    "C03_hostile_text_refuted"
   ],
   "note": "safety proved for every ASCII text; refuted for text with bytes >= 0x80 (negative table index)"
  },
  {
   "property": "C04",
   "status": "partial",
   "theorems": [
    "C04_roundtrip",
    "C04_bounded",
    "C04_rejects",
    "C04_uint64",
    "C04_rejects_all_refuted"
   ],
   "note": "a lone last character is ignored unread (finding); everything else proved"
  },
  {
   "property": "C05",
   "status": "partial",
   "theorems": [
    "C05_roundtrip",
    "C05_unmapped_refused",
    "C05_no_aliasing",
    "C05_no_aliasing_hostids_refuted"
   ],
   "note": "aliasing is possible when host ids are allowed (finding); proved otherwise"
  },
  {
   "property": "C06",
   "status": "partial",
   "theorems": [
    "C06_readlink_partial",
    "C06_short_targets",
    "C06_bad_targets",
    "C06_error_reported_refuted",
    "C06_failed_symlink_leaks_refuted"
   ],
   "note": "exact target proved for every history when no value-node allocation fails; refuted otherwise (symlink reports success and stores an empty target)"
  },
  {
   "property": "C07",
   "status": "proved",
   "theorems": [
    "C07_xattr_map",
    "C07_map_determined",
    "C07_nospc_only_when_full"
   ],
   "note": "every history of setxattr/removexattr/flush with arbitrary node-allocation failures; listing and reading show exactly the map"
  },
  {
   "property": "C08",
   "status": "partial",
   "theorems": [
    "C08_persist_partial",
    "C08_one_node",
    "C08_replace_persists_refuted"
   ],
   "note": "replacing a value into another node leaves the old node clean, so the old value comes back after write-back and eviction (finding); proved when no replacement crosses nodes, in particular when everything fits in one node"
  },
  {
   "property": "C09",
   "status": "partial",
   "theorems": [
    "C09_lookup_partial",
    "C09_lookup_shallow",
    "C09_results_partial",
    "C09_add_succeeds",
    "C09_absent_lookup_refuted"
   ],
   "note": "For every hash function and every history of additions and removals, lookup answers exactly what the map of successful operations says, additions and removals answer accordingly, and refused operations change nothing. The one exception is real and proved reachable: once a node at depth 4 exists, looking up an absent name whose path passes it aborts the process (hash_to_child_ord called with depth 5)."
  },
  {
   "property": "C10",
   "status": "proved",
   "theorems": [
    "C10_node_table",
    "C10_search_exact",
    "C10_space_reusable"
   ],
   "note": "Byte-level model of one directory tree node (entries, packed names, punch/fixup/trim). For all insert/remove histories the bytes show exactly the specified slot table."
  },
  {
   "property": "C11",
   "status": "partial",
   "theorems": [
    "C11_complete_shallow",
    "C11_sound_partial",
    "C11_deep_refuted"
   ],
   "note": "For every reachable directory without a node at depth 4 and every sequence of buffer sizes of at least 512 bytes, the calls return \".\", \"..\", and each entry exactly once, and finish. The model covers the scan of nodes and the reply buffer which holds back one entry. Entries in nodes at depth 4 are never listed (C11_deep_refuted). The readdirplus variant assumes that staging each child inode succeeds."
  },
  {
   "property": "C12",
   "status": "partial",
   "theorems": [
    "C12_exactly_once",
    "C12_progress"
   ],
   "note": "For every interleaving of additions and removals between the calls, an entry present at the start and not removed is returned exactly once. Restricted to directories without a node at depth 4 when the listing starts, for the reason given by C11_deep_refuted."
  },
  {
   "property": "C13",
   "status": "proved",
   "theorems": [
    "C13_count",
    "C13_isempty",
    "C13_pristine"
   ],
   "note": "The count kept in the inode is the number of names present in every reachable state, the emptiness test holds exactly when no name is present, and an emptied directory has no node, no root and a zero last index. Models lib/dir.c; the two checks rmdir makes besides emptiness are in C14/C15."
  },
  {
   "property": "C14",
   "status": "partial",
   "theorems": [
    "link_counts_exact",
    "names_lead_somewhere",
    "link_counts_after_failed_rename_refuted"
   ],
   "note": "Proved after every history of create, mknod, symlink, mkdir, link, unlink, rmdir, rename, open, release and forget, successful or failing at any internal point, except renames of a directory that fail half-way. Refuted for those: a directory rename that fails after its old entry was removed leaves a directory of link count 1 without a name, and a later operation on its children leaves counts that match no names. Requests the kernel never sends (renaming between two names of one inode, linking into a removed directory) are excluded."
  },
  {
   "property": "C15",
   "status": "partial",
   "theorems": [
    "rename_success",
    "rename_keeps_reachable",
    "rename_refusal_changes_nothing",
    "rename_between_links_keeps_file",
    "rename_failure_keeps_file_refuted",
    "rename_failure_keeps_target_refuted",
    "rename_onto_itself_refuted"
   ],
   "note": "On success the names are exactly as specified and everything reachable stays reachable but the replaced target; refused requests change nothing. Refuted: when the new entry cannot be added (no space) after the old one was removed, the file has lost its name; with a replaced target, the target is lost as well; renaming a name onto itself removes the file (only the kernel's own check keeps this from happening)."
  },
  {
   "property": "C16",
   "status": "partial",
   "theorems": [
    "access_exact",
    "access_unknown_bits_refused",
    "open_only_with_rights",
    "open_granted",
    "opendir_exact",
    "append_reader_granted_refuted"
   ],
   "note": "access is granted exactly by the owner/group/other rule for every mode, owner and caller; open never succeeds without the rights it asks for and succeeds with them. Refuted in one case: opening read-only with O_APPEND demands write permission. Only the caller's primary group is known to the code (supplementary groups are not passed by the kernel interface)."
  },
  {
   "property": "C17",
   "status": "proved",
   "theorems": [
    "claim_gives_free_space",
    "live_objects_apart",
    "no_ub_with_memory"
   ],
   "note": "For every history of claims, shares, releases, written-marks, cache drops, leaf reloads, remounts and snapshots, with any outcome of each allocation or I/O: a claim returns an aligned range inside the address space disjoint from every live object of its kind (each kind has its own address space). Histories end at the undefined behaviour of C21, which needs a failing memory allocation."
  },
  {
   "property": "C18",
   "status": "proved",
   "theorems": [
    "allocated_iff_owned",
    "owner_count_exact",
    "release_keeps_shared",
    "last_release_frees"
   ],
   "note": "A place is marked allocated exactly while some owner holds it; the block reference count is the number of owners; the last release frees it and the next claim gets it (while the 63-entry stack of recently freed places has room)."
  },
  {
   "property": "C19",
   "status": "partial",
   "theorems": [
    "unwritten_until_written",
    "fresh_is_unwritten",
    "unwritten_reads_zero",
    "failed_punch_shows_old_bytes_refuted",
    "copy_of_unwritten_shows_old_bytes_refuted",
    "unshare_of_unwritten_shows_old_bytes_refuted"
   ],
   "note": "The allocator: data space reports unwritten exactly from its claim until it is first written, whatever happened to the place before. The files: after every sequence of reads, writes, truncations, reservations, punches, zeroings and seeks, with any failures below, a byte not covered by a write or by a failed call reads as zero, whatever the claimed space held. Refuted for failed calls: punching reserved space clears its mark of being unwritten before the space is given back, so a failure in between exposes old bytes. Refuted for copies: copying a reserved range, or writing to a leaf shared by such a copy, exposes old bytes."
  },
  {
   "property": "C20",
   "status": "proved",
   "theorems": [
    "used_bytes_exact",
    "used_bytes_zero"
   ],
   "note": "The counter equals the object size times the number of live objects in the leaf and the marked bytes; zero when nothing is owned."
  },
  {
   "property": "C21",
   "status": "partial",
   "theorems": [
    "C21_backed",
    "C21_nothing_lost",
    "C21_defined",
    "C21_out_of_memory_refuted"
   ],
   "note": "Proved for every history of stores, pops and clears of the free-range cache: what is handed out was given and not handed out before, nothing is lost while memory lasts, and no step is undefined while memory lasts. Refuted when memory runs out: spamap_insert_vspace frees the last entry while it is still linked in the tree (use after free)."
  },
  {
   "property": "C22",
   "status": "partial",
   "theorems": [
    "object_counters_exact",
    "gauge_round_trip",
    "free_space_when_within",
    "free_within_capacity_refuted",
    "block_counters_return_refuted"
   ],
   "note": "Object counters equal the number of live objects after every history. Refuted: reported free space can exceed capacity (snapshots are not charged against capacity and the unsigned subtraction wraps); block counters never go down after a release."
  },
  {
   "property": "C23",
   "status": "partial",
   "theorems": [
    "C23_answers_follow_the_tables",
    "C23_both_sides_independent",
    "C23_snapshot_keeps_everything",
    "C23_writes_own_volume_only",
    "C23_change_in_memory_keeps_the_rest",
    "C23_change_in_place_refuted",
    "C23_failed_snapshot_refuted",
    "C23_failed_map_copy_refuted",
    "C23_lost_address_refuted",
    "C23_failed_block_copy_refuted"
   ],
   "note": "For every history of any number of file systems over one repository (reads, writes, creations, removals, flushes, evictions, unmounts, snapshots, with any choice of failing calls that are cleaned up after): every answer is the one given by one table of objects per file system, a snapshot being a copy of the table, and when no call below fails every operation on what is known to be there succeeds; so each side depends on its own operations only. From any state and with any failures an operation writes only to its own volume and super block. The isolation of the snapshot is proved in full; what is refuted is on the live side: a change in place of a 64K block that is not in memory loses the rest of the block after a snapshot, and four failures that are not cleaned up lose writes, lose objects until the next mount, return old bytes, or leave an object that cannot be written out."
  },
  {
   "property": "C24",
   "status": "partial",
   "theorems": [
    "read_returns_last_written",
    "file_calls_never_abort",
    "failed_punch_shows_old_bytes_refuted",
    "retried_truncate_aborts_refuted",
    "empty_write_grows_refuted"
   ],
   "note": "For all sequences of calls on any number of files at all offsets, with arbitrary failures below (other than ENOENT) and arbitrary old bytes in claimed space: each byte read is the last one written and not since truncated, punched or zeroed, else zero, reads end at the size, and no call aborts. Bytes inside the range of a failed call are left open, and a sequence may not continue after a failed truncation to zero. Refuted for these cases: a failed punch exposes old bytes, and a retried truncation aborts; also a write of no bytes beyond the end makes the file longer. Concurrent calls and the mapping of a file's leaves to snapshots are not modelled here."
  },
  {
   "property": "C25",
   "status": "partial",
   "theorems": [
    "offset_place_unique",
    "height_covers_offset",
    "copy_past_max_aborts_refuted"
   ],
   "note": "In every world reached by a sequence of calls: each offset's leaf has the length expected for that offset, no two offsets or files share a place, all offsets of a leaf find the same leaf, tree leaves are reached by at most 3 steps from the root along slots, and the height chosen for an offset below 2^56 is at most 5. Refuted for larger offsets: a copy is the one call which lets the destination pass the largest file size, and it aborts."
  },
  {
   "property": "C26",
   "status": "proved",
   "theorems": [
    "truncate_and_back"
   ],
   "note": "Stated by two reads around two truncations at the end of an arbitrary sequence of calls, which may include failed ones."
  },
  {
   "property": "C27",
   "status": "partial",
   "theorems": [
    "copy_like_read_write_partial",
    "copy_result_partial",
    "copy_of_unwritten_shows_old_bytes_refuted",
    "unshare_of_unwritten_shows_old_bytes_refuted",
    "copy_past_end_zeroes_more_refuted",
    "copy_from_empty_refuted",
    "copy_into_shared_changes_other_refuted",
    "copy_past_max_aborts_refuted",
    "failed_copy_leaves_bytes_refuted"
   ],
   "note": "For all sequences of calls and copies in which each copy finds its source range inside the file with no reserved and unwritten leaf, and its destination range with no shared leaf (source leaves may be shared): each byte is what reading and writing would have left, no call aborts, and the source and all other files stay as they were. All these conditions are needed: the refuted theorems show stale bytes copied from reserved space, zeroed bytes behind the copied count, bytes copied from an empty file, a third file changed through a shared leaf, an abort beyond the largest file size, and bytes left behind the end by a failed copy."
  },
  {
   "property": "C28",
   "status": "proved",
   "theorems": [
    "seek_data_truthful",
    "seek_hole_truthful",
    "seek_data_enxio",
    "seek_hole_misses_hole_refuted"
   ],
   "note": "As stated, for all sequences of calls; a written zero byte counts as skipped data only if its leaf is missing, which the theorem excludes by showing that everything passed has no leaf and no nonzero byte written. SEEK_HOLE may still answer the end of the file from inside a hole (the refuted theorem), which the property allows."
  },
  {
   "property": "C29",
   "status": "proved",
   "theorems": [
    "C29_history",
    "C29_room",
    "C29_reuse",
    "C29_double_free_breaks",
    "C29_wrong_free_refuted",
    "C29_logged_double_free_refuted"
   ],
   "note": "For every size of the pool, both error modes, and every history of malloc, free and writes to live bytes: no call fails an assertion, and live allocations are apart, aligned and keep their bytes; the free list is exactly the pages without a live byte, each run once and merged; an allocation succeeds exactly when there is room. The refuted theorems are beyond the property: a release of what is not live is not always found, and then breaks the list of the slab (or, when errors are only logged, of the free runs). Calls are taken one at a time."
  },
  {
   "property": "C30",
   "status": "partial",
   "theorems": [
    "C30_contents",
    "C30_order",
    "C30_bounds",
    "C30_depth",
    "C30_vaddr_order_refuted"
   ],
   "note": "Proved for every history of insert, insert-unique, insert-replace and remove: the walk visits exactly the live nodes, in order when the comparison is a total preorder, find and the bounds are exact, depth is at most 2*log2(n+1). Finding: the comparison of virtual addresses used by the dirty-set index subtracts unsigned enumeration values, so it is not an order (C30_vaddr_order_refuted); the contents theorem still covers that index."
  },
  {
   "property": "C31",
   "status": "partial",
   "theorems": [
    "C31_history",
    "C31_lookup",
    "C31_kept",
    "C31_drop_all",
    "C31_two_copies_refuted",
    "C31_drop_forgotten_refuted",
    "C31_blind_create_refuted",
    "C31_stale_queue_refuted"
   ],
   "note": "For every history of create, lookup, reference, dirty, forget, relax and drop calls and every hash function: no call fails an assertion or touches a deleted object, at most one copy of an object is found, a lookup gives exactly it, only copies which are clean, unreferenced, unpinned (and for inodes not open and without dirty children) are dropped, and the dirty queues hold exactly the dirty objects. The full claim is false for copies which are not found: an object forgotten while referenced stays in memory beside a new copy and both can be dirty (C31_two_copies_refuted); when only such copies are left a drop keeps them (C31_drop_forgotten_refuted)."
  },
  {
   "property": "C32",
   "status": "partial",
   "theorems": [
    "C32_counters_exact",
    "C32_fsync_decision",
    "C32_fs_amount",
    "C32_file_amount_refuted",
    "C32_fs_amount_refuted"
   ],
   "note": "Proved over every history of creating, marking, cleaning, re-queueing, evicting and forgetting objects, started from empty queues (names and sizes below 2^32): each queue's counter equals the total size of the objects dirty in it, no queue assertion fails, and whether fsync flushes a file follows from its own queue. The full claim that the amounts driving the flush decisions count every dirty object is false and refuted: the amount of a file leaves out the file's own inode, so fsync of a file with only its inode dirty writes nothing, and the amount of the file system leaves out everything queued under inodes."
  },
  {
   "property": "C33",
   "status": "partial",
   "theorems": [
    "C33_syncfs_writes",
    "C33_syncfs_all_clean",
    "C33_fsync_writes",
    "C33_fsync_reply_first",
    "C33_flush_defined",
    "C33_fsync_unreported_refuted",
    "C33_fsync_inode_refuted",
    "C33_syncfs_misses_refuted"
   ],
   "note": "Proved for every history of the dirty queues, every walk order, encryption, refresh and fault outcome, over the whole path from filling the dirty sets to executing the queue: a successful syncfs writes each object it collects exactly once, sealed and encrypted from its current content, at its own address, in rank order data, metadata, space maps, behind the writes already queued, changes no other byte, empties the queue and leaves exactly those objects clean; the collected objects are characterised exactly, and when every dirty node has a dirty inode nothing stays dirty. The same for fsync of a file with dirty objects under it, provided the submission after the reply succeeds. No flush fails an assertion. The full claim is false and refuted in three ways: fsync replies before anything is written and the error of the write reaches nobody; fsync of a file with only its inode dirty writes nothing; syncfs skips nodes queued under a clean inode. Not modelled: host fsync of the backing files, and loose inodes of the task."
  },
  {
   "property": "C34",
   "status": "partial",
   "theorems": [
    "C34_collect_failure_partial",
    "C34_write_failure_partial",
    "C34_partial_flush_refuted",
    "C34_write_error_refuted"
   ],
   "note": "Proved for every failure point while collecting: nothing is written or queued, contents are kept up to sealing, every object of the failing rank or higher stays dirty, and the state is again one to which the C33 theorems apply. Proved for a failing write: the entries before it are in storage, those behind it stay queued, and exactly one entry is dropped. The full claim is false and refuted: data collected before a failure at a later rank is discarded though already marked clean, and the objects of a write that fails are clean and never written again; in both cases the next sync succeeds and the data is lost."
  },
  {
   "property": "C35",
   "status": "partial",
   "theorems": [
    "sealed_verifies",
    "accepted_is_intact",
    "load_never_aborts",
    "damage_detected",
    "wrong_type_detected",
    "unsealed_rejected",
    "header_damage_detected",
    "any_damage_detected_refuted"
   ],
   "note": "For every metadata type, content, hash function and damage: sealed objects verify, and anything accepted has the right magic, type and size and, if its checksum flag is set, the right checksum. Refuted: \"has flags\" tests for any of the given bits, so damage that turns the stored checksum flag into the type flag switches the checksum test off and any payload damage is then accepted."
  },
  {
   "property": "C36",
   "status": "partial",
   "theorems": [
    "chmod_allowed",
    "chmod_effect",
    "chown_allowed",
    "chown_effect",
    "utimens_allowed",
    "utimens_effect",
    "write_effect",
    "truncate_effect",
    "falloc_effect",
    "chgrp_own_group_only_refuted",
    "chown_clears_suid_refuted",
    "foreign_times_refuted",
    "data_change_clears_suid_refuted",
    "truncate_needs_write_refuted",
    "tune_keeps_other_flags_refuted"
   ],
   "note": "Who may change what, and the exact effect of each change on everything stat reports, for all modes, ids, callers and times. Refuted: an owner may give a file to a group they are not in; set-user-id survives a change of group on a file that is not executable, survives copy_file_range and fallocate by another user, and a write failing part-way; someone with write permission may set arbitrary times; truncate checks no permission; tune drops the root-directory flag. The default mount's kernel checks (default_permissions) hide some of these."
  },
  {
   "property": "C37",
   "status": "proved",
   "theorems": [
    "C37_positions",
    "C37_order",
    "C37_distinct",
    "C37_entries"
   ],
   "note": "For all node indices up to 2^24 and all slots of a node."
  },
  {
   "property": "C38",
   "status": "partial",
   "theorems": [
    "C38_index",
    "C38_unique",
    "C38_depth",
    "C38_find_partial",
    "C38_unique_index",
    "C38_find_refuted"
   ],
   "note": "The index arithmetic is proved for all positions, uniqueness and the walk from the root for all nodes of all reachable directories. The function which stages a node from its index refuses depth 4, so nodes at depth 4 are stored but not found again (C38_find_refuted)."
  },
  {
   "property": "C39",
   "status": "proved",
   "theorems": [
    "spmap_leads_to_own_leaf",
    "spmap_ranges_partition",
    "spmap_child_of_slot",
    "spmap_siblings_apart",
    "spmap_header_roundtrip",
    "spleaf_slot_exact",
    "super_covers_volume",
    "spmap_top_half_refuted"
   ],
   "note": "For every offset below 2^55 (a volume is at most 2^46) and every history of use. spmap_top_half_refuted records that beyond that the code's own wider limits are not met (signed overflow in spnode_slot_of; 2^56 is outside the super block's range)."
  },
  {
   "property": "C40",
   "status": "partial",
   "theorems": [
    "dir_reads_in_bounds_partial",
    "dir_overrun_bounded",
    "own_dir_nodes_verify",
    "dir_lookup_in_bounds_refuted",
    "dir_verify_in_bounds_refuted",
    "xattr_reads_in_bounds_partial",
    "xattr_overrun_bounded",
    "own_xattr_nodes_verify",
    "xattr_lookup_in_bounds_refuted",
    "xattr_verify_in_bounds_refuted"
   ],
   "note": "Refuted in general: verification checks where a directory name starts but not where it ends, measures the room of an attribute entry from the start of the node, and never checks the entry counts, so verified nodes make lookups (and verification itself) read past the node. Proved for all byte contents: verified nodes whose names and entries end inside are read inside only; otherwise the overrun is at most 510 and 2560 bytes; and every node the file system itself writes verifies, stays inside and answers as it did in memory."
  },
  {
   "property": "C41",
   "status": "partial",
   "theorems": [
    "open_file_stays",
    "open_file_survives",
    "last_close_frees",
    "no_leftovers",
    "gone_until_made_anew",
    "storage_freed_after_failed_close_refuted"
   ],
   "note": "A nameless file stays as long as there are more opens than closes, the last close frees it, and it is gone until the number is used anew. Refuted: when the last close fails (its flush of dirty data reports an error) the open count is not taken back, so the nameless file keeps its storage for the rest of the run. Kernel lookup references are modelled only for special files (the code keeps regular files by their open count alone)."
  },
  {
   "property": "C42",
   "status": "proved",
   "theorems": [
    "C42_accept_exact",
    "C42_merge_exact",
    "C42_write_unmoved"
   ],
   "note": "Proved for every sequence of addresses: exactly which reference a pending write accepts, that the merged write is the concatenation of its members' ranges in order within one segment, 32 references and 1 MiB, and that executing it has the effect of executing the members' writes one by one. A single reference longer than 1 MiB is accepted as the first member, as in the code."
  },
  {
   "property": "C43",
   "status": "partial",
   "theorems": [
    "blocks_are_held_leaves",
    "blocks_miss_nodes_refuted"
   ],
   "note": "The reported blocks are exactly those of the data leaves in the inode and in tree nodes made for the file, after every sequence of calls. The nodes themselves are never counted (refuted)."
  },
  {
   "property": "C44",
   "status": "proved",
   "theorems": [
    "C44_iv_unique",
    "C44_iv_seed"
   ],
   "note": ""
  },
  {
   "property": "C45",
   "status": "partial",
   "theorems": [
    "file_links_within_limit",
    "dir_links_within_limit_refuted"
   ],
   "note": "Proved for files, symlinks and special files over every history. Refuted for directories: rename of a directory into another parent does not check the parent's link count (mkdir does), so a directory with 32767 links gets 32768 and its inode is rejected on the next load."
  },
  {
   "property": "C46",
   "status": "partial",
   "theorems": [
    "unlink_exact",
    "rmdir_exact",
    "rename_only_with_rights",
    "sticky_protects",
    "search_permission_needed_refuted",
    "allowed_rename_granted_refuted"
   ],
   "note": "The sticky rule and write permission are proved. Refuted: search permission on the directory is not asked for when removing; and a rename that should be allowed is refused, because the sticky check of the moved entry is repeated against the wrong directory. The default mount lets the kernel do its own checks first (default_permissions), which hides the first of these."
  },
  {
   "property": "C47",
   "status": "partial",
   "theorems": [
    "setattr_success",
    "setattr_failure",
    "setattr_applies_times_refuted",
    "setattr_all_or_nothing_refuted"
   ],
   "note": "A successful request did exactly what it names, times excepted when they come with another attribute; a failing request for one kind of attribute changes nothing. Refuted in general: explicit times in a request that also names mode, owner or size are dropped silently; a request refused at a later step keeps the changes of the earlier steps."
  },
  {
   "property": "C48",
   "status": "partial",
   "theorems": [
    "new_inode_attrs",
    "sgid_dir_group_refuted"
   ],
   "note": "All attributes exact. Refuted for the group: files made in a set-group-id directory get the caller's group, not the directory's, while a new directory there still gets the set-group-id bit."
  },
  {
   "property": "C49",
   "status": "partial",
   "theorems": [
    "archive_restore_exact",
    "archive_keeps_store",
    "archive_drops_intact_blocks_refuted",
    "archive_keeps_damaged_object_refuted"
   ],
   "note": "For every file system none of whose parts is missing, every intact archive store without digest collisions, and every choice of failing steps in both runs: a successful archive restores to the same bytes, boot record and live addresses; errors come only from failing steps or from more than 1048572 addresses; a run leaves the store intact whatever fails. False without \"complete\" and \"intact\": when the segment of one block is missing the run succeeds and silently leaves out every block of the leaf, also the intact ones; a damaged object of the right size in the store is never rewritten, and the restore succeeds with other bytes."
  },
  {
   "property": "C50",
   "status": "partial",
   "theorems": [
    "restore_checks_index",
    "restore_checks_blocks_refuted",
    "restore_index_overread_refuted"
   ],
   "note": "The index part holds for every store and every failing step (but for up to 255 trailing bytes of the object, which are not part of the decoded index). Blocks are not compared with their digests (refuted), and the number of descriptors in the header is not compared with the size of the object, so that a crafted index is read out of bounds (refuted)."
  },
  {
   "property": "C51",
   "status": "partial",
   "theorems": [
    "restore_frame",
    "restore_others_untouched",
    "restore_spares_live_fs_refuted"
   ],
   "note": "As stated, for every index and all failures; new parts of segments the index names read as zeros. Beyond the property: where the archived file system is still there and has changed since, its newer bytes are overwritten without a question (refuted)."
  },
  {
   "property": "C52",
   "status": "partial",
   "theorems": [
    "remove_only_own",
    "remove_spares_others",
    "remove_complete",
    "remove_refuses_base",
    "unmarked_base_refuted",
    "remove_all_own_refuted",
    "remove_again_refuted"
   ],
   "note": "As stated, for all repositories and failing steps. Beyond the property: a segment of the volume that no slot names (made for a leaf copied on write, whose slots are then overwritten) is left behind by a successful removal (refuted); a removal that failed half way cannot be repeated, since staging a node whose segment is gone makes an empty one that does not decode (refuted); a base is refused for good, also when no clone of it is left, and the mark alone protects the clones (refuted without it)."
  },
  {
   "property": "C53",
   "status": "partial",
   "theorems": [
    "boot_saved",
    "boot_accepted",
    "boot_round_trip",
    "boot_save_spares",
    "boot_wrong_password",
    "boot_for_archive",
    "boot_keys_apart_refuted",
    "boot_forge_refuted",
    "boot_again_refuted"
   ],
   "note": "Proved but for the last clause, short of a clash of SHA-256 between the saved bytes and what the repository holds under their name. The last clause is false: key and IV of the boot cipher depend on the password alone and the cipher is a stream cipher, so two stored records and the main key of the one give the main key of the other, and one stored record with its contents is enough to make any other (refuted, for every crypto library). A wrong password is reported as such when the key streams differ in both of their first words, and refused when they differ in one. Reserved bytes are neither checked nor kept, so a record that loads may be stored again under another name (refuted); boot_for_archive shows that records the program saved do not have this trouble in archive and restore (C49-C51)."
  },
  {
   "property": "C54",
   "status": "partial",
   "theorems": [
    "mount_checked",
    "mount_allowed",
    "mount_granted",
    "mount_reply",
    "mount_carried",
    "request_fds",
    "mount_race_refuted",
    "mount_safe_refuted",
    "mount_cut_refuted",
    "mount_undone_refuted",
    "request_fds_refuted"
   ],
   "note": "For all messages, peers, rules and answers of the system, each condition was found true at some call of the request (mount_checked); where names and owners do not change meanwhile they hold together (mount_allowed), and are enough (mount_granted). False otherwise: checks and mount go by name, so that at the time of the mount the directory may be another user's; a cut-off message is carried out as if complete (the length is compared with that of struct msghdr), here at another path; a mount whose reply cannot be sent stays; two descriptors, or one with a short message, stay open for good, and a descriptor whose close fails stops the daemon. Beyond the property: nosuid and nodev are not forced upon a user, and the root mode may be that of a block device."
  },
  {
   "property": "C55",
   "status": "partial",
   "theorems": [
    "umount_checked",
    "umount_allowed",
    "umount_granted",
    "umount_dead_refuted",
    "umount_norules_refuted",
    "umount_link_refuted"
   ],
   "note": "Proved where there are rules, no two for one path, the path given is canonical and the mount is alive. False otherwise: the rules are not asked when stat gives ENOTCONN and force was not asked for, so any user may unmount another's dead mount; with an empty list of rules any user may unmount any directory with inode number 1; the rule is found by the text of the path while the kernel follows links, so a user with a rule for a path of their own may unmount what the rules keep for another."
  },
  {
   "property": "C56",
   "status": "partial",
   "theorems": [
    "rules_loaded",
    "rules_documented",
    "mount_by_line",
    "rules_typo_refuted",
    "rules_octal_refuted",
    "rules_hash_refuted",
    "rules_nul_refuted",
    "rules_recursive_refuted"
   ],
   "note": "rules_loaded gives, as an equivalence for all files, what is accepted and what it is taken for; rules_documented that files in the documented form mean what they say; mount_by_line takes it to every mount. False beyond that form: one character of any kind behind the number is let through (uid=100O is user 100), numbers with a leading 0 are octal (uid=01000 is user 512), a # in a path cuts the line so that the rule is for another directory and for all users, lines behind a NUL are left out silently, and recursive=true is accepted without effect."
  },
  {
   "property": "C57",
   "status": "partial",
   "theorems": [
    "caddr_name_form",
    "caddr_names_apart",
    "caddr_read_back",
    "caddr_read_iff",
    "caddr_read_sound",
    "caddr_index_whole",
    "caddr_tail_refuted",
    "caddr_version_refuted",
    "caddr_odd_refuted"
   ],
   "note": "Proved but for the last clause: caddr_read_iff gives, as an equivalence for all texts, what is accepted and as what, and what is accepted is always an address that something can be stored under. Not refused are texts that go on behind the digest (cut without a word), and numbers larger than an int, so that version 4294967297 is taken for version 1. Beyond the property: an object whose size is no multiple of 1024 has a name that does not read back; boot records and indexes always do (caddr_index_whole)."
  },
  {
   "property": "C58",
   "status": "partial",
   "theorems": [
    "fsname_iff",
    "save_complete",
    "save_works",
    "save_atomic",
    "save_spares",
    "save_load",
    "load_kind",
    "load_during_save",
    "snap_done",
    "snap_ends",
    "save_blocked",
    "save_again_refuted",
    "snap_behind_refuted",
    "save_power_refuted"
   ],
   "note": "Proved for all names, addresses, directories and points of failure, but for two clauses. \"It can be repeated\" is false for a user who is not root: the temporary file is made read-only before it is written, so once a save has been cut short every later one of that name fails with the directory unchanged, until the file is removed by hand (save_blocked, save_again_refuted). \"The name leads to the record it is at\" is false when a snapshot fails after the fork, for instance because the boot-ref of the snapshot can not be written: the mounted file system goes on at its new record, its name leads to the old one, and what is written from then on is not there at the next mount (snap_behind_refuted). Beyond the property: nothing is forced to the disk, so after a loss of power a save that had succeeded may have replaced the old file by an empty one (save_power_refuted)."
  },
  {
   "property": "C59",
   "status": "partial",
   "theorems": [
    "ids_read_iff",
    "ids_saved",
    "init_loads",
    "ids_long_entry",
    "ids_two_ways_refuted",
    "ids_saved_same_refuted",
    "init_large_refuted",
    "ids_distinct_refuted",
    "ids_misspelt_refuted",
    "ids_long_entry_refuted"
   ],
   "note": "ids_read_iff gives, as an equivalence for all texts and databases, what is accepted and as what; init_loads proves the clause about init for users and groups whose numbers are below 2^30, whose names can stand in the file and whose entries take up to 1024 bytes. The other clauses are false. Lines outside of a section, and so all lines below a misspelt header, are skipped and not refused (ids_misspelt_refuted). For a user whose number is 2^30 or more init writes a file that no command can load (init_large_refuted). A map that is saved comes back with host and file system ids exchanged (ids_saved for all maps, ids_saved_same_refuted). The name is the file system's side for users and the host's side for groups (ids_two_ways_refuted). Two users of the host may be given one id, and then the files of one show as the other's (ids_distinct_refuted). Beyond the property: cmd_sysconf returns the key it was asked for, so users and groups whose entry takes more than 1024 bytes are never found (ids_long_entry, ids_long_entry_refuted)."
  },
  {
   "property": "C60",
   "status": "partial",
   "theorems": [
    "lock_exclusive",
    "lock_left",
    "lock_works",
    "lock_refused",
    "mkfs_kept",
    "lock_stale",
    "lock_killed_refuted",
    "restore_left_refuted",
    "restore_breaks_refuted",
    "lock_signal_refuted",
    "mkfs_twice_refuted",
    "lock_denied_refuted",
    "lock_pid_refuted"
   ],
   "note": "For any number of commands and every interleaving, without restore: at most one command has the lock of a name and its file stays until it removes it, whatever fails and whoever is killed, but for an exit signal in the moment after the removal (lock_exclusive); no lock file is left when the work fails or is ended by a signal that calls exit (lock_left). The rest is false. Restore takes the lock of the archive and gives back that of the new name: after every restore the archive stays locked (restore_left_refuted), and the lock of a mkfs at work on that name is removed, so that two commands have it (restore_breaks_refuted). A signal right after the removal makes a command remove the lock of another one (lock_signal_refuted). A killed command leaves its lock (lock_killed_refuted), and such a lock is never given to anyone again (lock_stale). Commands of the same second share one temporary file, so a command may be refused with no lock there (lock_denied_refuted) and the file may name a process that does not have the lock (lock_pid_refuted). A boot-ref that is there before mkfs or restore start is never replaced (mkfs_kept), but two mkfs of one name at once both succeed and one replaces the other's (mkfs_twice_refuted)."
  },
  {
   "property": "C61",
   "status": "partial",
   "theorems": [
    "pipe_sizes",
    "max_write_ok",
    "recv_fresh",
    "write_exact",
    "write_mem_exact",
    "read_exact",
    "read_fits",
    "read_whole",
    "recv_after",
    "pipe_sizes_refuted",
    "max_write_refuted",
    "write_short_refuted",
    "read_slots_refuted",
    "recv_lost_refuted"
   ],
   "note": "recv_fresh: after every history of calls with every outcome, a request that is received is exactly the one that FUSE handed over, and for a large write exactly its data is left in the pipe. write_exact: an acknowledged write, synchronous or asynchronous, has put the data where the file system said, if no splice to a file is short; with buffers in memory also if calls are (write_mem_exact). read_exact: a reply as long as its header says is exactly the data; read_fits: it is given if every page of the buffers, up to 48 of them, has a slot; read_whole: for any number of buffers if no vmsplice is short. recv_after: what is left of a failed request is thrown away and the next one is received. The rest is false. A short splice to a file counts as done: the write is acknowledged in full, data are lost and those after it are in the wrong place (write_short_refuted). FUSE throws a refused reply away while the pipe still counts it: the thread takes no further request (recv_lost_refuted). A read of the agreed size from the begin of a file needs more slots than a pipe of 1M has: its reply is short, FUSE refuses it, and it is not answered (read_slots_refuted). Without splice, or with pipe-max-size 2M, the agreed size is larger than what files accept (max_write_refuted; max_write_ok up to 1M). With pipe-max-size below the size of a new pipe no request is taken (pipe_sizes_refuted; pipe_sizes otherwise)."
  },
  {
   "property": "C62",
   "status": "partial",
   "theorems": [
    "denied",
    "before_init",
    "served_as",
    "owner_set",
    "lock_back",
    "answered",
    "owner_shown",
    "setattr_times",
    "setattr_times_lost",
    "reply_codes",
    "owner_shown_refuted",
    "whole_refuted",
    "setattr_times_refuted",
    "root_refuted"
   ],
   "note": "For every request and every behaviour of the functions below: without leave or without an id in the file system nothing is called, changed or told, and the answer is an error (denied); so it is before the connection is set up, and for a second INIT (before_init); every call is made with leave and as the user that the caller is in the file system (served_as); a chown sets what the map gives for the new owner (owner_set); the lock is held during all calls and given back on all ways out (lock_back); the answer is the error of the first call that failed (answered); owners that the map has are shown as host users (owner_shown); errors reach the host as its own numbers (reply_codes). Calls of other files are a parameter, so that what one of them does before it fails is not part of this. The rest is false. After the work is done the flush of the loose-queue can fail: unlink answers ENOSPC though the name is gone; a setattr of mode and owner sets the mode and is then refused for the owner (whole_refuted). Times of access and modification are set if nothing else is (setattr_times), but dropped with success if a mode, owner or size comes with them, as chmod, chown and truncate do not set them (setattr_times_lost, setattr_times_refuted). An owner that the map does not have is shown with its number of the file system, which can be that of another user of the host (owner_shown_refuted). Root of another pid namespace, whose pid is 0, counts as the kernel and works as root of the file system though the map has no root and refuses other roots (root_refuted)."
  },
  {
   "property": "C63",
   "status": "partial",
   "theorems": [
    "pass_parsed",
    "pass_kept",
    "pass_got",
    "pass_typed",
    "pass_filed",
    "pass_twice",
    "pass_typed_twice",
    "pass_echo",
    "pass_stdin_lost",
    "pass_short_refuted",
    "pass_stdin_refuted",
    "pass_rest_refuted"
   ],
   "note": "pass_parsed: a text is taken for the password that it says (printable ASCII without blanks, 1 to 255 bytes, blanks around it dropped) and refused if it says none; pass_kept: the library gets it byte by byte. pass_got: with every outcome of every call, a password that is got is what a text at the begin of the input says, the line typed on a terminal, all that is left of a regular file. pass_typed, pass_filed: it is got if nothing fails. pass_twice, pass_typed_twice: asked for twice, it is taken if both are the same and only then. pass_echo: the echo of a terminal is set back on all ways out but a failing tcsetattr; signals are not modelled. The rest is false. From a pipe one read is done, so that the begin of a password is worked with when its writer is slow (pass_short_refuted). mkfs asks twice and reads a regular file that is its standard input in whole the first time, so that no such file works, also one with the password in two lines (pass_stdin_lost, pass_stdin_refuted). Of a line longer than 1024 bytes the rest is left in the terminal for the shell to read (pass_rest_refuted)."
  },
  {
   "property": "C64",
   "status": "partial",
   "theorems": [
    "laddr_text_line",
    "laddr_text_inj",
    "laddr_text_back",
    "laddr_text_made",
    "laddr_text_read",
    "laddr_text_refuted"
   ],
   "note": "For addresses whose fields are in the ranges of their forms on disk, which all that the file system makes are (laddr_text_made): the text is a line of 79 characters without blanks (laddr_text_line), no two addresses have the same (laddr_text_inj), and it is read back as the address if this is valid and refused if not, whatever comes after it (laddr_text_back). Whatever the text, an address that is read lies within its segment (laddr_text_read). sscanf, snprintf and the functions of libuuid are modelled after their manuals. The rest is false: what silofs_ascii_to_byte and silofs_ascii_to_nibble say about characters that are no digits is not looked at, so that of a damaged text the height becomes 255 and the type of the space 0, with success; the text of this address is read as another one (laddr_text_refuted). Nothing in the tree calls silofs_laddr_from_ascii yet."
  }
 ]
}
