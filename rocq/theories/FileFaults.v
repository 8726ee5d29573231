(* What does not hold of files: concrete runs of FileModel.v *)
From Verif Require Import Base AddrModel FileModel FileTree FileInv FileHist FileProps.

(* C24, C19: a byte which was never written, at which one hole punching has failed, reads as what
   somebody else has left in the storage: filc_discard_entire_by clears the mark of unwritten
   space, lib/file.c, before giving the space back *)
Theorem failed_punch_shows_old_bytes_refuted : exists s0 s1 d,
  s_w s0 = fresh (fun _ => false) /\
  run [OFalloc 7 0 0 1024; OFalloc 7 3 0 1024; ORead 7 0 3] s0
    = (s1, [(OFalloc 7 0 0 1024, Ok VUnit); (OFalloc 7 3 0 1024, Err 5); (ORead 7 0 3, Ok (VBytes d))]) /\ d = [170; 170; 170].
Proof.
  set (s0 := ex0 [0; 0; 0; 0; 5]). exists s0, (fst (run [OFalloc 7 0 0 1024; OFalloc 7 3 0 1024; ORead 7 0 3] s0)), [170; 170; 170].
  split; [reflexivity|]. split; [|reflexivity].
  assert (E : snd (run [OFalloc 7 0 0 1024; OFalloc 7 3 0 1024; ORead 7 0 3] s0) = [(OFalloc 7 0 0 1024, Ok VUnit); (OFalloc 7 3 0 1024, Err 5); (ORead 7 0 3, Ok (VBytes [170; 170; 170]))]) by (vm_compute; reflexivity).
  destruct (run _ s0). cbn [fst snd] in *. rewrite E. reflexivity.
Qed.
(* C24: after a truncation to zero which failed in removing the root of the tree, the same
   truncation aborts the process: the reference count of the root is zero by then
   (ftn_dec_refcnt, silofs_expect_gt) *)
Theorem retried_truncate_aborts_refuted : exists s0,
  s_w s0 = fresh (fun _ => false) /\
  snd (run [OWrite 7 65536 [1; 2; 3]; OTrunc 7 0; OTrunc 7 0] s0)
    = [(OWrite 7 65536 [1; 2; 3], Ok VUnit); (OTrunc 7 0, Err 5); (OTrunc 7 0, Bad)].
Proof. exists (ex0 [0; 0; 0; 0; 0; 0; 0; 0; 0; 0; 0; 0; 0; 0; 0; 0; 0; 5]). split; [reflexivity|]. vm_compute. reflexivity. Qed.
(* C24: writing nothing beyond the end makes the file longer *)
Theorem empty_write_grows_refuted : exists s0,
  s_w s0 = fresh (fun _ => false) /\
  map snd (snd (run [ORead 7 0 3; OWrite 7 500 []; ORead 7 0 3] s0)) = [Ok (VBytes []); Ok VUnit; Ok (VBytes [0; 0; 0])].
Proof. exists (ex0 []). split; [reflexivity|]. vm_compute. reflexivity. Qed.
(* C28: SEEK_HOLE from an offset which is in a hole answers the end of the file: where the tree
   has no node over the offset, nothing is looked at *)
Theorem seek_hole_misses_hole_refuted : exists s0 s1,
  s_w s0 = fresh (fun _ => false) /\ s1 = fst (run [OWrite 7 134217728 [1]] s0) /\
  snd (exec (OSeek true 7 67108864) s1) = Ok (VOff 134217729) /\
  key_of (s_w s1) 7 67108864 = None /\ fi_size (w_ino (s_w s1) 7) = 134217729.
Proof. exists (ex0 []). eexists. split; [reflexivity|]. split; [reflexivity|]. split; [vm_compute; reflexivity|]. split; vm_compute; reflexivity. Qed.
(* C43: the nodes of the tree are not counted *)
Theorem blocks_miss_nodes_refuted : exists s0 s1 r n,
  s_w s0 = fresh (fun _ => false) /\ s1 = fst (run [OFalloc 7 0 65536 65536; OFalloc 7 3 65536 65536] s0) /\
  root_of (s_w s1) 7 = Some r /\ w_node (s_w s1) r = Some n /\ ltype_size LT_FTNODE = 8192 /\ stat_blocks (w_ino (s_w s1) 7) = 0.
Proof.
  exists (ex0 []). eexists. exists 65536. eexists. split; [reflexivity|]. split; [reflexivity|]. split; [vm_compute; reflexivity|].
  split; [vm_compute; reflexivity|]. split; vm_compute; reflexivity.
Qed.
Print Assumptions failed_punch_shows_old_bytes_refuted.
Print Assumptions retried_truncate_aborts_refuted.
Print Assumptions empty_write_grows_refuted.
Print Assumptions seek_hole_misses_hole_refuted.
Print Assumptions blocks_miss_nodes_refuted.
