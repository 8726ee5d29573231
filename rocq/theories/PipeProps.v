(* C61: reads and writes through a pipe. *)
From Verif Require Import Base AddrModel PipeModel PipeSpec PipeProofs.

(* ---- sizes ---- *)
(* With splice, whatever the host's limit is, a pipe that is not larger than the buffer gets the
   very size of the buffer, and a write of the agreed size fits in with its 80 bytes of headers. *)
Theorem pipe_sizes : forall k lim bs size, 12 <= k <= 16 -> (forall l, lim = Some l -> 2 <= l) ->
  resolve_bufsize (2 ^ k) true lim = Some bs -> size <= bs ->
  piper_grow (2 ^ k) lim size bs = Some bs /\
  (forall mw, calc_max_write (2 ^ k) bs = Some mw -> mw + 80 <= bs /\ mw mod 2 ^ k = 0 /\ 8192 <= mw).
Proof.
  intros k lim bs size HK HL H HS. pose proof (bufsize_max k lim bs HK HL H) as EB. destruct (max_pow k lim HK HL) as (a & EA & HA). split.
  - assert (HB : 2 ^ k <= bs <= 1024 * 2 ^ k).
    { unfold resolve_bufsize in H. cbv beta zeta in H. destruct ((_ <? 8192) || _) eqn:E in H; [discriminate|]. apply orb_false_iff in E. destruct E as [E _].
      assert (EQ : Z.min (pipe_size_of (2 ^ k) lim BUFSIZE_MAX) BUFSIZE_MAX / 2 ^ k * 2 ^ k = bs) by congruence. rewrite EQ in E.
      assert (0 < 2 ^ k) by (apply Z.pow_pos_nonneg; lia). split.
      - rewrite <- EQ. rewrite <- EQ in E. assert (0 < Z.min (pipe_size_of (2 ^ k) lim BUFSIZE_MAX) BUFSIZE_MAX / 2 ^ k) by nia. nia.
      - rewrite EB, EA. replace 1024 with (2 ^ 10) by auto. rewrite <- Z.pow_add_r by lia. apply Z.pow_le_mono_r; lia. }
    assert (ES : pipe_size_of (2 ^ k) lim bs = bs) by (unfold pipe_size_of; rewrite <- EB; rewrite Z.leb_refl; auto).
    unfold piper_grow. destruct (Z.eqb_spec bs size); [congruence|]. unfold pipe_grow. rewrite ES.
    replace ((bs <? 2 ^ k) || (1024 * 2 ^ k <? bs)) with false by lia. replace (size <? bs) with true by lia. auto.
  - intros mw HW. unfold calc_max_write in HW. destruct (bs <? 40 + 40 + 2 ^ k); [discriminate|]. cbv zeta in HW. destruct (_ <? Z.max _ _) eqn:E in HW; [discriminate|].
    assert (EW : (bs - 40 - 40) / 2 ^ k * 2 ^ k = mw) by congruence. rewrite EW in E. assert (0 < 2 ^ k) by (apply Z.pow_pos_nonneg; lia). rewrite <- EW at 1 2. split; [|split].
    + pose proof (Z.mul_div_le (bs - 40 - 40) (2 ^ k)). lia.
    + apply Z.mod_mul. lia.
    + lia.
Qed.
Example ex_pipe_sizes :
  resolve_bufsize 4096 true (Some 1048576) = Some 1048576 /\ piper_grow 4096 (Some 1048576) 65536 1048576 = Some 1048576 /\
  calc_max_write 4096 1048576 = Some 1044480 /\ resolve_bufsize 4096 true None = Some 65536 /\ resolve_bufsize 4096 true (Some 4096) = None.
Proof. vm_compute. repeat split; reflexivity. Qed.
Print Assumptions pipe_sizes.

(* Where it falls short: with a limit below the size that a new pipe has, the pipe stays larger
   than the buffer, and no request at all is taken. *)
Theorem pipe_sizes_refuted : exists lim size bs, 2 <= lim /\ resolve_bufsize 4096 true (Some lim) = Some bs /\
  piper_grow 4096 (Some lim) size bs = Some size /\ size = 65536 /\
  forall hlen large msg o0 o1 o2 o3,
    snd (recv_request hlen large (Z.to_nat bs) (new_pipe (Z.to_nat size)) msg o0 o1 o2 o3) = None.
Proof.
  exists 32768, 65536, 32768. split; [lia|]. split; [vm_compute; reflexivity|]. split; [vm_compute; reflexivity|]. split; [reflexivity|].
  intros. unfold recv_request, new_pipe, flush_pipe. cbn [k_pend Nat.ltb Nat.leb k_size].
  replace (Nat.ltb (Z.to_nat 32768) (Z.to_nat 65536)) with true by (symmetry; apply Nat.ltb_lt; apply Z2Nat.inj_lt; lia). auto.
Qed.
Print Assumptions pipe_sizes_refuted.

(* Every write of the agreed size is of a size that files accept, with splice and a limit of
   up to 1M (which is the default of Linux). *)
Theorem max_write_ok : forall k l bs mw len, 12 <= k <= 16 -> 2 <= l <= 2 ^ 20 ->
  resolve_bufsize (2 ^ k) true (Some l) = Some bs -> calc_max_write (2 ^ k) bs = Some mw -> len <= mw -> io_len_ok len = true.
Proof.
  intros k l bs mw len HK HL H HW HM. assert (E : bs = pipe_max (2 ^ k) (Some l)) by (apply bufsize_max; [auto| |auto]; intros l' E; injection E as <-; lia).
  assert (HP : pipe_max (2 ^ k) (Some l) <= 2 ^ 20).
  { cbn [pipe_max]. apply Z.le_trans with (pow2_up l); [apply Z.le_min_r|]. unfold pow2_up. apply Z.pow_le_mono_r; [lia|].
    assert (Z.log2 (l - 1) < 20); [|lia]. destruct (Z.le_gt_cases (l - 1) 0); [rewrite Z.log2_nonpos by lia; lia|]. apply Z.log2_lt_pow2; lia. }
  unfold calc_max_write in HW. destruct (bs <? 40 + 40 + 2 ^ k); [discriminate|]. cbv zeta in HW. destruct (_ <? Z.max _ _) in HW; [discriminate|].
  assert (EW : (bs - 40 - 40) / 2 ^ k * 2 ^ k = mw) by congruence. assert (0 < 2 ^ k) by (apply Z.pow_pos_nonneg; lia).
  pose proof (Z.mul_div_le (bs - 40 - 40) (2 ^ k)). unfold io_len_ok, IO_MAX. change (2 ^ 20) with 1048576 in *. change (2 ^ 21) with 2097152. lia.
Qed.
Example ex_max_write_ok :
  resolve_bufsize 65536 true (Some 1048576) = Some 1048576 /\ calc_max_write 65536 1048576 = Some 983040 /\ io_len_ok 983040 = true.
Proof. vm_compute. repeat split; reflexivity. Qed.
Print Assumptions max_write_ok.

(* Where it falls short: without splice, or with a limit of 2M, the agreed size is larger than
   what files accept: a write or read of that size ends with EINVAL. *)
Theorem max_write_refuted : exists bs mw,
  resolve_bufsize 4096 false None = Some bs /\ resolve_bufsize 4096 true (Some 2097152) = Some bs /\
  calc_max_write 4096 bs = Some mw /\ io_len_ok mw = false.
Proof. exists 2097152, 2093056. vm_compute. repeat split; reflexivity. Qed.
Print Assumptions max_write_refuted.

(* ---- requests ---- *)
(* After any calls with any outcomes, a request that is received is the one that FUSE handed
   over: all of it, or, for a large write, its headers, with exactly its data left in the pipe. *)
Theorem recv_fresh : forall hlen large buffsize size cs msg o0 o1 o2 o3 p' b, hlen (firstn 80 msg) = length msg ->
  recv_request hlen large buffsize (fold_left called cs (new_pipe size)) msg o0 o1 o2 o3 = (p', Some b) ->
  (b = msg /\ k_q p' = [] /\ k_pend p' = 0%nat) \/
  (large b = true /\ b = firstn 80 msg /\ k_q p' = skipn 80 msg /\ k_pend p' = length (k_q p')).
Proof.
  intros hlen large buffsize size cs msg o0 o1 o2 o3 p' b HH H. eapply recv_exact; [|exact HH|exact H]. apply calls_honest. unfold honest, new_pipe. cbn [k_q k_pend length]. auto.
Qed.
Definition hl (b : bytes) : nat := Z.to_nat (nth 0 b 0).
(* a reply that was only partly taken, bytes of an old write; then a request of 42 bytes, and a
   large one of 90 *)
Example ex_recv_fresh :
  recv_request hl (fun _ => false) 200 (fold_left called [CAppend (repeat 7 16) (ODone 16); CVfrom [repeat 8 30] (ODone 20); CFlush (ODone 10); CVto 3 (ODone 1)] (new_pipe 200))
    (42 :: repeat 5 41) (ODone 99) (ODone 99) (ODone 99) (ODone 99) = (mkPipe 200 1 [], None) /\
  recv_request hl (fun _ => false) 200 (fold_left called [CAppend (repeat 7 16) (ODone 16); CVfrom [repeat 8 30] (ODone 20); CFlush (ODone 10)] (new_pipe 200))
    (42 :: repeat 5 41) (ODone 99) (ODone 99) (ODone 99) (ODone 99) = (mkPipe 200 0 [], Some (42 :: repeat 5 41)) /\
  recv_request hl (fun _ => true) 200 (new_pipe 200) (90 :: repeat 5 79 ++ repeat 6 10) (ODone 99) (ODone 99) (ODone 99) (ODone 99)
    = (mkPipe 200 10 (repeat 6 10), Some (90 :: repeat 5 79)).
Proof. vm_compute. repeat split; reflexivity. Qed.
Print Assumptions recv_fresh.

(* ---- writes ---- *)
(* A write that is acknowledged, by the one way or by the other, has put the data where the
   file system said and is acknowledged with all of its bytes, if no splice is short. *)
Theorem write_exact : forall p m max vs os p' m' k, k_pend p = length (k_q p) -> (total vs <= length (k_q p))%nat -> no_short (total vs) os ->
  write_sync p m 0 0 max vs os = (p', Some (m', k)) \/ write_async p m max vs os = (p', Some (m', k)) ->
  same_mem m' (placed m vs (k_q p)) /\ k = total vs /\ k_q p' = skipn (total vs) (k_q p).
Proof.
  intros p m max vs os p' m' k HP HT HN [H|H].
  - destruct (sync_exact _ _ _ _ _ _ _ _ _ _ HP HT (or_introl HN) H) as (E1 & E2 & E3 & E4). subst m'. split; [intros d o; auto|]. auto.
  - unfold write_async in H. destruct (async_check 0 max vs); [|discriminate]. destruct vs as [|v vs].
    + cbn [merge copy_iov] in H. assert (p = p' /\ m = m' /\ 0%nat = k) by (split; [|split]; congruence). destruct H0 as (<- & <- & <-). split; [intros d o; auto|]. auto.
    + unfold merge in H. rewrite <- merge_total in HT, HN.
      destruct (copy_iov_exact _ _ _ _ _ _ _ _ HP HT (or_introl HN) H) as (E1 & E2 & E3 & E4). rewrite merge_total in E2, E3, HT. subst m'. split; [|auto].
      intros d o. apply merge_placed. auto.
Qed.
(* with buffers in memory only: also if calls are short *)
Theorem write_mem_exact : forall p m max vs os p' m' k, k_pend p = length (k_q p) -> (total vs <= length (k_q p))%nat -> Forall (fun v => v_fd v <= 0) vs ->
  write_sync p m 0 0 max vs os = (p', Some (m', k)) \/ write_async p m max vs os = (p', Some (m', k)) ->
  same_mem m' (placed m vs (k_q p)) /\ k = total vs /\ k_q p' = skipn (total vs) (k_q p).
Proof.
  intros p m max vs os p' m' k HP HT HN [H|H].
  - destruct (sync_exact _ _ _ _ _ _ _ _ _ _ HP HT (or_intror HN) H) as (E1 & E2 & E3 & E4). subst m'. split; [intros d o; auto|]. auto.
  - unfold write_async in H. destruct (async_check 0 max vs); [|discriminate]. destruct vs as [|v vs].
    + cbn [merge copy_iov] in H. assert (p = p' /\ m = m' /\ 0%nat = k) by (split; [|split]; congruence). destruct H0 as (<- & <- & <-). split; [intros d o; auto|]. auto.
    + unfold merge in H. apply merge_mem in HN. rewrite <- merge_total in HT.
      destruct (copy_iov_exact _ _ _ _ _ _ _ _ HP HT (or_intror HN) H) as (E1 & E2 & E3 & E4). rewrite merge_total in E2, E3, HT. subst m'. split; [|auto].
      intros d o. apply merge_placed. auto.
Qed.
Definition zero : memory := fun _ _ => 0.
Definition see (r : pipe * option (memory * nat)) (ds : list (Z * Z)) : option (list Z * nat) :=
  match snd r with Some (m, k) => Some (map (fun d => m (fst d) (snd d)) ds, k) | None => None end.
Definition three : list iov := [mkIov 3 10 0 2; mkIov 3 12 0 2; mkIov 4 0 0 1; mkIov 0 0 50 2].
Definition spots : list (Z * Z) := [(3, 10); (3, 11); (3, 12); (3, 13); (4, 0); (0, 50); (0, 51); (3, 14)].
Example ex_write_exact :
  see (write_sync (mkPipe 64 7 [1; 2; 3; 4; 5; 6; 7]) zero 0 0 7 three [ODone 9; ODone 9; ODone 9; ODone 9]) spots = Some ([1; 2; 3; 4; 5; 6; 7; 0], 7%nat) /\
  see (write_async (mkPipe 64 7 [1; 2; 3; 4; 5; 6; 7]) zero 7 three [ODone 9; ODone 9; ODone 9]) spots = Some ([1; 2; 3; 4; 5; 6; 7; 0], 7%nat) /\
  length (merge three) = 3%nat /\
  see (write_sync (mkPipe 64 7 [1; 2; 3; 4; 5; 6; 7]) zero 0 0 6 three [ODone 9; ODone 9; ODone 9; ODone 9]) spots = None.
Proof. vm_compute. repeat split; reflexivity. Qed.
Example ex_write_mem_exact :
  see (write_sync (mkPipe 64 3 [1; 2; 3]) zero 0 0 9 [mkIov 0 0 50 2; mkIov (-1) 0 60 1] [ODone 2; ODone 9]) [(0, 50); (0, 51); (0, 60)] = Some ([1; 2; 3], 3%nat) /\
  see (write_async (mkPipe 64 3 [1; 2; 3]) zero 9 [mkIov 0 0 50 2; mkIov (-1) 0 60 1] [ODone 1; ODone 9]) [(0, 50); (0, 51); (0, 60)] = None.
Proof. vm_compute. repeat split; reflexivity. Qed.
Print Assumptions write_exact.
Print Assumptions write_mem_exact.

(* Where it falls short: a splice to a file that moves fewer bytes than it was asked for counts
   as done: the write is acknowledged with all its bytes, while one is left in the pipe and what
   comes after is in the wrong place. *)
Theorem write_short_refuted : exists p m vs os p' m', k_pend p = length (k_q p) /\ total vs = length (k_q p) /\
  write_sync p m 0 0 (total vs) vs os = (p', Some (m', total vs)) /\
  ~ same_mem m' (placed m vs (k_q p)) /\ m' 4 0 <> placed m vs (k_q p) 4 0 /\ k_q p' <> [].
Proof.
  exists (mkPipe 64 4 [1; 2; 3; 4]), zero, [mkIov 3 0 0 2; mkIov 4 0 0 2], [ODone 1; ODone 2].
  exists (mkPipe 64 1 [4]), (put (put zero 3 0 [1]) 4 0 [2; 3]).
  split; [reflexivity|]. split; [reflexivity|]. split; [reflexivity|]. split; [intros H; specialize (H 4 0); vm_compute in H; discriminate|].
  split; [vm_compute; discriminate|discriminate].
Qed.
Print Assumptions write_short_refuted.

(* ---- reads ---- *)
(* A reply to a read that is as long as its header says (FUSE takes no other one) is the
   header, then the data of all buffers in their order; whatever calls were short. *)
Theorem read_exact : forall p hdr vs oh os ofl msg, k_q p = [] -> reply_read p hdr vs oh os ofl = Some msg ->
  length msg = (length hdr + length (concat vs))%nat -> msg = hdr ++ concat vs.
Proof. exact reply_taken. Qed.
Example ex_read_exact :
  reply_read (new_pipe 64) (repeat 9 16) [[1; 2]; [3]; [4; 5; 6]] (ODone 16) [ODone 6] (ODone 99) = Some (repeat 9 16 ++ [1; 2; 3; 4; 5; 6]) /\
  reply_read (new_pipe 64) (repeat 9 16) [[1; 2]; [3]; [4; 5; 6]] (ODone 16) [ODone 4] (ODone 99) = Some (repeat 9 16 ++ [1; 2; 3; 4]) /\
  reply_read (new_pipe 64) (repeat 9 16) (repeat [1; 2] 20) (ODone 16) [ODone 99] (ODone 99) = Some (repeat 9 16 ++ concat (repeat [1; 2] 20)).
Proof. vm_compute. repeat split; reflexivity. Qed.
Print Assumptions read_exact.

(* A read of up to 48 buffers whose pages have a slot each is answered. *)
Theorem read_fits : forall page slots p hdr (vs : list (Z * bytes)) k,
  is_open p = true -> k_q p = [] -> k_pend p = 0%nat -> vs <> [] -> (length vs <= 48)%nat -> length hdr = 16%nat -> 0 < page ->
  (16 + length (concat (map snd vs)) <= k_size p)%nat -> (16 + length (concat (map snd vs)) <= k)%nat ->
  (1 + length (all_parts page (map (fun v => (fst v, Z.of_nat (length (snd v)))) vs)) <= slots)%nat ->
  reply_read p hdr (map snd vs) (ODone 16) [ODone (Z.to_nat (linux_takes page (slots - 1) (map (fun v => (fst v, Z.of_nat (length (snd v)))) vs)))] (ODone k)
    = Some (hdr ++ concat (map snd vs)).
Proof.
  intros page slots p hdr vs k HO HQ HP HN HL HH HPG HS HK HF. unfold linux_takes. rewrite firstn_all2 by lia. rewrite all_parts_sum; [|auto|].
  2: { apply Forall_forall. intros x Hx. apply in_map_iff in Hx. destruct Hx as (v & <- & _). cbn [snd]. lia. }
  assert (E : fold_right Z.add 0 (map snd (map (fun v : Z * bytes => (fst v, Z.of_nat (length (snd v)))) vs)) = Z.of_nat (length (concat (map snd vs)))).
  { clear. induction vs as [|v vs IH]; [auto|]. cbn [map concat fold_right fst snd]. rewrite IH, app_length. lia. }
  match goal with |- context [Z.to_nat ?x] => replace x with (Z.of_nat (length (concat (map snd vs)))) by (symmetry; exact E) end.
  rewrite Nat2Z.id. apply reply_whole; try (rewrite ?map_length; auto; lia). destruct vs; [congruence|discriminate].
Qed.
Example ex_read_fits :
  all_parts 4096 [(0, 1024); (5000, 4096); (8192, 8192)] = [1024; 3192; 904; 4096; 4096] /\
  linux_takes 4096 15 [(0, 1024); (5000, 4096); (8192, 8192)] = 13312 /\ linux_takes 4096 3 [(0, 1024); (5000, 4096); (8192, 8192)] = 5120 /\
  linux_takes 4096 15 [(0, 3); (4095, 2)] = 5 /\
  reply_read (new_pipe 64) (repeat 9 16) (map snd [(0, [1; 2; 3]); (4095, [4; 5])]) (ODone 16) [ODone 5] (ODone 21) = Some (repeat 9 16 ++ [1; 2; 3; 4; 5]).
Proof. vm_compute. repeat split; reflexivity. Qed.
Print Assumptions read_fits.

(* A read of any number of buffers is answered in whole if each call of vmsplice takes all that it is given. *)
Lemma chunks_le : forall fuel vs, (length (chunks fuel vs) <= fuel)%nat.
Proof. induction fuel as [|f IH]; intros vs; destruct vs as [|v vs]; cbn [chunks length]; try lia. specialize (IH (skipn 48 (v :: vs))). lia. Qed.
Lemma append_whole : forall cs p os, is_open p = true -> k_pend p = length (k_q p) -> (length cs <= length os)%nat ->
  (length (k_q p) + length (concat (map (@concat Z) cs)) <= k_size p)%nat ->
  Forall (fun o => exists n, o = ODone n /\ (length (concat (map (@concat Z) cs)) <= n)%nat) os ->
  append_chunks p cs os = Some (mkPipe (k_size p) (k_pend p + length (concat (map (@concat Z) cs))) (k_q p ++ concat (map (@concat Z) cs))).
Proof.
  induction cs as [|c cs IH]; intros p os HO HP HL HS HF.
  - cbn [append_chunks map concat length]. rewrite app_nil_r, Nat.add_0_r. destruct p; auto.
  - destruct os as [|o os]; [cbn [length] in HL; lia|]. destruct (Forall_inv HF) as (n & -> & HN). apply Forall_inv_tail in HF. cbn [map concat length] in *. rewrite app_length in *.
    cbn [append_chunks]. unfold vmsplice_from. rewrite HO. cbn [negb]. rewrite ceil_all by (unfold pipe_avail; lia). rewrite firstn_all2 by lia.
    rewrite IH; cbn [k_size k_pend k_q].
    + f_equal. f_equal; [lia|rewrite app_assoc; auto].
    + auto.
    + rewrite app_length. lia.
    + lia.
    + rewrite app_length. lia.
    + eapply Forall_impl; [|exact HF]. intros o (m & -> & HM). exists m. split; [auto|lia].
Qed.
Lemma append_whole_eq : forall D cs p os, concat (map (@concat Z) cs) = D -> is_open p = true -> k_pend p = length (k_q p) -> (length cs <= length os)%nat ->
  (length (k_q p) + length D <= k_size p)%nat -> Forall (fun o => exists n, o = ODone n /\ (length D <= n)%nat) os ->
  append_chunks p cs os = Some (mkPipe (k_size p) (k_pend p + length D) (k_q p ++ D)).
Proof. intros D cs p os <-. apply append_whole. Qed.
Theorem read_whole : forall p hdr vs a os k, is_open p = true -> k_q p = [] -> k_pend p = 0%nat -> (0 < length hdr)%nat ->
  (length hdr + length (concat vs) <= k_size p)%nat -> (length hdr + length (concat vs) <= k)%nat ->
  (length vs <= length os)%nat -> Forall (fun o => exists n, o = ODone n /\ (length (concat vs) <= n)%nat) os ->
  reply_read p hdr vs (ODone a) os (ODone k) = Some (hdr ++ concat vs).
Proof.
  intros p hdr vs a os k HO HQ HP HH HS HK HL HF. unfold reply_read, append_buf. rewrite HO. cbn [negb]. rewrite HQ, HP. rewrite firstn_all2 by lia. cbn [app plus].
  pose proof (chunks_le (length vs) vs) as LC.
  rewrite (append_whole_eq (concat vs) (chunks (length vs) vs) _ os (chunks_all (length vs) vs (le_n _))); cbn [k_size k_pend k_q]; auto; try lia; try exact HO; try (exact (Nat.le_trans _ _ _ LC HL)).
  unfold flush_pipe. cbn [k_pend]. replace (Nat.ltb 0 (length hdr + length (concat vs))) with true by (symmetry; apply Nat.ltb_lt; lia).
  unfold splice_to_fd, is_open. cbn [k_size k_pend k_q]. unfold is_open in HO. rewrite HO. cbn [negb snd]. rewrite app_length. f_equal. apply firstn_all2. rewrite app_length. lia.
Qed.
Example ex_read_whole :
  reply_read (new_pipe 200) (repeat 9 16) (repeat [1; 2] 60) (ODone 16) [ODone 120; ODone 120] (ODone 136) = Some (repeat 9 16 ++ concat (repeat [1; 2] 60)) /\
  reply_read (new_pipe 200) (repeat 9 16) (repeat [1; 2] 60) (ODone 16) (repeat (ODone 120) 60) (ODone 136) = Some (repeat 9 16 ++ concat (repeat [1; 2] 60)).
Proof. vm_compute. split; reflexivity. Qed.
Print Assumptions read_whole.

(* Where it falls short: a pipe of 1M has 256 slots.  A read of the agreed size (255 pages) from
   the begin of a file has four leaves of 1K, 15 of 4K, then those of 64K: too many pages.
   The reply is shorter than its header says, FUSE refuses it, and the read is never answered. *)
Definition from_begin : list (Z * Z) := repeat (0, 1024) 4 ++ repeat (0, 4096) 15 ++ repeat (0, 65536) 14 ++ [(0, 61440)].
Theorem read_slots_refuted : exists lens, fold_right Z.add 0 (map snd lens) = 1044480 /\ calc_max_write 4096 1048576 = Some 1044480 /\ io_len_ok 1044480 = true /\
  linux_takes 4096 255 lens < 1044480 /\
  forall p hdr vs oh ofl msg, k_q p = [] -> map (fun b => Z.of_nat (length b)) vs = map snd lens ->
    reply_read p hdr vs oh [ODone (Z.to_nat (linux_takes 4096 255 lens))] ofl = Some msg -> (length msg < length hdr + length (concat vs))%nat.
Proof.
  exists from_begin. split; [vm_compute; reflexivity|]. split; [vm_compute; reflexivity|]. split; [vm_compute; reflexivity|]. split; [vm_compute; reflexivity|].
  intros p hdr vs oh ofl msg HQ HV H.
  assert (HL : length vs = 34%nat) by (apply (f_equal (@length Z)) in HV; rewrite !map_length in HV; exact HV).
  assert (HT : Z.of_nat (length (concat vs)) = 1044480).
  { assert (E : Z.of_nat (length (concat vs)) = fold_right Z.add 0 (map (fun b => Z.of_nat (length b)) vs)).
    { clear. induction vs as [|v vs IH]; [auto|]. cbn [map concat fold_right]. rewrite <- IH, app_length. lia. }
    rewrite E, HV. vm_compute. reflexivity. }
  apply reply_short in H; [|auto|destruct vs; [discriminate|discriminate]|apply (Nat.le_trans _ 34); [apply Nat.eq_le_incl; exact HL|lia]].
  assert (HX : linux_takes 4096 255 from_begin = 1032192) by (vm_compute; reflexivity). rewrite HX in H. lia.
Qed.
Print Assumptions read_slots_refuted.

(* ---- after an error ---- *)
(* What is left in the pipe of a request or reply does not stop the next request: it is thrown
   away, if the host drops all of it. *)
Theorem recv_after : forall hlen large buffsize p msg n, is_open p = true -> k_pend p = length (k_q p) -> (length (k_q p) <= n)%nat ->
  (k_size p <= buffsize)%nat -> (40 <= length msg)%nat -> (length msg <= k_size p)%nat -> hlen (firstn 80 msg) = length msg -> large (firstn 80 msg) = false ->
  recv_request hlen large buffsize p msg (ODone n) (ODone n) (ODone n) (ODone n) = (mkPipe (k_size p) 0 [], Some msg).
Proof.
  intros hlen large buffsize p msg n HO HP HN HB H40 HS HH HG. unfold recv_request.
  assert (EF : exists b, flush_pipe p (ODone n) = (mkPipe (k_size p) 0 [], Some b)).
  { unfold flush_pipe. destruct (Nat.ltb_spec 0 (k_pend p)) as [HQ|HQ].
    - unfold splice_to_fd. rewrite HO. cbn [negb]. rewrite HP. replace (Nat.min n (Nat.min (Nat.min (length (k_q p)) (length (k_q p))) (length (k_q p)))) with (length (k_q p)) by lia.
      rewrite skipn_all, Nat.sub_diag. eauto.
    - assert (E0 : k_pend p = 0%nat) by lia. destruct p as [s q l]. cbn [k_pend k_size k_q] in *. assert (E1 : l = []) by (apply length_zero_iff_nil; lia). rewrite E0, E1. eauto. }
  destruct EF as [b0 EF]. rewrite EF. cbn [k_size k_pend]. replace (Nat.ltb buffsize (k_size p)) with false by (symmetry; apply Nat.ltb_ge; auto). cbn [orb negb Nat.eqb].
  unfold splice_from_fd, is_open, pipe_avail. cbn [k_size k_pend k_q]. unfold is_open in HO. rewrite HO. cbn [negb]. rewrite Nat.sub_0_r.
  replace (Nat.leb (length msg) (Nat.min (k_size p) buffsize)) with true by (symmetry; apply Nat.leb_le; lia). cbn [app plus].
  unfold copy_in. cbn [k_pend]. unfold copy_to_buf, is_open. cbn [k_size k_pend k_q]. rewrite HO. cbn [negb]. cbv zeta.
  replace (Nat.min (length msg) (Nat.min 80 (length msg))) with (Nat.min 80 (length msg)) by lia.
  replace (Nat.leb (Nat.min 80 (length msg)) (length msg)) with true by (symmetry; apply Nat.leb_le; lia).
  assert (EFN : firstn (Nat.min 80 (length msg)) msg = firstn 80 msg).
  { destruct (Nat.le_gt_cases 80 (length msg)); [rewrite Nat.min_l by auto; auto|]. rewrite Nat.min_r by lia. rewrite firstn_all, firstn_all2 by lia. auto. }
  rewrite EFN, HH, HG. assert (LB : length (firstn 80 msg) = Nat.min 80 (length msg)) by apply firstn_length. rewrite LB.
  replace (Nat.leb (Nat.min 80 (length msg)) (length msg)) with true by (symmetry; apply Nat.leb_le; lia).
  unfold check_inhdr. rewrite HH. replace (Nat.ltb (Nat.min 80 (length msg)) 40) with false by (symmetry; apply Nat.ltb_ge; lia).
  replace (Nat.ltb buffsize (length msg)) with false by (symmetry; apply Nat.ltb_ge; lia). cbn [negb andb].
  destruct (Nat.le_gt_cases (length msg) 80) as [HM|HM].
  - rewrite Nat.min_r by lia. rewrite Nat.sub_diag. cbn [Nat.eqb]. rewrite Nat.eqb_refl. cbn [negb andb orb]. rewrite skipn_all, firstn_all2 by lia. auto.
  - rewrite Nat.min_l by lia. replace (Nat.eqb (length msg - 80) 0) with false by (symmetry; apply Nat.eqb_neq; lia). cbn [negb andb orb k_size k_pend k_q]. rewrite HO. cbn [negb].
    rewrite Nat.min_id. rewrite skipn_length. rewrite Nat.leb_refl. rewrite firstn_all2 by (rewrite skipn_length; lia). rewrite skipn_length.
    replace (Nat.ltb (80 + (length msg - 80)) 40) with false by (symmetry; apply Nat.ltb_ge; lia).
    replace (Nat.eqb (length msg) (80 + (length msg - 80))) with true by (symmetry; apply Nat.eqb_eq; lia). cbn [negb andb]. rewrite firstn_skipn.
    rewrite skipn_all2 by (rewrite skipn_length; lia). rewrite Nat.sub_diag. auto.
Qed.
Example ex_recv_after :
  recv_request hl (fun _ => false) 200 (mkPipe 200 3 [7; 7; 7]) (90 :: repeat 5 89) (ODone 200) (ODone 200) (ODone 200) (ODone 200) = (mkPipe 200 0 [], Some (90 :: repeat 5 89)).
Proof. vm_compute. reflexivity. Qed.
Print Assumptions recv_after.

(* Where it falls short: FUSE throws away a reply that it refuses, as with ENOENT when the read
   was interrupted; the pipe still counts it.  From then on the thread takes no request. *)
Theorem recv_lost_refuted : exists cs, forall size, (64 <= size)%nat -> (exists q, fold_left called cs (new_pipe size) = q /\ is_open q = true) /\
  forall hlen large buffsize (rs : list (bytes * (outcome * outcome * outcome * outcome))),
    let step (p : pipe) (r : bytes * (outcome * outcome * outcome * outcome)) :=
      match r with (msg, (o0, o1, o2, o3)) => recv_request hlen large buffsize p msg o0 o1 o2 o3 end in
    let p := fold_left (fun p r => fst (step p r)) rs (fold_left called cs (new_pipe size)) in
    forall r, snd (step p r) = None.
Proof.
  exists [CAppend (repeat 9 16) (ODone 16); CVfrom [[1; 2; 3]] (ODone 3); CFlush (OErr 19)]. intros size HS.
  remember (mkPipe size 19 []) as q eqn:EQ.
  assert (E : fold_left called [CAppend (repeat 9 16) (ODone 16); CVfrom [[1; 2; 3]] (ODone 3); CFlush (OErr 19)] (new_pipe size) = q).
  { subst q. cbn [fold_left called]. unfold append_buf, new_pipe, is_open. cbn [k_size k_pend k_q].
    assert (E1 : Nat.ltb 0 size = true) by (apply Nat.ltb_lt; lia). rewrite E1. cbn [negb]. rewrite firstn_all2 by (rewrite repeat_length; lia).
    cbn [kept repeat length plus app]. unfold vmsplice_from, is_open, pipe_avail. cbn [k_size k_pend k_q]. rewrite E1. cbn [negb].
    rewrite ceil_all by (cbn [concat length app]; lia). cbn [concat app firstn length plus kept]. unfold flush_pipe, splice_to_fd, is_open. cbn [k_pend k_size k_q]. rewrite E1.
    cbn [Nat.ltb Nat.leb negb fst skipn]. auto. }
  rewrite E. split; [exists q; split; [auto|]; subst q; unfold is_open; cbn [k_size]; apply Nat.ltb_lt; lia|].
  intros hlen large buffsize rs. cbv zeta.
  assert (L : forall p msg o0 o1 o2 o3, k_q p = [] -> (0 < k_pend p)%nat ->
    snd (recv_request hlen large buffsize p msg o0 o1 o2 o3) = None /\ k_q (fst (recv_request hlen large buffsize p msg o0 o1 o2 o3)) = [] /\
    (0 < k_pend (fst (recv_request hlen large buffsize p msg o0 o1 o2 o3)))%nat).
  { intros p msg o0 o1 o2 o3 HQ HP. unfold recv_request, flush_pipe. replace (Nat.ltb 0 (k_pend p)) with true by (symmetry; apply Nat.ltb_lt; auto).
    unfold splice_to_fd. destruct (is_open p); cbn [negb]; [|auto]. destruct o0 as [k|n]; rewrite HQ.
    - cbn [fst snd k_q k_pend]. rewrite skipn_nil. auto.
    - cbn [length]. rewrite !Nat.min_0_r. rewrite Nat.sub_0_r. cbn [k_size k_pend skipn]. replace (Nat.eqb (k_pend p) 0) with false by (symmetry; apply Nat.eqb_neq; lia).
      rewrite orb_true_r. cbn [fst snd k_q k_pend]. auto. }
  assert (I : forall l p, k_q p = [] -> (0 < k_pend p)%nat ->
    let z := fold_left (fun p r => fst (match r with (msg, (o0, o1, o2, o3)) => recv_request hlen large buffsize p msg o0 o1 o2 o3 end)) l p in k_q z = [] /\ (0 < k_pend z)%nat).
  { induction l as [|[msg [[[o0 o1] o2] o3]] l IH]; intros p HQ HP; [cbn [fold_left]; auto|]. cbn [fold_left]. destruct (L p msg o0 o1 o2 o3 HQ HP) as (_ & A & B). apply IH; auto. }
  intros [msg [[[o0 o1] o2] o3]]. destruct (I rs q) as [A B]; [subst q; auto|subst q; cbn [k_pend]; lia|]. apply L; auto.
Qed.
Print Assumptions recv_lost_refuted.
