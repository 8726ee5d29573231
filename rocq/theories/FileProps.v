(* Properties C19, C24, C25, C26, C28 and C43: what files contain, where it is kept and what is
   reported about it, after every sequence of calls (see FileHist.v for the calls and for the
   meaning of a sequence, FileModel.v for the code) *)
From Verif Require Import Base AddrModel FileModel FileTree FileInv FileSpec FileLeaf FileRead FileGrow FileLoops FileOps FileSeek FileDrop FileLseek FileHist.

(* a sequence of calls starting with empty files; claimed space brings arbitrary old bytes, and
   everything below may fail at any time, but not with ENOENT *)
Definition history (ty : Z -> bool) (h : list op) (s0 s1 : st) (t : list (op * res val)) : Prop :=
  s_w s0 = fresh ty /\ ~ In ENOENT (s_fail s0) /\ Forall wf_op h /\ run h s0 = (s1, t) /\ sane t.
Definition reached (W : world) : Prop := exists ty h s0 s1 t, history ty h s0 s1 t /\ s_w s1 = W.

Lemma history_run : forall ty h s0 s1 t, history ty h s0 s1 t ->
  nof s1 /\ Inv (s_w s1) /\ (forallb (fun x => negb (lost x)) t = true -> refs1 (s_w s1)) /\ (forall c, In c t -> snd c <> Bad) /\
  (forall i x v, 0 <= x -> last_val 0 t i x = Some v -> content (s_w s1) i x = v) /\
  (forall i z, last_size 0 t i = Some z -> fi_size (w_ino (s_w s1) i) = z).
Proof.
  intros ty h s0 s1 t (F & N & Wf & R & S). destruct (fresh_inv ty) as [I Rf]. rewrite <- F in I, Rf.
  pose proof (run_ok h s0 I Rf N Wf) as P. rewrite R in P. destruct (P S) as (A & B & C & D & E & G).
  split; [exact A|]. split; [exact B|]. split; [exact C|]. split; [exact D|]. split.
  - intros i x v X L. specialize (E i x (Some 0) X). unfold last_val in L. rewrite L in E. apply E. cbn [agree]. rewrite F. apply fresh_content.
  - intros i z L. specialize (G i (Some 0)). unfold last_size in L. rewrite L in G. apply G. cbn [agree]. rewrite F. reflexivity.
Qed.
Lemma slice_at : forall W i off n k, 0 <= k < n -> znth (slice W i off n) k 0 = content W i (off + k).
Proof.
  intros W i off n k H. unfold slice, znth. replace (k <? 0) with false by lia.
  set (g := fun k : nat => content W i (off + Z.of_nat k)).
  rewrite (nth_indep (map g _) 0 (g O)) by (rewrite map_length, seq_length; lia).
  rewrite map_nth, seq_nth by lia. unfold g. f_equal. lia.
Qed.
Lemma reached_inv : forall W, reached W -> Inv W.
Proof. intros W (ty & h & s0 & s1 & t & H & <-). apply (history_run ty h s0 s1 t H). Qed.
Lemma sane_app : forall a b, sane (a ++ b) -> sane a /\ sane b /\ (b <> [] -> forallb (fun x => negb (lost x)) a = true).
Proof.
  induction a as [|x a IH]; intros b H; [cbn in *; auto|]. cbn [app sane] in H. destruct H as [L H]. destruct (IH b H) as (A & B & C).
  split; [|split; [exact B|]].
  - cbn [sane]. split; [|exact A]. intro Y. specialize (L Y). apply app_eq_nil in L. apply L.
  - intro Nb. cbn [forallb]. rewrite C by exact Nb. destruct (lost x) eqn:Y; [|reflexivity]. specialize (L eq_refl). apply app_eq_nil in L. destruct L. contradiction.
Qed.
(* a history and one more call *)
Lemma history_snoc : forall ty h o s0 s2 t2, history ty (h ++ [o]) s0 s2 t2 ->
  exists s1 t1 r, history ty h s0 s1 t1 /\ exec o s1 = (s2, r) /\ t2 = t1 ++ [(o, r)] /\ refs1 (s_w s1) /\ wf_op o.
Proof.
  intros ty h o s0 s2 t2 (F & N & Wf & R & S). rewrite run_app in R. destruct (run h s0) as [s1 t1] eqn:R1. cbn [run] in R.
  destruct (exec o s1) as [s3 r] eqn:X. assert (s3 = s2) by congruence. assert (t2 = t1 ++ [(o, r)]) by congruence. subst.
  destruct (sane_app _ _ S) as (S1 & _ & L). apply Forall_app in Wf. destruct Wf as [W1 W2].
  assert (H : history ty h s0 s1 t1) by (split; [exact F|]; split; [exact N|]; split; [exact W1|]; split; assumption).
  exists s1, t1, r. split; [exact H|]. split; [exact X|]. split; [reflexivity|]. split; [|inversion W2; assumption].
  apply (history_run ty h s0 s1 t1 H). apply L. discriminate.
Qed.

(* for the examples: every place of the storage has old bytes in it *)
Definition old (_ : Z) : Z := 170.
Definition news : list (Z * (Z -> Z)) := map (fun k => (Z.of_nat k * 65536, old)) (seq 1 9).
Definition ex0 (fails : list Z) : st := mkSt (fresh (fun _ => false)) fails news [].

(* ---- C24 ---- *)

(* no call aborts or uses anything which is not there *)
Theorem file_calls_never_abort : forall ty h s0 s1 t, history ty h s0 s1 t -> forall c, In c t -> snd c <> Bad.
Proof. intros ty h s0 s1 t H. apply (history_run ty h s0 s1 t H). Qed.

(* each byte read is the last one written there and not since truncated, punched or zeroed, or
   zero; the read ends at the size of the file.  Bytes at which a failed call has been are left
   open, and so is the size after a failed write *)
Theorem read_returns_last_written : forall ty h s0 s1 t i off len d,
  history ty (h ++ [ORead i off len]) s0 s1 (t ++ [(ORead i off len, Ok (VBytes d))]) ->
  (forall z, last_size 0 t i = Some z -> zlen d = Z.max 0 (Z.min len (z - off))) /\
  (forall k v, 0 <= k < zlen d -> last_val 0 t i (off + k) = Some v -> znth d k 0 = v).
Proof.
  intros ty h s0 s1 t i off len d H. destruct (history_snoc _ _ _ _ _ _ H) as (s2 & t1 & r & H1 & X & E & R & Wf).
  apply app_inj_tail in E. destruct E as [-> E]. assert (r = Ok (VBytes d)) by congruence. subst r. clear E.
  destruct (history_run _ _ _ _ _ H1) as (N & I & _ & _ & V & Sz). cbn [exec lift wf_op] in *.
  pose proof (sp_do_read (s_w s2) i off len I Wf s2 eq_refl N) as P. unfold lift in X. destruct (do_read i off len s2) as [s3 [d'|e|]]; cbn [fst snd] in X; try discriminate.
  assert (d' = d) by congruence. subst d'. destruct P as (_ & _ & Ho & D).
  set (n := Z.min (off + len) (fi_size (w_ino (s_w s2) i)) - off) in *.
  assert (L : zlen d = Z.max 0 n).
  { destruct (Z_le_dec 0 n) as [G|G]; [rewrite D, slice_len; lia|]. rewrite D. unfold slice. replace (Z.to_nat n) with O by lia. cbn. lia. }
  split.
  - intros z Lz. rewrite L. unfold n. rewrite (Sz i z Lz). lia.
  - intros k v K Lv. rewrite D. apply V in Lv; [|lia]. rewrite <- Lv. apply slice_at; lia.
Qed.
Example read_last_ex :
  snd (run [OWrite 7 100 [1; 2; 3; 4; 5]; OWrite 7 4090 [6; 7; 8; 9; 10; 11; 12; 13]; OFalloc 7 3 102 2; OTrunc 7 4097; ORead 7 98 8; ORead 7 4088 100] (ex0 []))
  = [(OWrite 7 100 [1; 2; 3; 4; 5], Ok VUnit); (OWrite 7 4090 [6; 7; 8; 9; 10; 11; 12; 13], Ok VUnit); (OFalloc 7 3 102 2, Ok VUnit); (OTrunc 7 4097, Ok VUnit);
     (ORead 7 98 8, Ok (VBytes [0; 0; 1; 2; 0; 0; 5; 0])); (ORead 7 4088 100, Ok (VBytes [0; 0; 6; 7; 8; 9; 10; 11; 12]))].
Proof. vm_compute. reflexivity. Qed.
Print Assumptions file_calls_never_abort.
Print Assumptions read_returns_last_written.

(* ---- C19, the part of the files ---- *)

(* byte x of file i has been covered by a write, or by a failed call *)
Definition touches (c : op * res val) (i x : Z) : bool :=
  match c with
  | (OWrite j off dat, _) => (j =? i) && inr off (off + zlen dat) x
  | (OTrunc j off, r) => (j =? i) && (off <=? x) && negb (isok r)
  | (OFalloc j _ off len, r) => (j =? i) && inr off (off + len) x && negb (isok r)
  | _ => false
  end.
Lemma untouched : forall t i x, (forall c, In c t -> touches c i x = false) -> last_val 0 t i x = Some 0.
Proof.
  intros t i x. unfold last_val. induction t as [|c t IH]; intro H; [reflexivity|]. cbn [fold_left].
  assert (E : val1 i x (Some 0) c = Some 0).
  { specialize (H c (or_introl eq_refl)). destruct c as [[j off len|j off dat|j off|j mode off len|hole j off] r]; cbn [touches val1] in *; try reflexivity.
    - destruct (j =? i); [|reflexivity]. cbn [andb] in *. rewrite H, andb_false_r. reflexivity.
    - destruct (j =? i); [|reflexivity]. cbn [andb] in *. destruct (off <=? x); [|rewrite andb_false_r; reflexivity].
      destruct (isok r); [|discriminate]. rewrite andb_true_r. destruct (io_args off 0); reflexivity.
    - destruct (j =? i); [|reflexivity]. cbn [andb] in *. destruct (inr off (off + len) x); [|rewrite andb_false_r; reflexivity].
      destruct (isok r); [|discriminate]. rewrite andb_true_r. destruct (negb (reserves mode) && io_args off len); reflexivity. }
  rewrite E. apply IH. intros c' H'. apply H. right. exact H'.
Qed.
(* whatever was in the space given to the file, by reservation or by a write nearby, a byte not
   written reads as zero *)
Theorem unwritten_reads_zero : forall ty h s0 s1 t i off len d,
  history ty (h ++ [ORead i off len]) s0 s1 (t ++ [(ORead i off len, Ok (VBytes d))]) ->
  forall k, 0 <= k < zlen d -> (forall c, In c t -> touches c i (off + k) = false) -> znth d k 0 = 0.
Proof.
  intros ty h s0 s1 t i off len d H k K U. destruct (read_returns_last_written _ _ _ _ _ _ _ _ _ H) as [_ P].
  apply (P k 0 K). apply untouched, U.
Qed.
Example unwritten_ex :
  snd (run [OFalloc 7 0 0 3000; OWrite 7 2050 [1]; OFalloc 8 0 65536 10; OFalloc 8 2 65536 10; ORead 7 1020 8; ORead 7 2047 5; ORead 8 65530 20] (ex0 []))
  = [(OFalloc 7 0 0 3000, Ok VUnit); (OWrite 7 2050 [1], Ok VUnit); (OFalloc 8 0 65536 10, Ok VUnit); (OFalloc 8 2 65536 10, Err EOPNOTSUPP);
     (ORead 7 1020 8, Ok (VBytes [0; 0; 0; 0; 0; 0; 0; 0])); (ORead 7 2047 5, Ok (VBytes [0; 0; 0; 1; 0]));
     (ORead 8 65530 20, Ok (VBytes [0; 0; 0; 0; 0; 0; 0; 0; 0; 0; 0; 0; 0; 0; 0; 0]))].
Proof. vm_compute. reflexivity. Qed.
Print Assumptions unwritten_reads_zero.

(* ---- C26 ---- *)

Lemma exec_trunc : forall i a s s' r, Inv (s_w s) -> refs1 (s_w s) -> nof s -> exec (OTrunc i a) s = (s', Ok r) ->
  nof s' /\ Trunc i a (s_w s) (s_w s') /\ refs1 (s_w s') /\ 0 <= a /\ (forall x, a <= x -> content (s_w s') i x = 0) /\ fi_size (w_ino (s_w s') i) = a.
Proof.
  intros i a s s' r I R N X. cbn [exec] in X. unfold lift in X.
  pose proof (sp_do_truncate (s_w s) i a I R s eq_refl N) as P. destruct (do_truncate i a s) as [s1 [u|e|]]; cbn [fst snd] in X; try discriminate.
  assert (s1 = s') by congruence. subst s1. destruct P as (N' & R1 & T & Rf & D & Sz & _).
  split; [exact N'|]. split; [exact T|]. split; [exact Rf|]. split; [lia|]. split; assumption.
Qed.
Lemma exec_read : forall i off len s s' d, Inv (s_w s) -> nof s -> 0 <= len -> exec (ORead i off len) s = (s', Ok (VBytes d)) ->
  nof s' /\ s_w s' = s_w s /\ 0 <= off /\ zlen d = Z.max 0 (Z.min len (fi_size (w_ino (s_w s) i) - off)) /\
  forall k, 0 <= k < zlen d -> znth d k 0 = content (s_w s) i (off + k).
Proof.
  intros i off len s s' d I N L X. cbn [exec] in X. unfold lift in X.
  pose proof (sp_do_read (s_w s) i off len I L s eq_refl N) as P. destruct (do_read i off len s) as [s1 [u|e|]]; cbn [fst snd] in X; try discriminate.
  assert (s1 = s') by congruence. assert (u = d) by congruence. subst. destruct P as (N' & E & Ho & D).
  assert (Ld : zlen d = Z.max 0 (Z.min len (fi_size (w_ino (s_w s) i) - off))).
  { rewrite D. set (n := Z.min (off + len) _ - off). destruct (Z_le_dec 0 n) as [G|G]; [rewrite slice_len; lia|].
    unfold slice. replace (Z.to_nat n) with O by lia. cbn. lia. }
  split; [exact N'|]. split; [exact E|]. split; [exact Ho|]. split; [exact Ld|]. intros k K. rewrite D. apply slice_at. lia.
Qed.
(* after truncating to a and then to b, the bytes from a on are zero and the others are as they
   were, whatever the history before *)
Theorem truncate_and_back : forall ty h s0 s1 t i off len len' a b d d' r r',
  history ty (((h ++ [ORead i off len]) ++ [OTrunc i a]) ++ [OTrunc i b] ++ [ORead i off len']) s0 s1
    (((t ++ [(ORead i off len, Ok (VBytes d))]) ++ [(OTrunc i a, Ok r)]) ++ [(OTrunc i b, Ok r')] ++ [(ORead i off len', Ok (VBytes d'))]) ->
  a <= b ->
  zlen d' = Z.max 0 (Z.min len' (b - off)) /\
  (forall k, 0 <= k < zlen d' -> a <= off + k -> znth d' k 0 = 0) /\
  (forall k, 0 <= k < zlen d' -> k < zlen d -> off + k < a -> znth d' k 0 = znth d k 0).
Proof.
  intros ty h s0 s1 t i off len len' a b d d' r r' H L. rewrite !app_assoc in H.
  destruct (history_snoc _ _ _ _ _ _ H) as (s2 & t2 & q2 & H2 & X2 & E2 & _ & W2). apply app_inj_tail in E2. destruct E2 as [<- E2].
  assert (q2 = Ok (VBytes d')) by congruence. subst q2. clear E2 H.
  destruct (history_snoc _ _ _ _ _ _ H2) as (s3 & t3 & q3 & H3 & X3 & E3 & _ & W3). apply app_inj_tail in E3. destruct E3 as [<- E3].
  assert (q3 = Ok r') by congruence. subst q3. clear E3 H2.
  destruct (history_snoc _ _ _ _ _ _ H3) as (s4 & t4 & q4 & H4 & X4 & E4 & _ & W4). apply app_inj_tail in E4. destruct E4 as [<- E4].
  assert (q4 = Ok r) by congruence. subst q4. clear E4 H3.
  destruct (history_snoc _ _ _ _ _ _ H4) as (s5 & t5 & q5 & H5 & X5 & E5 & R5 & W5). apply app_inj_tail in E5. destruct E5 as [<- E5].
  assert (q5 = Ok (VBytes d)) by congruence. subst q5. clear E5 H4.
  destruct (history_run _ _ _ _ _ H5) as (N5 & I5 & _). cbn [wf_op] in *.
  destruct (exec_read _ _ _ _ _ _ I5 N5 W5 X5) as (N4 & E4 & Ho & _ & D1). rewrite <- E4 in I5, R5.
  destruct (exec_trunc _ _ _ _ _ I5 R5 N4 X4) as (N3 & T3 & R3 & A0 & Z3 & _).
  destruct (exec_trunc _ _ _ _ _ (t_inv _ _ _ _ T3) R3 N3 X3) as (N2 & T2 & R2 & B0 & Z2 & S2).
  destruct (exec_read _ _ _ _ _ _ (t_inv _ _ _ _ T2) N2 W2 X2) as (_ & _ & _ & Ld & D2). rewrite S2 in Ld.
  split; [exact Ld|]. split.
  - intros k K G. rewrite D2 by exact K. destruct (Z_lt_dec (off + k) b) as [Q|Q]; [|apply Z2; lia]. rewrite (t_low _ _ _ _ T2) by lia. apply Z3. exact G.
  - intros k K K' G. rewrite D2 by exact K. rewrite (t_low _ _ _ _ T2), (t_low _ _ _ _ T3), E4 by lia. symmetry. apply D1. lia.
Qed.
Example truncate_back_ex :
  snd (run [OWrite 7 65534 [1; 2; 3; 4; 5]; ORead 7 65533 6; OTrunc 7 65537; OTrunc 7 65539; ORead 7 65533 9] (ex0 []))
  = [(OWrite 7 65534 [1; 2; 3; 4; 5], Ok VUnit); (ORead 7 65533 6, Ok (VBytes [0; 1; 2; 3; 4; 5])); (OTrunc 7 65537, Ok VUnit); (OTrunc 7 65539, Ok VUnit);
     (ORead 7 65533 9, Ok (VBytes [0; 1; 2; 3; 0; 0]))].
Proof. vm_compute. reflexivity. Qed.
Print Assumptions truncate_and_back.

(* ---- C25 ---- *)

(* the leaf over an offset: 4 of 1K and 15 of 4K in the inode, then 64K leaves of the tree; or
   only the latter *)
Definition leaf_len (ty2 : bool) (x : Z) : Z :=
  if ty2 then 65536 else if x <? 4096 then 1024 else if x <? 65536 then 4096 else 65536.
(* steps from a node of the tree to the one over an offset which holds leaves: by slot, each slot
   standing for an equal part of what the node stands for *)
Inductive down (W : world) (x : Z) : Z -> nat -> Z -> Prop :=
| down_end a n : w_node W a = Some n -> n_height n = 2 -> n_beg n <= x < n_beg n + 1024 * 65536 -> down W x a 0 a
| down_next a n d b : w_node W a = Some n -> 3 <= n_height n ->
    let part := 65536 * 1024 ^ (n_height n - 2) in
    n_beg n <= x < n_beg n + 1024 * part -> down W x (n_child n ((x - n_beg n) / part)) d b -> down W x a (S d) b.

Lemma part_sub : forall h, 2 <= h <= 5 -> sub_of h = 65536 * 1024 ^ (h - 2).
Proof. intros h H. assert (h = 2 \/ h = 3 \/ h = 4 \/ h = 5) as [-> | [-> | [-> | ->]]] by lia; reflexivity. Qed.
Lemma walk_down : forall W x b, tree_inv W -> forall d a n, w_node W a = Some n -> n_height n <= Z.of_nat d + 1 -> walk d W a x = Some b ->
  exists k, down W x a k b /\ Z.of_nat k = n_height n - 2.
Proof.
  intros W x b T. induction d as [|d IH]; intros a n Ha Hd E; [discriminate|]. rewrite walk_S, Ha in E.
  destruct (n_inrange n x) eqn:R; [|discriminate]. apply inrange_iff in R. destruct (ti_shape W T a n Ha) as [_ Sh]. pose proof (sh_h n Sh) as Hh.
  pose proof (sh_end n Sh) as He. rewrite span_eq in He by exact Hh.
  destruct (n_height n <=? 2) eqn:B.
  - assert (b = a) by congruence. subst b. exists O. assert (H2 : n_height n = 2) by lia. split; [|lia]. rewrite H2, sub2 in He. apply (down_end W x a n Ha H2). lia.
  - destruct (child_at n (slot_of n x)) as [[tt c]|] eqn:C; [|discriminate]. apply child_at_some in C. destruct C as (Hc & _ & ->).
    destruct (ti_child W T a n (slot_of n x)) as (m & Hm & _ & Mh & _); [split; [exact Ha|lia]|apply slot_range; assumption|exact Hc|].
    destruct (IH _ m Hm ltac:(lia) E) as (k & Dk & Kk). exists (S k). split; [|lia].
    pose proof (part_sub (n_height n) Hh) as Ps. rewrite slot_spec in Dk by assumption. rewrite Ps in Dk, He.
    apply (down_next W x a n k b Ha); [lia|cbv zeta; lia|exact Dk].
Qed.
(* each offset has its leaf, of the right length, and its position there; the leaf is in the
   inode, or found by at most 3 steps from the root, in the slot for that offset; two different
   offsets, or files, never share a place *)
Theorem offset_place_unique : forall W i x q, reached W -> 0 <= x -> key_of W i x = Some q ->
  ksize q = leaf_len (fi_ty2 (w_ino W i)) x /\
  (forall j y, 0 <= y -> key_of W j y = Some q -> y mod ksize q = x mod ksize q -> j = i /\ y = x) /\
  (forall y, 0 <= y -> y / ksize q = x / ksize q -> key_of W i y = Some q) /\
  match q with
  | KH j k => j = i /\ 1 <= k <= 19 /\ fi_ty2 (w_ino W i) = false /\
              (if k <=? 15 then 4096 * k <= x < 4096 * (k + 1) else 1024 * (k - 16) <= x < 1024 * (k - 15))
  | KN b s => exists r d m, root_of W i = Some r /\ down W x r d b /\ (d <= 3)%nat /\ w_node W b = Some m /\ n_ino m = i /\
              0 <= s < 1024 /\ n_beg m + 65536 * s <= x < n_beg m + 65536 * (s + 1)
  end.
Proof.
  intros W i x q Rc H E. apply reached_inv in Rc. destruct Rc as [T K].
  assert (Ks : ksize q = leaf_len (fi_ty2 (w_ino W i)) x).
  { unfold ksize. rewrite (key_of_type W i x q H E). unfold cur_ltype, leaf_len.
    destruct (kind_cases (fi_ty2 (w_ino W i)) x H) as [(X & Y & R)|[(X & Y & R)|(X & R)]]; rewrite X.
    - rewrite Y. replace (x <? 4096) with true by lia. reflexivity.
    - rewrite Y. replace (x <? 4096) with false by lia. replace (x <? 65536) with true by lia. reflexivity.
    - destruct (fi_ty2 (w_ino W i)); [reflexivity|]. destruct R as [R|R]; [discriminate|]. replace (x <? 4096) with false by lia. replace (x <? 65536) with false by lia. reflexivity. }
  split; [exact Ks|]. split; [|split].
  - intros j y Y Ej M. destruct (key_inj W j i y x q T Y H Ej E) as [-> D]. split; [reflexivity|]. destruct (size_cases q) as [S|[S|S]]; rewrite S in *; lia.
  - intros y Y D. apply (key_same W i x y q T H Y E). symmetry. exact D.
  - unfold key_of in E. destruct (kind_cases (fi_ty2 (w_ino W i)) x H) as [(X & Y & R)|[(X & Y & R)|(X & R)]]; rewrite X in E.
    + assert (q = KH i (head_abs HD1 (head_slot HD1 x))) by congruence. subst q. split; [reflexivity|].
      unfold head_abs, head_slot, head1_abs, head1_slot, HEAD2_N, HEAD1_LEAF. rewrite Z.quot_div_nonneg by lia.
      assert (0 <= x / 1024 < 4) by lia. split; [lia|]. split; [exact Y|]. replace (1 + 15 + x / 1024 <=? 15) with false by lia. lia.
    + assert (q = KH i (head_abs HD2 (head_slot HD2 x))) by congruence. subst q. split; [reflexivity|].
      unfold head_abs, head_slot, head2_abs, head2_slot, HEAD2_LEAF. change head1_max with 4096. rewrite Z.quot_div_nonneg by lia.
      assert (0 <= (x - 4096) / 4096 < 15) by lia. split; [lia|]. split; [exact Y|]. replace (1 + (x - 4096) / 4096 <=? 15) with true by lia. lia.
    + destruct (bottom W i x) as [b|] eqn:B; [|discriminate]. assert (q = KN b (leaf_slot x)) by congruence. subst q.
      destruct (bottom_found W i x b T B) as (m & Hm & Im & H2 & Rm). unfold bottom in B. destruct (root_of W i) as [r|] eqn:Er; [|discriminate].
      assert (exists n, w_node W r = Some n) as [n Hn].
      { unfold root_of in Er. destruct (fi_slot (w_ino W i) 0) as [[tt r']|] eqn:F; [|discriminate]. assert (r' = r) by congruence. subst r'.
        destruct (ti_root W T i tt r F) as (_ & n & Hn & _). exists n. exact Hn. }
      destruct (ti_shape W T r n Hn) as [_ Sn]. pose proof (sh_h n Sn) as Hh.
      destruct (walk_down W x b T 5 r n Hn ltac:(lia) B) as (d & Dd & Kd). exists r, d, m.
      split; [reflexivity|]. split; [exact Dd|]. split; [lia|]. split; [exact Hm|]. split; [exact Im|].
      destruct (ti_shape W T b m Hm) as [_ Sm]. pose proof (sh_end m Sm) as He. rewrite H2 in He. change (span_by_height 2) with 67108864 in He.
      rewrite (leaf_slot_spec m x Sm H2 Rm), (slot_spec m x Sm Rm), H2, sub2. lia.
Qed.
Definition ex25 : world := s_w (fst (run [OWrite 7 5000 [1]; OWrite 7 134283290 [2]] (ex0 []))).
Lemma reach_ex : forall h f, ~ In ENOENT f -> Forall wf_op h -> sane (snd (run h (ex0 f))) -> reached (s_w (fst (run h (ex0 f)))).
Proof.
  intros h f N Wf S. exists (fun _ => false), h, (ex0 f), (fst (run h (ex0 f))), (snd (run h (ex0 f))). split; [|reflexivity].
  split; [reflexivity|]. split; [exact N|]. split; [exact Wf|]. split; [destruct (run h (ex0 f)); reflexivity|exact S].
Qed.
Lemma ex25_reached : reached ex25.
Proof. apply reach_ex; [intros []|repeat constructor|]. vm_compute. intuition discriminate. Qed.
Example offset_place_ex : reached ex25 /\ key_of ex25 7 5001 = Some (KH 7 1) /\ root_of ex25 7 = Some 196608 /\ key_of ex25 7 134283290 = Some (KN 262144 1) /\
  (exists n, w_node ex25 262144 = Some n /\ n_beg n = 134217728 /\ n_height n = 2).
Proof.
  split; [exact ex25_reached|]. split; [vm_compute; reflexivity|]. split; [vm_compute; reflexivity|]. split; [vm_compute; reflexivity|].
  eexists. split; [vm_compute; reflexivity|]. split; reflexivity.
Qed.
(* the height chosen for an offset is enough for it and never beyond 5 *)
Theorem height_covers_offset : forall x, 0 <= x < 2 ^ 56 ->
  2 <= tree_height x <= 5 /\ x < 65536 * 1024 ^ (tree_height x - 1).
Proof.
  intros x H. destruct (tree_height_spec x H) as [A B]. split; [exact A|].
  assert (E : span_by_height (tree_height x) = 65536 * 1024 ^ (tree_height x - 1)).
  { generalize dependent (tree_height x). intros h A _. assert (h = 2 \/ h = 3 \/ h = 4 \/ h = 5) as [-> | [-> | [-> | ->]]] by lia; reflexivity. }
  rewrite <- E. exact B.
Qed.
Example height_ex : map tree_height [0; 65536; 67108863; 67108864; 2 ^ 40; 2 ^ 56 - 1] = [2; 2; 2; 3; 4; 5].
Proof. reflexivity. Qed.
Print Assumptions offset_place_unique.
Print Assumptions height_covers_offset.

(* ---- C28 ---- *)

(* SEEK_DATA ends in a leaf held by the file, before its end; all it passed is without leaves, and
   nothing but zeros has been written there *)
Theorem seek_data_truthful : forall ty h s0 s1 t i off o,
  history ty (h ++ [OSeek false i off]) s0 s1 (t ++ [(OSeek false i off, Ok (VOff o))]) ->
  off <= o < fi_size (w_ino (s_w s1) i) /\ data_at (s_w s1) i o /\
  forall x, off <= x < o -> nodata (s_w s1) i x /\ forall v, last_val 0 t i x = Some v -> v = 0.
Proof.
  intros ty h s0 s1 t i off o H. destruct (history_snoc _ _ _ _ _ _ H) as (s2 & t1 & r & H1 & X & E & R & Wf).
  apply app_inj_tail in E. destruct E as [<- E]. assert (r = Ok (VOff o)) by congruence. subst r. clear E.
  destruct (history_run _ _ _ _ _ H1) as (N & I & _ & _ & V & _). cbn [exec] in X. unfold lift in X.
  pose proof (lseek_ok (s_w s2) i off false s2 I eq_refl N) as P. destruct (do_lseek false i off s2) as [s3 [o'|e|]]; cbn [fst snd] in X; try discriminate.
  assert (o' = o) by congruence. assert (s3 = s1) by congruence. subst. destruct P as (_ & E & R1 & R2 & L & D & Z0). rewrite E.
  split; [lia|]. split; [exact D|]. intros x Hx. split; [apply Z0, Hx|]. intros v Lv. apply V in Lv; [|lia]. rewrite <- Lv. apply nodata_zero, Z0, Hx.
Qed.
(* SEEK_HOLE ends at the end of the file, or at an offset without a leaf *)
Theorem seek_hole_truthful : forall ty h s0 s1 t i off o,
  history ty (h ++ [OSeek true i off]) s0 s1 (t ++ [(OSeek true i off, Ok (VOff o))]) ->
  off <= o <= fi_size (w_ino (s_w s1) i) /\
  (o < fi_size (w_ino (s_w s1) i) -> nodata (s_w s1) i o /\ forall v, last_val 0 t i o = Some v -> v = 0).
Proof.
  intros ty h s0 s1 t i off o H. destruct (history_snoc _ _ _ _ _ _ H) as (s2 & t1 & r & H1 & X & E & R & Wf).
  apply app_inj_tail in E. destruct E as [<- E]. assert (r = Ok (VOff o)) by congruence. subst r. clear E.
  destruct (history_run _ _ _ _ _ H1) as (N & I & _ & _ & V & _). cbn [exec] in X. unfold lift in X.
  pose proof (lseek_ok (s_w s2) i off true s2 I eq_refl N) as P. destruct (do_lseek true i off s2) as [s3 [o'|e|]]; cbn [fst snd] in X; try discriminate.
  assert (o' = o) by congruence. assert (s3 = s1) by congruence. subst. destruct P as (_ & E & R1 & R2 & C). rewrite E.
  split; [lia|]. intro L. destruct C as [C|C]; [lia|]. split; [exact C|]. intros v Lv. apply V in Lv; [|lia]. rewrite <- Lv. apply nodata_zero, C.
Qed.
(* SEEK_DATA finding nothing, with no fault below: nothing but zeros up to the end *)
Theorem seek_data_enxio : forall ty h s0 s1 t s2 i off z,
  history ty h s0 s1 t -> ~ In ENXIO (s_fail s1) -> exec (OSeek false i off) s1 = (s2, Err ENXIO) ->
  last_size 0 t i = Some z -> 0 <= off < z -> z <= FILE_SIZE_MAX ->
  forall x v, off <= x < z -> last_val 0 t i x = Some v -> v = 0.
Proof.
  intros ty h s0 s1 t s2 i off z H F X Lz Ro Rz x v Hx Lv. destruct (history_run _ _ _ _ _ H) as (N & I & _ & _ & V & Sz).
  cbn [exec] in X. unfold lift in X. pose proof (lseek_ok (s_w s1) i off false s1 I eq_refl N) as P.
  destruct (do_lseek false i off s1) as [s3 [o'|e|]]; cbn [fst snd] in X; try discriminate. assert (e = ENXIO) by congruence. subst e.
  destruct P as (_ & _ & P). rewrite (Sz i z Lz) in P. destruct (P Ro Rz eq_refl F) as [_ Z0]. apply V in Lv; [|lia]. rewrite <- Lv. apply nodata_zero, Z0, Hx.
Qed.
Example seek_ex :
  snd (run [OWrite 7 5000 [1]; OWrite 7 70000 [2]; OSeek false 7 0; OSeek false 7 9000; OSeek true 7 4500; OSeek true 7 66000; OTrunc 7 60000; OSeek false 7 9000; OSeek true 7 9000] (ex0 []))
  = [(OWrite 7 5000 [1], Ok VUnit); (OWrite 7 70000 [2], Ok VUnit); (OSeek false 7 0, Ok (VOff 4096)); (OSeek false 7 9000, Ok (VOff 65536));
     (OSeek true 7 4500, Ok (VOff 8192)); (OSeek true 7 66000, Ok (VOff 70001)); (OTrunc 7 60000, Ok VUnit); (OSeek false 7 9000, Err ENXIO); (OSeek true 7 9000, Ok (VOff 9000))].
Proof. vm_compute. reflexivity. Qed.
Print Assumptions seek_data_truthful.
Print Assumptions seek_hole_truthful.
Print Assumptions seek_data_enxio.

(* ---- C43 ---- *)

(* the leaves held by file i: in slots of its inode, or of tree nodes made for it *)
Definition held_leaf (W : world) (i : Z) (q : key) : Prop :=
  match q with
  | KH j k => j = i /\ 1 <= k <= 19 /\ fi_ty2 (w_ino W i) = false /\ fi_slot (w_ino W i) k <> None
  | KN a s => exists n, w_node W a = Some n /\ n_ino n = i /\ n_height n = 2 /\ 0 <= s < 1024 /\ n_child n s >= 0
  end.
Definition leaf_bytes (q : key) : Z := match q with KH _ k => if k <=? 15 then 4096 else 1024 | KN _ _ => 65536 end.
(* the blocks reported, of 512 bytes, are those of the leaves held *)
Theorem blocks_are_held_leaves : forall W i, reached W -> exists l,
  NoDup l /\ (forall q, In q l <-> held_leaf W i q) /\ 512 * stat_blocks (w_ino W i) = zsum (map leaf_bytes l).
Proof.
  intros W i Rc. apply reached_inv in Rc. destruct Rc as [T K]. destruct (ki_blocks W K i) as (l & Nd & El & Bl). exists l.
  split; [exact Nd|]. split.
  - intro q. rewrite El. destruct q as [j k|a s]; cbn [hold owner held_leaf].
    + destruct ((1 <=? k) && (k <=? 19) && negb (fi_ty2 (w_ino W j))) eqn:C.
      * split; [intros [A B]; assert (j = i) by congruence; subst j; split; [reflexivity|]; split; [lia|]; split; [destruct (fi_ty2 (w_ino W i)); [lia|reflexivity]|exact A]|].
        intros (-> & _ & _ & A). split; [exact A|reflexivity].
      * split; [intros [A _]; congruence|]. intros (-> & A & B & _). rewrite B in C. cbn in C. lia.
    + destruct (w_node W a) as [n|]; [|split; [intros [A _]; congruence|intros (n & A & _); discriminate]].
      destruct ((n_height n =? 2) && (0 <=? s) && (s <? 1024)) eqn:C.
      * unfold child_at. destruct (has_child n s) eqn:Hc.
        -- apply has_child_iff in Hc. split; [intros [_ A]; exists n; repeat split; try congruence; lia|]. intros (m & A & B & _). assert (m = n) by congruence. subst m. split; [discriminate|congruence].
        -- split; [intros [A _]; congruence|]. intros (m & A & B & C1 & C2 & C3). assert (m = n) by congruence. subst m. exfalso.
           assert (has_child n s = true) by (apply has_child_iff; lia). congruence.
      * split; [intros [A _]; congruence|]. intros (m & A & B & C1 & C2 & C3). assert (m = n) by congruence. subst m. lia.
  - unfold stat_blocks, KB_SIZE. rewrite Bl. clear. assert (E : zsum (map leaf_bytes l) = 1024 * zsum (map knk l)).
    { induction l as [|q l IH]; [reflexivity|]. cbn [map]. rewrite !zsum_cons, IH. unfold leaf_bytes, knk, ktype. destruct q as [j k|a s]; [destruct (k <=? 15)|]; cbn [ltype_nkbs ltype_size]; change (ltype_nkbs LT_DATA4K) with 4; change (ltype_nkbs LT_DATA1K) with 1; change (ltype_nkbs LT_DATABK) with 64; lia. }
    rewrite E. lia.
Qed.
Example blocks_ex : reached ex25 /\ stat_blocks (w_ino ex25 7) = 136 /\ held_leaf ex25 7 (KH 7 1) /\ held_leaf ex25 7 (KN 262144 1).
Proof.
  split; [exact ex25_reached|]. split; [vm_compute; reflexivity|]. split.
  - cbn [held_leaf]. split; [reflexivity|]. split; [lia|]. split; [vm_compute; reflexivity|]. vm_compute. discriminate.
  - cbn [held_leaf]. eexists. split; [vm_compute; reflexivity|]. split; [reflexivity|]. split; [reflexivity|]. split; [lia|]. vm_compute. discriminate.
Qed.
Print Assumptions blocks_are_held_leaves.
