(* C01 (stored references), C02 (disjoint storage), C44 (unique IVs). *)
From Verif Require Import Base AddrModel AddrProofs MapModel MapProofs.

(* ---------- specification vocabulary ---------- *)

(* The kinds of object a file system stores: inode, xattr node, symlink value,
   directory node, file-tree node, 1K/4K/64K data. *)
Definition object_type (t : Z) : Prop := In t [5; 6; 7; 8; 9; 10; 11; 12].

(* Offsets handed out by the allocator are multiples of one kilobyte.  2^54 is far
   beyond the largest volume (64 TiB = 2^46). *)
Definition legal_offset (off : Z) : Prop := 0 <= off < 2 ^ 54 /\ off mod 1024 = 0.

(* An encoding of a set of references is faithful if decoding inverts it. *)
Definition faithful {A} (ok : A -> Prop) (enc : A -> bytes) (dec : bytes -> A) : Prop :=
  forall a, ok a -> dec (enc a) = a.
Definition unambiguous {A} (ok : A -> Prop) (enc : A -> bytes) : Prop :=
  forall a b, ok a -> ok b -> enc a = enc b -> a = b.

Lemma faithful_unambiguous : forall A (ok : A -> Prop) enc dec,
  faithful ok enc dec -> unambiguous ok enc.
Proof. intros A ok enc dec H a b Ha Hb E. rewrite <- (H a Ha), <- (H b Hb), E. auto. Qed.

(* ---------- C01 ---------- *)

(* 56-bit form: offset only; the "no object" value is -1 *)
Definition ref56 (off : Z) : Prop := off = -1 \/ legal_offset off.

Theorem C01_vaddr56 :
  faithful ref56 vaddr56_htox vaddr56_xtoh /\ unambiguous ref56 vaddr56_htox /\
  (forall off, ref56 off -> length (vaddr56_htox off) = 7%nat /\ all_bytes (vaddr56_htox off)).
Proof.
  assert (F : faithful ref56 vaddr56_htox vaddr56_xtoh).
  { intros off [E|[R M]].
    - subst. reflexivity.
    - apply vaddr56_roundtrip; lia. }
  split; [exact F|]. split; [exact (faithful_unambiguous _ _ _ _ F)|].
  intros off [E|[R M]].
  - subst. split; [reflexivity|]. repeat constructor; unfold is_byte; lia.
  - unfold vaddr56_htox, off_isnull. replace (off <? 0) with false by lia. cbv zeta.
    rewrite u64_id by lia. rewrite vaddr56_digits by lia.
    split; [apply le_enc_length | apply le_enc_bytes].
Qed.
Example C01_vaddr56_ex : ref56 (2 ^ 45 + 77 * 1024) /\ ref56 (-1) /\
  vaddr56_htox (2 ^ 45 + 77 * 1024) <> vaddr56_htox (-1).
Proof. split; [right; split; [lia|reflexivity]|]. split; [left; reflexivity|]. vm_compute. discriminate. Qed.
Print Assumptions C01_vaddr56.

(* 64-bit form: type and offset *)
Definition ref64 (v : vaddr) : Prop :=
  v = vaddr_none \/
  exists t off, object_type t /\ legal_offset off /\ v = vaddr_setup t off.

Lemma object_type_range : forall t, object_type t -> 5 <= t <= 12.
Proof. unfold object_type. intros t H. simpl in H. lia. Qed.

Theorem C01_vaddr64 :
  faithful ref64 vaddr64_htox vaddr64_xtoh /\ unambiguous ref64 vaddr64_htox /\
  (forall v, ref64 v -> vaddr_isnull (vaddr64_xtoh (vaddr64_htox v)) = true -> v = vaddr_none).
Proof.
  assert (F : faithful ref64 vaddr64_htox vaddr64_xtoh).
  { intros v [E|(t & off & Ht & [R M] & E)]; subst.
    - apply vaddr64_none_roundtrip.
    - apply object_type_range in Ht. apply vaddr64_roundtrip; lia. }
  split; [exact F|]. split; [exact (faithful_unambiguous _ _ _ _ F)|].
  intros v Hv N. rewrite (F v Hv) in N.
  destruct Hv as [E|(t & off & Ht & [R M] & E)]; auto. exfalso. subst.
  unfold vaddr_isnull, vaddr_setup, off_isnull in N. cbn [va_len va_off va_ltype] in N.
  unfold object_type in Ht.
  assert (S : ltype_size t <> 0 /\ t <> LT_NONE).
  { simpl in Ht. repeat (destruct Ht as [Ht|Ht]; [subst; split; vm_compute; congruence|]). contradiction. }
  destruct S. unfold LT_NONE in *.
  apply orb_true_iff in N. destruct N as [N|N]; [apply orb_true_iff in N; destruct N as [N|N]|]; lia.
Qed.
Example C01_vaddr64_ex : ref64 (vaddr_setup LT_DATABK (3 * 2 ^ 40)) /\ ref64 vaddr_none /\
  vaddr64_htox (vaddr_setup LT_DATABK (3 * 2 ^ 40)) <> vaddr64_htox vaddr_none.
Proof.
  split; [right; exists LT_DATABK, (3 * 2 ^ 40); split; [vm_compute; tauto|repeat split; vm_compute; congruence]|].
  split; [left; reflexivity|]. vm_compute. discriminate.
Qed.
Print Assumptions C01_vaddr64.

(* segment addresses: a 16-byte volume id, 32-bit size/index/position/length and
   8-bit type fields *)
Definition ref_laddr (a : laddr) : Prop :=
  length (ls_lvid (la_lsid a)) = 16%nat /\
  0 <= ls_lsize (la_lsid a) < 2 ^ 32 /\ 0 <= ls_vindex (la_lsid a) < 2 ^ 32 /\
  0 <= ls_vspace (la_lsid a) < 256 /\ 0 <= ls_height (la_lsid a) < 256 /\
  0 <= ls_ltype (la_lsid a) < 256 /\
  0 <= la_pos a < 2 ^ 32 /\ 0 <= la_len a < 2 ^ 32.

Lemma ref_laddr_wf : forall a, ref_laddr a -> laddr_wf a.
Proof. intros a (H1 & H2 & H3 & H4 & H5 & H6 & H7 & H8). repeat split; auto; lia. Qed.

Theorem C01_laddr48b :
  faithful ref_laddr laddr48b_htox laddr48b_xtoh /\ unambiguous ref_laddr laddr48b_htox.
Proof.
  assert (F : faithful ref_laddr laddr48b_htox laddr48b_xtoh).
  { intros a H. apply laddr48b_roundtrip. apply ref_laddr_wf; auto. }
  split; [exact F|exact (faithful_unambiguous _ _ _ _ F)].
Qed.
Example C01_laddr48b_ex :
  ref_laddr (laddr_setup (lsid_setup (repeat 7 16) (2 ^ 40) LT_INODE H_VDATA LT_INODE) (2 ^ 40 + 4096) 1024).
Proof. repeat split; vm_compute; congruence. Qed.
Print Assumptions C01_laddr48b.

(* The written form of "no address" (silofs_laddr_reset: all-zero volume id, no
   type, no size, index UINT32_MAX, position -1) reads back as "no address", though
   its position does not survive as -1. *)
Definition laddr_reset_val : laddr := mkLaddr (mkLsid (repeat 0 16) 0 4294967295 0 0 0) (-1) 0.
Theorem C01_laddr48b_null :
  laddr_isnull laddr_reset_val = true /\
  laddr_isnull (laddr48b_xtoh (laddr48b_htox laddr_reset_val)) = true /\
  forall a, ref_laddr a -> laddr_isnull a = false ->
    laddr48b_htox a <> laddr48b_htox laddr_reset_val.
Proof.
  split; [reflexivity|]. split; [vm_compute; reflexivity|].
  intros a Ha N E. apply (f_equal laddr48b_xtoh) in E.
  rewrite (proj1 C01_laddr48b a Ha) in E. rewrite E in N. vm_compute in N. discriminate.
Qed.
Print Assumptions C01_laddr48b_null.

(* Finding: an address that is null only through its position (a real segment with
   position -1, as laddr_setup yields for a null offset) is written as position
   0xFFFFFFFF and read back as a non-null address. *)
Theorem C01_laddr48b_null_pos_refuted :
  exists a, laddr_isnull a = true /\ laddr_isnull (laddr48b_xtoh (laddr48b_htox a)) = false.
Proof.
  exists (laddr_setup (lsid_setup (repeat 7 16) 0 LT_INODE H_VDATA LT_INODE) (-1) 1024).
  vm_compute. auto.
Qed.
Print Assumptions C01_laddr48b_null_pos_refuted.

(* space-map references (segment address plus virtual offset) *)
Definition ref_uaddr (u : uaddr) : Prop :=
  ref_laddr (ua_laddr u) /\ - 2 ^ 63 <= ua_voff u < 2 ^ 63.
Theorem C01_uaddr64b : forall pad,
  faithful ref_uaddr (uaddr64b_htox pad) uaddr64b_xtoh /\
  unambiguous ref_uaddr (uaddr64b_htox pad).
Proof.
  intros pad. assert (F : faithful ref_uaddr (uaddr64b_htox pad) uaddr64b_xtoh).
  { intros u [H V]. apply uaddr64b_roundtrip; auto. apply ref_laddr_wf; auto. }
  split; [exact F|exact (faithful_unambiguous _ _ _ _ F)].
Qed.
Example C01_uaddr64b_ex :
  ref_uaddr (mkUaddr (laddr_setup (lsid_setup (repeat 7 16) 0 LT_INODE H_SPLEAF LT_SPLEAF) 32768 32768) 16777216).
Proof. repeat split; vm_compute; congruence. Qed.
Print Assumptions C01_uaddr64b.

(* physical-volume references *)
Definition ref_paddr (p : paddr) : Prop :=
  length (pa_pvid p) = 16%nat /\ 0 <= pa_index p < 2 ^ 32 /\
  - 2 ^ 63 <= pa_off p < 2 ^ 63 /\ 0 <= pa_len p < 2 ^ 32 /\ 0 <= pa_ptype p < 256.
Theorem C01_paddr48b :
  faithful ref_paddr paddr48b_htox paddr48b_xtoh /\ unambiguous ref_paddr paddr48b_htox.
Proof.
  assert (F : faithful ref_paddr paddr48b_htox paddr48b_xtoh).
  { intros p H. apply paddr48b_roundtrip. exact H. }
  split; [exact F|exact (faithful_unambiguous _ _ _ _ F)].
Qed.
Example C01_paddr48b_ex : ref_paddr (mkPaddr (repeat 9 16) 3 (2 ^ 33) 8192 2).
Proof. repeat split; vm_compute; congruence. Qed.
Print Assumptions C01_paddr48b.

(* length-and-height word of space-map ranges *)
Theorem C01_len_height : forall len h,
  0 <= len <= 2 ^ 58 -> 0 <= h <= 8 -> len_height_dec (len_height_enc len h) = (len, h).
Proof. intros. apply len_height_roundtrip; lia. Qed.
Example C01_len_height_ex : 0 <= 16777216 <= 2 ^ 58 /\ 0 <= H_SPLEAF <= 8.
Proof. vm_compute. intuition discriminate. Qed.
Print Assumptions C01_len_height.

(* ---------- C02 ---------- *)

(* an object at its natural alignment, as the allocator places it *)
Definition legal_object (v : vaddr) : Prop :=
  object_type (va_ltype v) /\ va_len v = ltype_size (va_ltype v) /\
  legal_offset (va_off v) /\ va_off v mod va_len v = 0.

(* two objects have no virtual byte in common *)
Definition virt_disjoint (v w : vaddr) : Prop :=
  va_ltype v <> va_ltype w \/
  forall x, ~ (va_off v <= x < va_off v + va_len v /\ va_off w <= x < va_off w + va_len w).

(* byte p of the segment file s is used by address a *)
Definition uses (a : laddr) (s : lsid) (p : Z) : Prop :=
  s = la_lsid a /\ la_pos a <= p < la_pos a + la_len a.

(* the history of the mapping: 16-byte volume ids, leaf indices within the volume *)
Definition map_history (ops : list map_op) : Prop :=
  Forall (fun o => match o with
    | MSpawn lvid _ i | MClone lvid _ i => length lvid = 16%nat /\ 0 <= i < 2 ^ 31
    | MRebind _ voff => 0 <= voff end) ops.

Lemma legal_len : forall t, object_type t ->
  In (ltype_size t) [1024; 4096; 8192; 65536].
Proof.
  unfold object_type. intros t H. simpl in H.
  repeat (destruct H as [H|H]; [subst; vm_compute; auto 6|]). contradiction.
Qed.

Lemma legal_inside : forall v, legal_object v ->
  va_off v mod LEAF_SPAN + va_len v <= LEAF_SPAN /\ 0 < va_len v.
Proof.
  intros v (T & L & [O _] & A). pose proof (legal_len _ T) as H. rewrite <- L in H.
  unfold LEAF_SPAN, LBK_SIZE, NCHILDS. simpl in H.
  destruct H as [H|[H|[H|[H|[]]]]]; rewrite <- H in *; lia.
Qed.

Theorem C02_disjoint_storage : forall ops v w a b,
  map_history ops -> legal_object v -> legal_object w -> virt_disjoint v w ->
  resolve (map_run ops) v = Some a -> resolve (map_run ops) w = Some b ->
  (forall s p, ~ (uses a s p /\ uses b s p)) /\
  (0 <= la_pos a /\ la_pos a + la_len a <= ls_lsize (la_lsid a) /\ la_len a = va_len v).
Proof.
  intros ops v w a b Hops Hv Hw Hd Ra Rb.
  assert (I : map_inv (map_run ops)) by (apply map_inv_run; exact Hops).
  destruct (resolve_pos _ _ _ I (proj1 (proj1 (proj1 (proj2 (proj2 Hv))))) Ra) as (Sa & Pa & La).
  destruct (resolve_pos _ _ _ I (proj1 (proj1 (proj1 (proj2 (proj2 Hw))))) Rb) as (Sb & Pb & Lb).
  destruct (legal_inside v Hv) as [Iv Lv]. destruct (legal_inside w Hw) as [Iw Lw].
  destruct Hv as (_ & _ & [Ov _] & _). destruct Hw as (_ & _ & [Ow _] & _).
  split.
  - intros s p [[E1 U1] [E2 U2]]. subst s.
    destruct Sa as (A1 & _ & A2 & _), Sb as (B1 & _ & B2 & _).
    rewrite E2 in A1, A2. rewrite A2 in B2. rewrite A1 in B1.
    destruct Hd as [Hd|Hd]; [congruence|].
    apply (Hd (va_off v / LEAF_SPAN * LEAF_SPAN + p)).
    rewrite Pa, La in U1. rewrite Pb, Lb in U2. rewrite B1 at 3 4.
    unfold LEAF_SPAN, LBK_SIZE, NCHILDS in *. lia.
  - destruct Sa as (_ & Z & _). rewrite Z, Pa, La.
    unfold LEAF_SPAN, LBK_SIZE, NCHILDS in *. lia.
Qed.
Example C02_disjoint_storage_ex :
  let ops := [MSpawn (repeat 1 16) LT_INODE 0; MClone (repeat 2 16) LT_INODE 0;
              MRebind LT_INODE 70656] in
  let v := vaddr_setup LT_INODE 70656 in let w := vaddr_setup LT_INODE 71680 in
  map_history ops /\ legal_object v /\ legal_object w /\ virt_disjoint v w /\
  (exists a, resolve (map_run ops) v = Some a) /\ exists b, resolve (map_run ops) w = Some b.
Proof.
  cbv zeta. split; [repeat constructor; vm_compute; congruence|].
  split; [repeat split; vm_compute; auto; try congruence|].
  split; [repeat split; vm_compute; auto; try congruence|].
  split; [right; cbn; lia|]. split; eexists; vm_compute; reflexivity.
Qed.
Print Assumptions C02_disjoint_storage.

(* every address inside a mapped leaf resolves to a place, and that place lies in
   the 64K block the leaf binds its block number to *)
Theorem C02_resolves : forall ops v l,
  map_history ops -> legal_object v ->
  map_run ops (va_ltype v) (va_off v / 16777216) = Some l ->
  exists a, resolve (map_run ops) v = Some a /\
    la_lsid a = la_lsid (lf_refs l (va_off v / 65536 mod 256)) /\
    la_pos (lf_refs l (va_off v / 65536 mod 256)) <= la_pos a /\
    la_pos a + la_len a <= la_pos (lf_refs l (va_off v / 65536 mod 256)) + 65536.
Proof.
  intros ops v l Hops Hv E.
  assert (I : map_inv (map_run ops)) by (apply map_inv_run; exact Hops).
  assert (T : 0 < va_ltype v) by (pose proof (object_type_range _ (proj1 Hv)); lia).
  pose proof (resolve_total _ v l I T E) as R.
  destruct (resolve (map_run ops) v) as [a|] eqn:Ra; [|congruence].
  exists a. split; auto.
  destruct Hv as (Ty & L & [O _] & A). pose proof (legal_len _ Ty) as H. rewrite <- L in H.
  destruct (resolve_pos _ _ _ I (proj1 O) Ra) as (_ & Pa & La).
  assert (Sl : leaf_slot (va_off v) = va_off v / 65536 mod 256).
  { unfold leaf_slot, off_to_lba, off_isnull. replace (va_off v <? 0) with false by lia.
    rewrite Z.quot_div_nonneg by (unfold LBK_SIZE; lia). reflexivity. }
  destruct (I _ _ _ E) as (_ & _ & Hr).
  destruct (Hr (leaf_slot (va_off v))) as [_ Hp]. destruct (Hp (leaf_slot_range _)) as [P1 P2].
  rewrite <- Sl. split.
  - unfold resolve in Ra. change (va_off v / 16777216) with (leaf_index (va_off v)) in E.
    rewrite E in Ra. destruct (laddr_isnull _); [discriminate|]. inversion Ra.
    apply laddr_setup_lsid.
  - rewrite P1, Pa, La, Sl. unfold LEAF_SPAN, LBK_SIZE, NCHILDS.
    simpl in H. destruct H as [H|[H|[H|[H|[]]]]]; rewrite <- H in *; lia.
Qed.
Example C02_resolves_ex :
  let ops := [MSpawn (repeat 1 16) LT_DTNODE 3] in
  let v := vaddr_setup LT_DTNODE (3 * 16777216 + 8192) in
  map_history ops /\ legal_object v /\
  exists l, map_run ops (va_ltype v) (va_off v / 16777216) = Some l.
Proof.
  cbv zeta. split; [repeat constructor; vm_compute; congruence|].
  split; [repeat split; vm_compute; auto 8; try congruence|]. eexists. vm_compute. reflexivity.
Qed.
Print Assumptions C02_resolves.

(* ---------- C44 ---------- *)

(* an address whose segment size and length are the ones the file system uses for
   its height and type (silofs_lsid_setup, silofs_vaddr_setup) *)
Definition regular_addr (a : laddr) : Prop :=
  ref_laddr a /\ ls_lsize (la_lsid a) = lseg_size (ls_height (la_lsid a)) /\
  la_len a = ltype_size (ls_ltype (la_lsid a)).

(* Two different objects of one volume encrypted under the same key and the same
   per-block random seed never use the same initialisation vector. *)
Theorem C44_iv_unique : forall main_iv seed a b,
  length main_iv = 16%nat -> length seed = 16%nat ->
  regular_addr a -> regular_addr b ->
  ls_lvid (la_lsid a) = ls_lvid (la_lsid b) ->
  cipher_iv main_iv a seed = cipher_iv main_iv b seed -> a = b.
Proof.
  intros main_iv seed a b Lm Ls (Wa & Za & Na) (Wb & Zb & Nb) Ev E.
  apply ref_laddr_wf in Wa. apply ref_laddr_wf in Wb.
  assert (La : length (laddr_as_iv a) = 16%nat).
  { rewrite laddr_as_iv_eq by auto. rewrite xor_bytes_length, iv_mix_length.
    rewrite (proj1 (proj1 Wa)). reflexivity. }
  assert (Lb : length (laddr_as_iv b) = 16%nat).
  { rewrite laddr_as_iv_eq by auto. rewrite xor_bytes_length, iv_mix_length.
    rewrite (proj1 (proj1 Wb)). reflexivity. }
  unfold cipher_iv in E.
  apply xor_bytes_cancel in E; [|rewrite xor_bytes_length, La, Ls, Lm; reflexivity
                                |rewrite xor_bytes_length, Lb, Ls, Lm; reflexivity].
  rewrite (xor_bytes_comm (laddr_as_iv a)), (xor_bytes_comm (laddr_as_iv b)) in E.
  apply xor_bytes_cancel in E; [|congruence|congruence].
  apply iv_inj; auto.
  - intros H. rewrite Za, Zb, H. reflexivity.
  - intros H. rewrite Na, Nb, H. reflexivity.
Qed.
Example C44_iv_unique_ex :
  let a off := laddr_setup (lsid_setup (repeat 7 16) off LT_INODE H_VDATA LT_INODE) off 1024 in
  regular_addr (a 4096) /\ regular_addr (a 5120) /\ a 4096 <> a 5120 /\
  ls_lvid (la_lsid (a 4096)) = ls_lvid (la_lsid (a 5120)).
Proof.
  cbv zeta. split; [repeat split; vm_compute; congruence|].
  split; [repeat split; vm_compute; congruence|].
  split; [vm_compute; congruence|vm_compute; reflexivity].
Qed.
Print Assumptions C44_iv_unique.

(* For one object, a different seed gives a different vector. *)
Theorem C44_iv_seed : forall main_iv a s1 s2,
  length main_iv = 16%nat -> length s1 = 16%nat -> length s2 = 16%nat ->
  regular_addr a -> cipher_iv main_iv a s1 = cipher_iv main_iv a s2 -> s1 = s2.
Proof.
  intros main_iv a s1 s2 Lm L1 L2 (Wa & Za & Na) E.
  apply ref_laddr_wf in Wa.
  assert (La : length (laddr_as_iv a) = 16%nat).
  { rewrite laddr_as_iv_eq by auto. rewrite xor_bytes_length, iv_mix_length.
    rewrite (proj1 (proj1 Wa)). reflexivity. }
  unfold cipher_iv in E.
  apply xor_bytes_cancel in E; [|rewrite xor_bytes_length, La, L1, Lm; reflexivity
                                |rewrite xor_bytes_length, La, L2, Lm; reflexivity].
  apply xor_bytes_cancel in E; congruence.
Qed.
Print Assumptions C44_iv_seed.
