(* Invariant of the virtual-address mapping: every block reference of leaf i of
   type t names a data segment of type t with index i. *)
From Verif Require Import Base AddrModel AddrProofs MapModel.

Definition seg_for (t i : Z) (l : lsid) : Prop :=
  ls_vindex l = i /\ ls_lsize l = LEAF_SPAN /\ ls_ltype l = t /\ ls_vspace l = t /\
  ls_height l = H_VDATA.

Definition op_ok (o : map_op) : Prop :=
  match o with
  | MSpawn lvid t i | MClone lvid t i => length lvid = 16%nat /\ 0 <= i < 2 ^ 31
  | MRebind t voff => 0 <= voff
  end.

(* reference number s of a leaf points at block s of its segment *)
Definition ref_ok (t i s : Z) (a : laddr) : Prop :=
  seg_for t i (la_lsid a) /\
  (0 <= s < NCHILDS -> la_pos a = s * LBK_SIZE /\ la_len a = LBK_SIZE).

Definition map_inv (m : volmap) : Prop :=
  forall t i l, m t i = Some l ->
    0 <= i < 2 ^ 31 /\ seg_for t i (lf_main l) /\ forall s, ref_ok t i s (lf_refs l s).

Lemma vdata_seg : forall lvid t i, 0 <= i < 2 ^ 31 -> seg_for t i (vdata_lsid lvid t i).
Proof.
  intros lvid t i Hi. unfold seg_for, vdata_lsid, lsid_setup. cbn [ls_vindex ls_lsize ls_ltype ls_vspace ls_height].
  repeat split.
  change (lseg_size H_VDATA) with LEAF_SPAN. unfold lseg_vindex, off_align, u32.
  change (0 <? LEAF_SPAN) with true. cbv beta iota.
  rewrite Z.quot_mul by (unfold LEAF_SPAN, LBK_SIZE, NCHILDS; lia).
  rewrite Z.quot_mul by (unfold LEAF_SPAN, LBK_SIZE, NCHILDS; lia).
  apply Z.mod_small. lia.
Qed.

Lemma laddr_setup_lsid : forall l off n, la_lsid (laddr_setup l off n) = l.
Proof. intros. unfold laddr_setup. destruct (_ && _); reflexivity. Qed.

Lemma laddr_setup_lbk_lsid : forall l off, la_lsid (laddr_setup_lbk l off) = l.
Proof. intros. unfold laddr_setup_lbk. apply laddr_setup_lsid. Qed.

Lemma laddr_setup_lbk_ref : forall t i l voff s,
  seg_for t i l -> 0 <= voff -> (0 <= s < NCHILDS -> s = leaf_slot voff) ->
  ref_ok t i s (laddr_setup_lbk l voff).
Proof.
  intros t i l voff s Hl Hv Hs. split; [rewrite laddr_setup_lbk_lsid; auto|].
  intros Hr. specialize (Hs Hr). destruct Hl as (_ & Hz & _).
  unfold laddr_setup_lbk, laddr_setup, off_isnull. rewrite Hz.
  replace (voff <? 0) with false by lia.
  unfold off_align. rewrite Z.quot_div_nonneg by (unfold LBK_SIZE; lia).
  replace (voff / LBK_SIZE * LBK_SIZE <? 0) with false by (unfold LBK_SIZE; lia).
  change (LEAF_SPAN =? 0) with false. cbn [andb negb la_pos la_len].
  unfold lsid_pos. rewrite Hz. change (LEAF_SPAN =? 0) with false. cbv beta iota.
  split; auto. unfold off_rem. rewrite Z.rem_mod_nonneg by (unfold LEAF_SPAN, LBK_SIZE, NCHILDS; lia).
  subst s. unfold leaf_slot, off_to_lba, off_isnull.
  replace (voff <? 0) with false by lia.
  rewrite Z.quot_div_nonneg by (unfold LBK_SIZE; lia).
  unfold LEAF_SPAN. rewrite (Z.mul_comm LBK_SIZE NCHILDS).
  apply Z.mul_mod_distr_r; unfold NCHILDS, LBK_SIZE; lia.
Qed.

Lemma bind_main_ref : forall t i l s, seg_for t i l -> ref_ok t i s (bind_bks_to_main l s).
Proof.
  intros t i l s Hl. unfold bind_bks_to_main, lba_to_off.
  destruct (s =? -1) eqn:E.
  - split; [rewrite laddr_setup_lbk_lsid; auto|unfold NCHILDS; lia].
  - destruct (Z_lt_ge_dec s 0).
    + split; [rewrite laddr_setup_lbk_lsid; auto|unfold NCHILDS; lia].
    + apply laddr_setup_lbk_ref; auto.
      * unfold LBK_SIZE. lia.
      * unfold leaf_slot, off_to_lba, off_isnull, LBK_SIZE, NCHILDS. intros.
        replace (s * 65536 <? 0) with false by lia.
        rewrite Z.quot_mul by lia. symmetry. apply Z.mod_small. lia.
Qed.

Lemma vm_set_inv : forall m t i l,
  map_inv m -> 0 <= i < 2 ^ 31 -> seg_for t i (lf_main l) ->
  (forall s, ref_ok t i s (lf_refs l s)) -> map_inv (vm_set m t i l).
Proof.
  intros m t i l Hinv Hi Hm Hr t' i' l'. unfold vm_set.
  destruct ((t' =? t) && (i' =? i)) eqn:B.
  - apply andb_true_iff in B. destruct B as [B1 B2].
    apply Z.eqb_eq in B1. apply Z.eqb_eq in B2. subst.
    intros H. inversion H; subst. auto.
  - intros H. apply Hinv; auto.
Qed.

Lemma map_inv_step : forall m o, op_ok o -> map_inv m -> map_inv (map_step m o).
Proof.
  intros m o Hok Hinv. destruct o as [lvid t i | lvid t i | t voff]; cbn [map_step op_ok] in *.
  - destruct (m t i) eqn:E; auto. destruct Hok as [_ Hi].
    apply vm_set_inv; auto; cbn [lf_main lf_refs spawn_leaf].
    + apply vdata_seg; auto.
    + intros s. apply bind_main_ref. apply vdata_seg; auto.
  - destruct (m t i) as [l0|] eqn:E; auto. destruct Hok as [_ Hi].
    destruct (Hinv _ _ _ E) as (_ & _ & Hr).
    apply vm_set_inv; auto; cbn [lf_main lf_refs spawn_leaf clone_leaf].
    apply vdata_seg; auto.
  - destruct (m t (leaf_index voff)) as [l0|] eqn:E; auto.
    destruct (Hinv _ _ _ E) as (Hi & Hm & Hr).
    apply vm_set_inv; auto; cbn [lf_main lf_refs rebind_lbk].
    intros s. destruct (s =? leaf_slot voff) eqn:S; auto.
    apply laddr_setup_lbk_ref; auto. lia.
Qed.

Lemma map_inv_run : forall ops, Forall op_ok ops -> map_inv (map_run ops).
Proof.
  intros ops H. unfold map_run.
  assert (G : map_inv vm_empty) by (intros t i l E; discriminate).
  revert H G. generalize vm_empty. induction ops as [|o ops IH]; intros m H G; simpl; auto.
  inversion H; subst. apply IH; auto. apply map_inv_step; auto.
Qed.

(* where an address ends up *)
Lemma resolve_pos : forall m v a, map_inv m -> 0 <= va_off v ->
  resolve m v = Some a ->
  seg_for (va_ltype v) (va_off v / LEAF_SPAN) (la_lsid a) /\
  la_pos a = va_off v mod LEAF_SPAN /\ la_len a = va_len v.
Proof.
  intros m v a Hinv Ho. unfold resolve.
  destruct (m (va_ltype v) (leaf_index (va_off v))) as [l|] eqn:E; [|discriminate].
  destruct (laddr_isnull _) eqn:N; [discriminate|].
  intros H. inversion H; subst. clear H.
  destruct (Hinv _ _ _ E) as (_ & _ & Hr). destruct (Hr (leaf_slot (va_off v))) as [Hr' _].
  rewrite laddr_setup_lsid. split; [exact Hr'|].
  destruct Hr' as (_ & Hs & _).
  unfold laddr_setup, lsid_pos, off_isnull. rewrite Hs.
  replace (va_off v <? 0) with false by lia.
  change (LEAF_SPAN =? 0) with false. cbn. split; auto.
  unfold off_rem. apply Z.rem_mod_nonneg; auto. reflexivity.
Qed.

Lemma leaf_slot_range : forall off, 0 <= leaf_slot off < NCHILDS.
Proof. intros. unfold leaf_slot. apply Z.mod_pos_bound. unfold NCHILDS. lia. Qed.

Lemma resolve_total : forall m v l, map_inv m ->
  0 < va_ltype v -> m (va_ltype v) (leaf_index (va_off v)) = Some l ->
  resolve m v <> None.
Proof.
  intros m v l Hinv Ht E. unfold resolve. rewrite E.
  destruct (Hinv _ _ _ E) as (Hi & _ & Hr). destruct (Hr (leaf_slot (va_off v))) as [S P].
  destruct (P (leaf_slot_range _)) as [P1 P2].
  destruct S as (S1 & S2 & S3 & _).
  unfold laddr_isnull, lsid_isnull, off_isnull. rewrite P1, S1, S2, S3.
  pose proof (leaf_slot_range (va_off v)).
  replace (leaf_slot (va_off v) * LBK_SIZE <? 0) with false by (unfold LBK_SIZE; lia).
  replace (va_ltype v =? LT_NONE) with false by (unfold LT_NONE; lia).
  change (LEAF_SPAN =? 0) with false.
  replace (leaf_index (va_off v) =? 4294967295) with false by lia.
  cbn. discriminate.
Qed.
