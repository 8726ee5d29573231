(* Triples for the functions which work on one leaf *)
From Verif Require Import Base AddrModel FileModel FileTree FileInv FileSpec.

(* ---- lengths ---- *)

Definition dsize (t : Z) : Prop := ltype_size t = 1024 \/ ltype_size t = 4096 \/ ltype_size t = 65536.
Lemma ktype_dsize : forall q, dsize (ktype q).
Proof. intro q. exact (size_cases q). Qed.
Lemma kind_dsize : forall k, dsize (kind_ltype k).
Proof. intros []; unfold dsize; cbn; lia. Qed.
Lemma next_spec : forall off t, 0 <= off -> dsize t -> off_next off (ltype_size t) = off / ltype_size t * ltype_size t + ltype_size t.
Proof.
  intros off t H D. unfold off_next, off_align. rewrite Z.quot_div_nonneg; [|destruct D as [D|[D|D]]; lia|destruct D as [D|[D|D]]; lia].
  destruct D as [D|[D|D]]; rewrite D; lia.
Qed.
Lemma in_data_spec : forall off t, 0 <= off -> dsize t -> off_in_data off t = off mod ltype_size t.
Proof. intros off t H D. unfold off_in_data. apply Z.rem_mod_nonneg; [lia|]. destruct D as [D|[D|D]]; lia. Qed.
Lemma len_spec : forall off end_ t, 0 <= off -> dsize t ->
  len_of_data off end_ t = Z.min (off / ltype_size t * ltype_size t + ltype_size t) end_ - off.
Proof.
  intros off end_ t H D. unfold len_of_data. rewrite next_spec by assumption.
  destruct (_ <? end_) eqn:E; lia.
Qed.
Lemma partial_spec : forall off end_ t, 0 <= off -> dsize t ->
  off_is_partial off end_ t = negb ((off mod ltype_size t =? 0) && (ltype_size t <=? end_ - off)).
Proof.
  intros off end_ t H D. unfold off_is_partial, off_align.
  rewrite Z.quot_div_nonneg; [|destruct D as [D|[D|D]]; lia|destruct D as [D|[D|D]]; lia].
  destruct D as [D|[D|D]]; rewrite D; lia.
Qed.
Lemma ktype_nonzero : forall q, 0 < ksize q.
Proof. intro q. destruct (size_cases q) as [E|[E|E]]; lia. Qed.

(* ---- finding a leaf ---- *)

Definition parent_of (q : key) : option Z := match q with KH _ _ => None | KN a _ => Some a end.
(* the reference of file.c to the leaf at an offset *)
Definition ref_at (W : world) (i off end_ : Z) (q : key) : flref :=
  flref_setup (fi_ty2 (w_ino W i)) (parent_of q) (hold W q) off end_.
Definition hkey (i off : Z) (k : kind) : key := KH i (head_abs k (head_slot k off)).
Lemma key_of_head : forall W i off k, kind_of (fi_ty2 (w_ino W i)) off = k -> k <> TREE -> key_of W i off = Some (hkey i off k).
Proof. intros W i off k H N. unfold key_of. rewrite H. destruct k; [reflexivity|reflexivity|congruence]. Qed.
Lemma key_of_tree : forall W i off p, kind_of (fi_ty2 (w_ino W i)) off = TREE -> bottom W i off = Some p ->
  key_of W i off = Some (KN p (leaf_slot off)).
Proof. intros W i off p H B. unfold key_of. rewrite H, B. reflexivity. Qed.
Lemma hold_head : forall W i off k, 0 <= off -> kind_of (fi_ty2 (w_ino W i)) off = k -> k <> TREE ->
  hold W (hkey i off k) = fi_slot (w_ino W i) (head_abs k (head_slot k off)) /\ fi_ty2 (w_ino W i) = false /\
  1 <= head_abs k (head_slot k off) <= 19 /\ ktype (hkey i off k) = kind_ltype k.
Proof.
  intros W i off k H E N. destruct (ktype_head i k off (fi_ty2 (w_ino W i)) H E N) as [Ty R].
  assert (F : fi_ty2 (w_ino W i) = false).
  { destruct (kind_cases (fi_ty2 (w_ino W i)) off H) as [(_ & F & _)|[(_ & F & _)|(X & _)]]; [exact F|exact F|congruence]. }
  split; [|split; [exact F|split; [exact R|exact Ty]]]. unfold hkey. cbn [hold]. rewrite F.
  replace ((1 <=? head_abs k (head_slot k off)) && (head_abs k (head_slot k off) <=? 19)) with true by lia. reflexivity.
Qed.
Lemma hold_tree : forall W i off p, tree_inv W -> bottom W i off = Some p ->
  exists n, w_node W p = Some n /\ n_height n = 2 /\ n_ino n = i /\ 0 <= slot_of n off < 1024 /\
            slot_of n off = leaf_slot off /\ hold W (KN p (leaf_slot off)) = child_at n (slot_of n off) /\ n_inrange n off = true.
Proof.
  intros W i off p T B. destruct (bottom_found W i off p T B) as (n & Hn & In & H2 & R).
  destruct (ti_shape W T p n Hn) as [_ Sh]. exists n. split; [exact Hn|]. split; [exact H2|]. split; [exact In|].
  pose proof (slot_range n off Sh R) as Q. split; [exact Q|].
  pose proof (leaf_slot_spec n off Sh H2 R) as E. split; [congruence|]. split; [|apply inrange_iff, R].
  cbn [hold]. rewrite Hn, H2, E. replace ((2 =? 2) && (0 <=? slot_of n off) && (slot_of n off <? 1024)) with true by lia. reflexivity.
Qed.

Lemma sp_resolve_head : forall W i off end_ k, 0 <= off -> kind_of (fi_ty2 (w_ino W i)) off = k -> k <> TREE ->
  forall E, spec W (resolve_head k i off end_) (fun r W' => W' = W /\ r = ref_at W i off end_ (hkey i off k)) E.
Proof.
  intros W i off end_ k H Ek N E. unfold resolve_head. sp_ino. apply sp_ret. split; [reflexivity|].
  unfold ref_at. destruct (hold_head W i off k H Ek N) as [-> _]. reflexivity.
Qed.
Lemma sp_resolve_tree : forall W i off end_ p, tree_inv W -> bottom W i off = Some p ->
  forall E, spec W (resolve_tree_leaf i (Some p) off end_) (fun r W' => W' = W /\ r = ref_at W i off end_ (KN p (leaf_slot off))) E.
Proof.
  intros W i off end_ p T B E. unfold resolve_tree_leaf. sp_ino.
  destruct (hold_tree W i off p T B) as (n & Hn & _ & _ & _ & _ & Hh & _). sp_node Hn. apply sp_ret.
  split; [reflexivity|]. unfold ref_at. rewrite Hh. reflexivity.
Qed.
Lemma sp_resolve_none : forall W i off end_ E,
  spec W (resolve_tree_leaf i None off end_) (fun r W' => W' = W /\ r = flref_setup (fi_ty2 (w_ino W i)) None None off end_) E.
Proof. intros W i off end_ E. unfold resolve_tree_leaf. sp_ino. apply sp_ret. split; reflexivity. Qed.

(* ---- reading a leaf ---- *)

Definition slice (W : world) (i off n : Z) : bytes := map (fun k => content W i (off + Z.of_nat k)) (seq 0 (Z.to_nat n)).
Lemma slice_len : forall W i off n, 0 <= n -> zlen (slice W i off n) = n.
Proof. intros. unfold slice. rewrite zlen_map. unfold zlen. rewrite seq_length. lia. Qed.
Lemma seq_map_shift : forall (f : nat -> Z) m n, map f (seq m n) = map (fun k => f (m + k)%nat) (seq 0 n).
Proof.
  intros f m n. revert f m. induction n as [|n IH]; intros f m; [reflexivity|].
  cbn [seq map]. rewrite Nat.add_0_r. f_equal. rewrite (IH f (S m)). rewrite (IH (fun k => f (m + k)%nat) 1%nat).
  apply map_ext. intro k. f_equal. lia.
Qed.
Lemma slice_app : forall W i off n m, 0 <= n -> 0 <= m -> slice W i off (n + m) = slice W i off n ++ slice W i (off + n) m.
Proof.
  intros W i off n m Hn Hm. unfold slice. rewrite Z2Nat.inj_add by lia. rewrite seq_app, map_app. f_equal.
  cbn [plus]. rewrite seq_map_shift. apply map_ext. intro k. f_equal. lia.
Qed.
Lemma slice_0 : forall W i off, slice W i off 0 = [].
Proof. reflexivity. Qed.
Lemma slice_map : forall W i off n f, (forall k, 0 <= k < n -> content W i (off + k) = f k) ->
  map (fun k => f (Z.of_nat k)) (seq 0 (Z.to_nat n)) = slice W i off n.
Proof.
  intros W i off n f H. unfold slice. apply map_ext_in. intros k I. apply in_seq in I. rewrite H by lia. reflexivity.
Qed.
Lemma zeros_map : forall n, zrepeat 0 n = map (fun k => (fun _ : Z => 0) (Z.of_nat k)) (seq 0 (Z.to_nat n)).
Proof.
  intro n. unfold zrepeat. generalize (Z.to_nat n) as m. intro m. generalize 0%nat as x.
  induction m as [|m IH]; intro x; [reflexivity|]. cbn [repeat seq map]. f_equal. apply IH.
Qed.
(* bytes inside one leaf *)
Lemma content_at : forall W i off q k, tree_inv W -> 0 <= off -> key_of W i off = Some q ->
  0 <= k -> off mod ksize q + k < ksize q -> content W i (off + k) = kval W q (off mod ksize q + k).
Proof.
  intros W i off q k T H E Hk Hl. pose proof (ktype_nonzero q).
  assert (D : off / ksize q = (off + k) / ksize q /\ (off + k) mod ksize q = off mod ksize q + k).
  { destruct (size_cases q) as [S|[S|S]]; rewrite S in *; lia. }
  destruct D as [D1 D2]. unfold content. rewrite (key_same W i off (off + k) q) by (assumption || lia).
  rewrite D2. reflexivity.
Qed.
(* bytes of a leaf which is not reached by the tree *)
Lemma content_none : forall W i off k, tree_inv W -> 0 <= off -> key_of W i off = None -> 0 <= k ->
  off mod 65536 + k < 65536 -> content W i (off + k) = 0.
Proof.
  intros W i off k T H E Hk Hl. unfold content.
  assert (X : key_of W i (off + k) = None); [|rewrite X; reflexivity].
  unfold key_of in *.
  destruct (kind_cases (fi_ty2 (w_ino W i)) off H) as [(Y & T1 & R)|[(Y & T1 & R)|(Y & R)]]; rewrite Y in E; try discriminate.
  destruct (kind_cases (fi_ty2 (w_ino W i)) (off + k) ltac:(lia)) as [(Y' & T1' & R')|[(Y' & T1' & R')|(Y' & R')]];
  try (exfalso; destruct R as [R|R]; [congruence|lia]).
  rewrite Y'. rewrite (bottom_same W i (off + k) off T) by lia.
  destruct (bottom W i off); [discriminate|reflexivity].
Qed.

Lemma setup_addr : forall ty2 par a off end_, fl_addr (flref_setup ty2 par a off end_) = a.
Proof. reflexivity. Qed.
Definition leaf_end (W : world) (i off : Z) : Z :=
  let sz := ltype_size (cur_ltype (fi_ty2 (w_ino W i)) off) in off / sz * sz + sz.
Lemma cur_dsize : forall ty2 off, dsize (cur_ltype ty2 off).
Proof. intros. apply kind_dsize. Qed.

Lemma sp_read_leaf : forall W i off end_ r, Inv W -> 0 <= off < end_ ->
  fl_addr r = match key_of W i off with Some q => hold W q | None => None end ->
  spec W (read_from_leaf (fi_ty2 (w_ino W i)) r off end_)
       (fun d W' => W' = W /\ d = slice W i off (Z.min (leaf_end W i off) end_ - off)) (here W).
Proof.
  intros W i off end_ r [T K] H Er.
  set (ty2 := fi_ty2 (w_ino W i)) in *. set (n := Z.min (leaf_end W i off) end_ - off).
  assert (Ln : len_of_data off end_ (cur_ltype ty2 off) = n) by (apply len_spec; [lia|apply cur_dsize]).
  pose proof (cur_dsize ty2 off) as D.
  assert (Nn : off + n <= leaf_end W i off) by (subst n; lia).
  assert (Zr : (forall k, 0 <= k < n -> content W i (off + k) = 0) -> zrepeat 0 n = slice W i off n).
  { intro X. rewrite zeros_map. apply slice_map with (f := fun _ : Z => 0). exact X. }
  assert (Le : leaf_end W i off = off / ltype_size (cur_ltype ty2 off) * ltype_size (cur_ltype ty2 off) + ltype_size (cur_ltype ty2 off)) by reflexivity.
  unfold read_from_leaf, unwritten_of. destruct (key_of W i off) as [q|] eqn:Eq.
  - pose proof (key_of_type W i off q ltac:(lia) Eq) as Ty. fold ty2 in Ty.
    assert (Sz : ksize q = ltype_size (cur_ltype ty2 off)) by (unfold ksize; rewrite Ty; reflexivity).
    assert (Cn : forall k, 0 <= k < n -> content W i (off + k) = kval W q (off mod ksize q + k)).
    { intros k Hk. apply content_at; try assumption; try lia. rewrite Sz. rewrite Le in Nn. destruct D as [D|[D|D]]; rewrite D in *; lia. }
    destruct (hold W q) as [[t a]|] eqn:Hq; rewrite Er.
    + pose proof (ki_type W K q t a Hq) as Et. pose proof (ki_blk W K q t a Hq) as Eb.
      destruct (w_blk W t a) as [b|] eqn:B; [|congruence].
      eapply sp_bind; [apply (sp_test_unwritten W t a b B)|]. cbv beta. intros u W' [-> ->].
      destruct (b_unwr b) eqn:U.
      * apply sp_ret. split; [reflexivity|]. rewrite Ln. apply Zr. intros k Hk. rewrite Cn by exact Hk.
        rewrite (kval_held W q t a b _ Hq B). unfold bval. rewrite U. reflexivity.
      * eapply sp_bind.
        { eapply sp_or_none with (Q' := fun o W' => W' = W /\ o = Some b); [apply (sp_stage_fileaf W t a b B)| | |].
          - intros x W' [-> ->]. split; reflexivity.
          - intros W' [N _]. exfalso. apply N. reflexivity.
          - intros e W' _ X. exact X. }
        cbv beta. intros o W' [-> ->]. apply sp_ret. split; [reflexivity|].
        rewrite Et, Ty, Ln. unfold bytes_of. rewrite in_data_spec by (assumption || lia). rewrite <- Sz.
        apply (slice_map W i off n (fun k => b_data b (off mod ksize q + k))). intros k Hk. rewrite Cn by exact Hk.
        rewrite (kval_held W q t a b _ Hq B). unfold bval. rewrite U. reflexivity.
    + eapply sp_bind; [apply sp_ret with (Q := fun v W' => W' = W /\ v = true); split; reflexivity|]. cbv beta. intros v W' [-> ->].
      apply sp_ret. split; [reflexivity|]. rewrite Ln. apply Zr. intros k Hk. rewrite Cn by exact Hk. unfold kval. rewrite Hq. reflexivity.
  - rewrite Er. eapply sp_bind; [apply sp_ret with (Q := fun v W' => W' = W /\ v = true); split; reflexivity|]. cbv beta. intros v W' [-> ->].
    apply sp_ret. split; [reflexivity|]. rewrite Ln. apply Zr. intros k Hk. apply content_none; try assumption; try lia.
    assert (X : cur_ltype ty2 off = LT_DATABK).
    { unfold key_of in Eq. fold ty2 in Eq. unfold cur_ltype. destruct (kind_of ty2 off); try discriminate. reflexivity. }
    rewrite Le, X in Nn. change (ltype_size LT_DATABK) with 65536 in Nn. lia.
Qed.

(* ---- making a leaf ---- *)

(* holders which can be changed: a slot of the inode or a slot of a bottom node *)
Definition proper (W : world) (i : Z) (q : key) : Prop :=
  match q with
  | KH j k => j = i /\ 1 <= k <= 19 /\ fi_ty2 (w_ino W i) = false
  | KN a s => exists n, w_node W a = Some n /\ n_height n = 2 /\ n_ino n = i /\ 0 <= s < 1024
  end.
Lemma proper_key : forall W i off q, tree_inv W -> 0 <= off -> key_of W i off = Some q -> proper W i q.
Proof.
  intros W i off q T H E. unfold key_of in E. destruct (kind_of (fi_ty2 (w_ino W i)) off) eqn:K.
  - assert (q = hkey i off HD1) by (unfold hkey; congruence). subst q. destruct (hold_head W i off HD1 H K ltac:(discriminate)) as (_ & F & R & _).
    cbn [proper hkey]. auto.
  - assert (q = hkey i off HD2) by (unfold hkey; congruence). subst q. destruct (hold_head W i off HD2 H K ltac:(discriminate)) as (_ & F & R & _).
    cbn [proper hkey]. auto.
  - destruct (bottom W i off) as [p|] eqn:B; [|discriminate]. assert (q = KN p (leaf_slot off)) by congruence. subst q.
    destruct (hold_tree W i off p T B) as (n & Hn & H2 & In & R & Es & _). exists n. rewrite <- Es. auto.
Qed.
Lemma proper_owner : forall W i q, proper W i q -> owner W q = Some i.
Proof.
  intros W i [j k|a s] P; cbn [proper owner] in *.
  - destruct P as [-> _]. reflexivity.
  - destruct P as (n & Hn & _ & In & _). rewrite Hn, In. reflexivity.
Qed.

(* a fresh leaf becomes held *)
Lemma keff_bind_new : forall W W' i q a d, Inv W -> owner W q = Some i -> hold W q = None ->
  w_blk W (ktype q) a = None -> Rebind W W' i q (Some (ktype q, a)) (knk q) ->
  (forall t x, w_blk W' t x = w_blk (set_blk W (ktype q) a (Some (mkBlk d 1 true))) t x) ->
  KEff i q 0 0 W W'.
Proof.
  intros W W' i q a d I Ow Hq Hb R B. assert (K : keys_inv W) by apply I.
  apply (keff_rebind W W' i q _ _ 0 0 I R Ow).
  - rewrite Hq. cbn [dn]. lia.
  - intros t x H. congruence.
  - intros t x. rewrite B, blk_at. destruct ((t =? ktype q) && (x =? a)) eqn:X.
    + assert (t = ktype q /\ x = a) as [-> ->] by lia. rewrite Hb. exact Logic.I.
    + assert (N : Some (ktype q, a) <> Some (t, x)) by (intro Y; injection Y; lia).
      rewrite Hq. rewrite (dv_0 _ t x N). cbn [dv]. destruct (w_blk W t x); [|exact N]. repeat split; lia.
  - intros t x b'. rewrite B, blk_at. destruct ((t =? ktype q) && (x =? a)) eqn:X.
    + intro Y. assert (b' = mkBlk d 1 true) by congruence. subst b'. cbn. lia.
    + apply (ki_one W K).
  - intros k _ _. unfold kval. rewrite Hq, (rb_hold _ _ _ _ _ _ R), B, blk_same. reflexivity.
Qed.

Definition fresh_in (W : world) (t : Z) (W' : world) : Prop :=
  W' = W \/ exists a d, w_blk W t a = None /\ W' = set_blk W t a (Some (mkBlk d 1 true)).
Lemma fresh_keff : forall W t W' i q, Inv W -> fresh_in W t W' -> KEff i q 0 0 W W'.
Proof.
  intros W t W' i q I [->|(a & d & H & ->)]; [apply keff_refl, I|].
  apply keff_unheld; [exact I|intro q'; apply unheld_none; [apply I|exact H]|congruence|reflexivity].
Qed.
Lemma sp_claim_data : forall W t,
  spec W (claim_data t) (fun a W' => w_blk W t a = None /\ 0 <= a /\ exists d, W' = set_blk W t a (Some (mkBlk d 1 true)))
       (EW (fresh_in W t)).
Proof.
  intros W t. unfold claim_data. eapply sp_bind.
  - eapply sp_conseq; [apply sp_claim_vspace|intros a W' X; exact X|]. intros e W' [N ->]. split; [exact N|left; reflexivity].
  - cbv beta. intros a W' (H & H0 & d & ->). apply sp_mf.
    + apply sp_ret. split; [exact H|]. split; [exact H0|]. exists d. reflexivity.
    + intros e N. split; [exact N|]. right. exists a, d. auto.
Qed.
Lemma sp_create_leaf : forall W i t,
  spec W (create_leaf i t)
       (fun a W' => w_blk W t a = None /\ 0 <= a /\ exists d,
          W' = set_ino (set_blk W t a (Some (mkBlk d 1 true))) i (fi_set_blocks (w_ino W i) (fi_blocks (w_ino W i) + ltype_nkbs t)))
       (EW (fresh_in W t)).
Proof.
  intros W i t. unfold create_leaf. eapply sp_bind; [apply sp_claim_data|]. cbv beta. intros a W' (H & H0 & d & ->).
  eapply sp_bind.
  - unfold update_iblocks. sp_ino. apply sp_put_ino.
  - cbv beta. intros x W' ->. apply sp_ret. split; [exact H|]. split; [exact H0|]. exists d.
    cbn [w_ino set_blk]. rewrite Z.mul_1_r. reflexivity.
Qed.
(* outcome of making sure that there is a leaf *)
Definition got_leaf (W : world) (i off end_ : Z) (q : key) (r : flref) (W' : world) : Prop :=
  KEff i q 0 0 W W' /\ (exists a b, hold W' q = Some (ktype q, a) /\ w_blk W' (ktype q) a = Some b) /\ r = ref_at W' i off end_ q /\
  (W' = W \/ (hold W q = None /\ exists a b, hold W' q = Some (ktype q, a) /\ w_blk W (ktype q) a = None /\
              w_blk W' (ktype q) a = Some b /\ b_ref b = 1)).
Lemma got_held : forall W (i : Z) q, Inv W -> hold W q <> None ->
  exists a b, hold W q = Some (ktype q, a) /\ w_blk W (ktype q) a = Some b.
Proof.
  intros W i q [_ K] H. destruct (hold W q) as [[t a]|] eqn:E; [|congruence].
  pose proof (ki_type W K q t a E). subst t. pose proof (ki_blk W K q _ a E) as B.
  destruct (w_blk W (ktype q) a) as [b|] eqn:X; [|congruence]. exists a, b. auto.
Qed.
Lemma sp_require_head : forall W i off end_ k, Inv W -> 0 <= off -> kind_of (fi_ty2 (w_ino W i)) off = k -> k <> TREE ->
  spec W (require_head k i off end_) (got_leaf W i off end_ (hkey i off k)) (EW (KEff i (hkey i off k) 0 0 W)).
Proof.
  intros W i off end_ k I H Ek N. unfold require_head.
  eapply sp_bind; [apply (sp_resolve_head W i off end_ k H Ek N)|]. cbv beta. intros r W' [-> ->].
  set (q := hkey i off k). destruct (hold_head W i off k H Ek N) as (Hh & F & R & Ty). fold q in Hh, Ty.
  unfold has_data, ref_at. rewrite setup_addr. destruct (hold W q) as [v|] eqn:Hq.
  - apply sp_mf.
    + apply sp_ret. split; [apply keff_refl, I|]. split; [apply (got_held W i q I); congruence|].
      split; [|left; reflexivity]. unfold ref_at. rewrite Hq. reflexivity.
    + intros e Ne. split; [exact Ne|apply keff_refl, I].
  - eapply sp_bind.
    { eapply sp_conseq; [apply (sp_create_leaf W i (kind_ltype k))|intros a W' X; exact X|].
      intros e W' [Ne X]. split; [exact Ne|]. apply (fresh_keff W (kind_ltype k)); assumption. }
    cbv beta. intros a W1 (Hb & Ha & d & ->). sp_ino.
    set (W1 := set_ino _ i _). eapply sp_bind; [unfold set_head; sp_ino; apply sp_put_ino|]. cbv beta. intros [] W2 ->.
    apply sp_ret. set (W2 := set_ino W1 i _).
    assert (Ei : w_ino W1 i = fi_set_blocks (w_ino W i) (fi_blocks (w_ino W i) + ltype_nkbs (kind_ltype k))).
    { unfold W1. cbn [set_ino w_ino]. apply fset_same. }
    assert (Es : fl_slot (flref_setup (fi_ty2 (w_ino W1 i)) None (Some (kind_ltype k, a)) off end_) = head_slot k off).
    { rewrite Ei. unfold flref_setup. cbn [fi_set_blocks fi_ty2 fl_slot]. rewrite Ek. destruct k; [reflexivity|reflexivity|congruence]. }
    assert (Rb : Rebind W W2 i q (Some (ktype q, a)) (knk q)).
    { apply rebind_head; try assumption; [apply I| | |].
      - intros j Nj. unfold W2, W1. cbn [set_ino w_ino]. rewrite !fset_other by exact Nj. reflexivity.
      - unfold W2. cbn [set_ino w_ino]. rewrite fset_same. rewrite Es, Ei, setup_addr. unfold knk. rewrite Ty. reflexivity.
      - reflexivity. }
    assert (Bl : forall t x, w_blk W2 t x = w_blk (set_blk W (ktype q) a (Some (mkBlk d 1 true))) t x).
    { intros t x. rewrite Ty. reflexivity. }
    split; [|split; [|split]].
    + apply (keff_bind_new W W2 i q a d); try assumption; [reflexivity|rewrite Ty; exact Hb].
    + exists a, (mkBlk d 1 true). split; [apply (rb_hold _ _ _ _ _ _ Rb)|]. rewrite Bl. apply blk_same.
    + unfold ref_at. rewrite (rb_hold _ _ _ _ _ _ Rb), (rb_ty2 _ _ _ _ _ _ Rb), Ei, Ty. reflexivity.
    + right. split; [exact Hq|]. exists a, (mkBlk d 1 true). split; [apply (rb_hold _ _ _ _ _ _ Rb)|].
      split; [rewrite Ty; exact Hb|]. split; [rewrite Bl; apply blk_same|reflexivity].
Qed.
Lemma sp_require_tree_leaf : forall W i off end_ p, Inv W -> 0 <= off -> bottom W i off = Some p ->
  spec W (require_tree_leaf i p off end_) (got_leaf W i off end_ (KN p (leaf_slot off))) (EW (KEff i (KN p (leaf_slot off)) 0 0 W)).
Proof.
  intros W i off end_ p I H B. unfold require_tree_leaf.
  eapply sp_bind; [apply (sp_resolve_tree W i off end_ p (proj1 I) B)|]. cbv beta. intros r W' [-> ->].
  set (q := KN p (leaf_slot off)).
  destruct (hold_tree W i off p (proj1 I) B) as (n & Hn & H2 & In & R & Es & Hh & Hr). fold q in Hh.
  unfold has_data, ref_at. rewrite setup_addr. destruct (hold W q) as [v|] eqn:Hq.
  - apply sp_mf.
    + apply sp_ret. split; [apply keff_refl, I|]. split; [apply (got_held W i q I); congruence|].
      split; [|left; reflexivity]. unfold ref_at. rewrite Hq. reflexivity.
    + intros e Ne. split; [exact Ne|apply keff_refl, I].
  - eapply sp_bind.
    { eapply sp_conseq; [apply (sp_create_leaf W i LT_DATABK)|intros a W' X; exact X|].
      intros e W' [Ne X]. split; [exact Ne|]. apply (fresh_keff W LT_DATABK); assumption. }
    cbv beta. intros a W1 (Hb & Ha & d & ->).
    set (W1 := set_ino _ i _).
    assert (Hn1 : w_node W1 p = Some n) by exact Hn.
    eapply sp_bind; [unfold bind_child; sp_node Hn1; apply sp_put_node|]. cbv beta. intros [] W2 ->.
    set (W2 := set_node W1 p _).
    assert (Rb : Rebind W W2 i q (Some (ktype q, a)) (knk q)).
    { apply (rebind_node W W2 i p n (leaf_slot off)); try assumption; [apply I|rewrite <- Es; exact R|split; [reflexivity|exact Ha]| | |].
      - intros j Nj. unfold W2, W1. cbn [set_ino set_node w_ino]. rewrite !fset_other by exact Nj. reflexivity.
      - unfold W2, W1. cbn [set_ino set_node w_ino]. rewrite fset_same. reflexivity.
      - intro a'. unfold W2, W1. cbn [set_node w_node set_ino set_blk]. unfold fset. rewrite Es. reflexivity. }
    assert (Bl : forall t x, w_blk W2 t x = w_blk (set_blk W (ktype q) a (Some (mkBlk d 1 true))) t x) by reflexivity.
    assert (Ke : KEff i q 0 0 W W2).
    { apply (keff_bind_new W W2 i q a d); try assumption. cbn [owner q]. rewrite Hn, In. reflexivity. }
    eapply sp_conseq; [apply (sp_resolve_tree W2 i off end_ p)| |intros e W' X; exact X].
    + apply Ke.
    + rewrite <- B. apply skel_bottom; [apply I|apply Ke].
    + intros r W' [-> ->]. split; [exact Ke|]. split; [|split; [reflexivity|]].
      * exists a, (mkBlk d 1 true). split; [apply (rb_hold _ _ _ _ _ _ Rb)|]. rewrite Bl. apply blk_same.
      * right. split; [exact Hq|]. exists a, (mkBlk d 1 true). split; [apply (rb_hold _ _ _ _ _ _ Rb)|].
        split; [exact Hb|]. split; [rewrite Bl; apply blk_same|reflexivity].
Qed.

(* ---- writing into a leaf ---- *)

Definition held1 (W : world) (q : key) (t a : Z) (b : blk) : Prop :=
  hold W q = Some (t, a) /\ w_blk W t a = Some b /\ b_ref b = 1.
Lemma sp_store : forall W t a from len v b, w_blk W t a = Some b -> 0 <= from -> 0 <= len -> from + len <= ltype_size t ->
  forall E, spec W (store_range t a from len v)
    (fun _ W' => W' = set_blk W t a (Some (mkBlk (put_range (b_data b) from len v) (b_ref b) (b_unwr b)))) E.
Proof.
  intros W t a from len v b H H1 H2 H3 E. unfold store_range.
  replace ((from <? 0) || (len <? 0) || (ltype_size t <? from + len)) with false by lia.
  sp_blk H. apply sp_put_blk.
Qed.
Lemma sp_zero_range : forall W t a from len b, w_blk W t a = Some b -> 0 <= from -> 0 <= len -> from + len <= ltype_size t ->
  spec W (zero_leaf_range t a from len)
    (fun _ W' => W' = set_blk W t a (Some (mkBlk (put_range (b_data b) from len (fun _ => 0)) (b_ref b) (b_unwr b)))) (here W).
Proof.
  intros W t a from len b H H1 H2 H3. unfold zero_leaf_range.
  eapply sp_bind; [apply (sp_stage_fileaf W t a b H)|]. cbv beta. intros x W' [-> ->].
  apply (sp_store W t a from len (fun _ => 0) b); assumption.
Qed.
Definition pre_ref (r : flref) (len : Z) : flref := if 0 <? len then fl_set_partial r (len <? fl_leaf r) else r.
Definition pre_blk (b : blk) (r : flref) (t : Z) : blk :=
  if b_unwr b && fl_partial r then mkBlk (put_range (b_data b) 0 (ltype_size t) (fun _ => 0)) (b_ref b) (b_unwr b) else b.
Lemma pre_blk_val : forall b r t k, bval (pre_blk b r t) k = bval b k.
Proof. intros. unfold pre_blk, bval. destruct (b_unwr b) eqn:U; cbn [andb]; [|rewrite U; reflexivity]. destruct (fl_partial r); cbn [b_unwr]; rewrite ?U; reflexivity. Qed.
Lemma pre_blk_ref : forall b r t, b_ref (pre_blk b r t) = b_ref b.
Proof. intros. unfold pre_blk. destruct (_ && _); reflexivity. Qed.
Lemma pre_blk_unwr : forall b r t, b_unwr (pre_blk b r t) = b_unwr b.
Proof. intros. unfold pre_blk. destruct (_ && _); reflexivity. Qed.
Lemma set_same_blk : forall W t a b, w_blk W t a = Some b -> forall t' a', w_blk (set_blk W t a (Some b)) t' a' = w_blk W t' a'.
Proof. intros W t a b H t' a'. rewrite blk_at. destruct ((t' =? t) && (a' =? a)) eqn:X; [|reflexivity]. assert (t' = t /\ a' = a) as [-> ->] by lia. auto. Qed.

Lemma sp_pre_write : forall W r len t a b, fl_addr r = Some (t, a) -> w_blk W t a = Some b -> dsize t ->
  spec W (pre_write_leaf r len)
    (fun x W' => fst x = pre_ref r len /\ snd x = b_unwr b /\
       (W' = W \/ W' = set_blk W t a (Some (pre_blk b (pre_ref r len) t))) /\ w_blk W' t a = Some (pre_blk b (pre_ref r len) t)) (here W).
Proof.
  intros W r len t a b Hr B D. unfold pre_write_leaf. fold (pre_ref r len).
  assert (Hr' : fl_addr (pre_ref r len) = Some (t, a)) by (unfold pre_ref; destruct (0 <? len); exact Hr).
  unfold unwritten_of. rewrite Hr'. eapply sp_bind; [apply (sp_test_unwritten W t a b B)|]. cbv beta. intros u W' [-> ->].
  unfold pre_blk. destruct (b_unwr b) eqn:U; cbn [negb orb andb].
  - destruct (fl_partial (pre_ref r len)); cbn [negb].
    + eapply sp_bind; [apply (sp_zero_range W t a 0 (ltype_size t) b B); destruct D as [D|[D|D]]; lia|].
      cbv beta. intros [] W' ->. apply sp_ret. cbn [fst snd]. split; [reflexivity|]. split; [reflexivity|].
      rewrite U. split; [right; reflexivity|apply blk_same].
    + apply sp_ret. cbn [fst snd]. auto.
  - apply sp_ret. cbn [fst snd]. auto.
Qed.

Lemma hold_keff : forall i q lo hi W t a b, hold (set_blk W t a (Some b)) q = hold W q /\ (KEff i q lo hi W (set_blk W t a (Some b)) -> Inv (set_blk W t a (Some b))).
Proof. intros. split; [apply hold_blk|]. intro X. apply X. Qed.

Lemma sp_write_leaf : forall W i q t a b dat beg r off end_, Inv W -> held1 W q t a b -> 0 <= off < end_ ->
  fl_addr r = Some (t, a) -> fl_partial r = off_is_partial off end_ t ->
  let p := off mod ksize q in let len := len_of_data off end_ t in
  spec W (write_to_leaf dat beg r off end_)
    (fun n W' => n = len /\ KEff i q p (p + len) W W' /\
                 (forall k, 0 <= k < len -> kval W' q (p + k) = znth dat (off - beg + k) 0))
    (EW (KEff i q p (p + len) W)).
Proof.
  intros W i q t a b dat beg r off end_ I (Hq & Hb & Hr1) H Ha Hp p len.
  pose proof (ki_type W (proj2 I) q t a Hq) as Et.
  assert (D : dsize t) by (rewrite Et; apply ktype_dsize).
  assert (Sz : ksize q = ltype_size t) by (unfold ksize; rewrite Et; reflexivity).
  assert (Ep : off_in_data off t = p) by (unfold p; rewrite in_data_spec, Sz by (assumption || lia); reflexivity).
  assert (Rp : 0 <= p /\ 0 < len /\ p + len <= ltype_size t).
  { unfold p, len. rewrite len_spec, Sz by (assumption || lia). destruct D as [D|[D|D]]; rewrite D; lia. }
  unfold write_to_leaf. eapply sp_bind.
  { eapply sp_conseq; [apply (sp_pre_write W r 0 t a b Ha Hb D)|intros x W' X; exact X|].
    intros e W' [N ->]. split; [exact N|apply keff_refl, I]. }
  cbv beta. intros [r' u] W1 (Er & Eu & Ew & Eb). cbn [fst snd] in *.
  change (pre_ref r 0) with r in *. subst r' u. set (b1 := pre_blk b r t) in *.
  assert (K1 : KEff i q p (p + len) W W1).
  { destruct Ew as [->| ->]; [apply keff_refl, I|]. apply (keff_store W i q t a b); try assumption.
    - unfold b1. rewrite pre_blk_ref. exact Hr1.
    - intros k _ _. apply pre_blk_val. }
  assert (H1 : hold W1 q = Some (t, a)) by (destruct Ew as [->| ->]; [exact Hq|rewrite hold_blk; exact Hq]).
  rewrite Ha. eapply sp_bind.
  { eapply sp_conseq; [apply (sp_stage_fileaf W1 t a b1 Eb)|intros x W' X; exact X|].
    intros e W' [N ->]. split; [exact N|exact K1]. }
  cbv beta. intros x W' [-> ->]. fold len. rewrite Ep.
  eapply sp_bind; [apply (sp_store W1 t a p len _ b1 Eb); lia|]. cbv beta. intros [] W2 ->.
  set (b2 := mkBlk (put_range (b_data b1) p len (fun k => znth dat (off - beg + k) 0)) (b_ref b1) (b_unwr b1)).
  assert (R1 : b_ref b1 = 1) by (unfold b1; rewrite pre_blk_ref; exact Hr1).
  assert (K2 : KEff i q p (p + len) W1 (set_blk W1 t a (Some b2))).
  { apply (keff_store W1 i q t a b1); try assumption; [apply K1|].
    intros k _ Nk. unfold bval, b2. cbn [b_unwr b_data]. unfold put_range.
    replace ((p <=? k) && (k <? p + len)) with false by lia. reflexivity. }
  eapply sp_bind.
  { eapply sp_conseq; [apply (sp_set_unwritten (set_blk W1 t a (Some b2)) false t a b2 (blk_same _ _ _ _))|intros x W' X; exact X|].
    intros e W' [N ->]. split; [exact N|]. apply (keff_trans _ _ _ _ _ _ _ K1 K2). }
  cbv beta. intros [] W3 ->. set (W3 := set_blk _ t a _).
  set (b3 := mkBlk (b_data b2) (b_ref b2) false) in *.
  assert (H2 : hold (set_blk W1 t a (Some b2)) q = Some (t, a)) by (rewrite hold_blk; exact H1).
  assert (K3 : KEff i q p (p + len) (set_blk W1 t a (Some b2)) W3).
  { apply (keff_store (set_blk W1 t a (Some b2)) i q t a b2 b3); try assumption; [apply K2|apply blk_same|].
    intros k Rk Nk. unfold bval, b3, b2. cbn [b_unwr b_data].
    unfold put_range. replace ((p <=? k) && (k <? p + len)) with false by lia.
    unfold b1, pre_blk. destruct (b_unwr b) eqn:U; cbn [andb]; [|rewrite U; reflexivity].
    rewrite Hp, partial_spec by (assumption || lia).
    destruct (off_is_partial off end_ t) eqn:P; rewrite partial_spec in P by (assumption || lia).
    - rewrite P. cbn [b_unwr b_data]. unfold put_range. rewrite <- Sz. replace ((0 <=? k) && (k <? 0 + ksize q)) with true by lia. reflexivity.
    - exfalso. apply Nk. unfold p, len in *. rewrite len_spec in * by (assumption || lia). rewrite Sz in *.
      destruct D as [D|[D|D]]; rewrite D in *; lia. }
  apply sp_ret. split; [reflexivity|]. split; [apply (keff_trans _ _ _ _ _ _ _ K1), (keff_trans _ _ _ _ _ _ _ K2), K3|].
  intros k Hk. rewrite (kval_held W3 q t a b3).
  - unfold bval, b3, b2. cbn [b_unwr b_data]. unfold put_range. replace ((p <=? p + k) && (p + k <? p + len)) with true by lia.
    f_equal. lia.
  - unfold W3. rewrite hold_blk. exact H2.
  - unfold W3. apply blk_same.
Qed.

(* ---- shared leaves ---- *)

Definition slot_at (q : key) (off : Z) : Z := match q with KH _ k => if k <=? 15 then head2_slot off else head1_slot off | KN _ s => s end.
Record rlike (W : world) (i off end_ : Z) (q : key) (r : flref) : Prop := mkRl {
  rl_addr : fl_addr r = hold W q;
  rl_parent : fl_parent r = parent_of q;
  rl_pos : fl_pos r = off;
  rl_slot : fl_slot r = slot_at q off;
  rl_kind : fl_kind r = kind_of (fi_ty2 (w_ino W i)) off;
  rl_partial : fl_partial r = off_is_partial off end_ (ktype q) }.
Lemma key_kind : forall W i off q, 0 <= off -> key_of W i off = Some q ->
  match q with
  | KN p s => kind_of (fi_ty2 (w_ino W i)) off = TREE /\ s = leaf_slot off /\ bottom W i off = Some p
  | KH j k => j = i /\ kind_of (fi_ty2 (w_ino W i)) off <> TREE /\
              k = head_abs (kind_of (fi_ty2 (w_ino W i)) off) (head_slot (kind_of (fi_ty2 (w_ino W i)) off) off)
  end.
Proof.
  intros W i off q H E. unfold key_of in E. destruct (kind_of (fi_ty2 (w_ino W i)) off) eqn:K.
  - assert (X : q = hkey i off HD1) by (unfold hkey; congruence). rewrite X. unfold hkey. repeat split; discriminate.
  - assert (X : q = hkey i off HD2) by (unfold hkey; congruence). rewrite X. unfold hkey. repeat split; discriminate.
  - destruct (bottom W i off); [|discriminate]. assert (X : q = KN z (leaf_slot off)) by congruence. rewrite X. auto.
Qed.
Lemma ref_like : forall W i off end_ q, 0 <= off -> key_of W i off = Some q -> rlike W i off end_ q (ref_at W i off end_ q).
Proof.
  intros W i off end_ q H E. pose proof (key_of_type W i off q H E) as Ty. pose proof (key_kind W i off q H E) as Kk.
  constructor; try reflexivity.
  - unfold ref_at, flref_setup. cbn [fl_slot]. destruct q as [j k|p s]; cbn [slot_at].
    + destruct Kk as (-> & N & Ek). unfold ktype, cur_ltype in Ty.
      destruct (kind_of (fi_ty2 (w_ino W i)) off) eqn:K; [| |congruence]; destruct (k <=? 15); cbn in Ty; try discriminate; reflexivity.
    + destruct Kk as (-> & -> & _). reflexivity.
  - unfold ref_at, flref_setup. cbn [fl_partial]. rewrite Ty. reflexivity.
Qed.
Lemma rlike_keff : forall W W' i off end_ q r, rlike W i off end_ q r -> hold W' q = hold W q ->
  fi_ty2 (w_ino W' i) = fi_ty2 (w_ino W i) -> rlike W' i off end_ q r.
Proof. intros W W' i off end_ q r [A B C D E F] H T. constructor; try assumption; congruence. Qed.

Lemma sp_detect : forall W i off end_ q r t a b, Inv W -> 0 <= off -> key_of W i off = Some q -> rlike W i off end_ q r ->
  fl_shared r = false -> hold W q = Some (t, a) -> w_blk W t a = Some b ->
  spec W (detect_shared r) (fun r' W' => W' = W /\ rlike W i off end_ q r' /\ fl_shared r' = (1 <? b_ref b)) (here W).
Proof.
  intros W i off end_ q r t a b I H E Rl Sh Hq Hb. pose proof Rl as Rl0. destruct Rl as [A B C D F G].
  unfold detect_shared. rewrite A, F, Hq. pose proof (key_kind W i off q H E) as Kk.
  pose proof (ki_type W (proj2 I) q t a Hq) as Et. pose proof (ki_one W (proj2 I) t a b Hb) as One.
  destruct q as [j k|p s].
  - destruct Kk as (-> & N & _).
    assert (Nd : t <> LT_DATABK) by (rewrite Et; cbn [ktype]; destruct (k <=? 15); discriminate).
    destruct One as (_ & One & _). rewrite (One Nd). change (1 <? 1) with false.
    destruct (kind_of (fi_ty2 (w_ino W i)) off); [| |congruence]; (apply sp_ret; split; [reflexivity|]; split; [exact Rl0|exact Sh]).
  - destruct Kk as (-> & _). rewrite Sh. eapply sp_bind; [apply (sp_test_shared W t a b Hb)|]. cbv beta. intros v W' [-> ->].
    apply sp_ret. split; [reflexivity|]. split; [constructor; try assumption; cbn; congruence|].
    cbn [fl_shared fl_set_shared]. rewrite Et. reflexivity.
Qed.

Lemma sp_try : forall A B W (m : M A) (k : A -> M B) (h : M unit) Q Q' E E',
  spec W m Q E -> (forall a W', Q a W' -> spec W' (k a) Q' E') ->
  (forall e W', E e W' -> spec W' h (fun _ W'' => E' e W'') (fun _ W'' => E' e W'')) ->
  spec W (fun s => match m s with
                   | (s', Ok a) => k a s'
                   | (s', Err e) => (fst (h s'), Err e)
                   | (s', Bad) => (s', Bad) end) Q' E'.
Proof.
  intros A B W m k h Q Q' E E' H K X s Hs N. specialize (H s Hs N). destruct (m s) as [s' [a|e|]]; [| |exact H].
  - destruct H as [N' HQ]. exact (K a (s_w s') HQ s' eq_refl N').
  - destruct H as [N' HE]. specialize (X e (s_w s') HE s' eq_refl N').
    destruct (h s') as [s2 [u|e2|]]; [| |contradiction]; exact X.
Qed.
Lemma keff_drop_unheld : forall W i q t a lo hi, Inv W -> (forall q', hold W q' <> Some (t, a)) ->
  KEff i q lo hi W (set_blk W t a None).
Proof.
  intros W i q t a lo hi [T K] E.
  assert (Hh : forall q, hold (set_blk W t a None) q = hold W q) by (intros [|]; reflexivity).
  assert (Bl : forall q t' a', hold W q = Some (t', a') -> w_blk (set_blk W t a None) t' a' = w_blk W t' a').
  { intros q' t' a' H. rewrite blk_at. destruct ((t' =? t) && (a' =? a)) eqn:X; [|reflexivity].
    exfalso. assert (t' = t /\ a' = a) as [-> ->] by lia. apply (E q' H). }
  assert (V : forall q k, kval (set_blk W t a None) q k = kval W q k).
  { intros q' k. unfold kval. rewrite Hh. destruct (hold W q') as [[t' a']|] eqn:H'; [|reflexivity]. rewrite (Bl q' t' a' H'). reflexivity. }
  constructor; try reflexivity; auto.
  - split; [apply tree_blk, T|]. constructor.
    + intros q' t' a' H. rewrite Hh in H. apply (ki_type W K q' t' a' H).
    + intros q' t' a' H. rewrite Hh in H. rewrite (Bl q' t' a' H). apply (ki_blk W K q' t' a' H).
    + intros t' a' b l Hb N Hl. rewrite blk_at in Hb. destruct ((t' =? t) && (a' =? a)) eqn:X; [discriminate|].
      apply (ki_ref W K t' a' b l Hb N). intros q' I. rewrite <- Hh. apply Hl, I.
    + intros t' a' b Hb. rewrite blk_at in Hb. destruct ((t' =? t) && (a' =? a)) eqn:X; [discriminate|]. apply (ki_one W K t' a' b Hb).
    + intro j. destruct (ki_blocks W K j) as (l & N & I & F). exists l. split; [exact N|]. split; [|exact F].
      intro q'. rewrite Hh. rewrite I. destruct q'; reflexivity.
  - apply skel_blk.
  - intros q' t' a' b b' _ Hq Hb Hb'. rewrite (Bl q' t' a' Hq) in Hb'. assert (b' = b) by congruence. subst b'. rewrite Hh. split; [reflexivity|lia].
Qed.

Lemma sp_copy_whole : forall W t a a2 b b2, dsize t -> w_blk W t a = Some b -> w_blk W t a2 = Some b2 -> a <> a2 ->
  let b3 := mkBlk (put_range (b_data b2) 0 (ltype_size t) (fun k => b_data b (0 + k))) (b_ref b2) (b_unwr b2) in
  let b4 := mkBlk (b_data b3) (b_ref b3) false in
  spec W (copy_whole t a a2) (fun _ W' => W' = set_blk (set_blk W t a2 (Some b3)) t a2 (Some b4))
       (EW (fun W' => W' = W \/ W' = set_blk W t a2 (Some b3))).
Proof.
  intros W t a a2 b b2 D Hb Hb2 N b3 b4. unfold copy_whole.
  assert (Hz : forall e W', here W e W' -> EW (fun W' => W' = W \/ W' = set_blk W t a2 (Some b3)) e W').
  { intros e W' [Ne ->]. split; [exact Ne|left; reflexivity]. }
  eapply sp_bind; [eapply sp_conseq; [apply (sp_stage_fileaf W t a b Hb)|intros x W' X; exact X|exact Hz]|].
  cbv beta. intros x W' [-> ->].
  eapply sp_bind; [eapply sp_conseq; [apply (sp_stage_fileaf W t a2 b2 Hb2)|intros x W' X; exact X|exact Hz]|].
  cbv beta. intros x W' [-> ->].
  eapply sp_bind.
  { unfold copy_bytes. sp_blk Hb. apply (sp_store W t a2 0 (ltype_size t) _ b2 Hb2); destruct D as [D|[D|D]]; lia. }
  cbv beta. intros [] W1 ->. fold b3.
  eapply sp_conseq; [apply (sp_set_unwritten (set_blk W t a2 (Some b3)) false t a2 b3 (blk_same _ _ _ _))|intros x W' X; exact X|].
  intros e W' [Ne ->]. split; [exact Ne|right; reflexivity].
Qed.

Lemma sp_unshare : forall W i off end_ q r t a b, Inv W -> 0 <= off -> key_of W i off = Some q -> rlike W i off end_ q r ->
  hold W q = Some (t, a) -> w_blk W t a = Some b -> (fl_shared r = true -> 1 < b_ref b) ->
  spec W (unshare i r off)
    (fun r' W' => KEff i q 0 0 W W' /\ rlike W' i off end_ q r' /\ fl_shared r' = fl_shared r /\
       exists a' b', hold W' q = Some (t, a') /\ w_blk W' t a' = Some b' /\ (fl_shared r = (1 <? b_ref b) -> b_ref b' = 1))
    (EW (KEff i q 0 0 W)).
Proof.
  intros W i off end_ q r t a b I H E Rl Hq Hb Sh.
  pose proof (ki_type W (proj2 I) q t a Hq) as Et. pose proof (ki_one W (proj2 I) t a b Hb) as One.
  assert (D : dsize t) by (rewrite Et; apply ktype_dsize).
  pose proof (key_kind W i off q H E) as Kk.
  pose proof (rl_addr _ _ _ _ _ _ Rl) as Ra. pose proof (rl_kind _ _ _ _ _ _ Rl) as Rk.
  assert (Skip : spec W (ret r)
    (fun r' W' => KEff i q 0 0 W W' /\ rlike W' i off end_ q r' /\ fl_shared r' = fl_shared r /\
       exists a' b', hold W' q = Some (t, a') /\ w_blk W' t a' = Some b' /\ (fl_shared r = (1 <? b_ref b) -> b_ref b' = 1))
    (EW (KEff i q 0 0 W)) \/ fl_shared r = true).
  { destruct (fl_shared r) eqn:S; [right; reflexivity|left].
    apply sp_ret. split; [apply keff_refl, I|]. split; [exact Rl|]. split; [exact S|]. exists a, b.
    split; [exact Hq|]. split; [exact Hb|]. intro X. lia. }
  unfold unshare. rewrite Ra, Hq.
  destruct (fl_shared r) eqn:S.
  - clear Skip. specialize (Sh eq_refl). cbn [negb orb].
    destruct q as [j k|p s].
    { exfalso. destruct One as (_ & One & _). assert (t <> LT_DATABK); [|specialize (One H0); lia].
      rewrite Et. cbn [ktype]. destruct (k <=? 15); discriminate. }
    destruct Kk as (Kt & Es & Bt). rewrite Rk, Kt. cbn [ktype] in Et.
    destruct (hold_tree W i off p (proj1 I) Bt) as (n & Hn & H2 & In & Rs & Esl & Hh & Hir).
    assert (U : b_unwr b = false). { destruct (b_unwr b) eqn:U; [|reflexivity]. destruct One as (_ & _ & One). specialize (One eq_refl). lia. }
    eapply sp_bind.
    { eapply sp_conseq; [apply (sp_claim_data W t)|intros x W' X; exact X|].
      intros e W' [N X]. split; [exact N|]. apply (fresh_keff W t); assumption. }
    cbv beta. intros a2 W1 (Hf & Ha2 & d & ->).
    assert (Na : a <> a2) by congruence.
    set (W1 := set_blk W t a2 _).
    assert (Hb1 : w_blk W1 t a = Some b) by (unfold W1; rewrite blk_at; replace ((t =? t) && (a =? a2)) with false by lia; exact Hb).
    assert (Hb2 : w_blk W1 t a2 = Some (mkBlk d 1 true)) by apply blk_same.
    assert (U2 : forall W', (forall q', hold W' q' = hold W q') -> forall q', hold W' q' <> Some (t, a2)).
    { intros W' X q'. rewrite X. apply unheld_none; [apply I|exact Hf]. }
    set (b3 := mkBlk (put_range d 0 (ltype_size t) (fun k => b_data b (0 + k))) 1 true).
    set (b4 := mkBlk (b_data b3) 1 false).
    set (q := KN p s) in *.
    assert (K1 : KEff i q 0 0 W W1).
    { apply keff_unheld; [exact I|apply U2; reflexivity|congruence|reflexivity]. }
    assert (K2 : KEff i q 0 0 W (set_blk W1 t a2 (Some b3))).
    { apply (keff_trans _ _ _ _ _ _ _ K1). apply keff_unheld; [apply K1|apply U2; intro; apply hold_blk| |reflexivity].
      intros x Hx. rewrite Hb2 in Hx. injection Hx as <-. reflexivity. }
    assert (K3 : KEff i q 0 0 W (set_blk (set_blk W1 t a2 (Some b3)) t a2 (Some b4))).
    { apply (keff_trans _ _ _ _ _ _ _ K2). apply keff_unheld; [apply K2|apply U2; intro; rewrite !hold_blk; reflexivity| |reflexivity].
      intros x Hx. rewrite blk_same in Hx. injection Hx as <-. reflexivity. }
    refine (sp_try unit flref W1 (copy_whole t a a2) (fun _ => reclaim_vspace t a ;;; rebind_child r off (t, a2)) (reclaim_vspace t a2) _ _ _ _
              (sp_copy_whole W1 t a a2 b _ D Hb1 Hb2 Na) _ _).
    + cbv beta. intros [] W3 ->. cbn [b_data b_ref b_unwr]. fold b3. change (mkBlk (put_range d 0 (ltype_size t) (fun k => b_data b (0 + k))) 1 false) with b4.
      set (W3 := set_blk (set_blk W1 t a2 (Some b3)) t a2 (Some b4)) in *.
      assert (Hb3 : w_blk W3 t a = Some b).
      { unfold W3. rewrite !blk_at. replace ((t =? t) && (a =? a2)) with false by lia. exact Hb1. }
      eapply sp_bind.
      { eapply sp_conseq; [apply (sp_reclaim W3 t a b Hb3)|intros x W' X; exact X|].
        intros e W' [N ->]. split; [exact N|exact K3]. }
      cbv beta. intros [] W4 ->. unfold rebind_child. rewrite (rl_parent _ _ _ _ _ _ Rl). cbn [parent_of q snd].
      set (W4 := set_blk W3 t a (dec_ref t b)).
      assert (Hn4 : w_node W4 p = Some n) by exact Hn.
      eapply sp_bind; [unfold bind_child; sp_node Hn4; apply sp_put_node|]. cbv beta. intros [] W5 ->.
      set (W5 := set_node W4 p _).
      assert (Rb : Rebind W W5 i q (Some (t, a2)) 0).
      { apply (rebind_node W W5 i p n s); try assumption; [apply I|rewrite Es, <- Esl; exact Rs|split; [exact Et|exact Ha2]| | |].
        - reflexivity.
        - unfold W5. cbn. rewrite Z.add_0_r. destruct (w_ino W i); reflexivity.
        - intro a'. unfold W5. cbn [set_node w_node]. unfold fset. cbn [voff]. rewrite Esl, <- Es. reflexivity. }
      assert (Bl : forall t' x, w_blk W5 t' x = if (t' =? t) && (x =? a) then Some (mkBlk (b_data b) (b_ref b - 1) (b_unwr b))
                     else if (t' =? t) && (x =? a2) then Some b4 else w_blk W t' x).
      { intros t' x. change (w_blk W5 t' x) with (w_blk W4 t' x). unfold W4. rewrite blk_at.
        destruct ((t' =? t) && (x =? a)) eqn:X1.
        - unfold dec_ref. rewrite Et. change (isdatabk LT_DATABK) with true. replace (1 <? b_ref b) with true by lia. reflexivity.
        - unfold W3. rewrite !blk_at. destruct ((t' =? t) && (x =? a2)) eqn:X2; [reflexivity|].
          unfold W1. rewrite blk_at, X2. reflexivity. }
      assert (Ke : KEff i q 0 0 W W5).
      { apply (keff_rebind W W5 i q _ _ 0 0 I Rb).
        - cbn [owner q]. rewrite Hn, In. reflexivity.
        - rewrite Hq. cbn [dn]. lia.
        - intros t' x Hx. assert (t' = t) by congruence. subst t'. exact Et.
        - intros t' x. rewrite Bl, Hq. destruct ((t' =? t) && (x =? a)) eqn:X1.
          + assert (t' = t /\ x = a) as [-> ->] by lia. rewrite Hb, dv_same, dv_0 by congruence. cbn [b_ref b_data b_unwr]. repeat split; lia.
          + destruct ((t' =? t) && (x =? a2)) eqn:X2.
            * assert (t' = t /\ x = a2) as [-> ->] by lia. rewrite Hf. exact Logic.I.
            * rewrite !dv_0 by (intro Y; injection Y; lia). destruct (w_blk W t' x); [repeat split; lia|intro Y; injection Y; lia].
        - intros t' x b'. rewrite Bl. destruct ((t' =? t) && (x =? a)) eqn:X1.
          + intro Y. injection Y as <-. cbn [b_ref b_unwr]. rewrite U. repeat split; try lia; try discriminate.
          + destruct ((t' =? t) && (x =? a2)) eqn:X2; [intro Y; injection Y as <-; cbn; repeat split; try lia; discriminate|].
            apply (ki_one W (proj2 I)).
        - intros k Rk0 _. rewrite (kval_held W q t a b k Hq Hb).
          rewrite (kval_held W5 q t a2 b4); [|apply (rb_hold _ _ _ _ _ _ Rb)|rewrite Bl; replace ((t =? t) && (a2 =? a)) with false by lia; replace ((t =? t) && (a2 =? a2)) with true by lia; reflexivity].
          unfold bval, b4, b3. cbn [b_unwr b_data]. rewrite U. unfold put_range.
          assert (Szq : ksize q = ltype_size t) by (unfold ksize; cbn [ktype q]; rewrite Et; reflexivity).
          replace ((0 <=? k) && (k <? 0 + ltype_size t)) with true by lia. f_equal. lia. }
      apply sp_ret. split; [exact Ke|]. split; [|split; [exact S|]].
      * destruct Rl as [R1 R2 R3 R4 R5 R6]. constructor; cbn [fl_set_addr fl_addr fl_parent fl_pos fl_slot fl_kind fl_partial]; try assumption.
        symmetry. apply (rb_hold _ _ _ _ _ _ Rb).
      * exists a2, b4. split; [apply (rb_hold _ _ _ _ _ _ Rb)|]. split; [|reflexivity].
        rewrite Bl. replace ((t =? t) && (a2 =? a)) with false by lia. replace ((t =? t) && (a2 =? a2)) with true by lia. reflexivity.
    + cbv beta. intros e W' [Ne X].
      assert (Y : KEff i q 0 0 W W' /\ (forall q', hold W' q' <> Some (t, a2)) /\ exists bb, w_blk W' t a2 = Some bb /\ b_ref bb = 1).
      { destruct X as [->| ->].
        - split; [exact K1|]. split; [apply U2; reflexivity|]. exists (mkBlk d 1 true). split; [exact Hb2|reflexivity].
        - split; [exact K2|]. split; [apply U2; intro; rewrite hold_blk; reflexivity|]. exists b3. split; [apply blk_same|reflexivity]. }
      destruct Y as (Y1 & Y2 & bb & Y3 & Y4).
      eapply sp_conseq; [apply (sp_reclaim W' t a2 bb Y3)| |].
      * cbv beta. intros [] W'' ->. split; [exact Ne|]. unfold dec_ref. rewrite Y4, andb_false_r.
        apply (keff_trans _ _ _ _ _ _ _ Y1). apply keff_drop_unheld; [apply Y1|exact Y2].
      * intros e' W'' [_ ->]. split; [exact Ne|exact Y1].
  - cbn [negb orb]. destruct Skip as [Skip|Skip]; [exact Skip|discriminate].
Qed.

(* ---- giving up a leaf ---- *)

Lemma keff_unbind : forall W W' i q t a b, Inv W -> owner W q = Some i -> hold W q = Some (t, a) -> w_blk W t a = Some b ->
  Rebind W W' i q None (- knk q) ->
  (forall t' x, w_blk W' t' x = if (t' =? t) && (x =? a) then dec_ref t b else w_blk W t' x) ->
  KEff i q 0 (ksize q) W W'.
Proof.
  intros W W' i q t a b I Ow Hq Hb R B. assert (K : keys_inv W) by apply I.
  pose proof (ki_one W K t a b Hb) as One.
  assert (Dr : match dec_ref t b with Some b' => b_ref b' = b_ref b - 1 /\ 1 < b_ref b /\ t = LT_DATABK /\ b_data b' = b_data b /\ b_unwr b' = b_unwr b | None => b_ref b <= 1 end).
  { unfold dec_ref, isdatabk. destruct ((t =? LT_DATABK) && (1 <? b_ref b)) eqn:X; [cbn; repeat split; lia|].
    destruct (1 <? b_ref b) eqn:Y; [|lia]. destruct One as (_ & One & _). assert (t <> LT_DATABK) by lia. specialize (One H). lia. }
  apply (keff_rebind W W' i q _ _ 0 (ksize q) I R Ow).
  - rewrite Hq. cbn [dn]. lia.
  - intros t' x H. discriminate.
  - intros t' x. rewrite B. destruct ((t' =? t) && (x =? a)) eqn:X.
    + assert (t' = t /\ x = a) as [-> ->] by lia. rewrite Hb, Hq, dv_same. cbn [dv].
      destruct (dec_ref t b) as [b'|]; [|repeat split; try discriminate; exact Dr]. destruct Dr as (D1 & D2 & D3 & D4 & D5). repeat split; try assumption; lia.
    + rewrite Hq. rewrite (dv_0 (Some (t, a)) t' x) by (intro Y; injection Y; lia). cbn [dv].
      destruct (w_blk W t' x); [repeat split; lia|discriminate].
  - intros t' x b'. rewrite B. destruct ((t' =? t) && (x =? a)) eqn:X.
    + assert (t' = t /\ x = a) as [-> ->] by lia. intro Y. rewrite Y in Dr. destruct Dr as (D1 & D2 & D3 & D4 & D5).
      split; [lia|]. split; [intro Z0; congruence|]. intro Z0. rewrite D5 in Z0. destruct One as (_ & _ & One). specialize (One Z0). lia.
    + apply (ki_one W K).
  - intros k Rk Nk. lia.
Qed.
Lemma sp_discard_leaf : forall W i q t a b, Inv W -> hold W q = Some (t, a) -> w_blk W t a = Some b ->
  spec W (discard_leaf i t a)
    (fun _ W' => (forall t' x, w_blk W' t' x = if (t' =? t) && (x =? a) then dec_ref t b else w_blk W t' x) /\
                 (forall x, w_node W' x = w_node W x) /\
                 (forall j, j <> i -> w_ino W' j = w_ino W j) /\
                 w_ino W' i = fi_set_blocks (w_ino W i) (fi_blocks (w_ino W i) + - knk q))
    (EW (KEff i q 0 (ksize q) W)).
Proof.
  intros W i q t a b I Hq Hb. unfold discard_leaf.
  pose proof (ki_type W (proj2 I) q t a Hq) as Et. pose proof (ki_one W (proj2 I) t a b Hb) as One.
  eapply sp_bind.
  { eapply sp_conseq; [apply (sp_test_last W t a b Hb)|intros x W' X; exact X|].
    intros e W' [N ->]. split; [exact N|apply keff_refl, I]. }
  cbv beta. intros v W' [-> ->].
  set (b1 := mkBlk (b_data b) (b_ref b) false).
  eapply sp_bind with (Q := fun _ W1 => (W1 = W \/ (W1 = set_blk W t a (Some b1) /\ b_ref b = 1))).
  { destruct ((b_ref b =? 1) || negb (isdatabk t)) eqn:X.
    - eapply sp_conseq; [apply (sp_set_unwritten W false t a b Hb)| |].
      + cbv beta. intros [] W' ->. right. split; [reflexivity|]. destruct (b_ref b =? 1) eqn:Y; [lia|].
        destruct One as (_ & One & _). apply One. unfold isdatabk in X. lia.
      + intros e W' [N ->]. split; [exact N|apply keff_refl, I].
    - apply sp_ret. left. reflexivity. }
  cbv beta. intros [] W1 Hw.
  assert (K1 : KEff i q 0 (ksize q) W W1).
  { destruct Hw as [->|[-> R1]]; [apply keff_refl, I|]. apply (keff_store W i q t a b); try assumption.
    intros k R N. lia. }
  assert (Hb1 : exists b', w_blk W1 t a = Some b' /\ b_ref b' = b_ref b /\ (b' = b \/ b_ref b = 1)).
  { destruct Hw as [->|[-> R1]]; [exists b; auto|]. exists b1. split; [apply blk_same|]. split; [reflexivity|right; exact R1]. }
  destruct Hb1 as (b' & Hb1 & Rb' & Eb').
  eapply sp_bind.
  { eapply sp_conseq; [apply (sp_reclaim W1 t a b' Hb1)|intros x W' X; exact X|].
    intros e W' [N ->]. split; [exact N|exact K1]. }
  cbv beta. intros [] W2 ->.
  unfold update_iblocks. sp_ino. eapply sp_conseq; [apply sp_put_ino| |intros e W' X; exact X].
  cbv beta. intros [] W3 ->.
  assert (Ei : forall j, w_ino (set_blk W1 t a (dec_ref t b')) j = w_ino W j) by (destruct Hw as [->|[-> _]]; reflexivity).
  split; [|split; [|split]].
  - intros t' x. change (w_blk (set_ino (set_blk W1 t a (dec_ref t b')) i (fi_set_blocks (w_ino (set_blk W1 t a (dec_ref t b')) i) (fi_blocks (w_ino (set_blk W1 t a (dec_ref t b')) i) + ltype_nkbs t * -1))) t' x) with (w_blk (set_blk W1 t a (dec_ref t b')) t' x).
    rewrite blk_at. destruct ((t' =? t) && (x =? a)) eqn:X.
    + destruct Eb' as [->|R1]; [reflexivity|]. unfold dec_ref. rewrite Rb', R1, !andb_false_r. reflexivity.
    + destruct Hw as [->|[-> _]]; [reflexivity|]. rewrite blk_at, X. reflexivity.
  - intro x. destruct Hw as [->|[-> _]]; reflexivity.
  - intros j N. cbn [set_ino w_ino]. rewrite fset_other by exact N. apply Ei.
  - cbn [set_ino w_ino]. rewrite fset_same, Ei. unfold knk. rewrite <- Et. f_equal. lia.
Qed.
(* slots of the inode and of a node are emptied *)
Lemma hkey_of : forall W i off q, 0 <= off -> key_of W i off = Some q ->
  match q with KH j k => j = i /\ 1 <= k <= 19 /\ fi_ty2 (w_ino W i) = false | KN _ _ => True end.
Proof.
  intros W i off q H E. destruct q as [j k|p s]; [|exact I].
  pose proof (key_kind W i off (KH j k) H E) as (-> & N & Ek).
  destruct (hold_head W i off _ H eq_refl N) as (_ & F & R & _). rewrite <- Ek in R. auto.
Qed.
Lemma clear_is_assign : forall n s, has_child n s = true -> clear_child n s = assign_child n s OFF_NULL.
Proof. intros n s H. unfold clear_child. rewrite H. reflexivity. Qed.
Lemma hold_kn : forall W p s v, hold W (KN p s) = Some v -> exists n, w_node W p = Some n /\ n_height n = 2 /\ 0 <= s < 1024 /\ has_child n s = true.
Proof.
  intros W p s v H. cbn [hold] in H. destruct (w_node W p) as [n|]; [|discriminate].
  destruct ((n_height n =? 2) && (0 <=? s) && (s <? 1024)) eqn:X; [|discriminate].
  exists n. split; [reflexivity|]. split; [lia|]. split; [lia|]. unfold child_at in H. destruct (has_child n s); [reflexivity|discriminate].
Qed.

Definition clip (q : key) (off end_ : Z) : Z := Z.min (off / ksize q * ksize q + ksize q) end_ - off.
Lemma sp_drop_leaf : forall W i off end_ q r t a b, Inv W -> 0 <= off -> key_of W i off = Some q -> rlike W i off end_ q r ->
  hold W q = Some (t, a) -> w_blk W t a = Some b ->
  spec W (discard_leaf i t a ;;; clear_leaf i r)
    (fun _ W' => KEff i q 0 (ksize q) W W' /\ hold W' q = None) (EW (KEff i q 0 (ksize q) W)).
Proof.
  intros W i off end_ q r t a b I H E Rl Hq Hb.
  eapply sp_bind; [apply (sp_discard_leaf W i q t a b I Hq Hb)|]. cbv beta. intros [] W1 (B1 & N1 & O1 & I1).
  pose proof (key_kind W i off q H E) as Kk. pose proof (hkey_of W i off q H E) as Hk.
  pose proof (key_of_owner W i off q (proj1 I) H E) as Ow.
  unfold clear_leaf. rewrite (rl_kind _ _ _ _ _ _ Rl). destruct q as [j k|p s].
  - destruct Kk as (-> & Nt & Ek). destruct Hk as (_ & R & F).
    assert (Es : head_abs (kind_of (fi_ty2 (w_ino W i)) off) (fl_slot r) = k).
    { rewrite (rl_slot _ _ _ _ _ _ Rl). cbn [slot_at]. rewrite Ek. f_equal.
      destruct (ktype_head i _ off _ H eq_refl Nt) as [Ty _]. rewrite <- Ek in Ty. cbn [ktype] in Ty. rewrite <- Ek.
      destruct (kind_of (fi_ty2 (w_ino W i)) off); [| |congruence]; destruct (k <=? 15); cbn in Ty; try discriminate; reflexivity. }
    assert (Sp : spec W1 (set_head i k None)
        (fun _ W' => KEff i (KH i k) 0 (ksize (KH i k)) W W' /\ hold W' (KH i k) = None) (EW (KEff i (KH i k) 0 (ksize (KH i k)) W))).
    { unfold set_head. sp_ino. eapply sp_conseq; [apply sp_put_ino| |intros e W' X; exact X].
      cbv beta. intros [] W2 ->. set (W2 := set_ino W1 i _).
      assert (Rb : Rebind W W2 i (KH i k) None (- knk (KH i k))).
      { apply rebind_head; try assumption; [apply I| |].
        - intros x Nx. unfold W2. cbn [set_ino w_ino]. rewrite fset_other by exact Nx. apply O1, Nx.
        - unfold W2. cbn [set_ino w_ino]. rewrite fset_same, I1. reflexivity. }
      split; [|apply (rb_hold _ _ _ _ _ _ Rb)].
      apply (keff_unbind W W2 i (KH i k) t a b); assumption. }
    destruct (kind_of (fi_ty2 (w_ino W i)) off); [| |congruence]; rewrite Es; exact Sp.
  - destruct Kk as (-> & Es & Bt). rewrite (rl_parent _ _ _ _ _ _ Rl). cbn [parent_of].
    rewrite (rl_slot _ _ _ _ _ _ Rl). cbn [slot_at].
    destruct (hold_kn W p s _ Hq) as (n & Hn & H2 & Rs & Hc).
    assert (Hn1 : w_node W1 p = Some n) by (rewrite N1; exact Hn).
    sp_node Hn1. eapply sp_conseq; [apply sp_put_node| |intros e W' X; exact X].
    cbv beta. intros [] W2 ->. set (W2 := set_node W1 p _).
    assert (Rb : Rebind W W2 i (KN p s) None (- knk (KN p s))).
    { apply (rebind_node W W2 i p n s); try assumption; [apply I|].
      intro a'. unfold W2. cbn [set_node w_node voff]. unfold fset. rewrite clear_is_assign by exact Hc. rewrite N1. reflexivity. }
    split; [|apply (rb_hold _ _ _ _ _ _ Rb)].
    apply (keff_unbind W W2 i (KN p s) t a b); assumption.
Qed.

Lemma sp_discard_by : forall W zm i off end_ q r, Inv W -> 0 <= off < end_ -> key_of W i off = Some q -> rlike W i off end_ q r ->
  fl_shared r = false ->
  let p := off mod ksize q in let len := clip q off end_ in
  spec W (discard_by zm i r off end_)
    (fun _ W' => KEff i q p (p + len) W W' /\ (forall k, p <= k < p + len -> kval W' q k = 0)) (EW (KEff i q p (p + len) W)).
Proof.
  intros W zm i off end_ q r I H E Rl Sh p len.
  unfold discard_by. rewrite (rl_addr _ _ _ _ _ _ Rl). destruct (hold W q) as [[t a]|] eqn:Hq.
  2: { apply sp_ret. split; [apply keff_refl, I|]. intros k _. unfold kval. rewrite Hq. reflexivity. }
  pose proof (ki_type W (proj2 I) q t a Hq) as Et. pose proof (ki_blk W (proj2 I) q t a Hq) as Hb.
  destruct (w_blk W t a) as [b|] eqn:B; [|congruence]. clear Hb.
  assert (D : dsize t) by (rewrite Et; apply ktype_dsize).
  assert (Sz : ksize q = ltype_size t) by (unfold ksize; rewrite Et; reflexivity).
  assert (Rp : 0 <= p /\ 0 < len /\ p + len <= ltype_size t).
  { unfold p, len, clip. rewrite Sz. destruct D as [D|[D|D]]; rewrite D; lia. }
  eapply sp_bind.
  { eapply sp_conseq; [apply (sp_detect W i off end_ q r t a b I ltac:(lia) E Rl Sh Hq B)|intros x W' X; exact X|].
    intros e W' [N ->]. split; [exact N|apply keff_refl, I]. }
  cbv beta. intros r1 W' (-> & Rl1 & Sh1). rewrite (rl_partial _ _ _ _ _ _ Rl1).
  rewrite partial_spec by (lia || apply ktype_dsize). fold (ksize q).
  destruct (negb ((off mod ksize q =? 0) && (ksize q <=? end_ - off))) eqn:P.
  - eapply sp_bind.
    { eapply sp_conseq; [apply (sp_unshare W i off end_ q r1 t a b I ltac:(lia) E Rl1 Hq B)|intros x W' X; exact X|].
      - intro S. rewrite Sh1 in S. lia.
      - intros e W' [N X]. split; [exact N|]. apply keff_empty, X. }
    cbv beta. intros r2 W1 (K1 & Rl2 & _ & a' & b' & Hq1 & B1 & R1). specialize (R1 Sh1).
    rewrite (rl_addr _ _ _ _ _ _ Rl2), Hq1, (rl_pos _ _ _ _ _ _ Rl2).
    rewrite in_data_spec, len_spec by (assumption || lia). rewrite <- Sz. fold p. fold (clip q off end_). fold len.
    eapply sp_conseq; [apply (sp_zero_range W1 t a' p len b' B1); lia| |].
    + cbv beta. intros [] W2 ->. set (b2 := mkBlk _ _ _). split.
      * apply (keff_trans _ _ _ _ _ W1); [apply keff_empty, K1|].
        apply (keff_store W1 i q t a' b' b2); try assumption; [apply K1|].
        intros k Rk Nk. unfold bval, b2. cbn [b_unwr b_data]. unfold put_range.
        replace ((p <=? k) && (k <? p + len)) with false by lia. reflexivity.
      * intros k Hk. rewrite (kval_held _ q t a' b2); [|rewrite hold_blk; exact Hq1|apply blk_same].
        unfold bval, b2. cbn [b_unwr b_data]. destruct (b_unwr b'); [reflexivity|]. unfold put_range.
        replace ((p <=? k) && (k <? p + len)) with true by lia. reflexivity.
    + intros e W' [N ->]. split; [exact N|]. apply keff_empty, K1.
  - assert (Pl : p = 0 /\ len = ksize q).
    { unfold p, len, clip. rewrite Sz in *. destruct D as [D|[D|D]]; rewrite D in *; lia. }
    destruct Pl as [-> Pl]. rewrite Pl. cbn [Z.add] in *.
    rewrite (rl_addr _ _ _ _ _ _ Rl1), Hq, Sh1. destruct (negb (1 <? b_ref b) && zm) eqn:X.
    + assert (R1 : b_ref b = 1) by (pose proof (ki_one W (proj2 I) t a b B); lia).
      eapply sp_conseq; [apply (sp_set_unwritten W true t a b B)| |].
      * cbv beta. intros [] W1 ->. set (b1 := mkBlk _ _ _). split.
        -- apply (keff_store W i q t a b b1); try assumption. intros k Rk Nk. lia.
        -- intros k Hk. rewrite (kval_held _ q t a b1); [reflexivity|rewrite hold_blk; exact Hq|apply blk_same].
      * intros e W' [N ->]. split; [exact N|apply keff_refl, I].
    + eapply sp_conseq; [apply (sp_drop_leaf W i off end_ q r1 t a b I ltac:(lia) E Rl1 Hq B)| |intros e W' Y; exact Y].
      cbv beta. intros [] W1 (K1 & H1). split; [exact K1|]. intros k _. unfold kval. rewrite H1. reflexivity.
Qed.
