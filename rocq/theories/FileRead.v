(* Triples for walking down the tree and for reading *)
From Verif Require Import Base AddrModel FileModel FileTree FileInv FileSpec FileLeaf.

(* the child of a node on the way to an offset *)
Lemma child_shape : forall W a n s, tree_inv W -> w_node W a = Some n -> 3 <= n_height n -> 0 <= s < 1024 -> has_child n s = true ->
  exists m, w_node W (n_child n s) = Some m /\ n_ino m = n_ino n /\ n_height m = n_height n - 1 /\ shape m /\
            n_beg m = n_beg n + s * sub_of (n_height n) /\ n_end m = n_beg m + sub_of (n_height n).
Proof.
  intros W a n s T Ha H3 Hs Hc. destruct (ti_child W T a n s (conj Ha H3) Hs Hc) as (m & Hm & Im & Hh & Hb).
  destruct (ti_shape W T _ m Hm) as [_ Sm]. destruct (ti_shape W T a n Ha) as [_ Sn]. exists m.
  repeat (split; [assumption|]). rewrite (sh_end m Sm), span_eq by apply Sm. rewrite Hh.
  rewrite (sub_step (n_height n)) by (pose proof (sh_h n Sn); lia). reflexivity.
Qed.
Lemma child_range : forall W a n off, tree_inv W -> w_node W a = Some n -> 3 <= n_height n -> n_beg n <= off < n_end n ->
  has_child n (slot_of n off) = true ->
  exists m, w_node W (n_child n (slot_of n off)) = Some m /\ n_ino m = n_ino n /\ n_height m = n_height n - 1 /\ n_beg m <= off < n_end m.
Proof.
  intros W a n off T Ha H3 R Hc. destruct (ti_shape W T a n Ha) as [_ Sn].
  destruct (child_shape W a n (slot_of n off) T Ha H3 (slot_range n off Sn R) Hc) as (m & Hm & Im & Hh & Sm & Hb & He).
  exists m. repeat (split; [assumption|]). pose proof (slot_bounds n off Sn R). lia.
Qed.

Lemma sp_isbottom : forall W n E, 2 <= n_height n <= 5 -> spec W (isbottom n) (fun v W' => W' = W /\ v = (n_height n <=? 2)) E.
Proof.
  intros W n E H. unfold isbottom, height_legal, F_HEIGHT_MAX. replace ((1 <=? n_height n) && (n_height n <=? 5)) with true by lia.
  apply sp_ret. split; reflexivity.
Qed.
Definition enoent_if (W : world) (P : Prop) : Z -> world -> Prop := fun e W' => W' = W /\ (e = ENOENT -> P).

Lemma sp_stage_from : forall W i off, tree_inv W -> forall h d a n, w_node W a = Some n -> n_ino n = i ->
  n_beg n <= off < n_end n -> n_height n <= Z.of_nat h + 1 -> n_height n <= Z.of_nat d + 1 ->
  spec W (stage_from h i off a) (fun p W' => W' = W /\ walk d W a off = Some p) (enoent_if W (walk d W a off = None)).
Proof.
  intros W i off T. induction h as [|h IH]; intros d a n Ha In R Hh Hd.
  - destruct (ti_shape W T a n Ha) as [_ Sn]. pose proof (sh_h n Sn). lia.
  - destruct (ti_shape W T a n Ha) as [_ Sn]. pose proof (sh_h n Sn) as H5.
    destruct d as [|d]; [lia|]. rewrite walk_S, Ha. replace (n_inrange n off) with true by (symmetry; apply inrange_iff, R).
    cbn [stage_from]. sp_node Ha. eapply sp_bind; [apply (sp_isbottom W n _ H5)|]. cbv beta. intros v W' [-> ->].
    destruct (n_height n <=? 2) eqn:B.
    + apply sp_ret. split; reflexivity.
    + destruct (child_at n (slot_of n off)) as [[t c]|] eqn:C.
      * apply child_at_some in C. destruct C as (Hc & _ & ->).
        destruct (child_range W a n off T Ha ltac:(lia) R Hc) as (m & Hm & Im & Hm1 & Rm).
        eapply sp_bind.
        { eapply sp_conseq; [apply (sp_stage_node W i t (n_child n (slot_of n off)) m Hm); [congruence|lia]|intros x W' X; exact X|].
          intros e W' [N ->]. split; [reflexivity|]. intro X. contradiction. }
        cbv beta. intros x W' [-> ->]. apply (IH d _ m); try assumption; lia.
      * eapply sp_bind with (Q := fun _ _ => False); [|intros x W' []].
        cbn [stage_node]. apply sp_fail. split; [reflexivity|]. intros _. reflexivity.
Qed.
Lemma sp_stage_by_tree : forall W i off, tree_inv W ->
  spec W (stage_by_tree i off) (fun p W' => W' = W /\ bottom W i off = Some p) (enoent_if W (bottom W i off = None)).
Proof.
  intros W i off T. unfold stage_by_tree, bottom, root_of, has_root. sp_ino.
  destruct (fi_slot (w_ino W i) 0) as [[t r]|] eqn:Er; [|apply sp_fail; split; [reflexivity|intros _; reflexivity]].
  destruct (ti_root W T i t r Er) as (-> & n & Hn & In & Hb). rewrite Z.eqb_refl. cbn [negb].
  destruct (ti_shape W T r n Hn) as [_ Sn].
  eapply sp_bind.
  { unfold stage_root. sp_ino. rewrite Er. eapply sp_conseq; [apply (sp_stage_node W i LT_FTNODE r n Hn In)|intros x W' X; exact X|].
    - apply Sn.
    - intros e W' [N ->]. split; [reflexivity|]. intro X. contradiction. }
  cbv beta. intros x W' [-> ->]. sp_node Hn. destruct (n_inrange n off) eqn:R; cbn [negb].
  - apply inrange_iff in R. pose proof (sh_h n Sn). apply (sp_stage_from W i off T _ 5 r n); try assumption; lia.
  - apply sp_fail. split; [reflexivity|]. intros _. rewrite walk_S, Hn, R. reflexivity.
Qed.

(* ---- loops of reading ---- *)

Lemma has_head_iff : forall k ty2 off end_, 0 <= off -> k <> TREE -> (has_head_io k ty2 off end_ = true <-> off < end_ /\ kind_of ty2 off = k).
Proof.
  intros k ty2 off end_ H N. unfold has_head_io.
  destruct (kind_cases ty2 off H) as [(X & F & R)|[(X & F & R)|(X & R)]]; rewrite X; unfold is_head1, is_head2, off_within;
  change head1_max with 4096; change head2_max with 65536; destruct k; try congruence; destruct ty2; try discriminate; cbn [negb andb];
  split; intro Y; try lia; try (split; [lia|congruence]); try (destruct Y; discriminate); try (destruct Y as [Y1 Y2]; lia); destruct R; try discriminate; lia.
Qed.
Definition head_max (k : kind) : Z := match k with HD1 => 4096 | HD2 => 65536 | TREE => 0 end.
Lemma head_leaf : forall W i off k, 0 <= off -> k <> TREE -> kind_of (fi_ty2 (w_ino W i)) off = k ->
  off < leaf_end W i off <= head_max k /\ leaf_end W i off - off <= ltype_size (kind_ltype k) /\ leaf_end W i off mod ltype_size (kind_ltype k) = 0 /\
  (forall off', off <= off' < leaf_end W i off -> kind_of (fi_ty2 (w_ino W i)) off' = k).
Proof.
  intros W i off k H N E. unfold leaf_end, cur_ltype. rewrite E.
  destruct (kind_cases (fi_ty2 (w_ino W i)) off H) as [(X & F & R)|[(X & F & R)|(X & R)]]; [| |congruence].
  - assert (K : k = HD1) by congruence. clear E. subst k. cbn [kind_ltype head_max]. change (ltype_size LT_DATA1K) with 1024.
    split; [lia|]. split; [lia|]. split; [lia|]. intros off' R'.
    destruct (kind_cases (fi_ty2 (w_ino W i)) off' ltac:(lia)) as [(Y & _ & R2)|[(Y & _ & R2)|(Y & [Z0|Z0])]]; [exact Y|lia|congruence|lia].
  - assert (K : k = HD2) by congruence. clear E. subst k. cbn [kind_ltype head_max]. change (ltype_size LT_DATA4K) with 4096.
    split; [lia|]. split; [lia|]. split; [lia|]. intros off' R'.
    destruct (kind_cases (fi_ty2 (w_ino W i)) off' ltac:(lia)) as [(Y & _ & R2)|[(Y & _ & R2)|(Y & [Z0|Z0])]]; [lia|exact Y|congruence|lia].
Qed.
(* rounds left are enough to pass the rest of the head leaves *)
Definition head_fuel (f : nat) (k : kind) (off : Z) : Prop :=
  head_max k - off / ltype_size (kind_ltype k) * ltype_size (kind_ltype k) <= (Z.of_nat f - 1) * ltype_size (kind_ltype k).
Lemma head_fuel_1 : forall off, 0 <= off -> head_fuel 5 HD1 off.
Proof. intros. unfold head_fuel. cbn [head_max kind_ltype]. change (ltype_size LT_DATA1K) with 1024. lia. Qed.
Lemma head_fuel_2 : forall ty2 off, 0 <= off -> kind_of ty2 off = HD2 -> head_fuel 16 HD2 off.
Proof.
  intros ty2 off H E. destruct (kind_cases ty2 off H) as [(X & _)|[(X & _ & R)|(X & _)]]; try congruence.
  unfold head_fuel. cbn [head_max kind_ltype]. change (ltype_size LT_DATA4K) with 4096. lia.
Qed.
Lemma head_fuel_step : forall f k off off', k <> TREE -> head_fuel (S f) k off -> off' mod ltype_size (kind_ltype k) = 0 ->
  off < off' -> head_fuel f k off'.
Proof.
  intros f k off off' N H M L. unfold head_fuel in *. destruct k; [| |congruence]; cbn [head_max kind_ltype] in *;
  [change (ltype_size LT_DATA1K) with 1024 in *|change (ltype_size LT_DATA4K) with 4096 in *]; lia.
Qed.
Lemma head_fuel_0 : forall k off, 0 <= off -> off < head_max k -> k <> TREE -> ~ head_fuel 0 k off.
Proof.
  intros k off H L N. unfold head_fuel. destruct k; [| |congruence]; cbn [head_max kind_ltype] in *;
  [change (ltype_size LT_DATA1K) with 1024 in *|change (ltype_size LT_DATA4K) with 4096 in *]; lia.
Qed.

(* where the loop over one kind of head leaves stops *)
Definition heads_stop (ty2 : bool) (k : kind) (off end_ off' : Z) : Prop :=
  off <= off' /\ off' <= Z.max off end_ /\ (off' < end_ -> kind_of ty2 off' <> k) /\
  (off' < end_ -> kind_of ty2 off <> k -> off' = off).

Lemma sp_read_heads : forall W i k end_ (E : Z -> world -> Prop), Inv W -> k <> TREE -> (forall e, e <> ENOENT -> E e W) ->
  forall f off acc, 0 <= off -> (kind_of (fi_ty2 (w_ino W i)) off = k -> head_fuel f k off) -> (f <> 0)%nat ->
  spec W (read_heads f k i off end_ acc)
    (fun x W' => W' = W /\ snd x = acc ++ slice W i off (fst x - off) /\ off <= fst x <= Z.max off end_ /\
                 (fst x < end_ -> kind_of (fi_ty2 (w_ino W i)) (fst x) <> k)) E.
Proof.
  intros W i k end_ E I N HE. induction f as [|f IH]; intros off acc H Hf Nz; [congruence|].
  cbn [read_heads]. sp_ino. set (ty2 := fi_ty2 (w_ino W i)) in *.
  destruct (has_head_io k ty2 off end_) eqn:Hh.
  - apply has_head_iff in Hh; [|exact H|exact N]. destruct Hh as [L Ek]. specialize (Hf Ek).
    destruct (head_leaf W i off k H N Ek) as (L1 & L2 & L3 & L4).
    eapply sp_bind; [apply (sp_resolve_head W i off end_ k H Ek N)|]. cbv beta. intros r W' [-> ->].
    eapply sp_bind.
    { eapply sp_conseq; [apply (sp_read_leaf W i off end_ _ I ltac:(lia))|intros x W' X; exact X|].
      - rewrite (key_of_head W i off k Ek N). reflexivity.
      - intros e W' [Ne ->]. apply HE, Ne. }
    cbv beta. intros d W' [-> ->]. set (n := Z.min (leaf_end W i off) end_ - off).
    assert (Hn : 0 < n) by (unfold n; lia). rewrite slice_len by lia. replace (n <=? 0) with false by lia.
    assert (Ea : adv_to off end_ (off + n) = off + n) by (unfold adv_to, off_clamp; unfold n; lia).
    rewrite Ea.
    assert (Fl : head_fuel f k (off + n) \/ off + n >= end_).
    { destruct (Z_lt_dec (off + n) end_) as [X|X]; [left|right; lia]. apply (head_fuel_step f k off); try assumption; [|lia].
      replace (off + n) with (leaf_end W i off) by (unfold n in *; lia). exact L3. }
    destruct f as [|f'].
    { exfalso. unfold head_fuel in Hf. cbn [Z.of_nat] in Hf. destruct k; [| |congruence]; cbn [head_max kind_ltype] in *;
      [change (ltype_size LT_DATA1K) with 1024 in *|change (ltype_size LT_DATA4K) with 4096 in *]; lia. }
    destruct Fl as [Fl|Fl].
    + eapply sp_conseq; [apply IH; [lia|intros _; exact Fl|discriminate]| |intros e W' X; exact X].
      intros [o d] W' (-> & Ed & Ro & Ks). cbn [fst snd] in *. split; [reflexivity|]. split; [|split; [lia|exact Ks]].
      rewrite Ed, <- app_assoc. f_equal. replace (o - off) with (n + (o - (off + n))) by lia. rewrite slice_app by lia. reflexivity.
    + cbn [read_heads]. sp_ino. fold ty2. replace (has_head_io k ty2 (off + n) end_) with false.
      * apply sp_ret. cbn [fst snd]. split; [reflexivity|]. replace (off + n - off) with n by lia. split; [reflexivity|]. split; [lia|]. lia.
      * symmetry. apply not_true_is_false. intro X. apply has_head_iff in X; [|lia|exact N]. lia.
  - apply sp_ret. cbn [fst snd]. split; [reflexivity|]. rewrite Z.sub_diag, slice_0, app_nil_r. split; [reflexivity|].
    split; [lia|]. intros L X. assert (has_head_io k ty2 off end_ = true) by (apply has_head_iff; auto). congruence.
Qed.

Definition map_end (off : Z) : Z := off / 67108864 * 67108864 + 67108864.
Lemma boundary_iff : forall off, 0 <= off -> (at_boundary off = true <-> off mod 67108864 = 0).
Proof.
  intros off H. unfold at_boundary. change (TREE_LEAF * NODE_N) with 67108864. rewrite Z.rem_mod_nonneg by lia. lia.
Qed.
Lemma tree_leaf_end : forall W i off, kind_of (fi_ty2 (w_ino W i)) off = TREE -> leaf_end W i off = off / 65536 * 65536 + 65536.
Proof. intros W i off H. unfold leaf_end, cur_ltype. rewrite H. reflexivity. Qed.
Lemma tree_kind_up : forall ty2 off off', 0 <= off <= off' -> kind_of ty2 off = TREE -> kind_of ty2 off' = TREE.
Proof.
  intros ty2 off off' H E.
  destruct (kind_cases ty2 off ltac:(lia)) as [(X & _)|[(X & _)|(_ & R)]]; try congruence.
  destruct (kind_cases ty2 off' ltac:(lia)) as [(X & F & R')|[(X & F & R')|(X & _)]]; [| |exact X]; (destruct R as [R|R]; [congruence|lia]).
Qed.
(* the rounds of the loop over the leaves of a node, and over the nodes *)
Definition leaves_fuel (f : nat) (off : Z) : Prop := map_end off - off / 65536 * 65536 <= (Z.of_nat f - 1) * 65536.
Definition map_fuel (f : nat) (off end_ : Z) : Prop := (1 <= f)%nat /\ (off < end_ -> end_ - off / 67108864 * 67108864 <= (Z.of_nat f - 1) * 67108864).
Lemma leaves_fuel_0 : forall off, leaves_fuel 1025 off.
Proof. intro off. unfold leaves_fuel, map_end. change (Z.of_nat 1025 - 1) with 1024. lia. Qed.
Lemma map_fuel_0 : forall off end_, map_fuel (rounds_map off end_) off end_.
Proof. intros. unfold map_fuel, rounds_map. change (TREE_LEAF * NODE_N) with 67108864. lia. Qed.
Lemma map_fuel_step : forall f off end_, off < end_ -> map_fuel (S f) off end_ -> map_fuel f (Z.min (map_end off) end_) end_.
Proof.
  intros f off end_ L [_ H]. specialize (H L). unfold map_fuel, map_end in *. destruct f as [|f]; [exfalso; lia|]. split; [lia|].
  destruct (Z_lt_dec (off / 67108864 * 67108864 + 67108864) end_).
  - intros _. rewrite Z.min_l by lia. replace ((off / 67108864 * 67108864 + 67108864) / 67108864) with (off / 67108864 + 1) by lia. lia.
  - intro X. lia.
Qed.

Lemma sp_read_leaves : forall W i parent end_ (E : Z -> world -> Prop), Inv W -> (forall e, e <> ENOENT -> E e W) ->
  forall f off acc, 0 <= off -> off < end_ -> kind_of (fi_ty2 (w_ino W i)) off = TREE -> bottom W i off = parent -> leaves_fuel f off ->
  spec W (read_leaves f i parent off end_ acc)
    (fun x W' => W' = W /\ fst x = Z.min (map_end off) end_ /\ snd x = acc ++ slice W i off (fst x - off)) E.
Proof.
  intros W i parent end_ E I HE. induction f as [|f IH]; intros off acc H L Kd B Hf; [unfold leaves_fuel, map_end in Hf; lia|].
  cbn [read_leaves]. replace (off <? end_) with true by lia. sp_ino.
  eapply sp_bind with (Q := fun r W' => W' = W /\ fl_addr r = match key_of W i off with Some q => hold W q | None => None end).
  { destruct parent as [p|].
    - eapply sp_conseq; [apply (sp_resolve_tree W i off end_ p (proj1 I) B)| |intros e W' X; exact X].
      intros r W' [-> ->]. split; [reflexivity|]. rewrite (key_of_tree W i off p Kd B). reflexivity.
    - eapply sp_conseq; [apply (sp_resolve_none W i off end_)| |intros e W' X; exact X].
      intros r W' [-> ->]. split; [reflexivity|]. unfold key_of. rewrite Kd, B. reflexivity. }
  cbv beta. intros r W' [-> Er].
  eapply sp_bind.
  { eapply sp_conseq; [apply (sp_read_leaf W i off end_ r I ltac:(lia) Er)|intros x W' X; exact X|]. intros e W' [Ne ->]. apply HE, Ne. }
  cbv beta. intros d W' [-> ->]. rewrite (tree_leaf_end W i off Kd). set (n := Z.min (off / 65536 * 65536 + 65536) end_ - off).
  assert (Hn : 0 < n) by (unfold n; lia). rewrite slice_len by lia. replace (n <=? 0) with false by lia.
  assert (Ea : adv_to off end_ (off + n) = off + n) by (unfold adv_to, off_clamp; unfold n; lia). rewrite Ea.
  unfold leaves_fuel, map_end in Hf.
  destruct (at_boundary (off + n)) eqn:Ab.
  - apply boundary_iff in Ab; [|lia]. apply sp_ret. cbn [fst snd]. split; [reflexivity|].
    assert (X : off + n = Z.min (map_end off) end_) by (unfold map_end, n in *; lia).
    split; [exact X|]. replace (off + n - off) with n by lia. reflexivity.
  - assert (Nb : (off + n) mod 67108864 <> 0) by (intro X; apply boundary_iff in X; [congruence|lia]).
    destruct (Z_lt_dec (off + n) end_) as [Le|Ge].
    + assert (En : off + n = off / 65536 * 65536 + 65536) by (unfold n in *; lia).
      assert (Sm : off / 67108864 = (off + n) / 67108864) by (rewrite En in *; lia).
      eapply sp_conseq; [apply IH; try lia| |intros e W' X; exact X].
      * apply (tree_kind_up _ off); [lia|exact Kd].
      * rewrite <- B. apply bottom_same; [apply I|symmetry; exact Sm].
      * unfold leaves_fuel, map_end. rewrite <- Sm. rewrite En. replace ((off / 65536 * 65536 + 65536) / 65536) with (off / 65536 + 1) by lia. lia.
      * intros [o d] W' (-> & Eo & Ed). cbn [fst snd] in *. split; [reflexivity|]. split; [rewrite Eo; unfold map_end; rewrite Sm; reflexivity|].
        rewrite Ed, <- app_assoc. f_equal.
        assert (Ho : off + n <= o) by (rewrite Eo; unfold map_end; lia).
        replace (o - off) with (n + (o - (off + n))) by lia. rewrite slice_app by lia. reflexivity.
    + destruct f as [|f']; [exfalso; lia|]. cbn [read_leaves]. replace (off + n <? end_) with false by lia.
      apply sp_ret. cbn [fst snd]. split; [reflexivity|].
      split; [unfold map_end, n in *; lia|]. replace (off + n - off) with n by lia. reflexivity.
Qed.
Lemma sp_read_by_tree : forall W i end_ (E : Z -> world -> Prop), Inv W -> (forall e, e <> ENOENT -> E e W) ->
  forall f off acc, 0 <= off -> (off < end_ -> kind_of (fi_ty2 (w_ino W i)) off = TREE) -> map_fuel f off end_ ->
  spec W (read_by_tree f i off end_ acc)
    (fun x W' => W' = W /\ fst x = Z.max off end_ /\ snd x = acc ++ slice W i off (fst x - off)) E.
Proof.
  intros W i end_ E I HE. induction f as [|f IH]; intros off acc H Kd Hf; [destruct Hf; lia|].
  cbn [read_by_tree]. destruct (off <? end_) eqn:L.
  - assert (Kd' : kind_of (fi_ty2 (w_ino W i)) off = TREE) by (apply Kd; lia).
    eapply sp_bind.
    { eapply sp_or_none with (Q' := fun o W' => W' = W /\ bottom W i off = o); [apply (sp_stage_by_tree W i off (proj1 I))| | |].
      - intros a W' [-> Ba]. auto.
      - intros W' [-> Bn]. auto.
      - intros e W' Ne [-> _]. apply HE, Ne. }
    cbv beta. intros o W' [-> Bo].
    eapply sp_bind; [apply (sp_read_leaves W i o end_ E I HE); try assumption; [lia|apply leaves_fuel_0]|].
    cbv beta. intros [o1 d1] W' (-> & Eo & Ed). cbn [fst snd] in *.
    assert (Ho : off < o1) by (rewrite Eo; unfold map_end; lia).
    eapply sp_conseq; [apply IH| |intros e W' X; exact X].
    + lia.
    + intros _. apply (tree_kind_up _ off); [lia|exact Kd'].
    + rewrite Eo. apply map_fuel_step; [lia|exact Hf].
    + intros [o2 d2] W' (-> & Eo2 & Ed2). cbn [fst snd] in *. split; [reflexivity|]. split; [lia|].
      rewrite Ed2, Ed, <- app_assoc. f_equal. replace (o2 - off) with ((o1 - off) + (o2 - o1)) by lia.
      rewrite slice_app by lia. replace (off + (o1 - off)) with o1 by lia. reflexivity.
  - apply sp_ret. cbn [fst snd]. split; [reflexivity|]. split; [lia|]. rewrite Z.sub_diag, slice_0, app_nil_r. reflexivity.
Qed.
Lemma not_heads_tree : forall ty2 off, kind_of ty2 off <> HD1 -> kind_of ty2 off <> HD2 -> kind_of ty2 off = TREE.
Proof. intros ty2 off. destruct (kind_of ty2 off); congruence. Qed.
Lemma not_head1_up : forall ty2 off off', 0 <= off <= off' -> kind_of ty2 off <> HD1 -> kind_of ty2 off' <> HD1.
Proof.
  intros ty2 off off' H E. destruct (kind_cases ty2 off ltac:(lia)) as [(X & _)|[(X & F & R)|(X & R)]]; [congruence| |].
  - destruct (kind_cases ty2 off' ltac:(lia)) as [(Y & F' & R')|[(Y & _)|(Y & _)]]; congruence || lia.
  - rewrite (tree_kind_up ty2 off off' H X). discriminate.
Qed.

Lemma sp_read_data : forall W i off end_, Inv W -> 0 <= off ->
  spec W (read_data i off end_) (fun d W' => W' = W /\ d = slice W i off (end_ - off)) (here W).
Proof.
  intros W i off end_ I H. unfold read_data.
  eapply sp_bind; [apply (sp_read_heads W i HD1 end_ (here W) I); [discriminate|apply here_ok|exact H|intros _; apply head_fuel_1, H|discriminate]|].
  cbv beta. intros [o1 d1] W' (-> & E1 & R1 & K1). cbn [fst snd] in *.
  eapply sp_bind; [apply (sp_read_heads W i HD2 end_ (here W) I); [discriminate|apply here_ok|lia| |discriminate]|].
  { intro X. apply (head_fuel_2 _ o1 ltac:(lia) X). }
  cbv beta. intros [o2 d2] W' (-> & E2 & R2 & K2). cbn [fst snd] in *.
  eapply sp_bind; [apply (sp_read_by_tree W i end_ (here W) I)|].
  - apply here_ok.
  - lia.
  - intro L. apply not_heads_tree; [|apply K2, L]. apply (not_head1_up _ o1); [lia|]. apply K1. lia.
  - apply map_fuel_0.
  - cbv beta. intros [o3 d3] W' (-> & E3 & E4). cbn [fst snd] in *. apply sp_ret. split; [reflexivity|].
    rewrite E4, E2, E1. cbn [app]. destruct (Z_lt_dec off end_) as [L|L].
    + replace (end_ - off) with ((o1 - off) + ((o2 - o1) + (o3 - o2))) by lia.
      rewrite !slice_app by lia. replace (off + (o1 - off)) with o1 by lia. replace (o1 + (o2 - o1)) with o2 by lia.
      rewrite app_assoc. reflexivity.
    + replace o1 with off by lia. replace o2 with off by lia. replace o3 with off by lia. rewrite !Z.sub_diag, !slice_0.
      unfold slice. replace (Z.to_nat (end_ - off)) with 0%nat by lia. reflexivity.
Qed.
