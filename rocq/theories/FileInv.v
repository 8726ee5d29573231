(* Which inode slot or tree slot holds a data leaf, what a file contains at an offset, and the
   invariant kept by the operations of FileModel.v *)
From Verif Require Import Base AddrModel FileModel FileTree.

(* ---- holders of leaves ---- *)

Inductive key := KH (i k : Z) | KN (a s : Z).
Lemma key_dec : forall x y : key, {x = y} + {x <> y}.
Proof. decide equality; apply Z.eq_dec. Qed.
Definition hold (W : world) (q : key) : option (Z * Z) :=
  match q with
  | KH i k => if (1 <=? k) && (k <=? 19) && negb (fi_ty2 (w_ino W i)) then fi_slot (w_ino W i) k else None
  | KN a s => match w_node W a with
              | Some n => if (n_height n =? 2) && (0 <=? s) && (s <? 1024) then child_at n s else None
              | None => None
              end
  end.
Definition owner (W : world) (q : key) : option Z :=
  match q with
  | KH i _ => Some i
  | KN a _ => match w_node W a with Some n => Some (n_ino n) | None => None end
  end.
Definition ktype (q : key) : Z := match q with KH _ k => if k <=? 15 then LT_DATA4K else LT_DATA1K | KN _ _ => LT_DATABK end.
Definition ksize (q : key) : Z := ltype_size (ktype q).
Definition knk (q : key) : Z := ltype_nkbs (ktype q).

Record keys_inv (W : world) : Prop := mkKI {
  ki_type : forall q t a, hold W q = Some (t, a) -> t = ktype q;
  ki_blk : forall q t a, hold W q = Some (t, a) -> w_blk W t a <> None;
  ki_ref : forall t a b l, w_blk W t a = Some b -> NoDup l -> (forall q, In q l -> hold W q = Some (t, a)) ->
           zlen l <= b_ref b;
  ki_one : forall t a b, w_blk W t a = Some b ->
           1 <= b_ref b /\ (t <> LT_DATABK -> b_ref b = 1) /\ (b_unwr b = true -> b_ref b = 1);
  ki_blocks : forall i, exists l, NoDup l /\ (forall q, In q l <-> hold W q <> None /\ owner W q = Some i) /\
              fi_blocks (w_ino W i) = zsum (map knk l) }.

(* ---- places ---- *)

Definition key_of (W : world) (i off : Z) : option key :=
  match kind_of (fi_ty2 (w_ino W i)) off with
  | TREE => match bottom W i off with Some a => Some (KN a (leaf_slot off)) | None => None end
  | k => Some (KH i (head_abs k (head_slot k off)))
  end.
Definition kval (W : world) (q : key) (k : Z) : Z :=
  match hold W q with
  | None => 0
  | Some (t, a) => match w_blk W t a with None => 0 | Some b => if b_unwr b then 0 else b_data b k end
  end.
(* the byte of a file *)
Definition content (W : world) (i off : Z) : Z :=
  match key_of W i off with None => 0 | Some q => kval W q (off mod ksize q) end.

Lemma size_cases : forall q, ksize q = 1024 \/ ksize q = 4096 \/ ksize q = 65536.
Proof. intros [i k|a s]; unfold ksize, ktype; [destruct (k <=? 15)|]; cbn; lia. Qed.
Lemma kind_cases : forall ty2 off, 0 <= off ->
  (kind_of ty2 off = HD1 /\ ty2 = false /\ off < 4096) \/
  (kind_of ty2 off = HD2 /\ ty2 = false /\ 4096 <= off < 65536) \/
  (kind_of ty2 off = TREE /\ (ty2 = true \/ 65536 <= off)).
Proof.
  intros ty2 off H. unfold kind_of, is_head1, is_head2, off_within.
  change head1_max with 4096. change head2_max with 65536.
  destruct ty2; cbn [negb andb]; [right; right; auto|].
  destruct ((0 <=? off) && (off <? 4096)) eqn:E; [left; repeat split; lia|].
  destruct ((4096 <=? off) && (off <? 65536)) eqn:E2; [right; left; repeat split; lia|].
  right; right. split; [reflexivity|]. right. lia.
Qed.
Lemma ktype_head : forall i k off ty2, 0 <= off -> kind_of ty2 off = k -> k <> TREE ->
  ktype (KH i (head_abs k (head_slot k off))) = kind_ltype k /\ 1 <= head_abs k (head_slot k off) <= 19.
Proof.
  intros i k off ty2 H E N. destruct (kind_cases ty2 off H) as [(X & _ & R)|[(X & _ & R)|(X & _)]]; [| |congruence].
  - rewrite X in E. subst k. cbn [head_abs head_slot kind_ltype ktype]. unfold head1_abs, head1_slot, HEAD1_LEAF, HEAD2_N.
    rewrite Z.quot_div_nonneg by lia. split; [|lia]. destruct (_ <=? 15) eqn:B; [lia|reflexivity].
  - rewrite X in E. subst k. cbn [head_abs head_slot kind_ltype ktype]. unfold head2_abs, head2_slot, HEAD2_LEAF.
    change head1_max with 4096.
    rewrite Z.quot_div_nonneg by lia. split; [|lia]. destruct (_ <=? 15) eqn:B; [reflexivity|lia].
Qed.
(* the type of the leaf of an offset *)
Lemma key_of_type : forall W i off q, 0 <= off -> key_of W i off = Some q -> ktype q = cur_ltype (fi_ty2 (w_ino W i)) off.
Proof.
  intros W i off q H E. unfold key_of in E. unfold cur_ltype.
  destruct (kind_of (fi_ty2 (w_ino W i)) off) eqn:K.
  - assert (X : q = KH i (head_abs HD1 (head_slot HD1 off))) by congruence. subst q.
    apply (ktype_head i HD1 off (fi_ty2 (w_ino W i))); [exact H|exact K|discriminate].
  - assert (X : q = KH i (head_abs HD2 (head_slot HD2 off))) by congruence. subst q.
    apply (ktype_head i HD2 off (fi_ty2 (w_ino W i))); [exact H|exact K|discriminate].
  - destruct (bottom W i off); [|discriminate]. assert (X : q = KN z (leaf_slot off)) by congruence. subst q. reflexivity.
Qed.
Lemma leaf_slot_eq : forall off, 0 <= off -> leaf_slot off = (off / 65536) mod 1024.
Proof.
  intros off H. unfold leaf_slot, TREE_LEAF, NODE_N. rewrite Z.quot_div_nonneg, Z.rem_mod_nonneg by lia. reflexivity.
Qed.
(* two offsets with the same holder are in one file and in one leaf *)
Lemma key_inj : forall W i j off off' q, tree_inv W -> 0 <= off -> 0 <= off' ->
  key_of W i off = Some q -> key_of W j off' = Some q -> i = j /\ off / ksize q = off' / ksize q.
Proof.
  intros W i j off off' q T H H' E E'.
  pose proof (key_of_type W i off q H E) as Y. pose proof (key_of_type W j off' q H' E') as Y'.
  unfold key_of in E, E'. unfold cur_ltype in Y, Y'.
  destruct (kind_cases (fi_ty2 (w_ino W i)) off H) as [(X & _ & R)|[(X & _ & R)|(X & R)]];
  destruct (kind_cases (fi_ty2 (w_ino W j)) off' H') as [(X' & _ & R')|[(X' & _ & R')|(X' & R')]];
  rewrite X in *; rewrite X' in *; cbn [kind_ltype] in *; try (exfalso; rewrite Y in Y'; discriminate).
  - assert (Q : KH i (head_abs HD1 (head_slot HD1 off)) = KH j (head_abs HD1 (head_slot HD1 off'))) by congruence.
    injection Q as Q1 Q2. split; [exact Q1|]. unfold ksize. rewrite Y. change (ltype_size LT_DATA1K) with 1024.
    unfold head1_abs, head1_slot, HEAD1_LEAF, HEAD2_N in Q2. rewrite !Z.quot_div_nonneg in Q2 by lia. lia.
  - assert (Q : KH i (head_abs HD2 (head_slot HD2 off)) = KH j (head_abs HD2 (head_slot HD2 off'))) by congruence.
    injection Q as Q1 Q2. split; [exact Q1|]. unfold ksize. rewrite Y. change (ltype_size LT_DATA4K) with 4096.
    unfold head2_abs, head2_slot, HEAD2_LEAF in Q2. change head1_max with 4096 in Q2. rewrite !Z.quot_div_nonneg in Q2 by lia. lia.
  - destruct (bottom W i off) as [a|] eqn:B; [|discriminate]. destruct (bottom W j off') as [a'|] eqn:B'; [|discriminate].
    assert (Q : KN a (leaf_slot off) = KN a' (leaf_slot off')) by congruence. injection Q as Q1 Q2. subst a'.
    destruct (bottom_found W i off a T B) as (m & Hm & Im & H2 & R1).
    destruct (bottom_found W j off' a T B') as (m' & Hm' & Im' & H2' & R1').
    assert (m' = m) by congruence. subst m'. split; [congruence|].
    destruct (ti_shape W T a m Hm) as [_ Sh]. destruct Sh as [Hh Hb Ha He Hc]. rewrite H2 in *.
    change (span_by_height 2) with 67108864 in *.
    rewrite !leaf_slot_eq in Q2 by lia. unfold ksize. rewrite Y. change (ltype_size LT_DATABK) with 65536.
    clear -Ha He R1 R1' Q2 Hb. lia.
Qed.
Lemma key_same : forall W i off off' q, tree_inv W -> 0 <= off -> 0 <= off' -> key_of W i off = Some q ->
  off / ksize q = off' / ksize q -> key_of W i off' = Some q.
Proof.
  intros W i off off' q T H H' E D.
  pose proof (key_of_type W i off q H E) as Y. unfold ksize in D. rewrite Y in D. unfold cur_ltype in *.
  unfold key_of in *.
  destruct (kind_cases (fi_ty2 (w_ino W i)) off H) as [(X & T1 & R)|[(X & T1 & R)|(X & R)]];
  destruct (kind_cases (fi_ty2 (w_ino W i)) off' H') as [(X' & T1' & R')|[(X' & T1' & R')|(X' & R')]];
  rewrite X in *; rewrite X' in *; cbn [kind_ltype] in *;
  try change (ltype_size LT_DATA1K) with 1024 in D; try change (ltype_size LT_DATA4K) with 4096 in D;
  try change (ltype_size LT_DATABK) with 65536 in D;
  try (exfalso; destruct R as [R|R]; [congruence|lia]); try (exfalso; destruct R' as [R'|R']; [congruence|lia]);
  try (exfalso; lia).
  - rewrite <- E. unfold head_slot, head1_slot, HEAD1_LEAF. rewrite !Z.quot_div_nonneg by lia. rewrite D. reflexivity.
  - rewrite <- E. unfold head_slot, head2_slot, HEAD2_LEAF. change head1_max with 4096. rewrite !Z.quot_div_nonneg by lia.
    assert (Z1 : (off' - 4096) / 4096 = (off - 4096) / 4096) by lia. rewrite Z1. reflexivity.
  - rewrite (bottom_same W i off' off T) by lia. rewrite !leaf_slot_eq in * by lia. rewrite <- D. exact E.
Qed.
(* holders found by an offset are proper *)
Lemma key_of_owner : forall W i off q, tree_inv W -> 0 <= off -> key_of W i off = Some q -> owner W q = Some i.
Proof.
  intros W i off q T H E. unfold key_of in E.
  destruct (kind_of (fi_ty2 (w_ino W i)) off) eqn:K.
  - assert (q = KH i (head_abs HD1 (head_slot HD1 off))) by congruence. subst q. reflexivity.
  - assert (q = KH i (head_abs HD2 (head_slot HD2 off))) by congruence. subst q. reflexivity.
  - destruct (bottom W i off) as [a|] eqn:B; [|discriminate]. assert (q = KN a (leaf_slot off)) by congruence. subst q.
    destruct (bottom_found W i off a T B) as (m & Hm & Im & _). cbn [owner]. rewrite Hm, Im. reflexivity.
Qed.

(* ---- worlds with the same tree ---- *)

Definition same_node (n n' : ftn) : Prop :=
  n_ino n' = n_ino n /\ n_beg n' = n_beg n /\ n_end n' = n_end n /\ n_height n' = n_height n /\ n_ctype n' = n_ctype n /\
  (3 <= n_height n -> forall s, 0 <= s < 1024 -> n_child n' s = n_child n s).
Definition same_skel (W W' : world) : Prop :=
  (forall a, match w_node W a, w_node W' a with
             | None, None => True | Some n, Some n' => same_node n n' | _, _ => False end) /\
  (forall i, fi_slot (w_ino W' i) 0 = fi_slot (w_ino W i) 0).
Definition nacts (W : world) : Prop := forall a n, w_node W a = Some n -> n_nact n = cnt (n_child n).
Definition refs1 (W : world) : Prop := forall a n, w_node W a = Some n -> n_ref n = 1.

Lemma same_node_refl : forall n, same_node n n.
Proof. intro n. unfold same_node. repeat split; auto. Qed.
Lemma same_skel_refl : forall W, same_skel W W.
Proof. intro W. split; [|reflexivity]. intro a. destruct (w_node W a); [apply same_node_refl|exact I]. Qed.
Lemma skel_some : forall W W' a n', same_skel W W' -> w_node W' a = Some n' -> exists n, w_node W a = Some n /\ same_node n n'.
Proof. intros W W' a n' [S _] H. specialize (S a). rewrite H in S. destruct (w_node W a) as [n|]; [|contradiction]. exists n. auto. Qed.
Lemma skel_some' : forall W W' a n, same_skel W W' -> w_node W a = Some n -> exists n', w_node W' a = Some n' /\ same_node n n'.
Proof. intros W W' a n [S _] H. specialize (S a). rewrite H in S. destruct (w_node W' a) as [n'|]; [|contradiction]. exists n'. auto. Qed.
Lemma same_shape : forall n n', same_node n n' -> shape n -> shape n'.
Proof.
  intros n n' (E1 & E2 & E3 & E4 & E5 & _) [Hh Hb Ha He Hc].
  constructor; rewrite ?E2, ?E3, ?E4, ?E5; assumption.
Qed.
Lemma same_slot : forall n n' off, same_node n n' -> slot_of n' off = slot_of n off.
Proof. intros n n' off (E1 & E2 & E3 & E4 & E5 & _). unfold slot_of, n_span. rewrite E2, E3. reflexivity. Qed.
Lemma same_inrange : forall n n' off, same_node n n' -> n_inrange n' off = n_inrange n off.
Proof. intros n n' off (E1 & E2 & E3 & E4 & E5 & _). unfold n_inrange. rewrite E2, E3. reflexivity. Qed.
Lemma skel_walk : forall W W' off, tree_inv W -> same_skel W W' -> forall d a, walk d W' a off = walk d W a off.
Proof.
  intros W W' off T S. induction d as [|d IH]; intro a; [reflexivity|]. rewrite !walk_S.
  pose proof (proj1 S a) as Sa. destruct (w_node W a) as [n|] eqn:N; destruct (w_node W' a) as [n'|] eqn:N'; try contradiction; [|reflexivity].
  rewrite (same_inrange n n' off Sa), (same_slot n n' off Sa).
  destruct (n_inrange n off) eqn:R; [|reflexivity].
  destruct (ti_shape W T a n N) as [_ Sh]. apply inrange_iff in R. pose proof (slot_range n off Sh R) as Q.
  destruct Sa as (E1 & E2 & E3 & E4 & E5 & Ec). rewrite E4. destruct (n_height n <=? 2) eqn:B; [reflexivity|].
  assert (C : child_at n' (slot_of n off) = child_at n (slot_of n off)).
  { unfold child_at, has_child. rewrite E5, (Ec ltac:(lia) _ Q). reflexivity. }
  rewrite C. destruct (child_at n (slot_of n off)) as [[t c]|]; [apply IH|reflexivity].
Qed.
Lemma skel_bottom : forall W W' i off, tree_inv W -> same_skel W W' -> bottom W' i off = bottom W i off.
Proof.
  intros W W' i off T S. unfold bottom, root_of. rewrite (proj2 S i).
  destruct (fi_slot (w_ino W i) 0) as [[t r]|]; [apply skel_walk; assumption|reflexivity].
Qed.
Lemma skel_inner : forall W W' a n', same_skel W W' -> inner W' a n' -> exists n, inner W a n /\ same_node n n'.
Proof.
  intros W W' a n' S [H I]. destruct (skel_some W W' a n' S H) as (n & Hn & Sn). exists n. split; [|exact Sn].
  split; [exact Hn|]. destruct Sn as (E1 & E2 & E3 & E4 & E5 & _). lia.
Qed.
Lemma skel_child : forall W a n n' s, inner W a n -> same_node n n' -> 0 <= s < 1024 ->
  n_child n' s = n_child n s /\ has_child n' s = has_child n s.
Proof.
  intros W a n n' s [H I] (E1 & E2 & E3 & E4 & E5 & Ec) Hs. unfold has_child. rewrite (Ec I s Hs). auto.
Qed.
Lemma skel_tree_inv : forall W W', tree_inv W -> same_skel W W' -> nacts W' -> tree_inv W'.
Proof.
  intros W W' T S N. constructor.
  - intros a n' H. destruct (skel_some W W' a n' S H) as (n & Hn & Sn). destruct (ti_shape W T a n Hn) as [P Sh].
    split; [exact P|apply (same_shape n); assumption].
  - intros a n' s I Hs C. destruct (skel_inner W W' a n' S I) as (n & In & Sn).
    destruct (skel_child W a n n' s In Sn Hs) as [E1 E2]. rewrite E2 in C.
    destruct (ti_child W T a n s In Hs C) as (m & Hm & A1 & A2 & A3).
    destruct (skel_some' W W' (n_child n s) m S Hm) as (m' & Hm' & Sm). exists m'. rewrite E1.
    split; [exact Hm'|]. destruct Sm as (B1 & B2 & B3 & B4 & B5 & _). destruct Sn as (D1 & D2 & D3 & D4 & D5 & _).
    rewrite B1, B4, B2, D1, D4, D2. auto.
  - intros a n' s a2 n2' s2 I I2 Hs Hs2 C E.
    destruct (skel_inner W W' a n' S I) as (n & In & Sn). destruct (skel_inner W W' a2 n2' S I2) as (n2 & In2 & Sn2).
    destruct (skel_child W a n n' s In Sn Hs) as [E1 E2]. destruct (skel_child W a2 n2 n2' s2 In2 Sn2 Hs2) as [E3 E4].
    apply (ti_inj W T a n s a2 n2 s2); try assumption; congruence.
  - intros i t r H. rewrite (proj2 S i) in H. destruct (ti_root W T i t r H) as (Et & n & Hn & A & B).
    split; [exact Et|]. destruct (skel_some' W W' r n S Hn) as (n' & Hn' & (B1 & B2 & _)). exists n'. split; [exact Hn'|]. split; congruence.
  - intros i t r a n' s H I Hs. rewrite (proj2 S i) in H. destruct (skel_inner W W' a n' S I) as (n & In & Sn).
    destruct (skel_child W a n n' s In Sn Hs) as [E1 _]. rewrite E1. apply (ti_free W T i t r a n s); assumption.
  - exact N.
Qed.
Lemma skel_key : forall W W' i off, tree_inv W -> same_skel W W' -> fi_ty2 (w_ino W' i) = fi_ty2 (w_ino W i) ->
  key_of W' i off = key_of W i off.
Proof. intros W W' i off T S E. unfold key_of. rewrite E, (skel_bottom W W' i off T S). reflexivity. Qed.
Lemma skel_owner : forall W W' q, same_skel W W' -> owner W' q = owner W q.
Proof.
  intros W W' [i k|a s] S; [reflexivity|]. cbn [owner]. pose proof (proj1 S a) as Sa.
  destruct (w_node W a) as [n|]; destruct (w_node W' a) as [n'|]; try contradiction; [|reflexivity].
  destruct Sa as (E & _). rewrite E. reflexivity.
Qed.

(* ---- keeping the invariant of the holders ---- *)

Lemma keys_inv_ext : forall W W', keys_inv W -> (forall q, hold W' q = hold W q) ->
  (forall q, hold W q <> None -> owner W' q = owner W q) -> (forall t a, w_blk W' t a = w_blk W t a) ->
  (forall i, fi_blocks (w_ino W' i) = fi_blocks (w_ino W i)) -> keys_inv W'.
Proof.
  intros W W' K H O B F. constructor.
  - intros q t a. rewrite H. apply (ki_type W K).
  - intros q t a. rewrite H, B. apply (ki_blk W K).
  - intros t a b l Hb N Hl. rewrite B in Hb. apply (ki_ref W K t a b l Hb N). intros q Q. rewrite <- H. apply Hl, Q.
  - intros t a b. rewrite B. apply (ki_one W K).
  - intro i. destruct (ki_blocks W K i) as (l & N & I & E). exists l. split; [exact N|]. split; [|rewrite F; exact E].
    intro q. rewrite I, H. split; intros [X Y]; (split; [exact X|]); [rewrite O by exact X|rewrite <- O by exact X]; exact Y.
Qed.

Definition dv (v : option (Z * Z)) (t a : Z) : Z :=
  match v with Some (t', a') => if (t' =? t) && (a' =? a) then 1 else 0 | None => 0 end.
Definition dn (v : option (Z * Z)) : Z := match v with Some _ => 1 | None => 0 end.
Lemma dv_same : forall t a, dv (Some (t, a)) t a = 1.
Proof. intros. unfold dv. rewrite !Z.eqb_refl. reflexivity. Qed.
Lemma dv_1 : forall v t a, dv v t a = 1 -> v = Some (t, a).
Proof. intros [[t' a']|] t a H; cbn in H; [|discriminate]. destruct ((t' =? t) && (a' =? a)) eqn:E; [|discriminate]. f_equal. f_equal; lia. Qed.
Lemma dv_0 : forall v t a, v <> Some (t, a) -> dv v t a = 0.
Proof.
  intros [[t' a']|] t a H; cbn; [|reflexivity]. destruct ((t' =? t) && (a' =? a)) eqn:E; [|reflexivity].
  exfalso. apply H. f_equal. f_equal; lia.
Qed.
Lemma pair_dec : forall x y : option (Z * Z), {x = y} + {x <> y}.
Proof. decide equality. decide equality; apply Z.eq_dec. Qed.

Definition rmk (q : key) (l : list key) : list key := filter (fun x => if key_dec x q then false else true) l.
Lemma rmk_in : forall q l x, In x (rmk q l) <-> In x l /\ x <> q.
Proof. intros q l x. unfold rmk. rewrite filter_In. destruct (key_dec x q); intuition congruence. Qed.
Lemma rmk_nodup : forall q l, NoDup l -> NoDup (rmk q l).
Proof. intros. apply NoDup_filter. assumption. Qed.
Lemma rmk_out : forall q l, ~ In q l -> rmk q l = l.
Proof.
  intros q l H. induction l as [|x l IH]; [reflexivity|]. cbn [rmk filter]. destruct (key_dec x q) as [->|N].
  - exfalso. apply H. left. reflexivity.
  - f_equal. apply IH. intro I. apply H. right. exact I.
Qed.
Lemma rmk_sum : forall (f : key -> Z) q l, NoDup l -> In q l -> zsum (map f (rmk q l)) = zsum (map f l) - f q.
Proof.
  intros f q l N I. induction l as [|x l IH]; [destruct I|].
  inversion N as [|y m Hx Nl]; subst. cbn [rmk filter]. destruct (key_dec x q) as [->|Hn].
  - fold (rmk q l). rewrite rmk_out by exact Hx. cbn [map]. rewrite zsum_cons. lia.
  - destruct I as [I|I]; [congruence|]. fold (rmk q l). cbn [map]. rewrite !zsum_cons, IH by assumption. lia.
Qed.
Lemma rmk_len : forall q l, NoDup l -> In q l -> zlen (rmk q l) = zlen l - 1.
Proof.
  intros q l N I. induction l as [|x l IH]; [destruct I|].
  inversion N as [|y m Hx Nl]; subst. cbn [rmk filter]. destruct (key_dec x q) as [->|Hn].
  - fold (rmk q l). rewrite rmk_out by exact Hx. rewrite zlen_cons. lia.
  - destruct I as [I|I]; [congruence|]. fold (rmk q l). rewrite !zlen_cons, IH by assumption. lia.
Qed.

(* one holder changes *)
Lemma rekey_inv : forall W W' q0 i vn, keys_inv W ->
  hold W' q0 = vn -> (forall q, q <> q0 -> hold W' q = hold W q) ->
  (forall q, owner W' q = owner W q) -> owner W q0 = Some i ->
  (forall j, fi_blocks (w_ino W' j) =
             fi_blocks (w_ino W j) + (if j =? i then knk q0 * (dn vn - dn (hold W q0)) else 0)) ->
  (forall t a, vn = Some (t, a) -> t = ktype q0) ->
  (forall t a, match w_blk W t a, w_blk W' t a with
               | Some b, Some b' => b_ref b + dv vn t a - dv (hold W q0) t a <= b_ref b'
               | None, Some b' => True
               | None, None => vn <> Some (t, a)
               | Some b, None => vn <> Some (t, a) /\ hold W q0 = Some (t, a) /\ b_ref b <= 1
               end) ->
  (forall t a b', w_blk W' t a = Some b' ->
     1 <= b_ref b' /\ (t <> LT_DATABK -> b_ref b' = 1) /\ (b_unwr b' = true -> b_ref b' = 1)) ->
  keys_inv W'.
Proof.
  intros W W' q0 i vn K Hq Ho Ow Oi Fb Ty Bl One.
  assert (Blk : forall q t a, hold W' q = Some (t, a) -> w_blk W' t a <> None).
  { intros q t a H E. specialize (Bl t a). rewrite E in Bl. destruct (key_dec q q0) as [->|N].
    - rewrite Hq in H. destruct (w_blk W t a); [destruct Bl as [Bl _]; congruence|congruence].
    - rewrite Ho in H by exact N. destruct (w_blk W t a) as [b|] eqn:Eb.
      + destruct Bl as (_ & H0 & R). pose proof (ki_ref W K t a b [q; q0] Eb) as L.
        assert (zlen [q; q0] <= b_ref b).
        { apply L.
          - constructor; [|constructor; [intros []|constructor]]. intros [X|[]]. congruence.
          - intros x [<-|[<-|[]]]; assumption. }
        rewrite !zlen_cons, zlen_nil in H1. lia.
      + apply (ki_blk W K q t a H Eb). }
  constructor.
  - intros q t a H. destruct (key_dec q q0) as [->|N]; [rewrite Hq in H; apply (Ty t a H)|].
    rewrite Ho in H by exact N. apply (ki_type W K q t a H).
  - exact Blk.
  - intros t a b' l Hb N Hl. specialize (Bl t a). rewrite Hb in Bl.
    assert (Hr : forall q, In q (rmk q0 l) -> hold W q = Some (t, a)).
    { intros q I. apply rmk_in in I. destruct I as [I Nq]. rewrite <- Ho by exact Nq. apply Hl, I. }
    assert (Len : zlen l <= zlen (rmk q0 l) + dv vn t a).
    { destruct (in_dec key_dec q0 l) as [I|I].
      - rewrite rmk_len by assumption. pose proof (Hl q0 I) as X. rewrite Hq in X. rewrite X, dv_same. lia.
      - rewrite rmk_out by exact I. assert (0 <= dv vn t a); [|lia]. unfold dv. destruct vn as [[t' a']|]; [|lia]. destruct (_ && _); lia. }
    pose proof (rmk_nodup q0 l N) as Nr.
    destruct (w_blk W t a) as [b|] eqn:Eb.
    + destruct (pair_dec (hold W q0) (Some (t, a))) as [E|E].
      * rewrite E, dv_same in Bl.
        assert (zlen (q0 :: rmk q0 l) <= b_ref b).
        { apply (ki_ref W K t a b); [exact Eb| |].
          - constructor; [|exact Nr]. intro I. apply rmk_in in I. destruct I. congruence.
          - intros x [<-|I]; [exact E|apply Hr, I]. }
        rewrite zlen_cons in H. lia.
      * rewrite (dv_0 _ _ _ E) in Bl. pose proof (ki_ref W K t a b _ Eb Nr Hr). lia.
    + assert (rmk q0 l = []).
      { destruct (rmk q0 l) as [|x r] eqn:Er; [reflexivity|]. exfalso. apply (ki_blk W K x t a); [apply Hr; left; reflexivity|exact Eb]. }
      rewrite H, zlen_nil in Len. pose proof (One t a b' Hb).
      assert (dv vn t a <= 1); [|lia]. unfold dv. destruct vn as [[t' a']|]; [|lia]. destruct (_ && _); lia.
  - exact One.
  - intro j. destruct (ki_blocks W K j) as (l & N & I & E). rewrite Fb, E.
    destruct (j =? i) eqn:J.
    + assert (j = i) by lia. subst j. destruct vn as [v|] eqn:Vn.
      * destruct (hold W q0) as [v0|] eqn:H0.
        -- exists l. split; [exact N|]. split; [|cbn [dn]; lia]. intro q. rewrite I, Ow.
           destruct (key_dec q q0) as [->|Nq]; [rewrite Hq, H0; intuition congruence|rewrite Ho by exact Nq; reflexivity].
        -- exists (q0 :: l). split; [|split].
           ++ constructor; [|exact N]. intro X. apply I in X. destruct X. congruence.
           ++ intro q. rewrite Ow. destruct (key_dec q q0) as [->|Nq].
              ** rewrite Hq. split; [intros _; split; [discriminate|exact Oi]|intros _; left; reflexivity].
              ** rewrite Ho by exact Nq. rewrite <- I. split; [intros [X|X]; [congruence|exact X]|intro X; right; exact X].
           ++ cbn [map dn]. rewrite zsum_cons. lia.
      * destruct (hold W q0) as [v0|] eqn:H0.
        -- exists (rmk q0 l). split; [apply rmk_nodup, N|]. split.
           ++ intro q. rewrite rmk_in, I, Ow. destruct (key_dec q q0) as [->|Nq].
              ** rewrite Hq. intuition congruence.
              ** rewrite Ho by exact Nq. intuition.
           ++ rewrite rmk_sum; [cbn [dn]; lia|exact N|]. apply I. split; [congruence|exact Oi].
        -- exists l. split; [exact N|]. split; [|cbn [dn]; lia]. intro q. rewrite I, Ow.
           destruct (key_dec q q0) as [->|Nq]; [rewrite Hq, H0; intuition congruence|rewrite Ho by exact Nq; reflexivity].
    + exists l. split; [exact N|]. split; [|lia]. intro q. rewrite I, Ow.
      destruct (key_dec q q0) as [->|Nq]; [|rewrite Ho by exact Nq; reflexivity].
      rewrite Oi. split; intros [_ X]; exfalso; assert (i = j) by congruence; lia.
Qed.

(* ---- the invariant and effects ---- *)

Definition Inv (W : world) : Prop := tree_inv W /\ keys_inv W.
(* only bytes lo <= off < hi of file i may have changed *)
Record Eff (i lo hi : Z) (W W' : world) : Prop := mkEff {
  e_inv : Inv W';
  e_ino : forall j, j <> i -> w_ino W' j = w_ino W j;
  e_ty2 : fi_ty2 (w_ino W' i) = fi_ty2 (w_ino W i);
  e_size : fi_size (w_ino W' i) = fi_size (w_ino W i);
  e_span : fi_span (w_ino W' i) = fi_span (w_ino W i);
  e_oth : forall j off, j <> i -> 0 <= off -> content W' j off = content W j off;
  e_out : forall off, 0 <= off -> ~ (lo <= off < hi) -> content W' i off = content W i off;
  e_ref : refs1 W -> refs1 W' }.
(* only bytes lo <= k < hi of the leaf of holder q0 may have changed *)
Record KEff (i : Z) (q0 : key) (lo hi : Z) (W W' : world) : Prop := mkKEff {
  k_inv : Inv W';
  k_ino : forall j, j <> i -> w_ino W' j = w_ino W j;
  k_ty2 : fi_ty2 (w_ino W' i) = fi_ty2 (w_ino W i);
  k_size : fi_size (w_ino W' i) = fi_size (w_ino W i);
  k_span : fi_span (w_ino W' i) = fi_span (w_ino W i);
  k_skel : same_skel W W';
  k_hold : forall q, q <> q0 -> hold W' q = hold W q;
  k_oth : forall q k, q <> q0 -> kval W' q k = kval W q k;
  k_val : forall k, 0 <= k < ksize q0 -> ~ (lo <= k < hi) -> kval W' q0 k = kval W q0 k;
  k_blk : forall q t a b b', q <> q0 -> hold W q = Some (t, a) -> w_blk W t a = Some b -> w_blk W' t a = Some b' ->
          b_unwr b' = b_unwr b /\ b_ref b' + dv (hold W q0) t a <= b_ref b + dv (hold W' q0) t a;
  k_ref : refs1 W -> refs1 W' }.

Lemma eff_refl : forall i lo hi W, Inv W -> Eff i lo hi W W.
Proof. intros. constructor; auto. Qed.
Lemma eff_trans : forall i lo hi W W1 W2, Eff i lo hi W W1 -> Eff i lo hi W1 W2 -> Eff i lo hi W W2.
Proof.
  intros i lo hi W W1 W2 A B. destruct A, B. constructor; try congruence.
  - intros j N. rewrite e_ino1, e_ino0 by exact N. reflexivity.
  - intros j off N H. rewrite e_oth1, e_oth0 by assumption. reflexivity.
  - intros off H N. rewrite e_out1, e_out0 by assumption. reflexivity.
  - auto.
Qed.
Lemma eff_weak : forall i lo hi lo' hi' W W', Eff i lo hi W W' -> lo' <= lo -> hi <= hi' -> Eff i lo' hi' W W'.
Proof. intros i lo hi lo' hi' W W' A H1 H2. destruct A. constructor; try assumption. intros off H N. apply e_out0; [exact H|lia]. Qed.
Lemma eff_empty : forall i lo hi W W', Eff i 0 0 W W' -> Eff i lo hi W W'.
Proof. intros i lo hi W W' A. destruct A. constructor; try assumption. intros off H N. apply e_out0; [exact H|lia]. Qed.
Lemma node_trans : forall n n1 n2, same_node n n1 -> same_node n1 n2 -> same_node n n2.
Proof.
  intros n n1 n2 (E1 & E2 & E3 & E4 & E5 & Ec) (F1 & F2 & F3 & F4 & F5 & Fc). unfold same_node.
  repeat split; try congruence. intros H s Hs. rewrite Fc, Ec; auto; lia.
Qed.
Lemma skel_trans : forall W W1 W2, same_skel W W1 -> same_skel W1 W2 -> same_skel W W2.
Proof.
  intros W W1 W2 [A B] [C D]. split; [|intro i; rewrite D, B; reflexivity].
  intro a. specialize (A a). specialize (C a).
  destruct (w_node W a); destruct (w_node W1 a); destruct (w_node W2 a); try contradiction; [|exact I].
  apply (node_trans f f0 f1); assumption.
Qed.
Lemma keff_refl : forall i q lo hi W, Inv W -> KEff i q lo hi W W.
Proof.
  intros. constructor; auto using same_skel_refl. intros q' t a b b' _ _ H1 H2. assert (b' = b) by congruence. subst b'. split; [reflexivity|lia].
Qed.
Lemma keff_trans : forall i q lo hi W W1 W2, KEff i q lo hi W W1 -> KEff i q lo hi W1 W2 -> KEff i q lo hi W W2.
Proof.
  intros i q lo hi W W1 W2 A B. destruct A, B. constructor; try congruence.
  - intros j N. rewrite k_ino1, k_ino0 by exact N. reflexivity.
  - apply (skel_trans W W1 W2); assumption.
  - intros x N. rewrite k_hold1, k_hold0 by exact N. reflexivity.
  - intros x k N. rewrite k_oth1, k_oth0 by exact N. reflexivity.
  - intros k R N. rewrite k_val1, k_val0 by assumption. reflexivity.
  - intros x t a b b' N H Hb Hb'. assert (H1 : hold W1 x = Some (t, a)) by (rewrite k_hold0 by exact N; exact H).
    destruct (w_blk W1 t a) as [b1|] eqn:E1; [|exfalso; apply (ki_blk W1 (proj2 k_inv0) x t a H1 E1)].
    destruct (k_blk0 x t a b b1 N H Hb E1) as [A1 A2]. destruct (k_blk1 x t a b1 b' N H1 E1 Hb') as [B1 B2].
    split; [congruence|lia].
  - auto.
Qed.
Lemma keff_weak : forall i q lo hi lo' hi' W W', KEff i q lo hi W W' -> lo' <= lo -> hi <= hi' -> KEff i q lo' hi' W W'.
Proof. intros i q lo hi lo' hi' W W' A H1 H2. destruct A. constructor; try assumption. intros k R N. apply k_val0; [exact R|lia]. Qed.
Lemma keff_empty : forall i q lo hi W W', KEff i q 0 0 W W' -> KEff i q lo hi W W'.
Proof. intros i q lo hi W W' A. destruct A. constructor; try assumption. intros k R N. apply k_val0; [exact R|lia]. Qed.
Lemma keff_key : forall i q lo hi W W' j off, Inv W -> KEff i q lo hi W W' -> key_of W' j off = key_of W j off.
Proof.
  intros i q lo hi W W' j off [T _] A. apply skel_key; [exact T|apply A|].
  destruct (Z.eq_dec j i) as [->|N]; [apply A|]. rewrite (k_ino _ _ _ _ _ _ A j N). reflexivity.
Qed.
Lemma keff_eff : forall i q lo hi W W' off, Inv W -> 0 <= off -> key_of W i off = Some q -> KEff i q lo hi W W' ->
  Eff i (off / ksize q * ksize q + lo) (off / ksize q * ksize q + hi) W W'.
Proof.
  intros i q lo hi W W' off I H E A. pose proof (fun j o => keff_key i q lo hi W W' j o I A) as Ke.
  destruct I as [T K]. destruct A. constructor; try assumption.
  - intros j o N Ho. unfold content. rewrite Ke. destruct (key_of W j o) as [x|] eqn:Ex; [|reflexivity].
    apply k_oth0. intros ->. destruct (key_inj W i j off o q T H Ho E Ex) as [X _]. congruence.
  - intros o Ho N. unfold content. rewrite Ke. destruct (key_of W i o) as [x|] eqn:Ex; [|reflexivity].
    destruct (key_dec x q) as [->|Nx]; [|apply k_oth0, Nx].
    assert (Rm : 0 <= o mod ksize q < ksize q) by (apply Z.mod_pos_bound; destruct (size_cases q) as [S|[S|S]]; rewrite S; reflexivity).
    apply k_val0; [exact Rm|]. destruct (key_inj W i i off o q T H Ho E Ex) as [_ X].
    intro R. apply N. pose proof (Z.div_mod o (ksize q)) as D. destruct (size_cases q) as [S|[S|S]]; rewrite S in *; lia.
Qed.

(* ---- changing a leaf in place ---- *)

Lemma blk_at : forall W t a v t' a', w_blk (set_blk W t a v) t' a' = if (t' =? t) && (a' =? a) then v else w_blk W t' a'.
Proof.
  intros. unfold set_blk. cbn [w_blk]. destruct (t' =? t) eqn:E; [|reflexivity]. cbn [andb]. unfold fset.
  destruct (a' =? a); [reflexivity|]. assert (t' = t) by lia. subst. reflexivity.
Qed.
Lemma blk_same : forall W t a v, w_blk (set_blk W t a v) t a = v.
Proof. intros. rewrite blk_at, !Z.eqb_refl. reflexivity. Qed.
Definition bval (b : blk) (k : Z) : Z := if b_unwr b then 0 else b_data b k.
Lemma kval_held : forall W q t a b k, hold W q = Some (t, a) -> w_blk W t a = Some b -> kval W q k = bval b k.
Proof. intros W q t a b k H E. unfold kval. rewrite H, E. reflexivity. Qed.
(* a leaf with one owner has one holder *)
Lemma sole_holder : forall W q q' t a b, keys_inv W -> hold W q = Some (t, a) -> w_blk W t a = Some b -> b_ref b = 1 ->
  hold W q' = Some (t, a) -> q' = q.
Proof.
  intros W q q' t a b K H E R H'. destruct (key_dec q' q) as [->|N]; [reflexivity|]. exfalso.
  assert (L : zlen [q'; q] <= b_ref b).
  { apply (ki_ref W K t a b); [exact E| |].
    - constructor; [|constructor; [intros []|constructor]]. intros [X|[]]. congruence.
    - intros x [<-|[<-|[]]]; assumption. }
  rewrite !zlen_cons, zlen_nil in L. lia.
Qed.
Lemma blk_inv : forall W t a b', keys_inv W -> (forall b, w_blk W t a = Some b -> b_ref b <= b_ref b') ->
  1 <= b_ref b' -> (t <> LT_DATABK -> b_ref b' = 1) -> (b_unwr b' = true -> b_ref b' = 1) ->
  keys_inv (set_blk W t a (Some b')).
Proof.
  intros W t a b' K Hr H1 H2 H3.
  assert (Hh : forall q, hold (set_blk W t a (Some b')) q = hold W q) by (intros [|]; reflexivity).
  constructor.
  - intros q t' a' H. rewrite Hh in H. apply (ki_type W K q t' a' H).
  - intros q t' a' H. rewrite Hh in H. rewrite blk_at. destruct (_ && _); [discriminate|]. apply (ki_blk W K q t' a' H).
  - intros t' a' b l Hb N Hl. rewrite blk_at in Hb. destruct ((t' =? t) && (a' =? a)) eqn:X.
    + assert (t' = t /\ a' = a) as [-> ->] by lia. assert (b = b') by congruence. subst b.
      destruct (w_blk W t a) as [b0|] eqn:E.
      * specialize (Hr b0 eq_refl). pose proof (ki_ref W K t a b0 l E N). assert (zlen l <= b_ref b0); [|lia].
        apply H. intros q I. rewrite <- Hh. apply Hl, I.
      * destruct l as [|q l]; [rewrite zlen_nil; lia|]. exfalso.
        apply (ki_blk W K q t a); [rewrite <- Hh; apply Hl; left; reflexivity|exact E].
    + apply (ki_ref W K t' a' b l Hb N). intros q I. rewrite <- Hh. apply Hl, I.
  - intros t' a' b Hb. rewrite blk_at in Hb. destruct ((t' =? t) && (a' =? a)) eqn:X.
    + assert (t' = t /\ a' = a) as [-> ->] by lia. assert (b = b') by congruence. subst b. auto.
    + apply (ki_one W K t' a' b Hb).
  - intro i. destruct (ki_blocks W K i) as (l & N & I & E). exists l. split; [exact N|]. split; [|exact E].
    intro q. rewrite Hh. rewrite I. destruct q; reflexivity.
Qed.
Lemma tree_blk : forall W t a v, tree_inv W -> tree_inv (set_blk W t a v).
Proof. intros W t a v [A B C D E F]. constructor; assumption. Qed.
Lemma skel_blk : forall W t a v, same_skel W (set_blk W t a v).
Proof. intros. exact (same_skel_refl W). Qed.
Lemma hold_blk : forall W t a v q, hold (set_blk W t a v) q = hold W q.
Proof. intros W t a v [|]; reflexivity. Qed.
(* a leaf with a single owner is rewritten *)
Lemma keff_store : forall W i q t a b b' lo hi, Inv W -> hold W q = Some (t, a) -> w_blk W t a = Some b -> b_ref b = 1 ->
  b_ref b' = 1 -> (forall k, 0 <= k < ksize q -> ~ (lo <= k < hi) -> bval b' k = bval b k) ->
  KEff i q lo hi W (set_blk W t a (Some b')).
Proof.
  intros W i q t a b b' lo hi [T K] H E R R' V. constructor; try reflexivity.
  - split; [apply tree_blk, T|]. apply blk_inv; try assumption; try lia. intros b0 E0. assert (b0 = b) by congruence. subst. lia.
  - apply skel_blk.
  - intros q' k N. unfold kval. rewrite hold_blk. destruct (hold W q') as [[t' a']|] eqn:H'; [|reflexivity].
    rewrite blk_at. destruct ((t' =? t) && (a' =? a)) eqn:X; [|reflexivity]. exfalso. apply N.
    assert (t' = t /\ a' = a) as [-> ->] by lia. apply (sole_holder W q q' t a b); assumption.
  - intros k Rk N. rewrite (kval_held _ q t a b' k); [|rewrite hold_blk; exact H|apply blk_same].
    rewrite (kval_held W q t a b k H E). apply V; assumption.
  - intros q' t' a' b0 b1 N H' Hb0 Hb1. rewrite hold_blk. rewrite blk_at in Hb1. destruct ((t' =? t) && (a' =? a)) eqn:X.
    + exfalso. apply N. assert (t' = t /\ a' = a) as [-> ->] by lia. apply (sole_holder W q q' t a b); assumption.
    + assert (b1 = b0) by congruence. subst b1. split; [reflexivity|lia].
  - auto.
Qed.
(* a leaf which nobody holds *)
Lemma keff_unheld : forall W i q t a b' lo hi, Inv W -> (forall q', hold W q' <> Some (t, a)) ->
  (forall b, w_blk W t a = Some b -> b_ref b = 1) -> b_ref b' = 1 ->
  KEff i q lo hi W (set_blk W t a (Some b')).
Proof.
  intros W i q t a b' lo hi [T K] E R1 R.
  assert (V : forall q k, kval (set_blk W t a (Some b')) q k = kval W q k).
  { intros q' k. unfold kval. rewrite hold_blk. destruct (hold W q') as [[t' a']|] eqn:H'; [|reflexivity].
    rewrite blk_at. destruct ((t' =? t) && (a' =? a)) eqn:X; [|reflexivity]. exfalso.
    assert (t' = t /\ a' = a) as [-> ->] by lia. apply (E q'); assumption. }
  constructor; try reflexivity; auto.
  - split; [apply tree_blk, T|]. apply blk_inv; try assumption; try lia.
  - apply skel_blk.
  - intros q' t' a' b0 b1 N H' Hb0 Hb1. rewrite hold_blk. rewrite blk_at in Hb1. destruct ((t' =? t) && (a' =? a)) eqn:X.
    + exfalso. assert (t' = t /\ a' = a) as [-> ->] by lia. apply (E q' H').
    + assert (b1 = b0) by congruence. subst b1. split; [reflexivity|lia].
Qed.
Lemma unheld_none : forall W t a q, keys_inv W -> w_blk W t a = None -> hold W q <> Some (t, a).
Proof. intros W t a q K E H. apply (ki_blk W K q t a H E). Qed.

(* ---- changing a holder ---- *)

Record Rebind (W W' : world) (i : Z) (q0 : key) (vn : option (Z * Z)) (d : Z) : Prop := mkRb {
  rb_ino : forall j, j <> i -> w_ino W' j = w_ino W j;
  rb_ty2 : fi_ty2 (w_ino W' i) = fi_ty2 (w_ino W i);
  rb_size : fi_size (w_ino W' i) = fi_size (w_ino W i);
  rb_span : fi_span (w_ino W' i) = fi_span (w_ino W i);
  rb_blocks : fi_blocks (w_ino W' i) = fi_blocks (w_ino W i) + d;
  rb_hold : hold W' q0 = vn;
  rb_oth : forall q, q <> q0 -> hold W' q = hold W q;
  rb_skel : same_skel W W';
  rb_nact : nacts W';
  rb_ref : refs1 W -> refs1 W' }.

Lemma rebind_head : forall W W' i k v d, tree_inv W -> 1 <= k <= 19 -> fi_ty2 (w_ino W i) = false ->
  (forall j, j <> i -> w_ino W' j = w_ino W j) ->
  w_ino W' i = fi_set_blocks (fi_set_slot (w_ino W i) k v) (fi_blocks (w_ino W i) + d) ->
  (forall a, w_node W' a = w_node W a) ->
  Rebind W W' i (KH i k) v d.
Proof.
  intros W W' i k v d T Hk Ht Ho Hi Hn.
  constructor; try (rewrite Hi; reflexivity); try assumption.
  - cbn [hold]. rewrite Hi. cbn [fi_set_blocks fi_set_slot fi_ty2 fi_slot]. rewrite Ht, fset_same.
    replace ((1 <=? k) && (k <=? 19)) with true by lia. reflexivity.
  - intros [j s|a s] N; cbn [hold].
    + destruct (Z.eq_dec j i) as [->|Nj].
      * rewrite Hi. cbn [fi_set_blocks fi_set_slot fi_ty2 fi_slot]. rewrite fset_other by congruence. reflexivity.
      * rewrite Ho by exact Nj. reflexivity.
    + rewrite Hn. reflexivity.
  - split.
    + intro a. rewrite Hn. destruct (w_node W a); [apply same_node_refl|exact I].
    + intro j. destruct (Z.eq_dec j i) as [->|Nj]; [|rewrite Ho by exact Nj; reflexivity].
      rewrite Hi. cbn [fi_set_blocks fi_set_slot fi_slot]. rewrite fset_other by lia. reflexivity.
  - intros a n H. rewrite Hn in H. apply (ti_nact W T a n H).
  - intros R a n H. rewrite Hn in H. apply (R a n H).
Qed.
Definition voff (v : option (Z * Z)) : Z := match v with Some (_, x) => x | None => OFF_NULL end.
Lemma assign_nact : forall n s x, 0 <= s < 1024 -> n_nact n = cnt (n_child n) ->
  n_nact (assign_child n s x) = cnt (n_child (assign_child n s x)).
Proof.
  intros n s x Hs H. unfold assign_child. cbn [n_nact n_child]. rewrite cnt_fset by exact Hs.
  unfold has_child, off_isnull, OFF_NULL in *. destruct (x <? 0) eqn:Ex; destruct (n_child n s <? 0) eqn:En; cbn [negb].
  - destruct (0 <=? -1) eqn:A; destruct (0 <=? n_child n s) eqn:B; lia.
  - destruct (0 <=? -1) eqn:A; destruct (0 <=? n_child n s) eqn:B; lia.
  - destruct (0 <=? x) eqn:A; destruct (0 <=? n_child n s) eqn:B; lia.
  - destruct (0 <=? x) eqn:A; destruct (0 <=? n_child n s) eqn:B; lia.
Qed.
Lemma assign_child_at : forall n s x s', n_child (assign_child n s x) s' =
  if s' =? s then (if off_isnull x then OFF_NULL else x) else n_child n s'.
Proof. intros. unfold assign_child, fset. cbn [n_child]. reflexivity. Qed.
Lemma rebind_node : forall W W' i a n s v d, tree_inv W -> w_node W a = Some n -> n_height n = 2 -> 0 <= s < 1024 ->
  match v with None => True | Some (t, x) => t = LT_DATABK /\ 0 <= x end ->
  (forall j, j <> i -> w_ino W' j = w_ino W j) ->
  w_ino W' i = fi_set_blocks (w_ino W i) (fi_blocks (w_ino W i) + d) ->
  (forall a', w_node W' a' = if a' =? a then Some (assign_child n s (voff v)) else w_node W a') ->
  Rebind W W' i (KN a s) v d.
Proof.
  intros W W' i a n s v d T Ha H2 Hs Hv Ho Hi Hn.
  destruct (ti_shape W T a n Ha) as [_ Sh].
  assert (Ct : n_ctype n = LT_DATABK) by (rewrite (sh_ct n Sh), H2; reflexivity).
  constructor; try (rewrite Hi; reflexivity); try assumption.
  - cbn [hold]. rewrite Hn, Z.eqb_refl. change (n_height (assign_child n s (voff v))) with (n_height n). rewrite H2.
    replace ((2 =? 2) && (0 <=? s) && (s <? 1024)) with true by lia.
    unfold child_at, has_child. rewrite assign_child_at, Z.eqb_refl. change (n_ctype (assign_child n s (voff v))) with (n_ctype n).
    rewrite Ct. destruct v as [[t x]|]; cbn [voff].
    + destruct Hv as [-> Hx]. unfold off_isnull. replace (x <? 0) with false by lia. replace (x <? 0) with false by lia. reflexivity.
    + reflexivity.
  - intros [j s'|a' s'] N; cbn [hold].
    + destruct (Z.eq_dec j i) as [->|Nj]; [rewrite Hi|rewrite Ho by exact Nj]; reflexivity.
    + rewrite Hn. destruct (a' =? a) eqn:Ea; [|reflexivity]. assert (a' = a) by lia. subst a'. rewrite Ha.
      change (n_height (assign_child n s (voff v))) with (n_height n).
      destruct ((n_height n =? 2) && (0 <=? s') && (s' <? 1024)); [|reflexivity].
      unfold child_at, has_child. rewrite assign_child_at. destruct (s' =? s) eqn:Es; [|reflexivity].
      exfalso. apply N. f_equal. lia.
  - split.
    + intro a'. rewrite Hn. destruct (a' =? a) eqn:Ea.
      * assert (a' = a) by lia. subst a'. rewrite Ha. unfold same_node. cbn. repeat split; try reflexivity. intro X. lia.
      * destruct (w_node W a'); [apply same_node_refl|exact I].
    + intro j. destruct (Z.eq_dec j i) as [->|Nj]; [rewrite Hi|rewrite Ho by exact Nj]; reflexivity.
  - intros a' m H. rewrite Hn in H. destruct (a' =? a) eqn:Ea.
    + assert (m = assign_child n s (voff v)) by congruence. subst m. apply assign_nact; [exact Hs|apply (ti_nact W T a n Ha)].
    + apply (ti_nact W T a' m H).
  - intros R a' m H. rewrite Hn in H. destruct (a' =? a) eqn:Ea; [|apply (R a' m H)].
    assert (m = assign_child n s (voff v)) by congruence. subst m. apply (R a n Ha).
Qed.

Lemma keff_rebind : forall W W' i q0 vn d lo hi, Inv W -> Rebind W W' i q0 vn d -> owner W q0 = Some i ->
  d = knk q0 * (dn vn - dn (hold W q0)) ->
  (forall t a, vn = Some (t, a) -> t = ktype q0) ->
  (forall t a, match w_blk W t a, w_blk W' t a with
               | Some b, Some b' => b_ref b + dv vn t a - dv (hold W q0) t a = b_ref b' /\
                                    b_data b' = b_data b /\ b_unwr b' = b_unwr b
               | None, Some b' => True
               | None, None => vn <> Some (t, a)
               | Some b, None => vn <> Some (t, a) /\ hold W q0 = Some (t, a) /\ b_ref b <= 1
               end) ->
  (forall t a b', w_blk W' t a = Some b' ->
     1 <= b_ref b' /\ (t <> LT_DATABK -> b_ref b' = 1) /\ (b_unwr b' = true -> b_ref b' = 1)) ->
  (forall k, 0 <= k < ksize q0 -> ~ (lo <= k < hi) -> kval W' q0 k = kval W q0 k) ->
  KEff i q0 lo hi W W'.
Proof.
  intros W W' i q0 vn d lo hi [T K] R Ow D Ty Bl One V.
  assert (K' : keys_inv W').
  { apply (rekey_inv W W' q0 i vn K (rb_hold _ _ _ _ _ _ R) (rb_oth _ _ _ _ _ _ R)); try assumption.
    - intro q. apply skel_owner, R.
    - intro j. destruct (j =? i) eqn:J.
      + assert (j = i) by lia. subst j. rewrite (rb_blocks _ _ _ _ _ _ R). lia.
      + rewrite (rb_ino _ _ _ _ _ _ R) by lia. lia.
    - intros t a. specialize (Bl t a). destruct (w_blk W t a); destruct (w_blk W' t a); try exact Bl. lia. }
  constructor; try apply R.
  - split; [|exact K']. apply (skel_tree_inv W W'); [exact T|apply R|apply R].
  - intros q k N. unfold kval. rewrite (rb_oth _ _ _ _ _ _ R q N).
    destruct (hold W q) as [[t a]|] eqn:H; [|reflexivity].
    assert (H' : hold W' q = Some (t, a)) by (rewrite (rb_oth _ _ _ _ _ _ R q N); exact H).
    pose proof (ki_blk W K q t a H) as X. pose proof (ki_blk W' K' q t a H') as X'. specialize (Bl t a).
    destruct (w_blk W t a) as [b|]; [|congruence]. destruct (w_blk W' t a) as [b'|]; [|congruence].
    destruct Bl as (_ & E1 & E2). rewrite E1, E2. reflexivity.
  - exact V.
  - intros q t a b b' _ _ Hb Hb'. specialize (Bl t a). rewrite Hb, Hb' in Bl. rewrite (rb_hold _ _ _ _ _ _ R).
    destruct Bl as (A1 & _ & A2). split; [exact A2|lia].
Qed.

(* ---- the leaf of an offset ---- *)

Definition place (W : world) (i off : Z) : option (Z * Z) :=
  match key_of W i off with Some q => hold W q | None => None end.
(* nothing but the shape of the tree of file i has changed *)
Record GEff (i : Z) (W W' : world) : Prop := mkGE {
  ge_eff :> Eff i 0 0 W W';
  ge_blk : forall t a, w_blk W' t a = w_blk W t a;
  ge_place : forall j off, 0 <= off -> place W' j off = place W j off }.
Lemma ge_refl : forall i W, Inv W -> GEff i W W.
Proof. intros i W I. constructor; auto using eff_refl. Qed.
Lemma ge_trans : forall i W W1 W2, GEff i W W1 -> GEff i W1 W2 -> GEff i W W2.
Proof.
  intros i W W1 W2 [A B C] [A' B' C']. constructor; [apply (eff_trans _ _ _ _ _ _ A A')|intros; rewrite B', B; reflexivity|].
  intros j o H. rewrite C', C by exact H. reflexivity.
Qed.
