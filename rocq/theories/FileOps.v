(* Triples for reading, writing, reserving and discarding in a file *)
From Verif Require Import Base AddrModel FileModel FileTree FileInv FileSpec FileLeaf FileRead FileGrow FileLoops.

(* ---- what has been done of a range ---- *)

Definition Upd (i : Z) (v : Z -> Z) (a b : Z) (W W' : world) : Prop :=
  Eff i a b W W' /\ forall x, a <= x < b -> content W' i x = v x.
(* done up to o, with the bytes from o to end_ in any state *)
Definition Part (i : Z) (v : Z -> Z) (end_ a o : Z) (W W' : world) : Prop :=
  Eff i a end_ W W' /\ forall x, a <= x < o -> content W' i x = v x.
Lemma eff_join : forall i a b c W W1 W2, a <= b <= c -> Eff i a b W W1 -> Eff i b c W1 W2 -> Eff i a c W W2.
Proof. intros i a b c W W1 W2 H A B. apply (eff_trans _ _ _ _ W1); [apply (eff_weak _ _ _ _ _ _ _ A); lia|apply (eff_weak _ _ _ _ _ _ _ B); lia]. Qed.
Lemma upd_rel : forall i v end_, range_rel i end_ (Upd i v) (Part i v end_).
Proof.
  intros i v end_. constructor.
  - intros a b c W W1 W2 H H1 H2 [A VA] [B VB]. split; [apply (eff_join i a b c W W1 W2); [lia|exact A|exact B]|].
    intros x Hx. destruct (Z_lt_dec x b) as [L|G]; [|apply VB; lia]. rewrite (e_out _ _ _ _ _ B) by lia. apply VA. lia.
  - intros a b c W W1 W2 H H1 H2 [A VA] [B VB]. split; [apply (eff_join i a b end_ W W1 W2); [lia|exact A|exact B]|].
    intros x Hx. destruct (Z_lt_dec x b) as [L|G]; [|apply VB; lia]. rewrite (e_out _ _ _ _ _ B) by lia. apply VA. lia.
  - intros a b W W' [A _]. split; apply A.
  - intros a W W' H A. split; (split; [apply eff_empty, A|intros x Hx; lia]).
Qed.
Lemma res_rel : forall i end_, range_rel i end_ (fun _ _ => Eff i 0 0) (fun _ _ => Eff i 0 0).
Proof.
  intros i end_. constructor.
  - intros a b c W W1 W2 H H1 H2 A B. apply (eff_trans _ _ _ _ W1); assumption.
  - intros a b c W W1 W2 H H1 H2 A B. apply (eff_trans _ _ _ _ W1); assumption.
  - intros a b W W' A. split; apply A.
  - intros a W W' H A. split; exact A.
Qed.

(* ---- one leaf ---- *)

Lemma key_leaf_end : forall W i off q, 0 <= off -> key_of W i off = Some q ->
  leaf_end W i off = off / ksize q * ksize q + ksize q.
Proof. intros W i off q H E. unfold leaf_end, ksize. rewrite (key_of_type W i off q H E). reflexivity. Qed.
Lemma clip_spec : forall W i off end_ q, 0 <= off < end_ -> key_of W i off = Some q ->
  let p := off mod ksize q in
  0 <= p /\ 0 < clip q off end_ /\ p + clip q off end_ <= ksize q /\ off + clip q off end_ = Z.min (leaf_end W i off) end_ /\
  off / ksize q * ksize q + p = off.
Proof.
  intros W i off end_ q H E p. rewrite (key_leaf_end W i off q) by (assumption || lia). unfold clip, p.
  destruct (size_cases q) as [S|[S|S]]; rewrite S; lia.
Qed.
Lemma len_clip : forall off end_ q, 0 <= off -> len_of_data off end_ (ktype q) = clip q off end_.
Proof. intros off end_ q H. rewrite len_spec by (assumption || apply ktype_dsize). reflexivity. Qed.
Lemma leaf_eff : forall W i off end_ q W', Inv W -> 0 <= off < end_ -> key_of W i off = Some q ->
  KEff i q (off mod ksize q) (off mod ksize q + clip q off end_) W W' -> Eff i off (Z.min (leaf_end W i off) end_) W W'.
Proof.
  intros W i off end_ q W' I H E A. destruct (clip_spec W i off end_ q H E) as (H1 & H2 & H3 & H4 & H5).
  pose proof (keff_eff i q _ _ W W' off I ltac:(lia) E A) as X.
  rewrite Z.add_assoc, H5, H4 in X. exact X.
Qed.
Lemma leaf_upd : forall W i off end_ q W' v, Inv W -> 0 <= off < end_ -> key_of W i off = Some q ->
  KEff i q (off mod ksize q) (off mod ksize q + clip q off end_) W W' ->
  (forall k, 0 <= k < clip q off end_ -> kval W' q (off mod ksize q + k) = v (off + k)) ->
  Upd i v off (Z.min (leaf_end W i off) end_) W W'.
Proof.
  intros W i off end_ q W' v I H E A V. destruct (clip_spec W i off end_ q H E) as (H1 & H2 & H3 & H4 & H5).
  split; [apply (leaf_eff W i off end_ q); assumption|]. intros x Hx. replace x with (off + (x - off)) by lia.
  rewrite (content_at W' i off q); try lia.
  - apply V. lia.
  - apply A.
  - rewrite (keff_key _ _ _ _ _ _ i off I A). exact E.
Qed.
Lemma leaf_part : forall W i off end_ q W' v, Inv W -> 0 <= off < end_ -> key_of W i off = Some q ->
  KEff i q (off mod ksize q) (off mod ksize q + clip q off end_) W W' -> Part i v end_ off off W W'.
Proof.
  intros W i off end_ q W' v I H E A. split; [|intros x Hx; lia].
  apply (eff_weak _ off (Z.min (leaf_end W i off) end_)); [apply (leaf_eff W i off end_ q); assumption|lia|lia].
Qed.

(* ---- writing ---- *)

Definition wrv (dat : bytes) (beg : Z) : Z -> Z := fun x => znth dat (x - beg) 0.
Lemma sp_write_head : forall dat beg k W i off end_, k <> TREE -> Inv W -> 0 <= off < end_ -> kind_of (fi_ty2 (w_ino W i)) off = k ->
  spec W (write_head dat beg k i off end_)
    (fun n W' => (0 < n /\ adv_to off end_ (off + n) = Z.min (leaf_end W i off) end_) /\ Upd i (wrv dat beg) off (Z.min (leaf_end W i off) end_) W W')
    (EW (Part i (wrv dat beg) end_ off off W)).
Proof.
  intros dat beg k W i off end_ Nk I H Ek. unfold write_head. set (q := hkey i off k).
  pose proof (key_of_head W i off k Ek Nk) as E. fold q in E.
  destruct (clip_spec W i off end_ q H E) as (H1 & H2 & H3 & H4 & H5).
  eapply sp_bind.
  { eapply sp_conseq; [apply (sp_require_head W i off end_ k I ltac:(lia) Ek Nk)|intros r W' X; exact X|].
    intros e W' [Ne X]. split; [exact Ne|]. apply (leaf_part W i off end_ q); try assumption. apply keff_empty, X. }
  cbv beta. intros r W1 (K1 & (a & b & Hq & Hb) & -> & _). fold q in K1, Hq, Hb. pose proof (k_inv _ _ _ _ _ _ K1) as I1.
  assert (E1 : key_of W1 i off = Some q) by (rewrite (keff_key _ _ _ _ _ _ i off I K1); exact E).
  pose proof (ref_like W1 i off end_ q ltac:(lia) E1) as Rl.
  assert (R1 : b_ref b = 1).
  { destruct (ki_one W1 (proj2 I1) _ a b Hb) as (_ & X & _). apply X. unfold q.
    destruct (hold_head W i off k ltac:(lia) Ek Nk) as (_ & _ & _ & Ty). rewrite Ty. destruct k; [discriminate|discriminate|congruence]. }
  eapply sp_conseq; [apply (sp_write_leaf W1 i q (ktype q) a b dat beg _ off end_ I1)| |].
  - split; [exact Hq|]. split; assumption.
  - exact H.
  - exact (eq_trans (rl_addr _ _ _ _ _ _ Rl) Hq).
  - exact (rl_partial _ _ _ _ _ _ Rl).
  - cbv beta. rewrite len_clip by lia. intros n W2 (-> & K2 & V2).
    split; [split; [lia|unfold adv_to, off_clamp; lia]|].
    apply (leaf_upd W i off end_ q); try assumption.
    + apply (keff_trans _ _ _ _ _ W1); [apply keff_empty, K1|exact K2].
    + intros x Hx. rewrite V2 by lia. unfold wrv. f_equal. lia.
  - cbv beta. rewrite len_clip by lia. intros e W2 [Ne K2]. split; [exact Ne|]. apply (leaf_part W i off end_ q); try assumption.
    apply (keff_trans _ _ _ _ _ W1); [apply keff_empty, K1|exact K2].
Qed.
Lemma sp_write_tree_leaf : forall dat beg W i p off end_, Inv W -> 0 <= off < end_ -> kind_of (fi_ty2 (w_ino W i)) off = TREE -> bottom W i off = Some p ->
  spec W (write_tree_leaf dat beg i p off end_)
    (fun n W' => (0 < n /\ adv_to off end_ (off + n) = Z.min (off / 65536 * 65536 + 65536) end_) /\ same_skel W W' /\
                 Upd i (wrv dat beg) off (Z.min (off / 65536 * 65536 + 65536) end_) W W')
    (EW (Part i (wrv dat beg) end_ off off W)).
Proof.
  intros dat beg W i p off end_ I H Ek B. unfold write_tree_leaf. set (q := KN p (leaf_slot off)).
  pose proof (key_of_tree W i off p Ek B) as E. fold q in E. rewrite <- (tree_leaf_end W i off Ek).
  destruct (clip_spec W i off end_ q H E) as (H1 & H2 & H3 & H4 & H5).
  eapply sp_bind.
  { eapply sp_conseq; [apply (sp_require_tree_leaf W i off end_ p I ltac:(lia) B)|intros r W' X; exact X|].
    intros e W' [Ne X]. split; [exact Ne|]. apply (leaf_part W i off end_ q); try assumption. apply keff_empty, X. }
  cbv beta. intros r W1 (K1 & (a & b & Hq & Hb) & -> & _). fold q in K1, Hq, Hb. pose proof (k_inv _ _ _ _ _ _ K1) as I1.
  assert (E1 : key_of W1 i off = Some q) by (rewrite (keff_key _ _ _ _ _ _ i off I K1); exact E).
  pose proof (ref_like W1 i off end_ q ltac:(lia) E1) as Rl.
  eapply sp_bind.
  { eapply sp_conseq; [apply (sp_detect W1 i off end_ q _ (ktype q) a b I1 ltac:(lia) E1 Rl eq_refl Hq Hb)|intros r W' X; exact X|].
    intros e W' [Ne ->]. split; [exact Ne|]. apply (leaf_part W i off end_ q); try assumption. apply keff_empty, K1. }
  cbv beta. intros r1 W' (-> & Rl1 & Sh1).
  eapply sp_bind.
  { eapply sp_conseq; [apply (sp_unshare W1 i off end_ q r1 (ktype q) a b I1 ltac:(lia) E1 Rl1 Hq Hb)|intros r W' X; exact X|].
    - intro S. rewrite Sh1 in S. lia.
    - intros e W' [Ne K2]. split; [exact Ne|]. apply (leaf_part W i off end_ q); try assumption.
      apply keff_empty. apply (keff_trans _ _ _ _ _ W1); assumption. }
  cbv beta. intros r2 W2 (K2 & Rl2 & _ & a' & b' & Hq2 & Hb2 & R2). specialize (R2 Sh1).
  pose proof (keff_trans _ _ _ _ _ _ _ K1 K2) as K12. pose proof (k_inv _ _ _ _ _ _ K2) as I2.
  eapply sp_conseq; [apply (sp_write_leaf W2 i q (ktype q) a' b' dat beg _ off end_ I2)| |].
  - split; [exact Hq2|]. split; assumption.
  - exact H.
  - rewrite (rl_addr _ _ _ _ _ _ Rl2). exact Hq2.
  - apply (rl_partial _ _ _ _ _ _ Rl2).
  - cbv beta. rewrite len_clip by lia. intros n W3 (-> & K3 & V3).
    assert (K : KEff i q (off mod ksize q) (off mod ksize q + clip q off end_) W W3).
    { apply (keff_trans _ _ _ _ _ W2); [apply keff_empty, K12|exact K3]. }
    split; [split; [lia|unfold adv_to, off_clamp; lia]|]. split; [apply K|].
    apply (leaf_upd W i off end_ q); try assumption.
    intros x Hx. rewrite V3 by lia. unfold wrv. f_equal. lia.
  - cbv beta. rewrite len_clip by lia. intros e W3 [Ne K3]. split; [exact Ne|]. apply (leaf_part W i off end_ q); try assumption.
    apply (keff_trans _ _ _ _ _ W2); [apply keff_empty, K12|exact K3].
Qed.

Lemma write_heads_S : forall f dat beg k i off end_ s, write_heads (S f) dat beg k i off end_ s =
    if has_head_io k (fi_ty2 (w_ino (s_w s) i)) off end_
    then match write_head dat beg k i off end_ s with
         | (s', Ok len) => if len <=? 0 then (s', (off, Bad))
                           else write_heads f dat beg k i (adv_to off end_ (off + len)) end_ s'
         | (s', Err e) => (s', (off, Err e))
         | (s', Bad) => (s', (off, Bad))
         end
    else (s, (off, Ok tt)).
Proof. reflexivity. Qed.
Lemma write_leaves_S : forall f dat beg i parent off end_ s, write_leaves (S f) dat beg i parent off end_ s =
    if off <? end_
    then match write_tree_leaf dat beg i parent off end_ s with
         | (s', Ok len) =>
           if len <=? 0 then (s', (off, Bad))
           else let off' := adv_to off end_ (off + len) in
                if at_boundary off' then (s', (off', Ok tt)) else write_leaves f dat beg i parent off' end_ s'
         | (s', Err e) => (s', (off, Err e))
         | (s', Bad) => (s', (off, Bad))
         end
    else (s, (off, Ok tt)).
Proof. reflexivity. Qed.
Lemma write_by_tree_S : forall f dat beg i off end_ s, write_by_tree (S f) dat beg i off end_ s =
    if off <? end_
    then match require_tree i off s with
         | (s1, Ok p) =>
           match write_leaves 1025 dat beg i p off end_ s1 with
           | (s2, (off', Ok _)) => write_by_tree f dat beg i off' end_ s2
           | r => r
           end
         | (s1, Err e) => (s1, (off, Err e))
         | (s1, Bad) => (s1, (off, Bad))
         end
    else (s, (off, Ok tt)).
Proof. reflexivity. Qed.

Definition kend (k : kind) (off : Z) : Z := off / ltype_size (kind_ltype k) * ltype_size (kind_ltype k) + ltype_size (kind_ltype k).
Lemma leaf_end_kind : forall W i off k, kind_of (fi_ty2 (w_ino W i)) off = k -> leaf_end W i off = kend k off.
Proof. intros W i off k H. unfold leaf_end, cur_ltype, kend. rewrite H. reflexivity. Qed.
Definition adv_good (k : kind) (end_ off n : Z) : Prop := 0 < n /\ adv_to off end_ (off + n) = Z.min (kend k off) end_.
Lemma write_loop_h : forall dat beg k i end_, k <> TREE ->
  head_loop i end_ k (adv_good k end_) (fun off => write_head dat beg k i off end_) (fun f off => write_heads f dat beg k i off end_).
Proof.
  intros dat beg k i end_ Nk f off s H. cbv zeta. rewrite write_heads_S.
  destruct (has_head_io k (fi_ty2 (w_ino (s_w s) i)) off end_) eqn:Hh; [|reflexivity].
  apply has_head_iff in Hh; [|exact H|exact Nk]. destruct Hh as [L Ek]. rewrite (leaf_end_kind _ _ _ _ Ek).
  destruct (write_head dat beg k i off end_ s) as [s' [n|e|]]; [|reflexivity|exact I].
  intros [Hn Ha]. replace (n <=? 0) with false by lia. rewrite Ha. reflexivity.
Qed.
Lemma write_loop_t : forall dat beg i end_,
  leaf_loop i end_ (adv_good TREE end_) (fun p off => write_tree_leaf dat beg i p off end_) (fun f p off => write_leaves f dat beg i p off end_).
Proof.
  intros dat beg i end_ f p off s H Kd. rewrite write_leaves_S. destruct (off <? end_) eqn:L; [|reflexivity].
  destruct (write_tree_leaf dat beg i p off end_ s) as [s' [n|e|]]; [|reflexivity|exact I].
  intros [Hn Ha]. replace (n <=? 0) with false by lia. cbv zeta. rewrite Ha. reflexivity.
Qed.
Lemma write_loop_b : forall dat beg i end_,
  tree_loop i end_ (fun p off => write_leaves 1025 dat beg i p off end_) (fun f off => write_by_tree f dat beg i off end_).
Proof. intros dat beg i end_ f off s. apply write_by_tree_S. Qed.

Lemma max_end : FILE_SIZE_MAX < 2 ^ 56. Proof. reflexivity. Qed.
Lemma sl_write_data : forall dat W i off end_, Inv W -> 0 <= off <= end_ -> end_ <= FILE_SIZE_MAX ->
  specL W (write_data dat i off end_) (fun o W' => Upd i (wrv dat off) off end_ W W' /\ o = end_) (errL end_ (Part i (wrv dat off) end_) W off).
Proof.
  intros dat W i off end_ I H Hm. pose proof max_end as Me.
  pose proof (upd_rel i (wrv dat off) end_) as RR. unfold write_data.
  assert (St : forall k, k <> TREE -> forall W o, Inv W -> 0 <= o < end_ -> kind_of (fi_ty2 (w_ino W i)) o = k ->
     spec W (write_head dat off k i o end_) (fun n W' => adv_good k end_ o n /\ Upd i (wrv dat off) o (Z.min (leaf_end W i o) end_) W W')
          (EW (Part i (wrv dat off) end_ o o W))).
  { intros k Nk W0 o I0 Ho Ek. eapply sp_conseq; [apply (sp_write_head dat off k W0 i o end_ Nk I0 Ho Ek)| |intros e W' X; exact X].
    cbv beta. rewrite (leaf_end_kind _ _ _ _ Ek). intros n W' X. exact X. }
  apply (range_ok i end_ _ _ RR (fun o => o = end_) (fun o => write_heads 5 dat off HD1 i o end_) (fun o => write_heads 16 dat off HD2 i o end_)
           (fun o => write_by_tree (rounds_map o end_) dat off i o end_) W off I H).
  - intros W0 o I0 Ho. apply (heads_ok i end_ _ _ RR Z HD1 _ _ (fun f o => write_heads f dat off HD1 i o end_) ltac:(discriminate)
      (write_loop_h dat off HD1 i end_ ltac:(discriminate)) (St HD1 ltac:(discriminate)) 5%nat W0 o I0 Ho); [|discriminate].
    intros _ _. apply head_fuel_1. lia.
  - intros W0 o I0 Ho. apply (heads_ok i end_ _ _ RR Z HD2 _ _ (fun f o => write_heads f dat off HD2 i o end_) ltac:(discriminate)
      (write_loop_h dat off HD2 i end_ ltac:(discriminate)) (St HD2 ltac:(discriminate)) 16%nat W0 o I0 Ho); [|discriminate].
    intros _ Ek. apply (head_fuel_2 _ o ltac:(lia) Ek).
  - intros W0 o I0 Ho Ek. eapply sl_conseq.
    + apply (tree_ok i end_ _ _ RR _ _ ltac:(lia) (write_loop_b dat off i end_)); try assumption.
      * intros W1 o1 p I1 Ho1 Ek1 B1. apply (leaves_ok i end_ _ _ RR Z _ _ (fun f p o => write_leaves f dat off i p o end_) (write_loop_t dat off i end_)).
        -- intros W2 o2 p2 I2 Ho2 Ek2 B2. eapply sp_conseq; [apply (sp_write_tree_leaf dat off W2 i p2 o2 end_ I2 Ho2 Ek2 B2)| |intros e W' X; exact X].
           intros n W' X. exact X.
        -- exact I1.
        -- exact Ho1.
        -- exact Ek1.
        -- exact B1.
        -- apply leaves_fuel_0.
      * apply map_fuel_0.
    + cbv beta. intros o' W' [X ->]. split; [exact X|reflexivity].
    + intros o' e W' X. exact X.
Qed.

(* ---- the calls ---- *)

Lemma check_range_ok : forall off len, 0 <= len -> check_io_range off len = 0 -> 0 <= off <= FILE_SIZE_MAX /\ len <= FILE_SIZE_MAX.
Proof.
  intros off len H. unfold check_io_range, EINVAL, EFBIG, EOVERFLOW. destruct (off <? 0) eqn:A; [discriminate|]. destruct (FILE_SIZE_MAX <? off) eqn:B; [discriminate|].
  destruct (FILE_SIZE_MAX <? len) eqn:C; [discriminate|]. intros _. lia.
Qed.
Lemma sp_check : forall W e (E : Z -> world -> Prop), (e <> 0 -> E e W) -> spec W (check e) (fun _ W' => W' = W /\ e = 0) E.
Proof.
  intros W e E H. unfold check. destruct (e =? 0) eqn:X; [apply sp_ret; split; [reflexivity|lia]|apply sp_fail, H; lia].
Qed.
Lemma sp_do_read : forall W i off len, Inv W -> 0 <= len ->
  spec W (do_read i off len)
    (fun d W' => W' = W /\ 0 <= off /\ d = slice W i off (Z.min (off + len) (fi_size (w_ino W i)) - off)) (here W).
Proof.
  intros W i off len I H. unfold do_read. sp_ino.
  eapply sp_bind; [apply sp_check; intros N; apply here_ok; unfold check_io_range, EINVAL, EFBIG, EOVERFLOW, ENOENT in *;
    destruct (off <? 0); [lia|]; destruct (FILE_SIZE_MAX <? off); [lia|]; destruct (FILE_SIZE_MAX <? len); [lia|]; destruct (off + len <? off); lia|].
  cbv beta. intros [] W' [-> C1]. destruct (check_range_ok off len H C1) as [R1 R2].
  eapply sp_bind; [apply sp_check; intros N; apply here_ok; unfold EINVAL, ENOENT in *; destruct (IO_SIZE_MAX <? len); lia|].
  cbv beta. intros [] W' [-> C2].
  eapply sp_conseq; [apply (sp_read_data W i off _ I ltac:(lia))| |intros e W' X; exact X].
  intros d W' [-> ->]. split; [reflexivity|]. split; [lia|reflexivity].
Qed.

(* the size of a file is set *)
Record Mod (i lo hi : Z) (W W' : world) : Prop := mkMod {
  m_inv : Inv W';
  m_ino : forall j, j <> i -> w_ino W' j = w_ino W j;
  m_ty2 : fi_ty2 (w_ino W' i) = fi_ty2 (w_ino W i);
  m_oth : forall j off, j <> i -> 0 <= off -> content W' j off = content W j off;
  m_out : forall off, 0 <= off -> ~ (lo <= off < hi) -> content W' i off = content W i off;
  m_ref : refs1 W -> refs1 W' }.
Lemma mod_eff : forall i lo hi W W', Eff i lo hi W W' -> Mod i lo hi W W'.
Proof. intros i lo hi W W' [A B C D E F G H]. constructor; assumption. Qed.
Lemma set_size_same : forall W i sz sp, let W' := set_ino W i (fi_set_size (w_ino W i) sz sp) in Inv W ->
  Inv W' /\ (forall j off, content W' j off = content W j off) /\ (forall j, fi_ty2 (w_ino W' j) = fi_ty2 (w_ino W j)).
Proof.
  intros W i sz sp W' [T K].
  assert (Sl : forall j, fi_slot (w_ino W' j) = fi_slot (w_ino W j) /\ fi_ty2 (w_ino W' j) = fi_ty2 (w_ino W j) /\ fi_blocks (w_ino W' j) = fi_blocks (w_ino W j)).
  { intro j. unfold W'. cbn [set_ino w_ino]. unfold fset. destruct (j =? i) eqn:E; [|auto]. assert (j = i) by lia. subst j. auto. }
  assert (Sk : same_skel W W').
  { split; [intro a; change (w_node W' a) with (w_node W a); destruct (w_node W a); [apply same_node_refl|exact I]|].
    intro j. destruct (Sl j) as [-> _]. reflexivity. }
  assert (Hh : forall q, hold W' q = hold W q).
  { intros [j k|a s]; cbn [hold]; [|reflexivity]. destruct (Sl j) as (-> & -> & _). reflexivity. }
  split; [split|split].
  - apply (skel_tree_inv W W' T Sk). intros a n H. apply (ti_nact W T a n H).
  - apply (keys_inv_ext W W' K Hh); [intros q _; destruct q; reflexivity|reflexivity|]. intro j. apply Sl.
  - intros j off. unfold content. rewrite (skel_key W W' j off T Sk) by apply Sl.
    destruct (key_of W j off) as [q|]; [|reflexivity]. unfold kval. rewrite Hh. reflexivity.
  - intro j. apply Sl.
Qed.
Lemma mod_size : forall i lo hi W W' sz sp, Mod i lo hi W W' -> Mod i lo hi W (set_ino W' i (fi_set_size (w_ino W' i) sz sp)).
Proof.
  intros i lo hi W W' sz sp [A B C D E F]. destruct (set_size_same W' i sz sp A) as (I1 & C1 & T1).
  constructor.
  - exact I1.
  - intros j N. cbn [set_ino w_ino]. rewrite fset_other by exact N. apply B, N.
  - rewrite T1. exact C.
  - intros j off N H. rewrite C1. apply D; assumption.
  - intros off H N. rewrite C1. apply E; assumption.
  - intros R a n H. exact (F R a n H).
Qed.
Lemma size_val : forall W i sz sp, let W' := set_ino W i (fi_set_size (w_ino W i) sz sp) in
  fi_size (w_ino W' i) = sz /\ fi_span (w_ino W' i) = sp.
Proof. intros W i sz sp. cbn [set_ino w_ino]. rewrite fset_same. split; reflexivity. Qed.

Lemma sp_do_write : forall W i off dat, Inv W ->
  spec W (do_write i off dat)
    (fun _ W' => 0 <= off /\ off + zlen dat <= FILE_SIZE_MAX /\ Mod i off (off + zlen dat) W W' /\
                 (forall x, off <= x < off + zlen dat -> content W' i x = znth dat (x - off) 0) /\
                 fi_size (w_ino W' i) = Z.max (off + zlen dat) (fi_size (w_ino W i)) /\
                 fi_span (w_ino W' i) = Z.max (off + zlen dat) (fi_span (w_ino W i)))
    (fun e W' => e <> ENOENT /\ (W' = W \/
       exists o, 0 <= off <= o /\ o <= off + zlen dat <= FILE_SIZE_MAX /\ Mod i off (off + zlen dat) W W' /\
         (forall x, off <= x < o -> content W' i x = znth dat (x - off) 0) /\
         fi_size (w_ino W' i) = Z.max o (fi_size (w_ino W i)) /\ fi_span (w_ino W' i) = Z.max o (fi_span (w_ino W i)))).
Proof.
  intros W i off dat I. set (n := zlen dat). assert (Hn : 0 <= n) by apply zlen_nonneg. unfold do_write. fold n.
  eapply sp_bind; [apply sp_check; intros N; (split; [|left; reflexivity]); unfold check_io_range, EINVAL, EFBIG, EOVERFLOW, ENOENT in *;
    destruct (off <? 0); [lia|]; destruct (FILE_SIZE_MAX <? off); [lia|]; destruct (FILE_SIZE_MAX <? n); [lia|]; destruct (off + n <? off); lia|].
  cbv beta. intros [] W' [-> C1]. destruct (check_range_ok off n Hn C1) as [R1 R2].
  eapply sp_bind; [apply sp_check; intros N; (split; [|left; reflexivity]); unfold check_io_end, EINVAL, EFBIG, ENOENT in *;
    destruct (off + n <? 0); [lia|]; destruct (FILE_SIZE_MAX <? off + n); lia|].
  cbv beta. intros [] W' [-> C2].
  assert (R3 : off + n <= FILE_SIZE_MAX).
  { unfold check_io_end, EINVAL, EFBIG in C2. destruct (off + n <? 0) eqn:X; [discriminate|]. destruct (FILE_SIZE_MAX <? off + n) eqn:Y; [discriminate|]. lia. }
  eapply sp_bind; [apply sp_check; intros N; (split; [|left; reflexivity]); unfold EINVAL, ENOENT in *; destruct (IO_SIZE_MAX <? n); lia|].
  cbv beta. intros [] W' [-> C3].
  intros s Hs N. pose proof (sl_write_data dat W i off (off + n) I ltac:(lia) R3 s Hs N) as Sp.
  destruct (write_data dat i off (off + n) s) as [s' [o [[]|e|]]]; [| |contradiction].
  - destruct Sp as (N' & (E1 & V1) & ->). unfold grow_size, bind, the_ino, put_ino. cbn [fst].
    split; [exact N'|]. cbn [set_w s_w]. destruct (set_size_same (s_w s') i (Z.max (off + n) (fi_size (w_ino (s_w s') i))) (Z.max (off + n) (fi_span (w_ino (s_w s') i))) (e_inv _ _ _ _ _ E1)) as (_ & C & _).
    destruct (size_val (s_w s') i (Z.max (off + n) (fi_size (w_ino (s_w s') i))) (Z.max (off + n) (fi_span (w_ino (s_w s') i)))) as [Z1 Z2].
    split; [lia|]. split; [lia|]. split; [apply mod_size, mod_eff, E1|]. split; [intros x Hx; rewrite C; apply V1, Hx|].
    rewrite Z1, Z2, (e_size _ _ _ _ _ E1), (e_span _ _ _ _ _ E1). split; reflexivity.
  - destruct Sp as (N' & Ne & Ro & E1 & V1). unfold grow_size, bind, the_ino, put_ino. cbn [fst].
    split; [exact N'|]. split; [exact Ne|]. right. exists o. cbn [set_w s_w].
    destruct (set_size_same (s_w s') i (Z.max o (fi_size (w_ino (s_w s') i))) (Z.max o (fi_span (w_ino (s_w s') i))) (e_inv _ _ _ _ _ E1)) as (_ & C & _).
    destruct (size_val (s_w s') i (Z.max o (fi_size (w_ino (s_w s') i))) (Z.max o (fi_span (w_ino (s_w s') i)))) as [Z1 Z2].
    split; [lia|]. split; [lia|]. split; [apply mod_size, mod_eff, E1|]. split; [intros x Hx; rewrite C; apply V1, Hx|].
    rewrite Z1, Z2, (e_size _ _ _ _ _ E1), (e_span _ _ _ _ _ E1). split; reflexivity.
Qed.

(* ---- reserving ---- *)

Lemma reserve_heads_S : forall f k i off end_ s, reserve_heads (S f) k i off end_ s =
    let ty2 := fi_ty2 (w_ino (s_w s) i) in
    if has_head_io k ty2 off end_
    then match require_head k i off end_ s with
         | (s', Ok _) => reserve_heads f k i (adv_next ty2 off end_) end_ s'
         | (s', Err e) => (s', (off, Err e))
         | (s', Bad) => (s', (off, Bad))
         end
    else (s, (off, Ok tt)).
Proof. reflexivity. Qed.
Lemma reserve_leaves_S : forall f i parent off end_ s, reserve_leaves (S f) i parent off end_ s =
    if off <? end_
    then match require_tree_leaf i parent off end_ s with
         | (s', Ok _) =>
           let off' := adv_next (fi_ty2 (w_ino (s_w s) i)) off end_ in
           if at_boundary off' then (s', (off', Ok tt)) else reserve_leaves f i parent off' end_ s'
         | (s', Err e) => (s', (off, Err e))
         | (s', Bad) => (s', (off, Bad))
         end
    else (s, (off, Ok tt)).
Proof. reflexivity. Qed.
Lemma reserve_by_tree_S : forall f i off end_ s, reserve_by_tree (S f) i off end_ s =
    if off <? end_
    then match require_tree i off s with
         | (s1, Ok p) =>
           match reserve_leaves 1025 i p off end_ s1 with
           | (s2, (off', Ok _)) => reserve_by_tree f i off' end_ s2
           | r => r
           end
         | (s1, Err e) => (s1, (off, Err e))
         | (s1, Bad) => (s1, (off, Bad))
         end
    else (s, (off, Ok tt)).
Proof. reflexivity. Qed.
Lemma adv_next_kind : forall k ty2 off end_, 0 <= off < end_ -> kind_of ty2 off = k -> adv_next ty2 off end_ = Z.min (kend k off) end_.
Proof.
  intros k ty2 off end_ H Ek. unfold adv_next, adv_to, off_clamp, len_to_next, cur_ltype, kend. rewrite Ek.
  pose proof (kind_dsize k) as D. rewrite next_spec by (assumption || lia). destruct D as [D|[D|D]]; rewrite D; lia.
Qed.
Lemma reserve_loop_h : forall k i end_, k <> TREE ->
  head_loop i end_ k (fun _ (_ : flref) => True) (fun off => require_head k i off end_) (fun f off => reserve_heads f k i off end_).
Proof.
  intros k i end_ Nk f off s H. cbv zeta. rewrite reserve_heads_S. cbv zeta.
  destruct (has_head_io k (fi_ty2 (w_ino (s_w s) i)) off end_) eqn:Hh; [|reflexivity].
  apply has_head_iff in Hh; [|exact H|exact Nk]. destruct Hh as [L Ek]. rewrite (leaf_end_kind _ _ _ _ Ek).
  rewrite (adv_next_kind k) by (assumption || lia).
  destruct (require_head k i off end_ s) as [s' [n|e|]]; [|reflexivity|exact I]. intros _. reflexivity.
Qed.
Lemma reserve_loop_t : forall i end_,
  leaf_loop i end_ (fun _ (_ : flref) => True) (fun p off => require_tree_leaf i p off end_) (fun f p off => reserve_leaves f i p off end_).
Proof.
  intros i end_ f p off s H Kd. rewrite reserve_leaves_S. destruct (off <? end_) eqn:L; [|reflexivity].
  rewrite (adv_next_kind TREE) by (assumption || lia).
  destruct (require_tree_leaf i p off end_ s) as [s' [n|e|]]; [|reflexivity|exact I]. intros _. reflexivity.
Qed.
Lemma reserve_loop_b : forall i end_,
  tree_loop i end_ (fun p off => reserve_leaves 1025 i p off end_) (fun f off => reserve_by_tree f i off end_).
Proof. intros i end_ f off s. apply reserve_by_tree_S. Qed.
Lemma keff_eff0 : forall i q W W' off, Inv W -> 0 <= off -> key_of W i off = Some q -> KEff i q 0 0 W W' -> Eff i 0 0 W W'.
Proof.
  intros i q W W' off I H E A. pose proof (keff_eff i q 0 0 W W' off I H E A) as X.
  destruct X as [A1 B1 C1 D1 E1 F1 G1 H1]. constructor; try assumption. intros x Hx N. apply G1; [exact Hx|lia].
Qed.
Lemma sl_reserve : forall W i off end_, Inv W -> 0 <= off <= end_ -> end_ <= FILE_SIZE_MAX ->
  specL W (reserve i off end_) (fun _ W' => Eff i 0 0 W W') (fun _ => EW (Eff i 0 0 W)).
Proof.
  intros W i off end_ I H Hm. pose proof max_end as Me.
  pose proof (res_rel i end_) as RR. unfold reserve.
  assert (St : forall k, k <> TREE -> forall W o, Inv W -> 0 <= o < end_ -> kind_of (fi_ty2 (w_ino W i)) o = k ->
     spec W (require_head k i o end_) (fun n W' => True /\ Eff i 0 0 W W') (EW (Eff i 0 0 W))).
  { intros k Nk W0 o I0 Ho Ek. pose proof (key_of_head W0 i o k Ek Nk) as E.
    eapply sp_conseq; [apply (sp_require_head W0 i o end_ k I0 ltac:(lia) Ek Nk)| |].
    - intros n W' (K & _). split; [exact Logic.I|]. apply (keff_eff0 i (hkey i o k) W0 W' o); try assumption; lia.
    - intros e W' [Ne K]. split; [exact Ne|]. apply (keff_eff0 i (hkey i o k) W0 W' o); try assumption; lia. }
  apply sl_conseq with (Q := fun (_ : Z) W' => Eff i 0 0 W W' /\ True) (E := errL end_ (fun _ _ => Eff i 0 0) W off);
    [|intros o W' [X _]; exact X|intros o e W' (Ne & _ & X); split; assumption].
  apply (range_ok i end_ _ _ RR (fun _ => True) (fun o => reserve_heads 5 HD1 i o end_) (fun o => reserve_heads 16 HD2 i o end_)
           (fun o => reserve_by_tree (rounds_map o end_) i o end_) W off I H).
  - intros W0 o I0 Ho. apply (heads_ok i end_ _ _ RR _ HD1 _ _ (fun f o => reserve_heads f HD1 i o end_) ltac:(discriminate)
      (reserve_loop_h HD1 i end_ ltac:(discriminate)) (St HD1 ltac:(discriminate)) 5%nat W0 o I0 Ho); [|discriminate].
    intros _ _. apply head_fuel_1. lia.
  - intros W0 o I0 Ho. apply (heads_ok i end_ _ _ RR _ HD2 _ _ (fun f o => reserve_heads f HD2 i o end_) ltac:(discriminate)
      (reserve_loop_h HD2 i end_ ltac:(discriminate)) (St HD2 ltac:(discriminate)) 16%nat W0 o I0 Ho); [|discriminate].
    intros _ Ek. apply (head_fuel_2 _ o ltac:(lia) Ek).
  - intros W0 o I0 Ho Ek. eapply sl_conseq.
    + apply (tree_ok i end_ _ _ RR _ _ ltac:(lia) (reserve_loop_b i end_)); try assumption.
      * intros W1 o1 p I1 Ho1 Ek1 B1. apply (leaves_ok i end_ _ _ RR _ _ _ (fun f p o => reserve_leaves f i p o end_) (reserve_loop_t i end_)).
        -- intros W2 o2 p2 I2 Ho2 Ek2 B2. pose proof (key_of_tree W2 i o2 p2 Ek2 B2) as E2.
           eapply sp_conseq; [apply (sp_require_tree_leaf W2 i o2 end_ p2 I2 ltac:(lia) B2)| |].
           ++ intros n W' (K & _). split; [exact Logic.I|]. split; [apply K|]. apply (keff_eff0 i (KN p2 (leaf_slot o2)) W2 W' o2); try assumption; lia.
           ++ intros e W' [Ne K]. split; [exact Ne|]. apply (keff_eff0 i (KN p2 (leaf_slot o2)) W2 W' o2); try assumption; lia.
        -- exact I1.
        -- exact Ho1.
        -- exact Ek1.
        -- exact B1.
        -- apply leaves_fuel_0.
      * apply map_fuel_0.
    + cbv beta. intros o' W' [X ->]. split; [exact X|exact Logic.I].
    + intros o' e W' X. exact X.
Qed.
