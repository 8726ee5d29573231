(* Positions in files and the mapping tree of FileModel.v: where an offset is kept. *)
From Verif Require Import Base AddrModel FileModel.

(* ---- heights and spans ---- *)

(* bytes under one child of a node of height h *)
Definition sub_of (h : Z) : Z := if h <=? 2 then 65536 else if h =? 3 then 67108864 else if h =? 4 then 68719476736 else 70368744177664.

Lemma span_eq : forall h, 2 <= h <= 5 -> span_by_height h = 1024 * sub_of h.
Proof.
  intros h H. assert (h = 2 \/ h = 3 \/ h = 4 \/ h = 5) as [->|[->|[->| ->]]] by lia; reflexivity.
Qed.
Lemma sub_step : forall h, 3 <= h <= 5 -> sub_of h = 1024 * sub_of (h - 1).
Proof. intros h H. assert (h = 3 \/ h = 4 \/ h = 5) as [->|[->| ->]] by lia; reflexivity. Qed.
Lemma sub_cases : forall h, 2 <= h <= 5 ->
  sub_of h = 65536 \/ sub_of h = 67108864 \/ sub_of h = 68719476736 \/ sub_of h = 70368744177664.
Proof. intros h H. assert (h = 2 \/ h = 3 \/ h = 4 \/ h = 5) as [->|[->|[->| ->]]] by lia; cbn; lia. Qed.
Lemma sub_pos : forall h, 2 <= h <= 5 -> 65536 <= sub_of h.
Proof. intros h H. destruct (sub_cases h H) as [E|[E|[E|E]]]; lia. Qed.
Lemma sub2 : sub_of 2 = 65536. Proof. reflexivity. Qed.

(* ---- shape of a node ---- *)

Record shape (n : ftn) : Prop := mkShape {
  sh_h : 2 <= n_height n <= 5;
  sh_beg : 0 <= n_beg n;
  sh_al : n_beg n mod span_by_height (n_height n) = 0;
  sh_end : n_end n = n_beg n + span_by_height (n_height n);
  sh_ct : n_ctype n = ctype_by_height (n_height n) }.

Lemma slot_arith : forall x m, 0 <= x -> 0 < m -> m mod 1024 = 0 ->
  Z.quot (Z.shiftr x 10 * 1024) (Z.shiftr (1024 * m) 10) = x / m.
Proof.
  intros x m Hx Hm Hd.
  rewrite !Z.shiftr_div_pow2 by lia. change (2 ^ 10) with 1024.
  replace (1024 * m / 1024) with m by (rewrite Z.mul_comm, Z.div_mul; lia).
  rewrite Z.quot_div_nonneg by lia.
  assert (Hk : m = 1024 * (m / 1024)) by (pose proof (Z.div_mod m 1024); lia).
  set (k := m / 1024) in *. assert (0 < k) by lia.
  rewrite Hk. rewrite <- (Z.div_div x 1024 k) by lia.
  rewrite (Z.mul_comm (x / 1024) 1024). rewrite Z.div_mul_cancel_l by lia. reflexivity.
Qed.
Lemma slot_spec : forall n off, shape n -> n_beg n <= off < n_end n ->
  slot_of n off = (off - n_beg n) / sub_of (n_height n).
Proof.
  intros n off H Hr. destruct H as [Hh Hb Ha He Hc].
  unfold slot_of, n_span, MAP_SHIFT, NODE_N. rewrite He, span_eq by exact Hh.
  replace (n_beg n + 1024 * sub_of (n_height n) - n_beg n) with (1024 * sub_of (n_height n)) by lia.
  apply slot_arith; [lia| |].
  - pose proof (sub_pos _ Hh). lia.
  - destruct (sub_cases _ Hh) as [E|[E|[E|E]]]; rewrite E; reflexivity.
Qed.
Lemma slot_range : forall n off, shape n -> n_beg n <= off < n_end n -> 0 <= slot_of n off < 1024.
Proof.
  intros n off H Hr. rewrite slot_spec by assumption. destruct H as [Hh Hb Ha He Hc].
  rewrite He, span_eq in Hr by exact Hh. pose proof (sub_pos _ Hh).
  split; [apply Z.div_pos; lia|apply Z.div_lt_upper_bound; lia].
Qed.
Lemma nbps_spec : forall n, shape n -> nbytes_per_slot n = sub_of (n_height n).
Proof.
  intros n H. destruct H as [Hh Hb Ha He Hc]. unfold nbytes_per_slot, n_span, NODE_N.
  rewrite He, span_eq by exact Hh. pose proof (sub_pos _ Hh).
  replace (n_beg n + 1024 * sub_of (n_height n) - n_beg n) with (1024 * sub_of (n_height n)) by lia.
  rewrite Z.quot_div_nonneg by lia. rewrite Z.mul_comm, Z.div_mul; lia.
Qed.
Lemma file_pos_spec : forall n s, shape n -> 0 <= s -> n_file_pos n s = n_beg n + s * sub_of (n_height n).
Proof.
  intros n s H Hs. unfold n_file_pos. rewrite nbps_spec by exact H.
  destruct H as [Hh Hb Ha He Hc]. pose proof (sub_pos _ Hh).
  unfold off_align, LBK_SIZE.
  assert (Hm : (n_beg n + s * sub_of (n_height n)) mod 65536 = 0).
  { rewrite span_eq in Ha by exact Hh.
    assert (Hd : (65536 | sub_of (n_height n))).
    { destruct (sub_cases _ Hh) as [E|[E|[E|E]]]; rewrite E; apply Z.mod_divide; try lia; reflexivity. }
    apply Z.mod_divide; [lia|]. apply Z.divide_add_r.
    - apply Z.mod_divide in Ha; [|lia]. eapply Z.divide_trans; [|exact Ha]. apply Z.divide_mul_r. exact Hd.
    - apply Z.divide_mul_r. exact Hd. }
  set (x := n_beg n + s * sub_of (n_height n)) in *.
  assert (0 <= x) by (subst x; nia). clearbody x.
  rewrite Z.quot_div_nonneg by lia. lia.
Qed.
(* all offsets of one child have its slot *)
Lemma slot_pos : forall n s off, shape n -> 0 <= s < 1024 ->
  n_beg n + s * sub_of (n_height n) <= off < n_beg n + (s + 1) * sub_of (n_height n) ->
  n_beg n <= off < n_end n /\ slot_of n off = s.
Proof.
  intros n s off H Hs Ho.
  assert (Hr : n_beg n <= off < n_end n).
  { destruct H as [Hh Hb Ha He Hc]. rewrite He, span_eq by exact Hh. pose proof (sub_pos _ Hh). nia. }
  split; [exact Hr|]. rewrite slot_spec by assumption.
  destruct H as [Hh Hb Ha He Hc]. pose proof (sub_pos _ Hh).
  symmetry. apply Z.div_unique with (r := off - n_beg n - s * sub_of (n_height n)); [left; lia|lia].
Qed.
Lemma slot_bounds : forall n off, shape n -> n_beg n <= off < n_end n ->
  n_beg n + slot_of n off * sub_of (n_height n) <= off < n_beg n + (slot_of n off + 1) * sub_of (n_height n).
Proof.
  intros n off H Hr. rewrite slot_spec by assumption.
  assert (Hp : 65536 <= sub_of (n_height n)) by (apply sub_pos, H).
  pose proof (Z.mul_div_le (off - n_beg n) (sub_of (n_height n)) ltac:(lia)).
  pose proof (Z.mul_succ_div_gt (off - n_beg n) (sub_of (n_height n)) ltac:(lia)). nia.
Qed.
(* a bottom node: the slot by leaf_slot (flref_setup) is the slot in the node *)
Lemma leaf_slot_spec : forall n off, shape n -> n_height n = 2 -> n_beg n <= off < n_end n -> leaf_slot off = slot_of n off.
Proof.
  intros n off H E Hr. rewrite slot_spec by assumption. rewrite E, sub2.
  destruct H as [Hh Hb Ha He Hc]. rewrite E in *. change (span_by_height 2) with 67108864 in *.
  unfold leaf_slot, TREE_LEAF, NODE_N. rewrite Z.quot_div_nonneg by lia.
  rewrite Z.rem_mod_nonneg by lia. lia.
Qed.

(* heights: the tree over an offset is high enough, and never higher than 5 for a legal offset *)
Lemma tree_height_spec : forall off, 0 <= off < 2 ^ 56 ->
  2 <= tree_height off <= 5 /\ off < span_by_height (tree_height off).
Proof.
  intros off H. change (2 ^ 56) with 72057594037927936 in H.
  unfold tree_height, TREE_LEAF, MAP_SHIFT.
  destruct (65536 <? off) eqn:E; [|cbn; lia].
  rewrite Z.quot_div_nonneg by lia. cbn [height_loop]. unfold MAP_SHIFT.
  rewrite !Z.shiftr_div_pow2 by lia. change (2 ^ 10) with 1024. rewrite !Z.div_div by lia.
  change (65536 * 1024) with 67108864. change (67108864 * 1024) with 68719476736.
  change (68719476736 * 1024) with 70368744177664.
  destruct (0 <? off / 67108864) eqn:E1; [|change (span_by_height 2) with 67108864; lia].
  destruct (0 <? off / 68719476736) eqn:E2; [|change (span_by_height (2 + 1)) with 68719476736; lia].
  destruct (0 <? off / 70368744177664) eqn:E3; [|change (span_by_height (2 + 1 + 1)) with 70368744177664; lia].
  change (70368744177664 * 1024) with 72057594037927936.
  destruct (0 <? off / 72057594037927936) eqn:E4; [lia|].
  change (span_by_height (2 + 1 + 1 + 1)) with 72057594037927936. lia.
Qed.

(* ---- walking down ---- *)

(* the bottom node over an offset *)
Fixpoint walk (d : nat) (W : world) (a off : Z) : option Z :=
  match d with
  | O => None
  | S d' =>
    match w_node W a with
    | None => None
    | Some n =>
      if n_inrange n off
      then if n_height n <=? 2 then Some a
           else match child_at n (slot_of n off) with Some (_, c) => walk d' W c off | None => None end
      else None
    end
  end.
Definition root_of (W : world) (i : Z) : option Z := match fi_slot (w_ino W i) 0 with Some (_, r) => Some r | None => None end.
Definition bottom (W : world) (i off : Z) : option Z :=
  match root_of W i with Some r => walk 5 W r off | None => None end.

(* number of children *)
Definition cnt_upto (n : nat) (f : Z -> Z) : Z := zlen (filter (fun k => 0 <=? f (Z.of_nat k)) (seq 0 n)).
Definition n1024 : nat := Z.to_nat 1024.
Definition cnt (f : Z -> Z) : Z := cnt_upto n1024 f.

Definition inner (W : world) (a : Z) (n : ftn) : Prop := w_node W a = Some n /\ 3 <= n_height n.
Record tree_inv (W : world) : Prop := mkTI {
  ti_shape : forall a n, w_node W a = Some n -> 0 <= a /\ shape n;
  ti_child : forall a n s, inner W a n -> 0 <= s < 1024 -> has_child n s = true ->
    exists m, w_node W (n_child n s) = Some m /\ n_ino m = n_ino n /\ n_height m = n_height n - 1 /\
              n_beg m = n_beg n + s * sub_of (n_height n);
  ti_inj : forall a n s a' n' s', inner W a n -> inner W a' n' -> 0 <= s < 1024 -> 0 <= s' < 1024 ->
    has_child n s = true -> n_child n s = n_child n' s' -> a = a' /\ s = s';
  ti_root : forall i t r, fi_slot (w_ino W i) 0 = Some (t, r) ->
    t = LT_FTNODE /\ exists n, w_node W r = Some n /\ n_ino n = i /\ n_beg n = 0;
  ti_free : forall i t r a n s, fi_slot (w_ino W i) 0 = Some (t, r) -> inner W a n -> 0 <= s < 1024 ->
    n_child n s <> r;
  ti_nact : forall a n, w_node W a = Some n -> n_nact n = cnt (n_child n) }.

Lemma inrange_iff : forall n off, n_inrange n off = true <-> n_beg n <= off < n_end n.
Proof. intros. unfold n_inrange, off_within. lia. Qed.
Lemma has_child_iff : forall n s, has_child n s = true <-> 0 <= n_child n s.
Proof. intros. unfold has_child, off_isnull. lia. Qed.
Lemma child_at_some : forall n s t c, child_at n s = Some (t, c) -> has_child n s = true /\ t = n_ctype n /\ c = n_child n s.
Proof. intros n s t c H. unfold child_at in H. destruct (has_child n s); [|discriminate]. split; [reflexivity|]. split; congruence. Qed.
Lemma child_at_none : forall n s, child_at n s = None -> has_child n s = false.
Proof. intros n s H. unfold child_at in H. destruct (has_child n s); [discriminate|reflexivity]. Qed.

(* ---- counting ---- *)

Lemma cnt_upto_S : forall n f, cnt_upto (S n) f = cnt_upto n f + (if 0 <=? f (Z.of_nat n) then 1 else 0).
Proof.
  intros. unfold cnt_upto. rewrite seq_S. rewrite filter_app, zlen_app. cbn [filter plus].
  destruct (0 <=? f (Z.of_nat n)); cbn; lia.
Qed.
Lemma cnt_upto_ext : forall n f g, (forall k, 0 <= k < Z.of_nat n -> (0 <=? f k) = (0 <=? g k)) -> cnt_upto n f = cnt_upto n g.
Proof.
  induction n as [|n IH]; intros f g H; [reflexivity|].
  rewrite !cnt_upto_S, (IH f g) by (intros; apply H; lia). rewrite (H (Z.of_nat n)) by lia. reflexivity.
Qed.
Lemma cnt_upto_nonneg : forall n f, 0 <= cnt_upto n f.
Proof. intros. apply zlen_nonneg. Qed.
Lemma cnt_upto_zero : forall n f, cnt_upto n f = 0 -> forall k, 0 <= k < Z.of_nat n -> f k < 0.
Proof.
  induction n as [|n IH]; intros f H k Hk; [lia|].
  rewrite cnt_upto_S in H. pose proof (cnt_upto_nonneg n f).
  destruct (0 <=? f (Z.of_nat n)) eqn:E; [lia|].
  destruct (Z.eq_dec k (Z.of_nat n)) as [->|N]; [lia|]. apply IH; lia.
Qed.
Lemma cnt_upto_null : forall n f, (forall k, 0 <= k < Z.of_nat n -> f k < 0) -> cnt_upto n f = 0.
Proof.
  induction n as [|n IH]; intros f H; [reflexivity|].
  rewrite cnt_upto_S, IH by (intros; apply H; lia).
  destruct (0 <=? f (Z.of_nat n)) eqn:E; [|lia]. specialize (H (Z.of_nat n)). lia.
Qed.
Lemma cnt_upto_fset : forall n f s v, 0 <= s < Z.of_nat n ->
  cnt_upto n (fset f s v) = cnt_upto n f + (if 0 <=? v then 1 else 0) - (if 0 <=? f s then 1 else 0).
Proof.
  induction n as [|n IH]; intros f s v H; [lia|].
  rewrite !cnt_upto_S. destruct (Z.eq_dec s (Z.of_nat n)) as [->|N].
  - rewrite fset_same. rewrite (cnt_upto_ext n (fset f (Z.of_nat n) v) f); [lia|].
    intros k Hk. rewrite fset_other by lia. reflexivity.
  - rewrite IH by lia. rewrite fset_other by lia. lia.
Qed.
Lemma of_nat_1024 : Z.of_nat n1024 = 1024. Proof. reflexivity. Qed.
Global Opaque n1024.
Lemma cnt_fset : forall f s v, 0 <= s < 1024 ->
  cnt (fset f s v) = cnt f + (if 0 <=? v then 1 else 0) - (if 0 <=? f s then 1 else 0).
Proof. intros f s v H. unfold cnt. apply cnt_upto_fset. rewrite of_nat_1024. exact H. Qed.
Lemma cnt_zero : forall f, cnt f = 0 -> forall k, 0 <= k < 1024 -> f k < 0.
Proof. intros f H k Hk. unfold cnt in H. apply (cnt_upto_zero _ f H k). rewrite of_nat_1024. exact Hk. Qed.
Lemma cnt_null : forall f, (forall k, 0 <= k < 1024 -> f k < 0) -> cnt f = 0.
Proof. intros f H. unfold cnt. apply cnt_upto_null. rewrite of_nat_1024. exact H. Qed.
Lemma cnt_ext : forall f g, (forall k, 0 <= k < 1024 -> f k = g k) -> cnt f = cnt g.
Proof. intros f g H. unfold cnt. apply cnt_upto_ext. rewrite of_nat_1024. intros k Hk. rewrite H; [reflexivity|exact Hk]. Qed.
Global Opaque cnt.

(* ---- what a walk finds ---- *)

Lemma walk_S : forall d W a off, walk (S d) W a off =
  match w_node W a with
  | None => None
  | Some n => if n_inrange n off
      then if n_height n <=? 2 then Some a
           else match child_at n (slot_of n off) with Some (_, c) => walk d W c off | None => None end
      else None
  end.
Proof. reflexivity. Qed.

Lemma walk_found : forall W, tree_inv W -> forall d a n off p, w_node W a = Some n -> walk d W a off = Some p ->
  exists m, w_node W p = Some m /\ n_ino m = n_ino n /\ n_height m = 2 /\ n_beg m <= off < n_end m.
Proof.
  intros W T. induction d as [|d IH]; intros a n off p Ha H; [discriminate|].
  rewrite walk_S, Ha in H. destruct (n_inrange n off) eqn:R; [|discriminate].
  destruct (ti_shape W T a n Ha) as [_ Sh]. pose proof (sh_h n Sh) as Hh.
  apply inrange_iff in R.
  destruct (n_height n <=? 2) eqn:B.
  - assert (p = a) by congruence. subst p. exists n. repeat split; try assumption; lia.
  - destruct (child_at n (slot_of n off)) as [[t c]|] eqn:C; [|discriminate].
    apply child_at_some in C. destruct C as (Hc & _ & ->).
    destruct (ti_child W T a n (slot_of n off)) as (m & Hm & Im & _ & _);
      [split; [exact Ha|lia]|apply slot_range; assumption|exact Hc|].
    destruct (IH _ m off p Hm H) as (q & Hq & Iq & R'). exists q. split; [exact Hq|]. split; [congruence|exact R'].
Qed.
Lemma bottom_found : forall W i off p, tree_inv W -> bottom W i off = Some p ->
  exists m, w_node W p = Some m /\ n_ino m = i /\ n_height m = 2 /\ n_beg m <= off < n_end m.
Proof.
  intros W i off p T H. unfold bottom, root_of in H.
  destruct (fi_slot (w_ino W i) 0) as [[t r]|] eqn:R; [|discriminate].
  destruct (ti_root W T i t r R) as (_ & n & Hn & In & _).
  destruct (walk_found W T 5 r n off p Hn H) as (m & Hm & Im & X). exists m. split; [exact Hm|]. split; [congruence|exact X].
Qed.

(* offsets in one stretch of 64M share the walk *)
Lemma slot_same : forall n off off', shape n -> n_beg n <= off < n_end n -> off / 67108864 = off' / 67108864 ->
  3 <= n_height n -> n_beg n <= off' < n_end n /\ slot_of n off' = slot_of n off.
Proof.
  intros n off off' Sh R E Hh.
  pose proof (slot_bounds n off Sh R) as B. pose proof (slot_range n off Sh R) as Q.
  apply slot_pos; [exact Sh|exact Q|].
  destruct Sh as [H1 Hb Ha He Hc]. set (s := slot_of n off) in *. clearbody s.
  assert (n_height n = 3 \/ n_height n = 4 \/ n_height n = 5) as [X|[X|X]] by lia; rewrite X in *; clear Q He Hc R.
  - change (span_by_height 3) with 68719476736 in Ha. change (sub_of 3) with 67108864 in *. lia.
  - change (span_by_height 4) with 70368744177664 in Ha. change (sub_of 4) with 68719476736 in *. lia.
  - change (span_by_height 5) with 72057594037927936 in Ha. change (sub_of 5) with 70368744177664 in *. lia.
Qed.
Lemma bottom_range : forall n off off', shape n -> n_height n = 2 -> n_beg n <= off < n_end n ->
  off / 67108864 = off' / 67108864 -> n_beg n <= off' < n_end n.
Proof.
  intros n off off' Sh H2 R E. destruct Sh as [H1 Hb Ha He Hc]. rewrite H2 in *.
  change (span_by_height 2) with 67108864 in *. lia.
Qed.
Lemma walk_same : forall W off off', tree_inv W -> off / 67108864 = off' / 67108864 ->
  forall d a, walk d W a off = walk d W a off'.
Proof.
  intros W off off' T E. induction d as [|d IH]; intro a; [reflexivity|].
  rewrite !walk_S. destruct (w_node W a) as [n|] eqn:Ha; [|reflexivity].
  destruct (ti_shape W T a n Ha) as [_ Sh].
  destruct (n_inrange n off) eqn:R.
  - apply inrange_iff in R. destruct (n_height n <=? 2) eqn:B.
    + pose proof (sh_h n Sh).
      assert (R' : n_inrange n off' = true) by (apply inrange_iff; apply (bottom_range n off); try assumption; lia).
      rewrite R'. reflexivity.
    + destruct (slot_same n off off' Sh R E ltac:(lia)) as [R' S'].
      apply inrange_iff in R'. rewrite R', S'. destruct (child_at n (slot_of n off)) as [[t c]|]; [apply IH|reflexivity].
  - destruct (n_inrange n off') eqn:R'; [|reflexivity]. exfalso.
    apply inrange_iff in R'.
    assert (X : n_inrange n off = true).
    { apply inrange_iff. pose proof (sh_h n Sh). destruct (Z.eq_dec (n_height n) 2) as [H2|N].
      - apply (bottom_range n off'); try assumption; lia.
      - apply (slot_same n off' off Sh R' (eq_sym E)). lia. }
    congruence.
Qed.
Lemma bottom_same : forall W i off off', tree_inv W -> off / 67108864 = off' / 67108864 -> bottom W i off = bottom W i off'.
Proof. intros. unfold bottom. destruct (root_of W i); [|reflexivity]. apply walk_same; assumption. Qed.
