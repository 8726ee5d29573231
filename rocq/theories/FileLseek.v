(* Triples for SEEK_DATA and SEEK_HOLE *)
From Verif Require Import Base AddrModel FileModel FileTree FileInv FileSpec FileLeaf FileRead FileGrow FileLoops FileOps FileSeek.

Lemma seek_heads_S : forall f hole k fi off end_, seek_heads (S f) hole k fi off end_ =
    if has_head_io k (fi_ty2 fi) off end_
    then let r := flref_setup (fi_ty2 fi) None (fi_slot fi (head_abs k (head_slot k off))) off end_ in
         if eqb hole (negb (has_data r)) then (off, Some r)
         else seek_heads f hole k fi (adv_next (fi_ty2 fi) off end_) end_
    else (off, None).
Proof. reflexivity. Qed.
Lemma heads_seek : forall W i end_ hole k, Inv W -> k <> TREE -> forall f off, 0 <= off <= end_ ->
  (off < end_ -> kind_of (fi_ty2 (w_ino W i)) off = k -> head_fuel f k off) -> (f <> 0)%nat ->
  match seek_heads f hole k (w_ino W i) off end_ with
  | (o, Some r) => found hole W i off end_ o r
  | (o, None) => off <= o <= end_ /\ (o < end_ -> kind_of (fi_ty2 (w_ino W i)) o <> k) /\ empty_to hole W i off o
  end.
Proof.
  intros W i end_ hole k I Nk. induction f as [|f IH]; intros off H Hf Nz; [congruence|].
  rewrite seek_heads_S. destruct (has_head_io k (fi_ty2 (w_ino W i)) off end_) eqn:Hh.
  2: { split; [lia|]. split; [|intros _ x Hx; lia]. intros L E. assert (has_head_io k (fi_ty2 (w_ino W i)) off end_ = true) by (apply has_head_iff; [lia|exact Nk|auto]). congruence. }
  apply has_head_iff in Hh; [|lia|exact Nk]. destruct Hh as [L Ek]. specialize (Hf L Ek).
  destruct (head_leaf W i off k ltac:(lia) Nk Ek) as (L1 & L2 & L3 & L4).
  destruct (hold_head W i off k ltac:(lia) Ek Nk) as (Hq & _). pose proof (key_of_head W i off k Ek Nk) as Kq.
  cbv zeta. assert (Rf : flref_setup (fi_ty2 (w_ino W i)) None (fi_slot (w_ino W i) (head_abs k (head_slot k off))) off end_ = ref_at W i off end_ (hkey i off k)) by (unfold ref_at; rewrite Hq; reflexivity).
  rewrite Rf. assert (Hd : has_data (ref_at W i off end_ (hkey i off k)) = match hold W (hkey i off k) with Some _ => true | None => false end) by reflexivity.
  rewrite Hd. destruct (eqb hole (negb (match hold W (hkey i off k) with Some _ => true | None => false end))) eqn:Q.
  - apply eqb_prop in Q. split; [lia|]. split; [|intros _ x Hx; lia]. exists (hkey i off k). split; [exact Kq|]. split; [reflexivity|].
    destruct (hold W (hkey i off k)); cbn [negb] in Q; split; intro; congruence.
  - apply eqb_false_iff in Q. rewrite (adv_next_kind k) by (assumption || lia). rewrite <- (leaf_end_kind W i off k Ek).
    set (o := Z.min (leaf_end W i off) end_).
    assert (Nf : (f <> 0)%nat).
    { intros ->. unfold head_fuel in Hf. destruct k; [| |congruence]; cbn [head_max kind_ltype] in *;
      [change (ltype_size LT_DATA1K) with 1024 in *|change (ltype_size LT_DATA4K) with 4096 in *]; lia. }
    assert (Hf2 : o < end_ -> kind_of (fi_ty2 (w_ino W i)) o = k -> head_fuel f k o).
    { intros Lo _. apply (head_fuel_step f k off); try assumption; [|lia]. replace o with (leaf_end W i off) by lia. exact L3. }
    assert (Em : empty_to hole W i off o).
    { intros Hf' x Hx. unfold nodata. assert (Kx : key_of W i x = Some (hkey i off k)).
      { apply (key_same W i off x (hkey i off k)); [apply I|lia|lia|exact Kq|].
        pose proof (key_leaf_end W i off (hkey i off k) ltac:(lia) Kq) as Le. destruct (size_cases (hkey i off k)) as [S|[S|S]]; rewrite S in *; lia. }
      rewrite Kx. destruct (hold W (hkey i off k)); [cbn [negb] in Q; congruence|reflexivity]. }
    specialize (IH o ltac:(lia) Hf2 Nf). destruct (seek_heads f hole k (w_ino W i) o end_) as [o2 [r|]].
    + destruct IH as (R & X & Y). split; [lia|]. split; [exact X|]. intros Hf' x Hx. destruct (Z_lt_dec x o); [apply (Em Hf'); lia|apply (Y Hf'); lia].
    + destruct IH as (R & X & Y). split; [lia|]. split; [exact X|]. intros Hf' x Hx. destruct (Z_lt_dec x o); [apply (Em Hf'); lia|apply (Y Hf'); lia].
Qed.
Lemma leaf_seek : forall W i end_ hole off, Inv W -> 0 <= off <= end_ ->
  spec2 W (seek_leaf hole i off end_) (fun o r => found hole W i off end_ o r) (fun o e => off <= o <= end_ /\ (e = ENOENT -> empty_to hole W i off end_)).
Proof.
  intros W i end_ hole off I H s Hs N. unfold seek_leaf. rewrite Hs.
  pose proof (heads_seek W i end_ hole HD1 I ltac:(discriminate) 5%nat off H) as A.
  specialize (A ltac:(intros _ _; apply head_fuel_1; lia) ltac:(discriminate)).
  destruct (seek_heads 5 hole HD1 (w_ino W i) off end_) as [o1 [r|]]; [split; [exact N|]; split; [exact Hs|exact A]|].
  destruct A as (R1 & K1 & E1).
  pose proof (heads_seek W i end_ hole HD2 I ltac:(discriminate) 16%nat o1 ltac:(lia)) as B.
  specialize (B ltac:(intros _ Ek; apply (head_fuel_2 _ o1 ltac:(lia) Ek)) ltac:(discriminate)).
  destruct (seek_heads 16 hole HD2 (w_ino W i) o1 end_) as [o2 [r|]].
  - split; [exact N|]. split; [exact Hs|]. destruct B as (R & X & Y). split; [lia|]. split; [exact X|].
    intros Hf x Hx. destruct (Z_lt_dec x o1); [apply (E1 Hf); lia|apply (Y Hf); lia].
  - destruct B as (R2 & K2 & E2). assert (E02 : empty_to hole W i off o2).
    { intros Hf x Hx. destruct (Z_lt_dec x o1); [apply (E1 Hf); lia|apply (E2 Hf); lia]. }
    assert (Kt : forall x, o2 <= x < end_ -> kind_of (fi_ty2 (w_ino W i)) x = TREE).
    { intros x Hx. apply (tree_kind_up _ o2); [lia|]. apply not_heads_tree; [apply (not_head1_up _ o1); [lia|apply K1; lia]|apply K2; lia]. }
    pose proof (tree_seek W i end_ o2 hole (proj1 I) ltac:(lia) Kt ltac:(lia) s Hs N) as C.
    destruct (seek_by_tree hole i o2 end_ s) as [s' [o [r|e|]]]; [| |contradiction].
    + destruct C as (N' & W' & R & X & Y). split; [exact N'|]. split; [exact W'|]. split; [lia|]. split; [exact X|].
      intros Hf x Hx. destruct (Z_lt_dec x o2); [apply (E02 Hf); lia|apply (Y Hf); lia].
    + destruct C as (N' & W' & R & X). split; [exact N'|]. split; [exact W'|]. split; [lia|].
      intros Ee Hf x Hx. destruct (Z_lt_dec x o2); [apply (E02 Hf); lia|apply (X Ee Hf); lia].
Qed.

(* the errors of a search: not found, a broken node, or a failure of storage *)
Definition err_from (s : st) (e : Z) : Prop := e = ENOENT \/ e = EFSCORR \/ In e (s_fail s).
Definition src2 (m : S2) : Prop := forall s, match m s with
  | (s', (_, Err e)) => incl (s_fail s') (s_fail s) /\ err_from s e
  | (s', _) => incl (s_fail s') (s_fail s) end.
Lemma err_incl : forall s s' e, incl (s_fail s') (s_fail s) -> err_from s' e -> err_from s e.
Proof. intros s s' e I [->|[->|H]]; [left; reflexivity|right; left; reflexivity|right; right; apply I, H]. Qed.
Lemma src_stage_node : forall i v s, match stage_node i v s with
  | (s', Err e) => incl (s_fail s') (s_fail s) /\ err_from s e
  | (s', _) => incl (s_fail s') (s_fail s) end.
Proof.
  intros i [[t a]|] s; [|split; [apply incl_refl|left; reflexivity]]. unfold stage_node, bind, may_fail.
  assert (K : forall s1, incl (s_fail s1) (s_fail s) -> match (n <- the_node a ;; if negb (n_ino n =? i) then fail EFSCORR else if (n_height n <? 2) || (16 <? n_height n) then fail EFSCORR else ret a) s1 with
    | (s', Err e) => incl (s_fail s') (s_fail s) /\ err_from s e | (s', _) => incl (s_fail s') (s_fail s) end).
  { intros s1 H. unfold bind, the_node. destruct (w_node (s_w s1) a) as [n|]; [|exact H].
    destruct (negb (n_ino n =? i)); [split; [exact H|right; left; reflexivity]|].
    destruct ((n_height n <? 2) || (16 <? n_height n)); [split; [exact H|right; left; reflexivity]|exact H]. }
  destruct (s_fail s) as [|e r] eqn:F; [apply K; rewrite F; apply incl_refl|].
  destruct (e =? 0) eqn:Z0; [apply K; cbn [s_fail]; apply incl_tl, incl_refl|].
  cbn [s_fail]. split; [apply incl_tl, incl_refl|]. right. right. rewrite F. left. reflexivity.
Qed.
Lemma src_slots : forall rec i n end_, (forall c off, src2 (rec c off)) -> forall f slot off, src2 (seek_slots f rec i n slot off end_).
Proof.
  intros rec i n end_ Rec. induction f as [|f IH]; intros slot off s; [split; [apply incl_refl|left; reflexivity]|].
  rewrite seek_slots_S. destruct (slot <? NODE_N); [|split; [apply incl_refl|left; reflexivity]].
  assert (Nx : forall s1 o, incl (s_fail s1) (s_fail s) -> match seek_slots f rec i n (slot + 1) o end_ s1 with
    | (s', (_, Err e)) => incl (s_fail s') (s_fail s) /\ err_from s e | (s', _) => incl (s_fail s') (s_fail s) end).
  { intros s1 o H. specialize (IH (slot + 1) o s1). destruct (seek_slots f rec i n (slot + 1) o end_ s1) as [s' [o' [r|e|]]].
    - apply (incl_tran IH H).
    - destruct IH as [A B]. split; [apply (incl_tran A H)|apply (err_incl s s1); assumption].
    - apply (incl_tran IH H). }
  destruct (child_at n slot) as [v|]; [|apply Nx, incl_refl].
  pose proof (src_stage_node i (Some v) s) as Sn. destruct (stage_node i (Some v) s) as [s1 [c|e|]].
  - pose proof (Rec c off s1) as Rc. destruct (rec c off s1) as [s2 [o2 [r|e|]]].
    + apply (incl_tran Rc Sn).
    + destruct Rc as [A B]. destruct (e =? ENOENT); [apply Nx, (incl_tran A Sn)|]. split; [apply (incl_tran A Sn)|apply (err_incl s s1); assumption].
    + apply (incl_tran Rc Sn).
  - destruct Sn as [A B]. destruct (e =? ENOENT); [apply Nx, A|]. split; assumption.
  - exact Sn.
Qed.
Lemma src_leaves : forall f hole ty2 a n slot off end_, match seek_leaves f hole ty2 a n slot off end_ with (_, Err e) => e = ENOENT | (_, _) => True end.
Proof.
  induction f as [|f IH]; intros hole ty2 a n slot off end_; [reflexivity|]. cbn [seek_leaves].
  destruct (slot <? NODE_N); [|reflexivity]. cbv zeta. destruct (_ <? end_); [|reflexivity]. destruct (eqb _ _); [exact I|apply IH].
Qed.
Lemma src_rec : forall hole i end_ d a off, src2 (seek_rec d hole i end_ a off).
Proof.
  intros hole i end_. induction d as [|d IH]; intros a off s; [apply incl_refl|].
  change (seek_rec (S d) hole i end_ a off s) with
    (match w_node (s_w s) a with
    | None => (s, (off, Bad))
    | Some n =>
      if negb (n_inrange n off) then (s, (off, Err ENOENT))
      else if negb (height_legal n) then (s, (off, Bad))
      else if n_height n <=? 2
           then (s, seek_leaves 1024 hole (fi_ty2 (w_ino (s_w s) i)) a n (slot_of n off) off end_)
           else seek_slots 1024 (seek_rec d hole i end_) i n (slot_of n off) off end_ s
    end).
  destruct (w_node (s_w s) a) as [n|]; [|apply incl_refl]. destruct (negb (n_inrange n off)); [split; [apply incl_refl|left; reflexivity]|].
  destruct (negb (height_legal n)); [apply incl_refl|]. destruct (n_height n <=? 2).
  - pose proof (src_leaves 1024 hole (fi_ty2 (w_ino (s_w s) i)) a n (slot_of n off) off end_) as X.
    destruct (seek_leaves 1024 hole (fi_ty2 (w_ino (s_w s) i)) a n (slot_of n off) off end_) as [o [r|e|]]; [apply incl_refl|split; [apply incl_refl|left; exact X]|apply incl_refl].
  - apply src_slots. apply IH.
Qed.
Lemma src_seek_leaf : forall hole i off end_, src2 (seek_leaf hole i off end_).
Proof.
  intros hole i off end_ s. unfold seek_leaf. destruct (seek_heads 5 hole HD1 (w_ino (s_w s) i) off end_) as [o [r|]]; [apply incl_refl|].
  destruct (seek_heads 16 hole HD2 (w_ino (s_w s) i) o end_) as [o' [r|]]; [apply incl_refl|].
  unfold seek_by_tree. destruct (negb (has_root (w_ino (s_w s) i))); [split; [apply incl_refl|left; reflexivity]|].
  unfold stage_root, bind, the_ino. pose proof (src_stage_node i (fi_slot (w_ino (s_w s) i) 0) s) as Sn.
  destruct (stage_node i (fi_slot (w_ino (s_w s) i) 0) s) as [s1 [r|e|]]; [|exact Sn|exact Sn].
  pose proof (src_rec hole i end_ 6 r o' s1) as Rc. destruct (seek_rec 6 hole i end_ r o' s1) as [s2 [o2 [x|e|]]].
  - apply (incl_tran Rc Sn).
  - destruct Rc as [A B]. split; [apply (incl_tran A Sn)|apply (err_incl s s1); assumption].
  - apply (incl_tran Rc Sn).
Qed.

(* the offset is in a leaf that is kept *)
Definition data_at (W : world) (i x : Z) : Prop := exists q, key_of W i x = Some q /\ hold W q <> None.
Lemma lseek_ok : forall W i off hole s, Inv W -> s_w s = W -> nof s ->
  match do_lseek hole i off s with
  | (s', Ok o) => nof s' /\ s_w s' = W /\ 0 <= off < fi_size (w_ino W i) /\ off <= o <= fi_size (w_ino W i) /\
       (if hole then o = fi_size (w_ino W i) \/ nodata W i o
        else o < fi_size (w_ino W i) /\ data_at W i o /\ forall x, off <= x < o -> nodata W i x)
  | (s', Err e) => nof s' /\ s_w s' = W /\
       (0 <= off < fi_size (w_ino W i) -> fi_size (w_ino W i) <= FILE_SIZE_MAX -> e = ENXIO -> ~ In ENXIO (s_fail s) ->
        hole = false /\ forall x, off <= x < fi_size (w_ino W i) -> nodata W i x)
  | (s', Bad) => False
  end.
Proof.
  intros W i off hole s I Hs N. unfold do_lseek. rewrite Hs. destruct (check_io_range off 0 =? 0) eqn:C; cbn [negb].
  2: { split; [exact N|]. split; [exact Hs|]. intros R M E. exfalso. unfold check_io_range, EINVAL, EFBIG, EOVERFLOW, ENXIO in *.
       destruct (off <? 0) eqn:X1; [lia|]. destruct (FILE_SIZE_MAX <? off) eqn:X2; [lia|]. destruct (FILE_SIZE_MAX <? 0) eqn:X3; [lia|]. destruct (off + 0 <? off) eqn:X4; lia. }
  destruct ((fi_size (w_ino W i) <=? off) || (off <? 0)) eqn:Z0; [split; [exact N|]; split; [exact Hs|]; lia|].
  pose proof (leaf_seek W i (fi_size (w_ino W i)) hole off I ltac:(lia) s Hs N) as Sk. pose proof (src_seek_leaf hole i off (fi_size (w_ino W i)) s) as Sr.
  destruct (seek_leaf hole i off (fi_size (w_ino W i)) s) as [s' [o [r|e|]]]; [| |contradiction].
  - destruct Sk as (N' & W' & R & (q & Kq & -> & Hh) & Em). split; [exact N'|]. split; [exact W'|]. split; [lia|].
    assert (Ec : off_clamp (fl_pos (ref_at W i o (fi_size (w_ino W i)) q)) o (fi_size (w_ino W i)) = o) by (unfold off_clamp, ref_at, flref_setup; cbn [fl_pos]; lia).
    rewrite Ec. split; [lia|]. destruct hole.
    + right. unfold nodata. rewrite Kq. apply Hh. reflexivity.
    + split; [lia|]. split; [|apply Em; reflexivity]. exists q. split; [exact Kq|]. intro X. apply Hh in X. discriminate.
  - destruct Sk as (N' & W' & R & Em). destruct (e =? ENOENT) eqn:X.
    + destruct hole.
      * split; [exact N'|]. split; [exact W'|]. split; [lia|]. split; [lia|]. left. reflexivity.
      * split; [exact N'|]. split; [exact W'|]. intros _ _ _ _. split; [reflexivity|]. apply Em; [lia|reflexivity].
    + split; [exact N'|]. split; [exact W'|]. intros _ _ -> Ni. exfalso. destruct Sr as [_ [Y|[Y|Y]]]; [lia|unfold ENXIO, EFSCORR in Y; lia|contradiction].
Qed.
